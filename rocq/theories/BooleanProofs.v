From Verif Require Import Prelude Bytes BitBuf BooleanModel CodecSpec.

Lemma getbit_upd_bit dst n v : (n / 8 < length dst)%nat ->
  let mask := Z.shiftr 128 (Z.of_nat (n mod 8)) in
  let b := nth (n / 8) dst 0 in
  forall i, getbit (upd dst (n / 8) (if v : bool then Z.lor b mask else Z.ldiff b mask)) i =
            if (i =? n)%nat then v else getbit dst i.
Proof.
  intros Hl mask b i. unfold getbit.
  destruct (Nat.eq_dec (i / 8) (n / 8)) as [E|E].
  - rewrite E, nth_upd_eq by auto. unfold mask. rewrite shr128 by (apply Nat.mod_upper_bound; lia).
    pose proof (Nat.mod_upper_bound i 8 ltac:(lia)). pose proof (Nat.mod_upper_bound n 8 ltac:(lia)).
    assert (Hp : Z.testbit (2 ^ (7 - Z.of_nat (n mod 8))) (7 - Z.of_nat (i mod 8)) = (i =? n)%nat).
    { rewrite Z.pow2_bits_eqb by lia.
      pose proof (Nat.div_mod i 8 ltac:(lia)) as Di. pose proof (Nat.div_mod n 8 ltac:(lia)) as Dn. rewrite E in Di.
      clear E. revert Di Dn H H0. generalize (i mod 8)%nat as a, (n mod 8)%nat as c, (n / 8)%nat as q. intros. 
      destruct (i =? n)%nat eqn:X; [apply Z.eqb_eq|apply Z.eqb_neq]; lia. }
    destruct v.
    + rewrite Z.lor_spec, Hp. destruct (i =? n)%nat; [apply orb_true_r|apply orb_false_r].
    + rewrite Z.ldiff_spec, Hp. destruct (i =? n)%nat; cbn [negb]; [apply andb_false_r|apply andb_true_r].
  - rewrite nth_upd_ne by auto. destruct (i =? n)%nat eqn:X; auto. apply Nat.eqb_eq in X. congruence.
Qed.

(** Positions are relative to the first byte of [dst]; the encoder's [n] counts from byte 1. *)
Lemma bool_loop_spec src : forall dst n, (n + 8 + length src <= 8 * length dst)%nat ->
  exists dst', bool_loop src dst n = Ok (dst', n + length src)%nat /\ length dst' = length dst /\
    (forall i, (i < n + 8)%nat -> getbit dst' i = getbit dst i) /\
    (forall k, (k < length src)%nat -> getbit dst' (n + 8 + k) = nth k src false).
Proof.
  induction src as [|v src IH]; intros dst n H; cbn [bool_loop length] in *.
  - exists dst. split; [rewrite Nat.add_0_r; auto|]. split; auto. split; auto. intros; lia.
  - assert (Hi : (n / 8 + 1 = (n + 8) / 8)%nat) by (replace (n + 8)%nat with (n + 1 * 8)%nat by lia; rewrite Nat.div_add by lia; auto).
    assert (Hm : (n mod 8 = (n + 8) mod 8)%nat) by (replace (n + 8)%nat with (n + 1 * 8)%nat by lia; rewrite Nat.mod_add by lia; auto).
    rewrite Hi, Hm.
    assert (Hl : ((n + 8) / 8 < length dst)%nat) by (apply Nat.div_lt_upper_bound; lia).
    rewrite (nth_error_nth_some _ _ 0 Hl).
    destruct (IH (upd dst ((n + 8) / 8) (if v then Z.lor (nth ((n + 8) / 8) dst 0) (Z.shiftr 128 (Z.of_nat ((n + 8) mod 8))) else Z.ldiff (nth ((n + 8) / 8) dst 0) (Z.shiftr 128 (Z.of_nat ((n + 8) mod 8))))) (n + 1)%nat) as (dst'&E&L&P1&P2).
    { rewrite upd_length. lia. }
    exists dst'. rewrite E. split; [f_equal; f_equal; lia|]. rewrite upd_length in L. split; auto.
    split.
    + intros i Hi'. rewrite P1 by lia. rewrite getbit_upd_bit by auto. destruct (i =? n + 8)%nat eqn:X; auto. apply Nat.eqb_eq in X; lia.
    + intros [|k] Hk.
      * rewrite P1 by lia. rewrite getbit_upd_bit by auto. rewrite Nat.add_0_r, Nat.eqb_refl. reflexivity.
      * cbn [nth]. rewrite <- P2 by lia. f_equal. lia.
Qed.

Lemma bool_decode_loop_spec col : forall src bi count,
  (length (non_nulls col) + bi <= count)%nat ->
  (count <= 8 * length src)%nat ->
  (forall k, (k < length (non_nulls col))%nat -> getbit src (bi + k) = nth k (non_nulls col) false) ->
  bool_decode_loop (valid_bits col) src count bi = Ok col.
Proof.
  induction col as [|[v|] col IH]; intros src bi count Hc Hs Hg; cbn [valid_bits map bool_decode_loop non_nulls length] in *; auto; fold (valid_bits col).
  - destruct (count <=? bi)%nat eqn:E; [apply Nat.leb_le in E; lia|].
    assert (Hl : (bi / 8 < length src)%nat) by (apply Nat.div_lt_upper_bound; lia).
    rewrite (nth_error_nth_some _ _ 0 Hl).
    rewrite bit_test by (pose proof (Nat.mod_upper_bound bi 8 ltac:(lia)); lia).
    rewrite (IH src (bi + 1)%nat count); try lia.
    + cbn [rbind]. f_equal. f_equal. f_equal.
      specialize (Hg 0%nat ltac:(lia)). rewrite Nat.add_0_r in Hg. exact Hg.
    + intros k Hk. specialize (Hg (S k) ltac:(lia)). cbn [nth] in Hg. rewrite <- Hg. f_equal. lia.
  - rewrite (IH src bi count); auto.
Qed.

Lemma bool_loop_low src : forall dst n dst' n', bool_loop src dst n = Ok (dst', n') ->
  forall j, (j < (n + 8) / 8)%nat -> nth j dst' 0 = nth j dst 0.
Proof.
  induction src as [|v src IH]; intros dst n dst' n' H j Hj; cbn [bool_loop] in H.
  - inversion H; subst; auto.
  - destruct (nth_error dst (n / 8 + 1)) as [b|]; [|discriminate].
    assert (Hi : (n / 8 + 1 = (n + 8) / 8)%nat) by (replace (n + 8)%nat with (n + 1 * 8)%nat by lia; rewrite Nat.div_add by lia; auto).
    rewrite (IH _ _ _ _ H).
    + rewrite nth_upd_ne; auto. lia.
    + assert ((n + 8) / 8 <= (n + 1 + 8) / 8)%nat by (apply Nat.div_le_mono; lia). lia.
Qed.
Lemma firstn_nth_eq (l l' : list Z) k : length l = length l' -> (forall j, (j < k)%nat -> nth j l' 0 = nth j l 0) -> firstn k l' = firstn k l.
Proof.
  revert l l'. induction k as [|k IH]; intros l l' HL H; auto.
  destruct l as [|a l], l' as [|a' l']; cbn [length] in HL; try lia; auto. cbn [firstn]. f_equal.
  - apply (H 0%nat). lia.
  - apply IH; [lia|]. intros j Hj. apply (H (S j)). lia.
Qed.
Lemma varint_enc_fuel_length f n : (length (varint_enc_fuel f n) <= f)%nat.
Proof. revert n. induction f; intros n; cbn [varint_enc_fuel]; auto. destruct (n >=? 128); cbn [length]; [specialize (IHf (n / 128)); lia|lia]. Qed.
Lemma varint_len_small n : 0 <= n < 2 ^ 56 -> (length (varint_enc n) <= 8)%nat.
Proof.
  intros H. unfold varint_enc.
  assert (G : forall k f n, 0 <= n < 2 ^ (7 * Z.of_nat k) -> (1 <= k)%nat -> (length (varint_enc_fuel f n) <= k)%nat).
  { induction k as [|k IH]; intros f m Hm Hk; [lia|]. destruct f; cbn [varint_enc_fuel]; [cbn; lia|].
    destruct (m >=? 128) eqn:E; cbn [length]; [|lia].
    destruct k. { change (2 ^ (7 * Z.of_nat 1)) with 128 in Hm. lia. }
    apply le_n_S. apply IH; [|lia].
    assert (H7 : 2 ^ (7 * Z.of_nat (S (S k))) = 128 * 2 ^ (7 * Z.of_nat (S k))).
    { rewrite (Nat2Z.inj_succ (S k)). replace (7 * Z.succ (Z.of_nat (S k))) with (7 + 7 * Z.of_nat (S k)) by lia.
      rewrite Z.pow_add_r by lia. reflexivity. }
    lia. }
  apply (G 8%nat); [|lia]. exact H.
Qed.

Lemma bool_encode_cons src : src <> [] -> bool_encode src =
      let size := (1 + 8 + (length src + 7) / 8)%nat in
      let vlen := varint_enc (Z.of_nat (length src)) in
      if (size - 1 <? length vlen)%nat then Panic
      else
        let dst := ENC_BITPACK :: 16 :: vlen ++ repeat 0 (size - 1 - length vlen) in
        rbind (bool_loop src dst (8 + length vlen * 8)) (fun '(dst, n) =>
          let len := if (0 <? n mod 8)%nat then (n / 8 + 1)%nat else (n / 8)%nat in
          Ok (firstn (len + 1) dst)).
Proof. destruct src; [congruence|reflexivity]. Qed.
Lemma bool_roundtrip col : Z.of_nat (length col) < 2 ^ 56 ->
  exists bytes, bool_encode (non_nulls col) = Ok bytes /\ bool_decode bytes (valid_bits col) = Ok col.
Proof.
  intros HL. 
  assert (HLn : (length (non_nulls col) <= length col)%nat).
  { clear. induction col as [|[v|] col IH]; cbn [non_nulls length]; lia. }
  destruct (non_nulls col) as [|x rest] eqn:E.
  - exists []. split; auto. cbn [bool_decode]. f_equal. symmetry. apply no_values; auto.
  - rewrite <- E in *. rewrite bool_encode_cons by congruence. cbv zeta.
    set (src := non_nulls col) in *. set (vl := varint_enc (Z.of_nat (length src))).
    assert (Hvl : (length vl <= 8)%nat) by (apply varint_len_small; lia).
    destruct (1 + 8 + (length src + 7) / 8 - 1 <? length vl)%nat eqn:EB; [apply Nat.ltb_lt in EB; lia|].
    set (dst := ENC_BITPACK :: 16 :: vl ++ repeat 0 (1 + 8 + (length src + 7) / 8 - 1 - length vl)).
    pose proof (Nat.div_mod (length src + 7) 8 ltac:(lia)) as DM. pose proof (Nat.mod_upper_bound (length src + 7) 8 ltac:(lia)) as MU.
    assert (Hdl : (length dst = 10 + (length src + 7) / 8)%nat).
    { unfold dst. cbn [length]. rewrite app_length, repeat_length. lia. }
    destruct (bool_loop_spec src dst (8 + length vl * 8)) as (dst'&EL&Ld&_&HB); [lia|].
    rewrite EL. cbn [rbind].
    pose proof (bool_loop_low _ _ _ _ _ EL) as Hlow.
    replace ((8 + length vl * 8 + 8) / 8)%nat with (2 + length vl)%nat in Hlow
      by (replace (8 + length vl * 8 + 8)%nat with ((2 + length vl) * 8)%nat by lia; rewrite Nat.div_mul; lia).
    apply firstn_nth_eq in Hlow; [|auto].
    set (n := (8 + length vl * 8 + length src)%nat) in *.
    set (len := if (0 <? n mod 8)%nat then (n / 8 + 1)%nat else (n / 8)%nat).
    assert (Hlen : (n <= 8 * len)%nat).
    { pose proof (Nat.div_mod n 8 ltac:(lia)). pose proof (Nat.mod_upper_bound n 8 ltac:(lia)). unfold len.
      destruct (0 <? n mod 8)%nat eqn:EE; [lia|apply Nat.ltb_ge in EE; lia]. }
    assert (Hle2 : (len + 1 <= length dst')%nat).
    { rewrite Ld, Hdl. assert (len = (n + 7) / 8)%nat.
      { pose proof (Nat.div_mod n 8 ltac:(lia)) as D1. pose proof (Nat.mod_upper_bound n 8 ltac:(lia)) as M1. unfold len.
        destruct (0 <? n mod 8)%nat eqn:EE.
        - apply Nat.ltb_lt in EE. apply (Nat.div_unique (n + 7) 8 (n / 8 + 1) (n mod 8 - 1)); lia.
        - apply Nat.ltb_ge in EE. apply (Nat.div_unique (n + 7) 8 (n / 8) 7); lia. }
      rewrite H. unfold n.
      replace (8 + length vl * 8 + length src + 7)%nat with ((length src + 7) + (1 + length vl) * 8)%nat by lia.
      rewrite Nat.div_add by lia. lia. }
    eexists. split; [reflexivity|].
    assert (Hfd : firstn (2 + length vl) dst = ENC_BITPACK :: 16 :: vl).
    { unfold dst. cbn [firstn Nat.add]. rewrite firstn_app, Nat.sub_diag, firstn_all, firstn_O, app_nil_r. reflexivity. }
    set (tl := skipn (2 + length vl) (firstn (len + 1) dst')).
    assert (Hdst : firstn (len + 1) dst' = ENC_BITPACK :: 16 :: vl ++ tl).
    { rewrite <- (firstn_skipn (2 + length vl) (firstn (len + 1) dst')). rewrite firstn_firstn.
      replace (Nat.min (2 + length vl) (len + 1)) with (2 + length vl)%nat by lia.
      rewrite Hlow, Hfd. reflexivity. }
    rewrite Hdst. cbn [bool_decode]. change (negb (16 =? 16)) with false. cbv iota.
    unfold vl at 1.     rewrite varint_roundtrip by (unfold is_u64, U64_MAX; assert (2 ^ 56 < 2 ^ 64) by reflexivity; lia). fold vl.
    rewrite skipn_app, skipn_all, Nat.sub_diag. cbn [app skipn].
    rewrite Nat2Z.id.
    assert (Htl : length tl = (len - 1 - length vl)%nat).
    { unfold tl. rewrite skipn_length, firstn_length. lia. }
    apply bool_decode_loop_spec.
    + fold src. lia.
    + fold src. rewrite Htl. unfold n in Hlen. lia.
    + fold src. intros k Hk. rewrite Nat.add_0_l. rewrite <- HB by auto.
      assert (G : getbit (firstn (len + 1) dst') (8 + length vl * 8 + 8 + k) = getbit tl k).
      { rewrite Hdst. change (ENC_BITPACK :: 16 :: vl ++ tl) with ((ENC_BITPACK :: 16 :: vl) ++ tl).
        replace (8 + length vl * 8 + 8 + k)%nat with (8 * length ((ENC_BITPACK :: 16 :: vl)%Z) + k)%nat by (cbn [length]; lia).
        apply getbit_skip. }
      rewrite <- G. apply getbit_firstn. unfold n in Hlen. lia.
Qed.

Lemma bool_null_roundtrip col : bool_null_decode (bool_null_encode (non_nulls col)) (valid_bits col) = col.
Proof.
  unfold bool_null_encode. cbn [bool_null_decode].
  induction col as [|[v|] col IH]; cbn [non_nulls valid_bits map bool_null_loop]; auto; fold (valid_bits col).
  - rewrite IH. destruct v; reflexivity.
  - rewrite IH. reflexivity.
Qed.
