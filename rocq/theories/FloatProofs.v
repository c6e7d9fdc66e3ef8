From Verif Require Import Prelude Bytes IntegerModel IntegerProofs FloatModel CodecSpec TimestampProofs.

Lemma bits_of_length n v : length (bits_of n v) = n.
Proof. induction n; cbn; auto. Qed.
Lemma of_bits_app l1 l2 : of_bits (l1 ++ l2) = of_bits l1 * 2 ^ Z.of_nat (length l2) + of_bits l2.
Proof.
  unfold of_bits. rewrite fold_left_app. generalize (fold_left (fun acc (b : bool) => 2 * acc + Z.b2z b) l1 0) as x.
  induction l2 as [|b l2 IH] using rev_ind; intros x.
  - cbn. lia.
  - rewrite !fold_left_app. cbn [fold_left]. rewrite IH, app_length. cbn [length].
    rewrite Nat2Z.inj_add. change (Z.of_nat 1) with 1. rewrite Z.pow_add_r by lia. change (2 ^ 1) with 2. ring.
Qed.
Lemma of_bits_bits_of n v : of_bits (bits_of n v) = v mod 2 ^ Z.of_nat n.
Proof.
  induction n as [|n IH].
  - cbn. symmetry. apply Z.mod_1_r.
  - cbn [bits_of]. change (?x :: ?l) with ([x] ++ l). rewrite of_bits_app, bits_of_length, IH.
    unfold of_bits. cbn [fold_left]. rewrite Nat2Z.inj_succ, Z.pow_succ_r by lia.
    rewrite Z.testbit_spec' by lia.
    set (P := 2 ^ Z.of_nat n). assert (0 < P) by (apply Z.pow_pos_nonneg; lia).
    rewrite (Z.mul_comm 2 P). rewrite Z.rem_mul_r by lia. ring.
Qed.
Lemma bits_of_of_bits l : bits_of (length l) (of_bits l) = l.
Proof.
  assert (G : forall l q, bits_of (length l) (of_bits l + q * 2 ^ Z.of_nat (length l)) = l).
  { clear l. induction l as [|b l IH]; intros q; auto. cbn [length bits_of].
    assert (Hb : of_bits [b] = Z.b2z b) by (unfold of_bits; cbn; destruct b; reflexivity).
    assert (Ho : of_bits (b :: l) = Z.b2z b * 2 ^ Z.of_nat (length l) + of_bits l).
    { change (b :: l) with ([b] ++ l). rewrite of_bits_app, Hb. reflexivity. }
    rewrite Ho.
    assert (HP : 0 < 2 ^ Z.of_nat (length l)) by (apply Z.pow_pos_nonneg; lia).
    assert (HR : 0 <= of_bits l < 2 ^ Z.of_nat (length l)).
    { pose proof (of_bits_bits_of (length l) (of_bits l)) as HH. 
      clear -HP. induction l as [|b l IHl]; [cbn; lia|]. change (b :: l) with ([b] ++ l). rewrite of_bits_app.
      rewrite app_length. cbn [length]. replace (Z.of_nat (1 + length l)) with (1 + Z.of_nat (length l)) by lia. rewrite Z.pow_add_r by lia.
      assert (0 < 2 ^ Z.of_nat (length l)) by (apply Z.pow_pos_nonneg; lia). specialize (IHl H).
      assert (of_bits [b] = Z.b2z b) by (unfold of_bits; cbn; destruct b; reflexivity). rewrite H0. change (2^1) with 2. destruct b; cbn [Z.b2z]; lia. }
    f_equal.
    - rewrite Z.testbit_eqb by lia. 
      assert (E : (Z.b2z b * 2 ^ Z.of_nat (length l) + of_bits l + q * 2 ^ Z.of_nat (S (length l))) / 2 ^ Z.of_nat (length l) = Z.b2z b + 2 * q).
      { rewrite Nat2Z.inj_succ, Z.pow_succ_r by lia. set (P := 2 ^ Z.of_nat (length l)) in *.
        replace (Z.b2z b * P + of_bits l + q * (2 * P)) with (of_bits l + (Z.b2z b + 2 * q) * P) by ring.
        rewrite Z.div_add, Z.div_small by lia. lia. }
      rewrite E. rewrite (Z.mul_comm 2), Z.mod_add by lia. destruct b; reflexivity.
    - rewrite Nat2Z.inj_succ, Z.pow_succ_r by lia.
      replace (Z.b2z b * 2 ^ Z.of_nat (length l) + of_bits l + q * (2 * 2 ^ Z.of_nat (length l))) with (of_bits l + (Z.b2z b + 2 * q) * 2 ^ Z.of_nat (length l)) by ring.
      apply IH. }
  rewrite <- (G l 0) at 3. f_equal. lia.
Qed.

Lemma unpack_pack fuel l : (length l <= fuel)%nat -> exists pad, unpack_bits (pack_bits fuel l) = l ++ pad.
Proof.
  revert l. induction fuel as [|f IH]; intros l H.
  - destruct l; [|cbn in H; lia]. exists []. reflexivity.
  - destruct l as [|b l]; [exists []; reflexivity|]. set (L := b :: l) in *.
    assert (HL : (1 <= length L)%nat) by (cbn; lia).
    change (pack_bits (S f) L) with (of_bits (firstn 8 (L ++ repeat false 8)) :: pack_bits f (skipn 8 L)).
    unfold unpack_bits. cbn [flat_map]. fold (unpack_bits (pack_bits f (skipn 8 L))).
    destruct (IH (skipn 8 L)) as [pad E]; [rewrite skipn_length; lia|]. rewrite E.
    assert (H8 : length (firstn 8 (L ++ repeat false 8)) = 8%nat) by (rewrite firstn_length, app_length, repeat_length; lia).
    pose proof (bits_of_of_bits (firstn 8 (L ++ repeat false 8))) as HB. rewrite H8 in HB. rewrite HB.
    destruct (Nat.le_gt_cases 8 (length L)).
    + rewrite firstn_app. replace (8 - length L)%nat with 0%nat by lia. rewrite firstn_O, app_nil_r.
      exists pad. rewrite app_assoc. rewrite firstn_skipn. reflexivity.
    + rewrite firstn_app, firstn_all2 by lia. rewrite (skipn_all2 L) by lia. exists (firstn (8 - length L) (repeat false 8) ++ pad).
      rewrite <- app_assoc. reflexivity.
Qed.

Lemma read_bits_app n v rest : read_bits n (bits_of n v ++ rest) = Some (v mod 2 ^ Z.of_nat n, rest).
Proof.
  unfold read_bits. rewrite app_length, bits_of_length. destruct (n + length rest <? n)%nat eqn:E; [apply Nat.ltb_lt in E; lia|].
  rewrite firstn_app, skipn_app, bits_of_length, Nat.sub_diag. 
  rewrite firstn_all2 by (rewrite bits_of_length; lia). rewrite skipn_all2 by (rewrite bits_of_length; lia).
  cbn [firstn skipn]. rewrite app_nil_r. rewrite of_bits_bits_of. reflexivity.
Qed.

Lemma ctz_spec fuel v : 0 < v -> v mod 2 ^ Z.of_nat (ctz fuel v) = 0 /\ 2 ^ Z.of_nat (ctz fuel v) <= v.
Proof.
  revert v. induction fuel as [|f IH]; intros v Hv; cbn [ctz].
  - split; [apply Z.mod_1_r|]. change (2 ^ Z.of_nat 0) with 1. lia.
  - destruct (Z.odd v) eqn:E.
    + split; [apply Z.mod_1_r|]. change (2 ^ Z.of_nat 0) with 1. lia.
    + assert (E2 : v mod 2 = 0) by (rewrite Zmod_odd, E; reflexivity).
      destruct (IH (v / 2)) as [H1 H2]; [lia|]. rewrite Nat2Z.inj_succ, Z.pow_succ_r by lia.
      set (P := 2 ^ Z.of_nat (ctz f (v / 2))) in *. assert (HP : 0 < P) by (apply Z.pow_pos_nonneg; lia).
      split; [|lia]. rewrite Z.rem_mul_r by lia. rewrite H1, E2. lia.
Qed.
Lemma delta_facts d : 0 < d < 2 ^ 64 ->
  let lead := Z.land (leading_zeros d) 31 in let tr := trailing_zeros d in
  0 <= lead <= 31 /\ d < 2 ^ (64 - lead) /\ 0 <= tr /\ d mod 2 ^ tr = 0 /\ 1 <= 64 - lead - tr <= 64.
Proof.
  intros Hd lead tr.
  assert (HL : 0 <= Z.log2 d <= 63).
  { split; [apply Z.log2_nonneg|]. assert (Z.log2 d < 64) by (apply Z.log2_lt_pow2; lia). lia. }
  assert (Hlead : lead = (63 - Z.log2 d) mod 32).
  { unfold lead, leading_zeros. change 31 with (2 ^ 5 - 1). rewrite land_mask by lia. reflexivity. }
  assert (H1 : 0 <= lead <= 31) by lia.
  assert (H2 : d < 2 ^ (64 - lead)).
  { pose proof (Z.log2_spec d ltac:(lia)) as [_ HS]. eapply Z.lt_le_trans; [exact HS|]. apply Z.pow_le_mono_r; lia. }
  destruct (ctz_spec 64 d ltac:(lia)) as [H3 H4].
  assert (H5 : 0 <= tr) by (unfold tr, trailing_zeros; lia).
  assert (H6 : tr <= Z.log2 d). { apply Z.log2_le_pow2; try lia. exact H4. }
  repeat split; auto; lia.
Qed.

Lemma window_restore d pl pt : 0 <= d < 2 ^ (64 - pl) -> 0 <= pt -> d mod 2 ^ pt = 0 -> 0 <= 64 - pl - pt -> 0 <= pl ->
  wrap_u64 (Z.shiftl (Z.shiftr d pt mod 2 ^ Z.of_nat (Z.to_nat (64 - pl - pt))) pt) = d.
Proof.
  intros Hd Hpt Hm Hl Hpl. rewrite Z.shiftr_div_pow2 by lia. rewrite Z2Nat.id by lia.
  assert (HP : 0 < 2 ^ pt) by (apply Z.pow_pos_nonneg; lia).
  rewrite Z.mod_small.
  - rewrite Z.shiftl_mul_pow2 by lia. assert (E : d / 2 ^ pt * 2 ^ pt = d).
    { rewrite (Z.div_mod d (2 ^ pt)) at 2 by lia. lia. }
    rewrite E. apply wrap_u64_id. unfold is_u64, U64_MAX. assert (2 ^ (64 - pl) <= 2 ^ 64) by (apply Z.pow_le_mono_r; lia). lia.
  - split; [apply Z.div_pos; lia|]. apply Z.div_lt_upper_bound; [lia|]. rewrite <- Z.pow_add_r by lia.
    replace (pt + (64 - pl - pt)) with (64 - pl) by lia. lia.
Qed.

Lemma lxor_u64 a b : is_u64 a -> is_u64 b -> 0 <= Z.lxor a b < 2 ^ 64.
Proof.
  unfold is_u64, U64_MAX. intros Ha Hb. assert (H0 : 0 <= Z.lxor a b) by (apply Z.lxor_nonneg; lia). split; auto.
  destruct (Z.eq_dec (Z.lxor a b) 0) as [->|Hn]; [reflexivity|].
  apply Z.log2_lt_pow2; [lia|].
  pose proof (Z.log2_lxor a b ltac:(lia) ltac:(lia)).
  assert (G : forall c, 0 <= c <= 2 ^ 64 - 1 -> Z.log2 c < 64).
  { intros c Hc. destruct (Z.eq_dec c 0); [subst; reflexivity|]. apply Z.log2_lt_pow2; lia. }
  pose proof (G a Ha). pose proof (G b Hb). lia.
Qed.

(** What the decoder carries agrees with the encoder's window. *)
Definition win_ok (win : option (Z * Z)) (tn mn : Z) : Prop :=
  match win with
  | None => True
  | Some (pl, pt) => tn = pt /\ mn = 64 - pl - pt /\ 0 <= pl <= 31 /\ 0 <= pt /\ 1 <= 64 - pl - pt <= 64
  end.

Lemma mask_small tr : 0 <= tr < 64 -> Z.land tr 63 = tr.
Proof. intros. change 63 with (2 ^ 6 - 1). rewrite land_mask by lia. change (2^6) with 64. lia. Qed.

Lemma gorilla_read_spec l : forall prev win tn mn fuel pad, is_u64 prev -> Forall is_u64 l ->
  Forall (fun x => x <> SENTINEL) l -> (l <> [] \/ prev <> SENTINEL) -> win_ok win tn mn ->
  (length (gorilla_bits prev win (l ++ [SENTINEL])) < fuel)%nat ->
  gorilla_read fuel (gorilla_bits prev win (l ++ [SENTINEL]) ++ pad) prev tn mn = Ok l.
Proof.
  assert (HS : is_u64 SENTINEL) by (unfold is_u64, U64_MAX, SENTINEL; lia).
  (* one encoded value: what the reader does with its bits *)
  assert (STEP : forall cur prev win tn mn fuel l0 pad, is_u64 prev -> is_u64 cur -> win_ok win tn mn -> cur <> prev ->
     (length (gorilla_bits prev win (cur :: l0)) < S fuel)%nat ->
     exists tn' mn' win', win_ok win' tn' mn' /\ (length (gorilla_bits cur win' l0) < fuel)%nat /\
       gorilla_read (S fuel) (gorilla_bits prev win (cur :: l0) ++ pad) prev tn mn =
       if cur =? SENTINEL then Ok [] else
       rbind (gorilla_read fuel (gorilla_bits cur win' l0 ++ pad) cur tn' mn') (fun r => Ok (cur :: r))).
  { intros cur prev win tn mn fuel l0 pad Hp Hc Hw Hne Hf.
    pose proof (lxor_u64 cur prev Hc Hp) as Hd.
    assert (Hx : forall d, d = Z.lxor cur prev -> Z.lxor prev d = cur).
    { intros d ->. rewrite Z.lxor_comm, Z.lxor_assoc, Z.lxor_nilpotent, Z.lxor_0_r. reflexivity. }
    cbn [gorilla_bits] in *. set (d := Z.lxor cur prev) in *.
    destruct (d =? 0) eqn:E0.
    { exfalso. apply Hne. apply Z.lxor_eq_0_iff. unfold d in E0. lia. }
    assert (Hd' : 0 < d < 2 ^ 64) by lia.
    destruct (delta_facts d Hd') as (HL&HL2&HT&HT2&HSig). cbn zeta in *.
    set (lead := Z.land (leading_zeros d) 31) in *. set (tr := trailing_zeros d) in *.
    set (fresh := true :: true :: _) in *.
    assert (FRESH : (length fresh < S fuel)%nat -> exists tn' mn' win', win_ok win' tn' mn' /\ (length (gorilla_bits cur win' l0) < fuel)%nat /\
       gorilla_read (S fuel) (fresh ++ pad) prev tn mn =
       if cur =? SENTINEL then Ok [] else
       rbind (gorilla_read fuel (gorilla_bits cur win' l0 ++ pad) cur tn' mn') (fun r => Ok (cur :: r))).
    { intros HF. exists tr, (64 - lead - tr), (Some (lead, tr)). split; [cbn; lia|]. split.
      { unfold fresh in HF. cbn [length] in HF. rewrite !app_length in HF. lia. }
      unfold fresh. cbn [app]. 
      set (tailbits := gorilla_bits cur (Some (lead, tr)) l0 ++ pad).
      assert (HR : read_bits 11 ((bits_of 5 lead ++ bits_of 6 (64 - lead - tr) ++ bits_of (Z.to_nat (64 - lead - tr)) (Z.shiftr d tr) ++ gorilla_bits cur (Some (lead, tr)) l0) ++ pad)
                 = Some (lead * 64 + (64 - lead - tr) mod 64, bits_of (Z.to_nat (64 - lead - tr)) (Z.shiftr d tr) ++ tailbits)).
      { unfold read_bits. rewrite !app_length, !bits_of_length.
        destruct (_ <? 11)%nat eqn:E; [apply Nat.ltb_lt in E; lia|].
        rewrite <- !app_assoc. fold tailbits.
        assert (H11 : length (bits_of 5 lead ++ bits_of 6 (64 - lead - tr)) = 11%nat) by (rewrite app_length, !bits_of_length; auto).
        rewrite (app_assoc (bits_of 5 lead)).
        rewrite firstn_app, skipn_app, H11, Nat.sub_diag. rewrite firstn_all2, skipn_all2 by lia. cbn [firstn skipn app]. rewrite app_nil_r.
        rewrite of_bits_app, !of_bits_bits_of, bits_of_length. change (2 ^ Z.of_nat 5) with 32. change (2 ^ Z.of_nat 6) with 64.
        rewrite (Z.mod_small lead) by lia. reflexivity. }
      cbn [gorilla_read]. rewrite HR.
      assert (Hlm1 : Z.land (Z.shiftr (lead * 64 + (64 - lead - tr) mod 64) 6) 31 = lead).
      { change 31 with (2 ^ 5 - 1). rewrite land_mask, Z.shiftr_div_pow2 by lia. change (2 ^ 6) with 64. change (2 ^ 5) with 32. lia. }
      assert (Hlm2 : Z.land (lead * 64 + (64 - lead - tr) mod 64) 63 = (64 - lead - tr) mod 64).
      { change 63 with (2 ^ 6 - 1). rewrite land_mask by lia. change (2 ^ 6) with 64. lia. }
      cbv zeta. rewrite Hlm1, Hlm2.
      assert (Hcase : (if (64 - lead - tr) mod 64 >? 0
                       then ((64 - lead - (64 - lead - tr) mod 64) mod 256, (64 - lead - tr) mod 64, bits_of (Z.to_nat (64 - lead - tr)) (Z.shiftr d tr) ++ tailbits)
                       else (0, 64, bits_of (Z.to_nat (64 - lead - tr)) (Z.shiftr d tr) ++ tailbits))
                    = (tr, 64 - lead - tr, bits_of (Z.to_nat (64 - lead - tr)) (Z.shiftr d tr) ++ tailbits)).
      { destruct (_ >? 0) eqn:EG; f_equal; f_equal; lia. }
      rewrite Hcase. rewrite read_bits_app. rewrite mask_small by lia.
      rewrite window_restore by lia. rewrite (Hx d eq_refl). fold tailbits. destruct (cur =? SENTINEL); reflexivity. }
    destruct win as [[pl pt]|]; [|apply FRESH; exact Hf].
    destruct ((lead >=? pl) && (tr >=? pt))%bool eqn:EW; [|apply FRESH; exact Hf].
    apply andb_true_iff in EW as [EW1 EW2].
    destruct Hw as (Htn&Hmn&Hpl&Hpt&Hlen).
    exists tn, mn, (Some (pl, pt)). split; [cbn; auto|]. split.
    { cbn [length] in Hf. rewrite app_length in Hf. lia. }
    cbn [app gorilla_read]. rewrite Hmn. rewrite <- app_assoc, read_bits_app.
    rewrite Htn, mask_small by lia.
    rewrite window_restore.
    - rewrite (Hx d eq_refl). destruct (cur =? SENTINEL); reflexivity.
    - split; [lia|]. eapply Z.lt_le_trans; [apply HL2|]. apply Z.pow_le_mono_r; lia.
    - lia.
    - apply Z.mod_divide; [apply Z.pow_nonzero; lia|]. apply Z.mod_divide in HT2; [|apply Z.pow_nonzero; lia].
      destruct HT2 as [q Hq]. exists (q * 2 ^ (tr - pt)). rewrite Hq. rewrite <- Z.mul_assoc, <- Z.pow_add_r by lia. f_equal. f_equal. lia.
    - lia.
    - lia. }
  induction l as [|cur l IH]; intros prev win tn mn fuel pad Hp Fu Fn Hlast Hw Hf.
  - destruct fuel as [|fuel]; [lia|]. cbn [app] in *. destruct Hlast as [?|Hlast]; [congruence|].
    destruct (STEP SENTINEL prev win tn mn fuel [] pad Hp HS Hw (not_eq_sym Hlast) Hf) as (tn'&mn'&win'&_&_&->).
    rewrite Z.eqb_refl. reflexivity.
  - destruct fuel as [|fuel]; [lia|]. inversion Fu as [|? ? Hcu Fu']; inversion Fn as [|? ? Hcn Fn']; subst.
    destruct (Z.eq_dec cur prev) as [->|Hne].
    + cbn [app gorilla_bits] in *. rewrite Z.lxor_nilpotent in *. change (0 =? 0) with true in *. cbv iota in *. cbn [app length] in *.
      cbn [gorilla_read].
      rewrite IH; auto; try lia.
    + cbn [app] in *. destruct (STEP cur prev win tn mn fuel (l ++ [SENTINEL]) pad Hp Hcu Hw Hne Hf) as (tn'&mn'&win'&Hw'&Hf'&->).
      destruct (cur =? SENTINEL) eqn:ES; [lia|]. rewrite IH; auto.
Qed.

Lemma fill_slots_spec {A} (col : list (option A)) : fill_slots (valid_bits col) (non_nulls col) = Ok col.
Proof.
  induction col as [|[v|] col IH]; cbn [valid_bits map fill_slots non_nulls]; auto; fold (valid_bits col); rewrite IH; reflexivity.
Qed.

Lemma f64_encode_ok src : (exists b, f64_encode src = Ok b) <-> ~ In SENTINEL (tl src).
Proof.
  destruct src as [|x0 rest]; cbn [f64_encode tl].
  - split; [intros _ []|eauto].
  - destruct (existsb (fun x => x =? SENTINEL) rest) eqn:E.
    + split; [intros [b Hb]; discriminate|]. intros H. exfalso. apply H. apply existsb_exists in E as (x&Hx&Hs). replace SENTINEL with x by lia. auto.
    + split; [|eauto]. intros _ H. assert (existsb (fun x => x =? SENTINEL) rest = true); [|congruence].
      apply existsb_exists. exists SENTINEL. split; [auto|apply Z.eqb_refl].
Qed.

Lemma f64_roundtrip col bytes : column_of is_u64 col -> non_nulls col <> [SENTINEL] ->
  f64_encode (non_nulls col) = Ok bytes -> f64_decode bytes (valid_bits col) = Ok col.
Proof.
  intros HC HN HE. destruct (non_nulls col) as [|x0 rest] eqn:E.
  - inversion HE; subst. cbn [f64_decode]. f_equal. symmetry. apply no_values; auto.
  - cbn [f64_encode] in HE. destruct (existsb (fun x => x =? SENTINEL) rest) eqn:EX; [discriminate|].
    inversion HE; subst bytes; clear HE. cbn [f64_decode].
    pose proof (column_of_non_nulls _ _ HC) as F. rewrite E in F. inversion F; subst.
    change (be_bytes 8 x0 ++ ?l) with (be_bytes 8 x0 ++ l).
    assert (HT := take_u64_be x0 (pack_bits (length (gorilla_bits x0 None (rest ++ [SENTINEL]))) (gorilla_bits x0 None (rest ++ [SENTINEL]))) H1).
    unfold be_bytes in HT. cbn [app] in HT |- *. rewrite HT.
    set (bits := gorilla_bits x0 None (rest ++ [SENTINEL])) in *.
    destruct (unpack_pack (length bits) bits (le_n _)) as [pad EP]. rewrite EP.
    unfold bits. rewrite gorilla_read_spec; auto.
    + cbn [rbind]. rewrite <- E. apply fill_slots_spec.
    + apply Forall_forall. intros x Hx Hs. subst.
      assert (existsb (fun x => x =? SENTINEL) rest = true); [|congruence].
      apply existsb_exists. exists SENTINEL. split; [auto|apply Z.eqb_refl].
    + destruct rest; [right|left; discriminate]. intros ->. apply HN. reflexivity.
    + cbn. auto.
    + rewrite app_length. fold bits. lia.
Qed.

Lemma f64_null_roundtrip col : column_of is_u64 col ->
  f64_null_decode (f64_null_encode (non_nulls col)) (valid_bits col) = Ok col.
Proof.
  intros HC.
  assert (G : forall col, column_of is_u64 col -> f64_null_loop (valid_bits col) (flat_map (be_bytes 8) (non_nulls col)) = Ok col).
  { clear. induction col as [|[v|] col IH]; intros HC; cbn [valid_bits map f64_null_loop non_nulls flat_map] in *; auto; fold (valid_bits col).
    - rewrite take_u64_be by (eapply column_head; eauto). rewrite IH by eauto with col. cbn [rbind].
      destruct (be_bytes_cons8 v) as (a&b&c&d&e&f&g&h&->). reflexivity.
    - rewrite IH by eauto with col. reflexivity. }
  specialize (G col HC). unfold f64_null_decode, f64_null_encode.
  destruct (non_nulls col) as [|x r] eqn:E; auto.
  f_equal. symmetry. apply no_values; auto.
Qed.
