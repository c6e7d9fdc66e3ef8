From Verif Require Import Prelude Bytes Simple8bModel.

Fixpoint packl (bits : Z) (vs : list Z) : Z :=
  match vs with [] => 0 | v :: vs' => v + 2 ^ bits * packl bits vs' end.

Lemma packl_bound bits vs : 0 <= bits -> Forall (fun v => 0 <= v < 2 ^ bits) vs ->
  0 <= packl bits vs < 2 ^ (bits * Z.of_nat (length vs)).
Proof.
  intros Hb. induction 1 as [|v vs Hv F IH]; cbn [packl length].
  - rewrite Z.mul_0_r. lia.
  - rewrite Nat2Z.inj_succ. replace (bits * Z.succ (Z.of_nat (length vs))) with (bits + bits * Z.of_nat (length vs)) by lia.
    rewrite Z.pow_add_r by lia. set (P := 2 ^ bits) in *. set (Q := 2 ^ (bits * Z.of_nat (length vs))) in *.
    assert (P * packl bits vs <= P * (Q - 1)) by (apply Z.mul_le_mono_nonneg_l; lia). nia.
Qed.

Lemma pack_loop_none_iff bits k vs val : pack_loop bits k vs val = None <-> Exists (fun v => v >= 2 ^ bits) vs.
Proof.
  revert k val. induction vs as [|v vs IH]; intros k val; cbn [pack_loop].
  - split; [discriminate|intros H; inversion H].
  - destruct (v >=? 2 ^ bits) eqn:E.
    + split; auto. intros _. left. lia.
    + rewrite IH. split; intros H; [right; auto|]. inversion H; subst; auto. lia.
Qed.

Lemma pack_loop_val bits vs : 0 <= bits -> Forall (fun v => 0 <= v) vs -> forall k val w top,
  0 <= k -> bits * (k + Z.of_nat (length vs)) <= 60 ->
  val = Z.lor (Z.shiftl top 60) (val mod 2 ^ (bits * k)) -> 0 <= top ->
  pack_loop bits k vs val = Some w ->
  Forall (fun v => 0 <= v < 2 ^ bits) vs /\
  w = Z.shiftl top 60 + (val mod 2 ^ (bits * k)) + 2 ^ (bits * k) * packl bits vs.
Proof.
  intros Hb. induction 1 as [|v vs Hv F IH]; intros k val w top Hk Hlen Hval Htop; cbn [pack_loop packl length].
  - intros E; inversion E; subst w. split; auto. rewrite Z.mul_0_r, Z.add_0_r.
    rewrite Hval at 1. rewrite Z.lor_comm, lor_add; [rewrite Z.shiftl_mul_pow2 by lia; ring|lia|].
    pose proof (Z.mod_pos_bound val (2 ^ (bits * k)) ltac:(apply Z.pow_pos_nonneg; lia)).
    assert (2 ^ (bits * k) <= 2 ^ 60) by (apply Z.pow_le_mono_r; cbn [length] in *; lia). lia.
  - destruct (v >=? 2 ^ bits) eqn:E; [discriminate|]. intros HP.
    cbn [length] in Hlen. rewrite Nat2Z.inj_succ in Hlen.
    assert (HPk : 0 < 2 ^ (bits * k)) by (apply Z.pow_pos_nonneg; lia).
    pose proof (Z.mod_pos_bound val _ HPk) as Hm.
    assert (Hsplit : 2 ^ (bits * (k + 1)) = 2 ^ bits * 2 ^ (bits * k)).
    { replace (bits * (k + 1)) with (bits + bits * k) by lia. apply Z.pow_add_r; lia. }
    assert (Hle60 : 2 ^ (bits * (k + 1)) <= 2 ^ 60) by (apply Z.pow_le_mono_r; lia).
    assert (Hv64 : wrap_u64 (Z.shiftl v (k * bits)) = Z.shiftl v (bits * k)).
    { rewrite (Z.mul_comm k bits). apply wrap_u64_id. rewrite Z.shiftl_mul_pow2 by lia. unfold is_u64, U64_MAX.
      assert (2 ^ 60 < 2 ^ 64) by reflexivity. nia. }
    rewrite Hv64 in HP.
    set (m := val mod 2 ^ (bits * k)) in *.
    assert (Hm' : m + v * 2 ^ (bits * k) < 2 ^ (bits * (k + 1))).
    { rewrite Hsplit. assert (v * 2 ^ (bits * k) <= (2 ^ bits - 1) * 2 ^ (bits * k)) by (apply Z.mul_le_mono_nonneg_r; lia). lia. }
    assert (Hnew : Z.lor val (Z.shiftl v (bits * k)) = Z.lor (Z.shiftl top 60) (m + v * 2 ^ (bits * k))).
    { rewrite Hval. rewrite <- Z.lor_assoc. rewrite (lor_add m) by lia. reflexivity. }
    assert (Hmod : Z.lor val (Z.shiftl v (bits * k)) mod 2 ^ (bits * (k + 1)) = m + v * 2 ^ (bits * k)).
    { rewrite Hnew, Z.lor_comm, lor_add by nia.
      replace (2 ^ 60) with (2 ^ (60 - bits * (k+1)) * 2 ^ (bits * (k + 1))) by (rewrite <- Z.pow_add_r by lia; f_equal; lia).
      rewrite Z.mul_assoc, Z.mod_add by lia. apply Z.mod_small. nia. }
    destruct (IH (k + 1) _ w top ltac:(lia) ltac:(lia) ltac:(rewrite Hmod; exact Hnew) Htop HP) as [F2 Ew].
    split; [constructor; auto; lia|].
    rewrite Ew, Hmod, Hsplit. ring.
Qed.

Lemma unpack_packl bits vs : 0 <= bits -> Forall (fun v => 0 <= v < 2 ^ bits) vs -> forall n hi,
  (n = length vs)%nat ->
  unpack n bits (packl bits vs + 2 ^ (bits * Z.of_nat n) * hi) = vs.
Proof.
  intros Hb. induction 1 as [|v vs Hv F IH]; intros n hi ->; cbn [length unpack]; auto.
  assert (HP : 0 < 2 ^ bits) by (apply Z.pow_pos_nonneg; lia).
  assert (E : packl bits (v :: vs) + 2 ^ (bits * Z.of_nat (S (length vs))) * hi =
              v + (packl bits vs + 2 ^ (bits * Z.of_nat (length vs)) * hi) * 2 ^ bits).
  { cbn [packl]. rewrite Nat2Z.inj_succ. replace (bits * Z.succ (Z.of_nat (length vs))) with (bits + bits * Z.of_nat (length vs)) by lia.
    rewrite Z.pow_add_r by lia. ring. }
  rewrite E. f_equal.
  - rewrite land_mask by lia. rewrite Z.mod_add by lia. apply Z.mod_small; lia.
  - rewrite Z.shiftr_div_pow2 by lia. rewrite Z.div_add by lia. rewrite (Z.div_small v) by lia. rewrite Z.add_0_l. apply IH; auto.
Qed.

Lemma decode_packed i n bits vs : nth_error NUM_BITS i = Some (n, bits) -> length vs = n -> Forall (fun v => 0 <= v) vs ->
  forall w, pack_loop bits 0 vs (Z.shiftl (Z.of_nat i + 2) 60) = Some w ->
  is_u64 w /\ decode_value w = vs.
Proof.
  intros Hi Hl F w HP.
  assert (Hcode : (0 <= Z.of_nat i <= 13) /\ 0 <= bits /\ bits * Z.of_nat n <= 60).
  { do 14 (destruct i as [|i]; [cbn in Hi; inversion Hi; subst; lia|]). cbn in Hi. destruct i; discriminate. }
  destruct Hcode as (Hi13&Hb&H60).
  assert (H20 : 2 ^ (bits * 0) = 1) by (rewrite Z.mul_0_r; reflexivity).
  destruct (pack_loop_val bits vs Hb F 0 (Z.shiftl (Z.of_nat i + 2) 60) w (Z.of_nat i + 2)) as [F2 Ew]; auto; try lia.
  { rewrite Z.mul_0_r. cbn. rewrite Z.mod_1_r, Z.lor_0_r. auto. }
  rewrite H20, Z.mod_1_r, Z.add_0_r, Z.mul_1_l in Ew. rewrite Z.shiftl_mul_pow2 in Ew by lia.
  pose proof (packl_bound bits vs Hb F2) as PB. rewrite Hl in PB.
  assert (HP60 : 2 ^ (bits * Z.of_nat n) <= 2 ^ 60) by (apply Z.pow_le_mono_r; lia).
  assert (Hsel : Z.shiftr w 60 = Z.of_nat i + 2).
  { rewrite Z.shiftr_div_pow2, Ew by lia. rewrite Z.div_add_l by lia. rewrite Z.div_small by lia. lia. }
  split.
  - unfold is_u64, U64_MAX. change (2^64) with (16 * 2 ^ 60). rewrite Ew. change (2 ^ 60) with 1152921504606846976 in *. lia.
  - unfold decode_value. rewrite Hsel.
    destruct (Z.of_nat i + 2 =? 0) eqn:E0; [lia|]. destruct (Z.of_nat i + 2 =? 1) eqn:E1; [lia|].
    replace (Z.to_nat (Z.of_nat i + 2 - 2)) with i by lia. rewrite Hi.
    replace w with (packl bits vs + 2 ^ (bits * Z.of_nat n) * ((Z.of_nat i + 2) * 2 ^ (60 - bits * Z.of_nat n))).
    + apply unpack_packl; auto.
    + rewrite Ew. rewrite Z.mul_assoc, (Z.mul_comm (2 ^ _) (Z.of_nat i + 2)), <- Z.mul_assoc, <- Z.pow_add_r by lia.
      replace (bits * Z.of_nat n + (60 - bits * Z.of_nat n)) with 60 by lia. lia.
Qed.

Lemma try_codes_spec src : Forall (fun v => 0 <= v) src -> forall j i w n,
  try_codes (Z.of_nat i) (skipn i NUM_BITS) src = Some (w, n) -> (i + j = 14)%nat ->
  (1 <= n <= length src)%nat /\ is_u64 w /\ decode_value w = firstn n src.
Proof.
  intros F. induction j as [|j IH]; intros i w n H Hj.
  - replace i with 14%nat in H by lia. cbn in H. discriminate.
  - destruct (nth_error NUM_BITS i) as [[c bits]|] eqn:E.
    2:{ apply nth_error_None in E. cbn in E. lia. }
    assert (Hsk : skipn i NUM_BITS = (c, bits) :: skipn (S i) NUM_BITS).
    { clear -E Hj. do 14 (destruct i as [|i]; [vm_compute in E; inversion E; reflexivity|]). lia. }
    rewrite Hsk in H. cbn [try_codes] in H.
    assert (Hn : try_codes (Z.of_nat i + 1) (skipn (S i) NUM_BITS) src = Some (w, n) ->
             (1 <= n <= length src)%nat /\ is_u64 w /\ decode_value w = firstn n src).
    { intros H'. apply (IH (S i)); [|lia]. rewrite Nat2Z.inj_succ. exact H'. }
    destruct (length src <? c)%nat eqn:El; [auto|].
    destruct (pack_loop bits 0 (firstn c src) (Z.shiftl (Z.of_nat i + 2) 60)) as [w'|] eqn:EP; [|auto].
    inversion H; subst w' c; clear H. 
    assert (Hc : (1 <= n)%nat) by (clear -E Hj; do 14 (destruct i as [|i]; [cbn in E; inversion E; lia|]); lia).
    split; [lia|]. eapply decode_packed; [exact E| | |exact EP].
    + rewrite firstn_length. lia.
    + rewrite <- (firstn_skipn n src) in F. apply Forall_app in F. tauto.
Qed.

(** The last selector takes one integer of 60 bits, so only a value of 2^60 or more is refused. *)
Lemma try_codes_none src : try_codes 0 NUM_BITS src = None ->
  match src with [] => True | v :: _ => v > S8B_MAX_VALUE end.
Proof.
  destruct src as [|v src]; auto. intros H. unfold NUM_BITS in H.
  repeat match type of H with
  | try_codes ?i ((?n, ?b) :: ?l) ?s = None =>
      let H' := fresh in assert (H' : try_codes (i + 1) l s = None) by
        (cbn [try_codes] in H; destruct (length s <? n)%nat; [exact H|]; destruct (pack_loop b 0 (firstn n s) _); [discriminate|exact H]);
      lazymatch l with [] => fail | _ => clear H; rename H' into H end
  end.
  cbn [try_codes] in H. cbn [length firstn pack_loop] in H.
  destruct (S (length src) <? 1)%nat eqn:E; [lia|].
  destruct (v >=? 2 ^ 60) eqn:E2; [|discriminate]. unfold S8B_MAX_VALUE. lia.
Qed.
Lemma try_codes_big v src : v > S8B_MAX_VALUE -> try_codes 0 NUM_BITS (v :: src) = None.
Proof.
  intros Hv. assert (G : forall codes i, Forall (fun c => (1 <= fst c)%nat /\ snd c <= 60) codes -> try_codes i codes (v :: src) = None).
  { induction codes as [|[n b] codes IH]; intros i F; cbn [try_codes]; auto.
    inversion F as [|? ? [H1 H2] F']; subst. cbn [fst snd] in *.
    destruct (length (v :: src) <? n)%nat; auto.
    destruct n as [|n]; [lia|]. cbn [firstn pack_loop].
    destruct (v >=? 2 ^ b) eqn:E; auto.
    assert (2 ^ b <= 2 ^ 60) by (apply Z.pow_le_mono_r; lia). unfold S8B_MAX_VALUE in Hv. lia. }
  apply G. unfold NUM_BITS. repeat constructor; cbn; lia.
Qed.

Lemma count_ones_firstn l n : (count_ones (firstn n l) = n)%nat -> firstn n l = repeat 1 n.
Proof.
  revert l. induction n as [|n IH]; intros l H; auto.
  destruct l as [|x l]; cbn [firstn count_ones] in H; [discriminate|].
  destruct (x =? 1) eqn:E; [|discriminate]. cbn [firstn repeat]. f_equal; [lia|]. apply IH. lia.
Qed.
Lemma count_ones_ge l n : (n <= count_ones l)%nat -> firstn n l = repeat 1 n.
Proof.
  revert l. induction n as [|n IH]; intros l H; auto.
  destruct l as [|x l]; cbn [count_ones] in H; [lia|].
  destruct (x =? 1) eqn:E; [|lia]. cbn [firstn repeat]. f_equal; [lia|]. apply IH. lia.
Qed.

Lemma s8b_decode_word w rest : is_u64 w ->
  s8b_decode (be_bytes 8 w ++ rest) = rbind (s8b_decode rest) (fun r => Ok (decode_value w ++ r)).
Proof.
  intros H. destruct (be_bytes_cons8 w) as (a&b&c&d&e&f&g&h&E). rewrite E. cbn [app s8b_decode].
  rewrite <- E, of_be_u64 by auto. reflexivity.
Qed.

Lemma encode_fuel_roundtrip fuel src bytes : Forall is_u64 src ->
  s8b_encode_fuel fuel src = Ok bytes -> s8b_decode bytes = Ok src.
Proof.
  revert src bytes. induction fuel as [|f IH]; intros src bytes F H.
  - destruct src; cbn in H; inversion H. reflexivity.
  - destruct src as [|v src']; [cbn in H; inversion H; reflexivity|].
    set (src := v :: src') in *.
    assert (F0 : Forall (fun v => 0 <= v) src) by (eapply Forall_impl; [|exact F]; cbn; unfold is_u64; lia).
    assert (Fs : forall n, Forall is_u64 (skipn n src)).
    { intros n. rewrite <- (firstn_skipn n src) in F. apply Forall_app in F. tauto. }
    cbn [s8b_encode_fuel] in H. change (match src with [] => _ | _ => ?x end) with x in H.
    assert (Hdest : forall n w b, (n <= length src)%nat -> is_u64 w -> decode_value w = firstn n src ->
       rbind (s8b_encode_fuel f (skipn n src)) (fun r => Ok (be_bytes 8 w ++ r)) = Ok b -> s8b_decode b = Ok src).
    { intros n w b Hn Hw Hd Hb. destruct (s8b_encode_fuel f (skipn n src)) as [r| | |] eqn:Er; cbn [rbind] in Hb; try discriminate.
      assert (Eb : b = be_bytes 8 w ++ r) by congruence. rewrite Eb. rewrite s8b_decode_word by auto. rewrite (IH _ _ (Fs n) Er). cbn [rbind]. rewrite Hd, firstn_skipn. reflexivity. }
    set (k := if (length src <? 120)%nat then O else _) in H.
    destruct (k =? 240)%nat eqn:E1.
    + apply Nat.eqb_eq in E1. unfold k in E1. destruct (length src <? 120)%nat eqn:E2; [discriminate|].
      destruct (length src <? 240)%nat eqn:E3.
      { exfalso. assert (C : forall l, (count_ones l <= length l)%nat) by (induction l as [|x l IHl]; cbn; [lia|destruct (x =? 1); lia]).
        pose proof (C (firstn 120 src)) as C1. rewrite firstn_length in C1. lia. }
      apply count_ones_firstn in E1.
      change (repeat 0 8) with (be_bytes 8 0) in H.
      apply (Hdest 240%nat 0 bytes); [| | |exact H].
      * apply Nat.ltb_ge in E3. exact E3.
      * unfold is_u64, U64_MAX. lia.
      * rewrite E1. reflexivity.
    + destruct (120 <=? k)%nat eqn:E2.
      * apply Nat.leb_le in E2. unfold k in E2. destruct (length src <? 120)%nat eqn:E3; [lia|]. apply Nat.ltb_ge in E3.
        apply count_ones_ge in E2.
        apply (Hdest 120%nat (Z.shiftl 1 60) bytes); [exact E3| | |exact H].
        -- unfold is_u64, U64_MAX. split; vm_compute; congruence.
        -- rewrite firstn_firstn in E2. destruct (length src <? 240)%nat; cbn [Nat.min] in E2.
           ++ replace (Nat.min 120 120) with 120%nat in E2 by lia. rewrite E2. vm_compute; reflexivity.
           ++ replace (Nat.min 120 240) with 120%nat in E2 by lia. rewrite E2. vm_compute; reflexivity.
      * destruct (try_codes 0 NUM_BITS src) as [[w n]|] eqn:Et; [|discriminate].
        destruct (try_codes_spec src F0 14 0 w n Et) as (Hn&Hw&Hd); [lia|].
        apply (Hdest n w bytes); [lia|exact Hw|exact Hd|exact H].
Qed.

Lemma encode_fuel_total fuel src : (length src <= fuel)%nat -> Forall (fun v => v <= S8B_MAX_VALUE) src -> Forall is_u64 src ->
  exists bytes, s8b_encode_fuel fuel src = Ok bytes.
Proof.
  revert src. induction fuel as [|f IH]; intros src Hl F Fu.
  - destruct src; [|cbn in Hl; lia]. eexists; reflexivity.
  - destruct src as [|v src']; [eexists; reflexivity|]. set (src := v :: src') in *.
    assert (F0 : Forall (fun v => 0 <= v) src) by (eapply Forall_impl; [|exact Fu]; cbn; unfold is_u64; lia).
    assert (Hs : forall n, (1 <= n)%nat -> exists b, s8b_encode_fuel f (skipn n src) = Ok b).
    { intros n Hn. apply IH.
      - rewrite skipn_length. lia.
      - rewrite <- (firstn_skipn n src) in F. apply Forall_app in F. tauto.
      - rewrite <- (firstn_skipn n src) in Fu. apply Forall_app in Fu. tauto. }
    cbn [s8b_encode_fuel]. change (match src with [] => _ | _ => ?x end) with x.
    set (k := if (length src <? 120)%nat then O else _).
    destruct (k =? 240)%nat. { destruct (Hs 240%nat) as [b ->]; [lia|]. eexists; reflexivity. }
    destruct (120 <=? k)%nat. { destruct (Hs 120%nat) as [b ->]; [lia|]. eexists; reflexivity. }
    destruct (try_codes 0 NUM_BITS src) as [[w n]|] eqn:Et.
    + destruct (try_codes_spec src F0 14 0 w n Et) as (Hn&_); [lia|].
      destruct (Hs n) as [b ->]; [lia|]. eexists; reflexivity.
    + apply try_codes_none in Et. cbn in Et. inversion F; subst. lia.
Qed.

Lemma encode_fuel_reject fuel src : (length src <= fuel)%nat -> Exists (fun v => v > S8B_MAX_VALUE) src -> Forall is_u64 src ->
  s8b_encode_fuel fuel src = Err.
Proof.
  revert src. induction fuel as [|f IH]; intros src Hl E Fu.
  - destruct src; [inversion E|cbn in Hl; lia].
  - destruct src as [|v src']; [inversion E|]. set (src := v :: src') in *.
    assert (F0 : Forall (fun v => 0 <= v) src) by (eapply Forall_impl; [|exact Fu]; cbn; unfold is_u64; lia).
    assert (Hs : forall n, (1 <= n)%nat -> Forall (fun v => v <= S8B_MAX_VALUE) (firstn n src) -> s8b_encode_fuel f (skipn n src) = Err).
    { intros n Hn Hok. apply IH.
      - rewrite skipn_length. lia.
      - rewrite <- (firstn_skipn n src) in E. apply Exists_app in E as [E|E]; auto.
        exfalso. apply Exists_exists in E as (x&Hx&Hb). rewrite Forall_forall in Hok. specialize (Hok x Hx). lia.
      - rewrite <- (firstn_skipn n src) in Fu. apply Forall_app in Fu. tauto. }
    assert (Hones : forall n, Forall (fun v => v <= S8B_MAX_VALUE) (repeat 1 n)).
    { intros n. apply Forall_forall. intros x Hx. apply repeat_spec in Hx. subst. vm_compute. congruence. }
    cbn [s8b_encode_fuel]. change (match src with [] => _ | _ => ?x end) with x.
    set (k := if (length src <? 120)%nat then O else _).
    destruct (k =? 240)%nat eqn:E1.
    { apply Nat.eqb_eq in E1. unfold k in E1. destruct (length src <? 120)%nat eqn:E2; [discriminate|].
      rewrite Hs; auto; [lia|].
      destruct (length src <? 240)%nat eqn:E3.
      - exfalso. assert (C : forall l, (count_ones l <= length l)%nat) by (induction l as [|x l IHl]; cbn; [lia|destruct (x =? 1); lia]).
        pose proof (C (firstn 120 src)) as C1. rewrite firstn_length in C1. lia.
      - apply count_ones_firstn in E1. rewrite E1. auto. }
    destruct (120 <=? k)%nat eqn:E2.
    { apply Nat.leb_le in E2. unfold k in E2. destruct (length src <? 120)%nat eqn:E3; [lia|].
      rewrite Hs; auto; [lia|]. apply count_ones_ge in E2. rewrite firstn_firstn in E2.
      destruct (length src <? 240)%nat.
      - replace (Nat.min 120 120) with 120%nat in E2 by lia. rewrite E2; auto.
      - replace (Nat.min 120 240) with 120%nat in E2 by lia. rewrite E2; auto. }
    destruct (try_codes 0 NUM_BITS src) as [[w n]|] eqn:Et; auto.
    destruct (try_codes_spec src F0 14 0 w n Et) as (Hn&Hw&Hd); [lia|].
    rewrite Hs; auto; [lia|]. rewrite <- Hd. unfold decode_value.
    destruct (_ =? 0); auto. destruct (_ =? 1); auto.
    destruct (nth_error NUM_BITS _) as [[c b]|] eqn:En; [|constructor].
    assert (Hb : 0 <= b <= 60). { apply nth_error_In in En. assert (G : Forall (fun p : nat * Z => 0 <= snd p <= 60) NUM_BITS) by (unfold NUM_BITS; repeat constructor; cbn; lia). rewrite Forall_forall in G. exact (G _ En). }
    clear - Hb. revert w. induction c as [|c IHc]; intros w; cbn [unpack]; constructor; auto.
    rewrite land_mask by lia. pose proof (Z.mod_pos_bound w (2 ^ b) ltac:(apply Z.pow_pos_nonneg; lia)).
    assert (2 ^ b <= 2 ^ 60) by (apply Z.pow_le_mono_r; lia). unfold S8B_MAX_VALUE. lia.
Qed.

Lemma s8b_roundtrip src : Forall (fun v => 0 <= v <= S8B_MAX_VALUE) src ->
  exists bytes, s8b_encode src = Ok bytes /\ s8b_decode bytes = Ok src.
Proof.
  intros F. assert (Fu : Forall is_u64 src).
  { eapply Forall_impl; [|exact F]. cbn. unfold is_u64, U64_MAX, S8B_MAX_VALUE. intros a Ha. assert (2^60 < 2^64) by reflexivity. lia. }
  destruct (encode_fuel_total (length src) src) as [b Hb]; auto.
  { eapply Forall_impl; [|exact F]. cbn. lia. }
  exists b. split; auto. eapply encode_fuel_roundtrip; eauto.
Qed.
