(** Proofs about the bloom filter. *)
From Verif Require Import Prelude BloomModel.

(** The set of bit positions that are 1. *)
Definition bit (f : bloom) (p : Z) : bool :=
  match nth_error (bf_b f) (Z.to_nat (Z.shiftr p 3)) with None => false | Some b => Z.testbit b (Z.land p 7) end.

(** Buffer length and mask fit: mask + 1 = 8 * length = 2^k. *)
Definition wf (f : bloom) : Prop := exists k, 3 <= k /\ bf_mask f = Z.ones k /\ Z.of_nat (length (bf_b f)) = 2 ^ (k - 3).

Lemma pow2_loop_spec fuel : forall k num r, 3 <= k -> pow2_loop fuel (2 ^ k) num = Some r -> exists j, k <= j < 62 /\ r = 2 ^ j /\ num <= r.
Proof.
  induction fuel as [|fuel IH]; intros k num r Hk H; cbn [pow2_loop] in H; [discriminate|].
  destruct (_ <? _) eqn:E1; [|discriminate]. destruct (num <=? 2 ^ k) eqn:E2.
  - injection H as <-. exists k. split; [split; [lia|]|split; [auto|lia]]. apply Z.ltb_lt in E1. apply (Z.pow_lt_mono_r_iff 2); lia.
  - replace (2 ^ k * 2) with (2 ^ (k + 1)) in H by (rewrite Z.pow_add_r by lia; lia). apply IH in H as (j&A&B&C); [|lia]. exists j. repeat split; auto; lia.
Qed.
Lemma pow2_spec num r : pow2 num = Some r -> exists j, 3 <= j < 62 /\ r = 2 ^ j /\ num <= r.
Proof. unfold pow2. change 8 with (2 ^ 3). apply pow2_loop_spec. lia. Qed.
Lemma pow2_loop_exact n : forall fuel k, (n < fuel)%nat -> 3 <= k -> k + Z.of_nat n < 62 ->
  pow2_loop fuel (2 ^ k) (2 ^ (k + Z.of_nat n)) = Some (2 ^ (k + Z.of_nat n)).
Proof.
  induction n as [|n IH]; intros fuel k Hf Hk Hn; destruct fuel as [|fuel]; try lia; cbn [pow2_loop].
  - replace (k + Z.of_nat 0) with k in * by lia. assert (2 ^ k < 2 ^ 62) by (apply Z.pow_lt_mono_r; lia).
    replace (2 ^ k <? 2 ^ 62) with true by (symmetry; apply Z.ltb_lt; auto). rewrite Z.leb_refl. auto.
  - assert (2 ^ k < 2 ^ 62) by (apply Z.pow_lt_mono_r; lia). assert (2 ^ k < 2 ^ (k + Z.of_nat (S n))) by (apply Z.pow_lt_mono_r; lia).
    replace (2 ^ k <? 2 ^ 62) with true by (symmetry; apply Z.ltb_lt; auto).
    replace (2 ^ (k + Z.of_nat (S n)) <=? 2 ^ k) with false by (symmetry; apply Z.leb_gt; auto).
    replace (2 ^ k * 2) with (2 ^ (k + 1)) by (rewrite Z.pow_add_r by lia; lia).
    replace (k + Z.of_nat (S n)) with (k + 1 + Z.of_nat n) by lia. apply IH; lia.
Qed.
Lemma pow2_fix j : 3 <= j < 62 -> pow2 (2 ^ j) = Some (2 ^ j).
Proof.
  intros H. unfold pow2. change 8 with (2 ^ 3). replace j with (3 + Z.of_nat (Z.to_nat (j - 3))) by lia. apply pow2_loop_exact; lia.
Qed.

Lemma new_wf m f : bf_new m = Some f -> wf f.
Proof.
  unfold bf_new. destruct (pow2 m) as [r|] eqn:E; [|discriminate]. intros H; injection H as <-. apply pow2_spec in E as (j&A&->&_).
  exists j. cbn. split; [lia|]. split; [rewrite Z.ones_equiv; lia|]. rewrite repeat_length, Z.shiftr_div_pow2 by lia.
  rewrite <- (Z.pow_sub_r 2 j 3) by lia. rewrite Z2Nat.id; auto. apply Z.pow_nonneg; lia.
Qed.
Lemma new_zero m f p : bf_new m = Some f -> bit f p = false.
Proof.
  unfold bf_new. destruct (pow2 m) as [r|]; [|discriminate]. intros H; injection H as <-. unfold bit. cbn.
  destruct (nth_error _ _) eqn:E; auto. apply nth_error_In, repeat_spec in E. subst. apply Z.bits_0.
Qed.
Lemma with_data_wf d f : bf_with_data d = Some f -> wf f.
Proof.
  unfold bf_with_data. destruct (pow2 _) as [r|] eqn:E; [|discriminate]. intros H; injection H as <-. apply pow2_spec in E as (j&A&->&B).
  exists (j + 3). cbn. split; [lia|]. split; [rewrite Z.ones_equiv, Z.shiftl_mul_pow2, <- Z.pow_add_r by lia; lia|].
  rewrite app_length, repeat_length. replace (j + 3 - 3) with j by lia.
  assert (Z.of_nat (Z.to_nat (2 ^ j)) = 2 ^ j) by (apply Z2Nat.id; apply Z.pow_nonneg; lia). lia.
Qed.

Lemma location_range f h : wf f -> 0 <= h -> 0 <= location f h /\ (Z.to_nat (Z.shiftr (location f h) 3) < length (bf_b f))%nat.
Proof.
  intros (k&Hk&Hm&Hl) Hh. unfold location. rewrite Hm, Z.land_ones by lia.
  pose proof (Z.mod_pos_bound h (2 ^ k) ltac:(apply Z.pow_pos_nonneg; lia)) as B. split; [lia|].
  rewrite Z.shiftr_div_pow2 by lia. revert B. generalize (h mod 2 ^ k). intros x B.
  assert (x / 2 ^ 3 < 2 ^ (k - 3)). { apply Z.div_lt_upper_bound; [lia|]. rewrite <- Z.pow_add_r by lia. replace (3 + (k - 3)) with k by lia. lia. }
  pose proof (Z.div_pos x (2 ^ 3) ltac:(lia) ltac:(lia)). lia.
Qed.

Lemma test_bit b k : 0 <= k -> (Z.land b (Z.shiftl 1 k) =? 0) = negb (Z.testbit b k).
Proof.
  intros Hk. destruct (Z.testbit b k) eqn:E; cbn [negb].
  - apply Z.eqb_neq. intros H. assert (Z.testbit (Z.land b (Z.shiftl 1 k)) k = false) by (rewrite H; apply Z.bits_0).
    rewrite Z.land_spec, Z.shiftl_spec, Z.sub_diag, E in H0 by lia. discriminate.
  - apply Z.eqb_eq. apply Z.bits_inj. intros n. rewrite Z.bits_0, Z.land_spec.
    destruct (Z.eq_dec n k) as [->|N]; [rewrite E; auto|].
    rewrite Z.shiftl_mul_pow2, Z.mul_1_l, Z.pow2_bits_false by lia. apply andb_false_r.
Qed.

Lemma nth_set_nth n v l m : nth_error (set_nth n v l) m =
  if Nat.eqb m n then (if (n <? length l)%nat then Some v else None) else nth_error l m.
Proof.
  revert n m. induction l as [|h t IH]; intros n m; cbn [set_nth length].
  - replace (n <? 0)%nat with false by (symmetry; apply Nat.ltb_ge; lia). destruct (Nat.eqb m n), m; auto.
  - destruct n as [|n], m as [|m]; cbn [nth_error Nat.eqb]; auto. rewrite IH. auto.
Qed.
Lemma set_nth_length n v l : length (set_nth n v l) = length l.
Proof. revert n. induction l; intros [|n]; cbn; auto. Qed.

Lemma byte_pos p q : 0 <= p -> 0 <= q -> Z.to_nat (Z.shiftr p 3) = Z.to_nat (Z.shiftr q 3) -> Z.land p 7 = Z.land q 7 -> p = q.
Proof.
  change 7 with (Z.ones 3). intros Hp Hq. rewrite !Z.land_ones, !Z.shiftr_div_pow2 by lia. change (2 ^ 3) with 8. lia.
Qed.

Lemma insert_hash_spec f h : wf f -> 0 <= h -> exists f', insert_hash f h = Some f' /\ wf f' /\ bf_mask f' = bf_mask f /\
  length (bf_b f') = length (bf_b f) /\ (forall p, 0 <= p -> bit f' p = orb (bit f p) (p =? location f h)).
Proof.
  intros W Hh. destruct (location_range f h W Hh) as [L1 L2]. unfold insert_hash.
  destruct (nth_error (bf_b f) (Z.to_nat (Z.shiftr (location f h) 3))) as [byte|] eqn:EB.
  2: { apply nth_error_None in EB. lia. }
  eexists. split; [reflexivity|]. cbn [bf_mask bf_b]. rewrite set_nth_length. split; [|split; [auto|split; [auto|]]].
  - destruct W as (k&A&B&C). exists k. cbn [bf_mask bf_b]. rewrite set_nth_length. auto.
  - intros p Hp. unfold bit. cbn [bf_b]. rewrite nth_set_nth. destruct (Nat.eqb _ _) eqn:E.
    + apply Nat.eqb_eq in E. apply Nat.ltb_lt in L2. rewrite L2, E, EB, Z.lor_spec.
      assert (0 <= Z.land (location f h) 7) by (apply Z.land_nonneg; lia).
      destruct (p =? location f h) eqn:EP.
      * apply Z.eqb_eq in EP. subst p. rewrite Z.shiftl_mul_pow2, Z.mul_1_l, Z.pow2_bits_true by lia. rewrite !orb_true_r. auto.
      * f_equal. rewrite Z.shiftl_mul_pow2, Z.mul_1_l by lia. apply Z.pow2_bits_false. intros X.
        apply Z.eqb_neq in EP. apply EP. apply byte_pos; auto.
    + destruct (p =? location f h) eqn:EP; [|rewrite orb_false_r; auto].
      apply Z.eqb_eq in EP. subst p. rewrite Nat.eqb_refl in E. discriminate.
Qed.

Lemma insert_hashes_spec hs : forall f, wf f -> Forall (fun h => 0 <= h) hs -> exists f', insert_hashes f hs = Some f' /\ wf f' /\ bf_mask f' = bf_mask f /\
  length (bf_b f') = length (bf_b f) /\ (forall p, 0 <= p -> bit f' p = orb (bit f p) (existsb (fun h => p =? Z.land h (bf_mask f)) hs)).
Proof.
  induction hs as [|h hs IH]; intros f W HF; cbn [insert_hashes existsb].
  - exists f. repeat (split; auto). intros; rewrite orb_false_r; auto.
  - inversion HF; subst. destruct (insert_hash_spec f h W H1) as (f1&E1&W1&M1&L1&B1). rewrite E1.
    destruct (IH f1 W1 H2) as (f2&E2&W2&M2&L2&B2). exists f2. rewrite E2, M2, L2. repeat (split; auto).
    intros p Hp. rewrite B2, B1, M1 by auto. unfold location. rewrite orb_assoc. auto.
Qed.

Lemma test_hashes_spec f hs : wf f -> Forall (fun h => 0 <= h) hs ->
  test_hashes f hs = Some (forallb (fun h => bit f (location f h)) hs).
Proof.
  intros W. induction hs as [|h hs IH]; intros HF; cbn [test_hashes forallb]; auto. inversion HF; subst.
  destruct (location_range f h W H1) as [L1 L2]. unfold bit at 1.
  destruct (nth_error (bf_b f) _) as [byte|] eqn:EB; [|apply nth_error_None in EB; lia].
  rewrite test_bit by (apply Z.land_nonneg; lia). destruct (Z.testbit byte _); cbn [negb andb]; auto.
Qed.

Lemma insert_all_spec hashers keys : (forall h k, In h hashers -> 0 <= h k) -> forall f, wf f ->
  exists f', bf_insert_all hashers f keys = Some f' /\ wf f' /\ bf_mask f' = bf_mask f /\ length (bf_b f') = length (bf_b f) /\
  (forall p, 0 <= p -> bit f' p = orb (bit f p) (existsb (fun k => existsb (fun h => p =? Z.land (h k) (bf_mask f)) hashers) keys)).
Proof.
  intros HP. induction keys as [|k ks IH]; intros f W; cbn [bf_insert_all existsb].
  - exists f. repeat (split; auto). intros; rewrite orb_false_r; auto.
  - unfold bf_insert. destruct (insert_hashes_spec (map (fun h => h k) hashers) f W) as (f1&E1&W1&M1&L1&B1).
    { apply Forall_forall. intros x Hx. apply in_map_iff in Hx as (h&<-&Hh). auto. }
    rewrite E1. destruct (IH f1 W1) as (f2&E2&W2&M2&L2&B2). exists f2. rewrite E2, M2, L2. repeat (split; auto).
    intros p Hp. rewrite B2, B1, M1 by auto. rewrite <- orb_assoc. f_equal. f_equal.
    clear. induction hashers as [|h l IH]; cbn; auto. rewrite IH. auto.
Qed.

(** Exact answer of a filter built by insertions into an empty one. *)
Lemma contains_exact hashers m f0 keys f k : (forall h k, In h hashers -> 0 <= h k) -> bf_new m = Some f0 ->
  bf_insert_all hashers f0 keys = Some f ->
  maybe_contains hashers f k =
    Some (forallb (fun h => existsb (fun k' => existsb (fun h' => Z.land (h k) (bf_mask f0) =? Z.land (h' k') (bf_mask f0)) hashers) keys) hashers).
Proof.
  intros HP H0 HI. pose proof (new_wf _ _ H0) as W0. destruct (insert_all_spec hashers keys HP f0 W0) as (f'&E&W&M&L&B).
  rewrite E in HI. injection HI as ->. unfold maybe_contains. rewrite test_hashes_spec; auto.
  2: { apply Forall_forall. intros x Hx. apply in_map_iff in Hx as (h&<-&Hh). auto. }
  f_equal. assert (G : forall l, (forall h, In h l -> 0 <= h k) -> forallb (fun h => bit f (location f h)) (map (fun h => h k) l) =
     forallb (fun h => existsb (fun k' => existsb (fun h' => Z.land (h k) (bf_mask f0) =? Z.land (h' k') (bf_mask f0)) hashers) keys) l).
  { induction l as [|h l IH]; intros HL; cbn [map forallb]; auto. rewrite IH by (intros; apply HL; right; auto). f_equal.
    unfold location. rewrite B, M, (new_zero m) by (auto; apply Z.land_nonneg; left; apply HL; left; auto). auto. }
  apply G. intros; apply HP; auto.
Qed.

Lemma no_false_negative hashers m f0 keys : (forall h k, In h hashers -> 0 <= h k) -> bf_new m = Some f0 ->
  exists f, bf_insert_all hashers f0 keys = Some f /\ forall k, In k keys -> maybe_contains hashers f k = Some true.
Proof.
  intros HP H0. destruct (insert_all_spec hashers keys HP f0 (new_wf _ _ H0)) as (f&E&_). exists f. split; auto.
  intros k Hk. rewrite (contains_exact hashers m f0 keys f k) by auto. f_equal. apply forallb_forall. intros h Hh.
  apply existsb_exists. exists k. split; auto. apply existsb_exists. exists h. split; auto. apply Z.eqb_refl.
Qed.

Lemma reload_same f : wf f -> (8 <= length (bf_b f))%nat -> Z.of_nat (length (bf_b f)) < 2 ^ 62 -> bf_with_data (bf_b f) = Some f.
Proof.
  intros (k&A&B&C) H8 H62. unfold bf_with_data. rewrite C.
  assert (6 <= k). { destruct (Z_lt_ge_dec k 6) as [X|X]; [|lia]. assert (2 ^ (k - 3) < 2 ^ 3) by (apply Z.pow_lt_mono_r; lia). change (2 ^ 3) with 8 in *. lia. }
  rewrite pow2_fix by (split; [lia|]; rewrite C in H62; apply Z.pow_lt_mono_r_iff in H62; lia).
  rewrite <- C at 1. replace (Z.to_nat (Z.of_nat (length (bf_b f))) - length (bf_b f))%nat with 0%nat by lia. cbn [repeat]. rewrite app_nil_r.
  f_equal. destruct f as [b m]. cbn in *. f_equal. rewrite B, Z.ones_equiv, Z.shiftl_mul_pow2, <- Z.pow_add_r by lia.
  replace (k - 3 + 3) with k by lia. lia.
Qed.

Lemma reload_no_false_negative hashers m f0 keys f : (forall h k, In h hashers -> 0 <= h k) -> 32 < m -> bf_new m = Some f0 ->
  bf_insert_all hashers f0 keys = Some f ->
  exists f', bf_with_data (bf_b f) = Some f' /\ forall k, maybe_contains hashers f' k = maybe_contains hashers f k.
Proof.
  intros HP Hm H0 HI. pose proof (new_wf _ _ H0) as W0. destruct (insert_all_spec hashers keys HP f0 W0) as (f'&E&W&M&L&B).
  rewrite E in HI. injection HI as ->. exists f. split; auto. apply reload_same; auto.
  - rewrite L. unfold bf_new in H0. destruct (pow2 m) as [r|] eqn:EP; [|discriminate]. injection H0 as <-. cbn. rewrite repeat_length.
    apply pow2_spec in EP as (j&J1&->&J2). rewrite Z.shiftr_div_pow2, <- Z.pow_sub_r by lia.
    assert (5 < j). { apply (Z.pow_lt_mono_r_iff 2); lia. }
    assert (2 ^ 3 <= 2 ^ (j - 3)) by (apply Z.pow_le_mono_r; lia). change (2 ^ 3) with 8 in *. lia.
  - rewrite L. unfold bf_new in H0. destruct (pow2 m) as [r|] eqn:EP; [|discriminate]. injection H0 as <-. cbn. rewrite repeat_length.
    apply pow2_spec in EP as (j&J1&->&J2). rewrite Z.shiftr_div_pow2, <- Z.pow_sub_r by lia.
    rewrite Z2Nat.id by (apply Z.pow_nonneg; lia). apply Z.pow_lt_mono_r; lia.
Qed.
