From Verif Require Import Prelude Bytes Simple8bModel Simple8bProofs IntegerModel IntegerProofs TimestampModel CodecSpec.

Lemma raw_deltas_u64 prev l : Forall is_u64 (raw_deltas prev l).
Proof. revert prev. induction l as [|x l IH]; intros prev; cbn [raw_deltas]; constructor; auto. apply wrap_u64_u64. Qed.

Lemma div_exp_le e d : (div_exp e d <= e)%nat.
Proof. induction e; cbn [div_exp]; [lia|]. destruct (_ =? 0); lia. Qed.
Lemma div_exp_divides e d : 0 <= d -> d mod 10 ^ Z.of_nat (div_exp e d) = 0.
Proof. intros H. induction e; cbn [div_exp]; [apply Z.mod_1_r|]. destruct (_ =? 0) eqn:E; auto. lia. Qed.
Lemma pow10_pos n : 0 < 10 ^ Z.of_nat n.
Proof. apply Z.pow_pos_nonneg; lia. Qed.
Lemma divides_smaller a b d : (a <= b)%nat -> d mod 10 ^ Z.of_nat b = 0 -> d mod 10 ^ Z.of_nat a = 0.
Proof.
  intros H E. pose proof (pow10_pos a). pose proof (pow10_pos b).
  apply Z.mod_divide; [lia|]. apply Z.mod_divide in E; [|lia]. destruct E as [q ->].
  exists (q * 10 ^ Z.of_nat (b - a)). rewrite <- Z.mul_assoc, <- Z.pow_add_r by lia. f_equal. f_equal. lia.
Qed.
Lemma common_exp_spec ds : forall e, Forall (fun d => 0 <= d) ds ->
  (fold_left div_exp ds e <= e)%nat /\ Forall (fun d => d mod 10 ^ Z.of_nat (fold_left div_exp ds e) = 0) ds.
Proof.
  induction ds as [|d ds IH]; intros e F; cbn [fold_left]; [split; auto|].
  inversion F; subst. destruct (IH (div_exp e d)) as [H1' H2']; auto.
  pose proof (div_exp_le e d). split; [lia|]. constructor; auto.
  eapply divides_smaller; [exact H1'|]. apply div_exp_divides; auto.
Qed.

Lemma land_low h e : 0 <= h -> (e <= 12)%nat -> h mod 16 = 0 -> Z.land (h + Z.of_nat e) 15 = Z.of_nat e.
Proof. intros. change 15 with (2 ^ 4 - 1). rewrite land_mask by lia. change (2^4) with 16. lia. Qed.
Lemma shr4 h e : 0 <= h -> (e <= 12)%nat -> h mod 16 = 0 -> Z.shiftr (h + Z.of_nat e) 4 = h / 16.
Proof. intros. rewrite Z.shiftr_div_pow2 by lia. change (2^4) with 16. lia. Qed.

Lemma wrap_i64_wrap_u64 x : is_i64 x -> wrap_i64 (wrap_u64 x) = x.
Proof. intros. wr. Qed.
Lemma raw_step x prev : is_i64 x -> wrap_i64 (prev + wrap_i64 (wrap_u64 (wrap_u64 x - wrap_u64 prev))) = x.
Proof. apply delta_step. Qed.

Lemma column_tail {A} (P : A -> Prop) o col : column_of P (o :: col) -> column_of P col.
Proof. intros H w Hw. apply H. right; auto. Qed.
Lemma column_head {A} (P : A -> Prop) v col : column_of P (Some v :: col) -> P v.
Proof. intros H. apply H. left; auto. Qed.
Lemma column_head_i64 v col : column_of is_i64 (Some v :: col) -> is_i64 v.
Proof. apply column_head. Qed.
#[global] Hint Resolve column_tail column_head_i64 : col.

Lemma ts_unc_spec col : forall prev first, column_of is_i64 col ->
  (match non_nulls col with [] => True | x :: rest => first = wrap_u64 (wrap_u64 x - wrap_u64 prev) end) ->
  forall tail, tail = (match non_nulls col with [] => [] | x :: rest => first :: raw_deltas x rest end) ->
  ts_uncompressed_loop (valid_bits col) (flat_map (be_bytes 8) tail) prev = col.
Proof.
  induction col as [|[v|] col IH]; intros prev first HC Hf tail Ht; cbn [valid_bits map ts_uncompressed_loop non_nulls] in *; auto; fold (valid_bits col).
  - subst tail. cbn [flat_map].
    rewrite take_u64_be by (subst first; apply wrap_u64_u64).
    rewrite Hf, raw_step by eauto with col.
    rewrite (IH v (match non_nulls col with [] => 0 | x :: _ => wrap_u64 (wrap_u64 x - wrap_u64 v) end)); eauto with col.
    + destruct (non_nulls col); auto.
    + destruct (non_nulls col); auto.
  - f_equal. rewrite (IH prev first); eauto with col.
Qed.
Lemma ts_rle_spec col : forall prev d, column_of is_i64 col ->
  Forall (fun e => d = e) (raw_deltas prev (non_nulls col)) ->
  i64_rle_loop (valid_bits col) false prev (wrap_i64 d) = col.
Proof.
  induction col as [|[v|] col IH]; intros prev d HC F; cbn [valid_bits map i64_rle_loop non_nulls raw_deltas] in *; auto; fold (valid_bits col).
  - inversion F as [|? ? E F']; subst. rewrite raw_step by eauto with col. f_equal. apply IH; eauto with col.
  - f_equal. apply IH; eauto with col.
Qed.
Lemma ts_rle_first col : forall x0 rest d, column_of is_i64 col -> non_nulls col = x0 :: rest ->
  Forall (fun e => d = e) (raw_deltas x0 rest) ->
  i64_rle_loop (valid_bits col) true x0 (wrap_i64 d) = col.
Proof.
  induction col as [|[v|] col IH]; intros x0 rest d HC E F; cbn [valid_bits map i64_rle_loop non_nulls] in *; try discriminate; fold (valid_bits col).
  - inversion E; subst. f_equal. apply ts_rle_spec; eauto with col.
  - f_equal. eapply IH; eauto with col.
Qed.
Lemma ts_s8b_spec col : forall prev e, column_of is_i64 col ->
  Forall (fun d => d mod 10 ^ Z.of_nat e = 0) (raw_deltas prev (non_nulls col)) ->
  ts_simple8b_loop (valid_bits col) (10 ^ Z.of_nat e) prev
     (map (fun d => d / 10 ^ Z.of_nat e) (raw_deltas prev (non_nulls col))) = col.
Proof.
  induction col as [|[v|] col IH]; intros prev e HC F; cbn [valid_bits map ts_simple8b_loop non_nulls raw_deltas] in *; auto; fold (valid_bits col).
  - inversion F as [|? ? Hd F']; subst.
    set (d := wrap_u64 (wrap_u64 v - wrap_u64 prev)) in *.
    assert (Hu : is_u64 d) by apply wrap_u64_u64.
    assert (Hstep : (if 10 ^ Z.of_nat e >? 1 then wrap_u64 (d / 10 ^ Z.of_nat e * 10 ^ Z.of_nat e) else d / 10 ^ Z.of_nat e) = d).
    { pose proof (pow10_pos e). set (P := 10 ^ Z.of_nat e) in *.
      assert (d / P * P = d) by (rewrite (Z.div_mod d P) at 2 by lia; lia).
      destruct (P >? 1) eqn:EP; [rewrite H0; apply wrap_u64_id; auto|]. replace P with 1 by lia. apply Z.div_1_r. }
    rewrite Hstep. unfold d. rewrite raw_step by eauto with col.
    f_equal. apply IH; eauto with col.
  - f_equal. apply IH; eauto with col.
Qed.

(** First slot present: every path gives the column back. *)
Lemma ts_roundtrip col : column_of is_i64 col -> (forall c, col <> None :: c) ->
  exists bytes, ts_encode (non_nulls col) = Ok bytes /\ ts_decode bytes (valid_bits col) = Ok col.
Proof.
  intros HC HN. destruct col as [|[x0|] col]; [exists []; split; reflexivity| |exfalso; eapply HN; reflexivity].
  assert (H0 : is_i64 x0) by eauto with col. assert (HC' : column_of is_i64 col) by eauto with col.
  cbn [non_nulls]. unfold ts_encode.
  pose proof (raw_deltas_u64 x0 (non_nulls col)) as Fu.
  assert (Hw0 : is_u64 (wrap_u64 x0)) by apply wrap_u64_u64.
  destruct (raw_deltas x0 (non_nulls col)) as [|d1 ds] eqn:ED.
  - cbn [rbind]. unfold s8b_encode. cbn [s8b_encode_fuel length rbind].
    eexists. split; [reflexivity|]. cbn [ts_decode].
    change (Z.shiftr 28 4) with 1. change (1 =? 0) with false. change (1 =? 2) with false. change (1 =? 1) with true. cbv iota.
    unfold ts_decode_simple8b. rewrite take_u64_be by auto. cbn [valid_bits map s8b_decode rbind]. fold (valid_bits col).
    rewrite wrap_i64_wrap_u64 by auto. f_equal. f_equal.
    pose proof (ts_s8b_spec col x0 12 HC') as G. rewrite ED in G. apply G. constructor.
  - destruct (all_equal (d1 :: ds)) eqn:EA.
    + eexists. split; [reflexivity|]. cbn [ts_decode].
      assert (Hle := div_exp_le 12 d1). assert (Hd1 : is_u64 d1) by (inversion Fu; auto).
      rewrite shr4 by lia. change (32 / 16) with 2. change (2 =? 0) with false. change (2 =? 2) with true. cbv iota.
      unfold ts_decode_rle. rewrite take_u64_be by auto.
      pose proof (pow10_pos (div_exp 12 d1)) as HP.
      assert (Hd1p : 0 <= d1) by apply Hd1. pose proof (div_exp_divides 12 d1 Hd1p) as Hdd.
      set (P := 10 ^ Z.of_nat (div_exp 12 d1)) in *.
      rewrite varint_roundtrip by (unfold is_u64, U64_MAX in *; assert (d1 / P <= d1) by (apply Z.div_le_upper_bound; nia); pose proof (Z.div_pos d1 P); lia).
      rewrite land_low by lia. fold P.
      assert (HdP : d1 / P * P = d1) by (rewrite (Z.div_mod d1 P) at 2 by lia; lia).
      rewrite HdP, (wrap_u64_id d1) by auto. rewrite wrap_i64_wrap_u64 by auto.
      f_equal. apply (ts_rle_first (Some x0 :: col) x0 (non_nulls col) d1); [exact HC|reflexivity|]. rewrite ED. constructor; auto.
      cbn [all_equal] in EA. rewrite forallb_forall in EA.
      apply Forall_forall. intros e He. specialize (EA e He). lia.
    + destruct (max_of (d1 :: ds) >? S8B_MAX_VALUE) eqn:EM.
      * eexists. split; [reflexivity|]. cbn [ts_decode]. change (Z.shiftr 0 4) with 0. change (0 =? 0) with true. cbv iota.
        unfold ts_decode_uncompressed. rewrite flat_map_be_length.
        replace ((8 * length (wrap_u64 x0 :: d1 :: ds)) mod 8)%nat with 0%nat
          by (symmetry; rewrite Nat.mul_comm; apply Nat.mod_mul; lia).
        destruct (8 * length (wrap_u64 x0 :: d1 :: ds) =? 0)%nat eqn:E8; [cbn [length] in E8; lia|]. cbn [orb negb Nat.eqb].
        f_equal. apply (ts_unc_spec _ 0 (wrap_u64 x0)); auto; cbn [non_nulls]; [wr|]. rewrite ED; auto.
      * destruct (common_exp_spec (d1 :: ds) 12) as [Hle Hdiv].
        { eapply Forall_impl; [|exact Fu]. cbn. unfold is_u64. lia. }
        fold (common_exp (d1 :: ds)) in *. set (e := common_exp (d1 :: ds)) in *.
        pose proof (pow10_pos e) as HP.
        destruct (s8b_roundtrip (map (fun d => d / 10 ^ Z.of_nat e) (d1 :: ds))) as (packed&HE&HD).
        { apply Forall_forall. intros d' Hd'. apply in_map_iff in Hd' as (d&<-&Hd). rewrite Forall_forall in Fu. specialize (Fu d Hd).
          assert (HM : max_of (d1 :: ds) <= S8B_MAX_VALUE) by lia.
          apply max_of_le in HM. rewrite Forall_forall in HM. specialize (HM d Hd). unfold is_u64 in Fu.
          assert (d / 10 ^ Z.of_nat e <= d) by (apply Z.div_le_upper_bound; nia). pose proof (Z.div_pos d (10 ^ Z.of_nat e)). lia. }
        rewrite HE. cbn [rbind]. eexists. split; [reflexivity|]. cbn [ts_decode].
        rewrite shr4 by lia. change (16 / 16) with 1. change (1 =? 0) with false. change (1 =? 2) with false. change (1 =? 1) with true. cbv iota.
        unfold ts_decode_simple8b. rewrite take_u64_be by auto. rewrite HD. cbn [rbind valid_bits map]. fold (valid_bits col).
        rewrite wrap_i64_wrap_u64 by auto. rewrite land_low by lia. f_equal. f_equal.
        pose proof (ts_s8b_spec col x0 e HC') as G. rewrite ED in G. exact (G Hdiv).
Qed.

Lemma ts_null_loop_spec col : column_of is_i64 col ->
  ts_null_loop (valid_bits col) (flat_map (fun x => be_bytes 8 (wrap_u64 x)) (non_nulls col)) = Ok col.
Proof.
  induction col as [|[v|] col IH]; intros HC; cbn [valid_bits map ts_null_loop non_nulls flat_map] in *; auto; fold (valid_bits col).
  - rewrite take_u64_be by apply wrap_u64_u64. rewrite IH by eauto with col. cbn [rbind].
    rewrite wrap_i64_wrap_u64 by eauto with col. destruct (be_bytes_cons8 (wrap_u64 v)) as (a&b&c&d&e&f&g&h&->). reflexivity.
  - rewrite IH by eauto with col. reflexivity.
Qed.
Lemma ts_null_roundtrip col : column_of is_i64 col ->
  ts_null_decode (ts_null_encode (non_nulls col)) (valid_bits col) = Ok col.
Proof.
  intros HC. pose proof (ts_null_loop_spec col HC) as H. unfold ts_null_decode, ts_null_encode.
  destruct (non_nulls col) as [|x r] eqn:E; auto.
  f_equal. symmetry. apply no_values; auto.
Qed.
