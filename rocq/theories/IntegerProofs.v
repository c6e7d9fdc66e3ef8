From Verif Require Import Prelude Bytes Simple8bModel Simple8bProofs IntegerModel CodecSpec.

Ltac wr := i64; repeat match goal with |- context [if ?b then _ else _] => destruct b eqn:? end; lia.

Lemma lxor_neg1 x : Z.lxor x (-1) = - x - 1.
Proof. rewrite Z.lxor_m1_r. unfold Z.lnot. lia. Qed.
Lemma lxor_ones n a : 0 <= n -> 0 <= a < 2 ^ n -> Z.lxor a (2 ^ n - 1) = 2 ^ n - 1 - a.
Proof.
  intros Hn Ha. replace (2 ^ n - 1) with (Z.ones n) by (rewrite Z.ones_equiv; lia).
  assert (Hab : forall i, n <= i -> Z.testbit a i = false).
  { intros i Hi. destruct (Z.eq_dec a 0); [subst; apply Z.bits_0|apply Z.bits_above_log2; [lia|]].
    apply Z.log2_lt_pow2; try lia; apply Z.lt_le_trans with (2 ^ n); [lia|apply Z.pow_le_mono_r; lia]. }
  rewrite Z.sub_nocarry_ldiff.
  - apply Z.bits_inj'. intros i Hi. rewrite Z.lxor_spec, Z.ldiff_spec. 
    destruct (Z.ltb_spec i n).
    + rewrite Z.ones_spec_low by lia. destruct (Z.testbit a i); auto.
    + rewrite Z.ones_spec_high by lia. rewrite Hab by lia. auto.
  - apply Z.bits_inj'. intros i Hi. rewrite Z.ldiff_spec, Z.bits_0.
    destruct (Z.ltb_spec i n).
    + rewrite Z.ones_spec_low by lia. apply Bool.andb_false_r.
    + rewrite Hab by lia. auto.
Qed.

Lemma zz_enc_val v : is_i64 v -> zig_zag_encode v = if v <? 0 then - 2 * v - 1 else 2 * v.
Proof.
  intros H. unfold zig_zag_encode. rewrite Z.shiftl_mul_pow2 by lia. rewrite Z.shiftr_div_pow2 by lia. change (2 ^ 1) with 2.
  destruct (v <? 0) eqn:E.
  - replace (v / 2 ^ 63) with (-1) by (i64; lia). rewrite lxor_neg1. wr.
  - replace (v / 2 ^ 63) with 0 by (i64; lia). rewrite Z.lxor_0_r. wr.
Qed.
Lemma zz_dec_val v : is_u64 v -> zig_zag_decode v = if v mod 2 =? 0 then v / 2 else - (v / 2) - 1.
Proof.
  intros H. unfold zig_zag_decode. rewrite Z.shiftr_div_pow2 by lia. change (2^1) with 2.
  change 1 with (2^1-1) at 1. rewrite land_mask by lia. change (2^1) with 2.
  destruct (v mod 2 =? 0) eqn:E.
  - replace (v mod 2) with 0 by lia. rewrite Z.shiftl_0_l. change (wrap_u64 _) with 0. rewrite Z.lxor_0_r.
    apply wrap_i64_id. i64; lia.
  - replace (v mod 2) with 1 by lia. replace (wrap_u64 _) with (2 ^ 64 - 1) by reflexivity.
    rewrite lxor_ones by (i64; lia). wr.
Qed.
Lemma zz_u64 v : is_i64 v -> is_u64 (zig_zag_encode v).
Proof. intros H. rewrite zz_enc_val by auto. destruct (v <? 0) eqn:E; i64; lia. Qed.
Lemma zz_roundtrip v : is_i64 v -> zig_zag_decode (zig_zag_encode v) = v.
Proof.
  intros H. rewrite zz_dec_val by (apply zz_u64; auto). rewrite zz_enc_val by auto.
  destruct (v <? 0) eqn:E; destruct (_ =? 0) eqn:E2; lia.
Qed.
Lemma wrap_i64_i64 z : is_i64 (wrap_i64 z).
Proof. wr. Qed.
Lemma wrap_u64_u64 z : is_u64 (wrap_u64 z).
Proof. wr. Qed.
Lemma delta_step x prev : is_i64 x ->
  wrap_i64 (prev + wrap_i64 (wrap_u64 (wrap_u64 x - wrap_u64 prev))) = x.
Proof. intros H. wr. Qed.
Lemma zz_step x prev : is_i64 x ->
  wrap_i64 (prev + zig_zag_decode (zig_zag_encode (wrap_i64 (wrap_u64 (wrap_u64 x - wrap_u64 prev))))) = x.
Proof. intros H. rewrite zz_roundtrip by apply wrap_i64_i64. apply delta_step; auto. Qed.

Lemma zz_deltas_u64 prev l : Forall is_u64 (zz_deltas prev l).
Proof. revert prev. induction l as [|x l IH]; intros prev; cbn [zz_deltas]; constructor; auto. apply zz_u64, wrap_i64_i64. Qed.
Lemma zz_deltas_length prev l : length (zz_deltas prev l) = length l.
Proof. revert prev. induction l; intros; cbn [zz_deltas length]; auto. Qed.

Lemma take_u64_be w rest : is_u64 w -> take_u64 (be_bytes 8 w ++ rest) = Some (w, rest).
Proof.
  intros H. destruct (be_bytes_cons8 w) as (a&b&c&d&e&f&g&h&E). rewrite E. cbn [app take_u64]. rewrite <- E, of_be_u64; auto.
Qed.
Lemma max_of_le l M : max_of l <= M -> Forall (fun d => d <= M) l.
Proof.
  induction l as [|d l IH]; cbn [max_of fold_right]; intros H; constructor; fold (max_of l) in *.
  - destruct (d >? max_of l) eqn:E; lia.
  - apply IH. destruct (d >? max_of l) eqn:E; lia.
Qed.

Lemma uncompressed_loop_spec col : forall prev first, column_of is_i64 col ->
  (match non_nulls col with [] => True | x :: rest => first = zig_zag_encode (wrap_i64 (wrap_u64 (wrap_u64 x - wrap_u64 prev))) end) ->
  forall tail, tail = (match non_nulls col with [] => [] | x :: rest => first :: zz_deltas x rest end) ->
  i64_uncompressed_loop (valid_bits col) (flat_map (be_bytes 8) tail) prev = Ok col.
Proof.
  induction col as [|[v|] col IH]; intros prev first HC Hf tail Ht; cbn [valid_bits map i64_uncompressed_loop non_nulls] in *; auto.
  - subst tail. cbn [flat_map]. 
    assert (Hv : is_i64 v) by (apply HC; left; auto).
    rewrite take_u64_be by (subst first; apply zz_u64, wrap_i64_i64).
    rewrite Hf, zz_step by auto. fold (valid_bits col).
    rewrite (IH v (match non_nulls col with [] => 0 | x :: _ => zig_zag_encode (wrap_i64 (wrap_u64 (wrap_u64 x - wrap_u64 v))) end)).
    + reflexivity.
    + intros w Hw; apply HC; right; auto.
    + destruct (non_nulls col); auto.
    + destruct (non_nulls col); auto.
  - fold (valid_bits col). rewrite (IH prev first); auto. intros w Hw; apply HC; right; auto.
Qed.

Lemma rle_loop_spec col : forall prev d, column_of is_i64 col ->
  Forall (fun e => d = e) (zz_deltas prev (non_nulls col)) ->
  i64_rle_loop (valid_bits col) false prev (zig_zag_decode d) = col.
Proof.
  induction col as [|[v|] col IH]; intros prev d HC F; cbn [valid_bits map i64_rle_loop non_nulls zz_deltas] in *; auto; fold (valid_bits col).
  - inversion F as [|? ? E F']; subst. rewrite zz_step by (apply HC; left; auto).
    f_equal. apply IH; auto. intros w Hw; apply HC; right; auto.
  - f_equal. apply IH; auto. intros w Hw; apply HC; right; auto.
Qed.
Lemma rle_first_spec col : forall x0 rest d, column_of is_i64 col -> non_nulls col = x0 :: rest ->
  Forall (fun e => d = e) (zz_deltas x0 rest) ->
  i64_rle_loop (valid_bits col) true x0 (zig_zag_decode d) = col.
Proof.
  induction col as [|[v|] col IH]; intros x0 rest d HC E F; cbn [valid_bits map i64_rle_loop non_nulls] in *; try discriminate; fold (valid_bits col).
  - inversion E; subst. f_equal. apply rle_loop_spec; auto. intros w Hw; apply HC; right; auto.
  - f_equal. eapply IH; eauto. intros w Hw; apply HC; right; auto.
Qed.
Lemma s8b_loop_spec col : forall prev, column_of is_i64 col ->
  i64_simple8b_loop (valid_bits col) prev (zz_deltas prev (non_nulls col)) = col.
Proof.
  induction col as [|[v|] col IH]; intros prev HC; cbn [valid_bits map i64_simple8b_loop non_nulls zz_deltas] in *; auto; fold (valid_bits col).
  - rewrite zz_step by (apply HC; left; auto). f_equal. apply IH; auto. intros w Hw; apply HC; right; auto.
  - f_equal. apply IH. intros w Hw; apply HC; right; auto.
Qed.
Lemma s8b_first_spec col : forall x0 rest packed, column_of is_i64 col -> non_nulls col = x0 :: rest ->
  s8b_decode packed = Ok (zz_deltas x0 rest) ->
  i64_simple8b_first (valid_bits col) x0 packed = Ok col.
Proof.
  induction col as [|[v|] col IH]; intros x0 rest packed HC E HP; cbn [valid_bits map i64_simple8b_first non_nulls] in *; try discriminate; fold (valid_bits col).
  - inversion E; subst. rewrite HP. cbn [rbind]. rewrite s8b_loop_spec; auto. intros w Hw; apply HC; right; auto.
  - erewrite IH; eauto. intros w Hw; apply HC; right; auto.
Qed.
Lemma flat_map_be_length l : length (flat_map (be_bytes 8) l) = (8 * length l)%nat.
Proof. induction l as [|x l IH]; cbn [flat_map length]; auto. rewrite app_length, be_bytes_length, IH. lia. Qed.

Lemma i64_roundtrip col : column_of is_i64 col ->
  exists bytes, i64_encode (non_nulls col) = Ok bytes /\ i64_decode bytes (valid_bits col) = Ok col.
Proof.
  intros HC. destruct (non_nulls col) as [|x0 rest] eqn:E.
  - exists []. split; auto. cbn [i64_decode]. f_equal. symmetry. apply no_values; auto.
  - pose proof (column_of_non_nulls _ _ HC) as F. rewrite E in F. inversion F as [|? ? H0 Fr]; subst.
    assert (Hd0 : zig_zag_decode (zig_zag_encode x0) = x0) by (apply zz_roundtrip; auto).
    assert (Hu0 : is_u64 (zig_zag_encode x0)) by (apply zz_u64; auto).
    pose proof (zz_deltas_u64 x0 rest) as Fu.
    cbn [i64_encode].
    destruct ((2 <? length (x0 :: rest))%nat && all_equal (zz_deltas x0 rest))%bool eqn:ER.
    + destruct (zz_deltas x0 rest) as [|d1 ds] eqn:ED.
      { destruct rest; cbn in ER, ED; discriminate. }
      eexists. split; [reflexivity|]. cbn [i64_decode]. change (Z.shiftr 32 4) with 2.
      change (2 =? 0) with false. change (2 =? 2) with true. cbv iota.
      unfold i64_decode_rle. rewrite take_u64_be by auto.
      rewrite varint_roundtrip by (inversion Fu; auto).
      rewrite Hd0. f_equal. eapply rle_first_spec; eauto. rewrite ED. constructor; auto.
      apply Bool.andb_true_iff in ER as [_ ER]. cbn [all_equal] in ER. rewrite forallb_forall in ER.
      apply Forall_forall. intros e He. specialize (ER e He). lia.
    + destruct (max_of (zz_deltas x0 rest) >? S8B_MAX_VALUE) eqn:EM.
      * eexists. split; [reflexivity|]. cbn [i64_decode]. change (Z.shiftr 0 4) with 0. change (0 =? 0) with true. cbv iota.
        unfold i64_decode_uncompressed. rewrite flat_map_be_length.
        replace ((8 * length (zig_zag_encode x0 :: zz_deltas x0 rest)) mod 8)%nat with 0%nat
          by (symmetry; rewrite Nat.mul_comm; apply Nat.mod_mul; lia).
        cbn [length]. destruct (8 * S (length (zz_deltas x0 rest)) =? 0)%nat eqn:E8; [lia|]. cbn [orb negb Nat.eqb].
        apply (uncompressed_loop_spec col 0 (zig_zag_encode x0)); auto; rewrite E; auto.
        f_equal. wr.
      * destruct (s8b_roundtrip (zz_deltas x0 rest)) as (packed&HE&HD).
        { apply Forall_forall. intros d Hd. rewrite Forall_forall in Fu. specialize (Fu d Hd).
          assert (HM : max_of (zz_deltas x0 rest) <= S8B_MAX_VALUE) by lia.
          apply max_of_le in HM. rewrite Forall_forall in HM. specialize (HM d Hd). unfold is_u64 in Fu. lia. }
        rewrite HE. cbn [rbind]. eexists. split; [reflexivity|]. cbn [i64_decode].
        change (Z.shiftr 16 4) with 1. change (1 =? 0) with false. change (1 =? 2) with false. change (1 =? 1) with true. cbv iota.
        unfold i64_decode_simple8b. rewrite take_u64_be by auto. rewrite Hd0.
        eapply s8b_first_spec; eauto.
Qed.

Lemma non_nulls_map {A B} (f : A -> B) col : non_nulls (map (option_map f) col) = map f (non_nulls col).
Proof. induction col as [|[v|] col IH]; cbn; congruence. Qed.
Lemma valid_bits_map {A B} (f : A -> B) col : valid_bits (map (option_map f) col) = valid_bits col.
Proof. induction col as [|[v|] col IH]; cbn; unfold valid_bits in *; congruence. Qed.

Lemma u64_roundtrip col : column_of is_u64 col ->
  exists bytes, u64_encode (non_nulls col) = Ok bytes /\ u64_decode bytes (valid_bits col) = Ok col.
Proof.
  intros HC. destruct (i64_roundtrip (map (option_map wrap_i64) col)) as (b&HE&HD).
  { intros v Hv. apply in_map_iff in Hv as (o&Ho&_). destruct o; inversion Ho. apply wrap_i64_i64. }
  rewrite non_nulls_map in HE. rewrite valid_bits_map in HD.
  exists b. split; [exact HE|]. unfold u64_decode. 
  assert (G : map (option_map wrap_u64) (map (option_map wrap_i64) col) = col).
  { rewrite map_map. rewrite <- (map_id col) at 2. apply map_ext_in. intros [v|] Hv; auto. cbn. f_equal.
    assert (is_u64 v) by (apply HC; auto). wr. }
  destruct b as [|z b].
  - cbn [i64_decode] in HD. inversion HD as [HD']. f_equal. etransitivity; [|exact G]. rewrite <- HD'.
    generalize (length (valid_bits col)) as n. induction n; cbn; congruence.
  - rewrite HD. unfold rmap. cbn [rbind]. congruence.
Qed.
