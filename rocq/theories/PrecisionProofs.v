From Verif Require Import Prelude Bytes TimeRangeModel TimeRangeSpec TimeRangeProofs PrecisionModel PrecisionSpec.


Lemma quot_mul_exact a b : 0 < b -> (b | a) -> Z.quot a b * b = a.
Proof. intros Hb [k ->]. rewrite Z.quot_mul by lia. auto. Qed.
Lemma quot_i64 a b : 0 < b -> is_i64 a -> is_i64 (Z.quot a b).
Proof.
  unfold is_i64. rewrite I64_MIN_eq, I64_MAX_eq. intros Hb Ha.
  pose proof (Z.quot_rem' a b). destruct (Z.le_gt_cases 0 a).
  - assert (0 <= Z.quot a b) by (apply Z.quot_pos; lia). assert (Z.quot a b <= a) by (apply Z.quot_le_upper_bound; nia). lia.
  - assert (E : Z.quot a b = - Z.quot (-a) b) by (rewrite Z.quot_opp_l; lia).
    assert (0 <= Z.quot (-a) b) by (apply Z.quot_pos; lia). assert (Z.quot (-a) b <= -a) by (apply Z.quot_le_upper_bound; nia). lia.
Qed.
Lemma checked_mul_spec a b v : checked_mul a b = Some v <-> v = a * b /\ is_i64 v.
Proof.
  unfold checked_mul, is_i64. destruct (_ && _)%bool eqn:E; split; intros H.
  - inversion H; subst. lia.
  - f_equal; lia.
  - discriminate.
  - destruct H as [-> H]. lia.
Qed.
Lemma checked_mul_none a b : checked_mul a b = None <-> ~ is_i64 (a * b).
Proof.
  unfold checked_mul, is_i64. destruct (_ && _)%bool eqn:E; split; intros H; try discriminate; try lia; auto.
Qed.

(** To a finer (or the same) unit: exact or refused. *)
Lemma convert_finer from to ts : is_i64 ts -> unit_ns to <= unit_ns from ->
  (forall v, timestamp_convert from to ts = Some v <-> v * unit_ns to = ts * unit_ns from /\ is_i64 v).
Proof.
  intros Hts Hu v. destruct from, to; cbn [unit_ns timestamp_convert] in *; try lia; rewrite ?checked_mul_spec;
  (split; [intros H; try (inversion H; subst); split; auto; try lia | intros [H1 H2]; try (f_equal; lia); try split; auto; lia]).
Qed.
(** To a coarser unit: always defined, and the nearest multiple towards zero. *)
Lemma convert_coarser from to ts : is_i64 ts -> unit_ns from <= unit_ns to ->
  exists v, timestamp_convert from to ts = Some v /\ is_i64 v /\
    Z.abs (v * unit_ns to) <= Z.abs (ts * unit_ns from) < Z.abs (v * unit_ns to) + unit_ns to /\ 0 <= v * ts.
Proof.
  intros Hts Hu.
  assert (Q : forall b, 0 < b -> Z.abs (Z.quot ts b * b) <= Z.abs ts < Z.abs (Z.quot ts b * b) + b /\ 0 <= Z.quot ts b * ts).
  { intros b Hb. pose proof (Z.quot_rem' ts b). pose proof (Z.rem_bound_abs ts b ltac:(lia)).
    destruct (Z.le_gt_cases 0 ts).
    - assert (0 <= Z.quot ts b) by (apply Z.quot_pos; lia). assert (0 <= Z.rem ts b) by (apply Z.rem_nonneg; lia). nia.
    - assert (E : Z.quot ts b = - Z.quot (-ts) b) by (rewrite Z.quot_opp_l; lia).
      assert (0 <= Z.quot (-ts) b) by (apply Z.quot_pos; lia). assert (Z.rem ts b <= 0) by (apply Z.rem_nonpos; lia). nia. }
  destruct from, to; cbn [unit_ns timestamp_convert] in *; try lia; (eexists; split; [reflexivity|]; split; [try apply quot_i64; auto; lia|]);
    try (pose proof (Q 1000 ltac:(lia))); try (pose proof (Q 1000000 ltac:(lia))); try nia.
Qed.
Lemma convert_roundtrip from to ts : is_i64 ts -> unit_ns from <= unit_ns to -> (unit_ns to | ts * unit_ns from) ->
  exists v, timestamp_convert from to ts = Some v /\ v * unit_ns to = ts * unit_ns from /\ timestamp_convert to from v = Some ts.
Proof.
  intros Hts Hu Hd. destruct (convert_coarser from to ts Hts Hu) as (v&HE&Hv&HA&HS).
  exists v. split; auto.
  assert (E : v * unit_ns to = ts * unit_ns from).
  { destruct Hd as [k Hk]. destruct from, to; cbn [unit_ns] in *; try lia; nia. }
  split; auto. apply (convert_finer to from v Hv Hu). auto.
Qed.
Lemma convert_mono from to a b va vb : is_i64 a -> is_i64 b -> a <= b ->
  timestamp_convert from to a = Some va -> timestamp_convert from to b = Some vb -> va <= vb.
Proof.
  intros Ha Hb Hab HA HB.
  destruct from, to; cbn [timestamp_convert] in *; rewrite ?checked_mul_spec in *;
    try (inversion HA; inversion HB; subst; try lia; apply Z.quot_le_mono; lia); lia.
Qed.

Lemma to_precision_spec d p : 0 <= dur_ns d -> is_inf d = false ->
  to_precision d p = Z.min (dur_ns d / unit_ns p) I64_MAX.
Proof. intros H1 H2. unfold to_precision. rewrite H2. destruct p; cbn [unit_ns]; rewrite ?Z.div_1_r; auto. Qed.

(** *** DELETE bounds *)
Lemma unit_pos p : 0 < unit_ns p. Proof. destruct p; cbn; lia. Qed.
Lemma convert_from_ns p ts : timestamp_convert NS p ts = Some (Z.quot ts (unit_ns p)).
Proof. destruct p; cbn; auto. f_equal. symmetry. apply Z.quot_1_r. Qed.
Lemma convert_ranges_eq p l : convert_ranges p l = Some (map (fun r => TR (Z.quot (tmin r) (unit_ns p)) (Z.quot (tmax r) (unit_ns p))) l).
Proof. induction l; cbn [convert_ranges map]; auto. rewrite !convert_from_ns, IHl. reflexivity. Qed.

Lemma quot_lower u a v : 0 < u -> a <= 0 \/ (u | a) -> (Z.quot a u <= v <-> a <= v * u).
Proof.
  intros Hu [H|[k ->]]; [|rewrite Z.quot_mul by lia; nia].
  assert (E : Z.quot a u = - Z.quot (-a) u) by (rewrite Z.quot_opp_l; lia).
  pose proof (Z.quot_rem' (-a) u). assert (0 <= Z.rem (-a) u < u) by (apply Z.rem_bound_pos; lia). nia.
Qed.
Lemma quot_upper u a v : 0 < u -> 0 <= a \/ (u | a) -> (v <= Z.quot a u <-> v * u <= a).
Proof.
  intros Hu [H|[k ->]]; [|rewrite Z.quot_mul by lia; nia].
  pose proof (Z.quot_rem' a u). assert (0 <= Z.rem a u < u) by (apply Z.rem_bound_pos; lia). nia.
Qed.
Lemma delete_times_exact p l : Forall (fun r => i64_range r /\ nonempty r /\ exact_bounds p r) l ->
  exists s, delete_times p l = Some s /\
  forall v, trs_contains s v = true <-> exists r, In r l /\ tmin r <= v * unit_ns p <= tmax r.
Proof.
  intros HF. unfold delete_times. rewrite convert_ranges_eq. cbn [option_map]. eexists. split; [reflexivity|].
  intros v. pose proof (unit_pos p) as Hu.
  assert (HF' : Forall (fun r => i64_range r /\ nonempty r) (map (fun r => TR (Z.quot (tmin r) (unit_ns p)) (Z.quot (tmax r) (unit_ns p))) l)).
  { apply Forall_forall. intros r Hr. apply in_map_iff in Hr as (q&<-&Hq). rewrite Forall_forall in HF. destruct (HF q Hq) as ([H1 H2]&H3&H4).
    unfold i64_range, nonempty in *. cbn [tmin tmax]. repeat split; try (apply quot_i64; auto). apply Z.quot_le_mono; auto. }
  rewrite (new_set _ HF' v). unfold instants_of, instants. split.
  - intros (r&Hr&Hv). apply in_map_iff in Hr as (q&<-&Hq). cbn [tmin tmax] in Hv. rewrite Forall_forall in HF. destruct (HF q Hq) as (_&_&[H4 H5]).
    exists q. split; auto. rewrite (quot_lower _ _ v Hu H4), (quot_upper _ _ v Hu H5) in Hv. auto.
  - intros (q&Hq&Hv). rewrite Forall_forall in HF. destruct (HF q Hq) as (_&_&[H4 H5]).
    eexists. split; [apply in_map_iff; exists q; split; [reflexivity|auto]|]. cbn [tmin tmax].
    rewrite (quot_lower _ _ v Hu H4), (quot_upper _ _ v Hu H5). auto.
Qed.
(** In general the conversion only ever removes too much, and at most one unit too much, among the timestamps
    whose nanosecond value is representable: nothing inside the bounds survives. *)
Lemma delete_times_covers p l : Forall (fun r => i64_range r /\ nonempty r) l ->
  exists s, delete_times p l = Some s /\
  (forall v r, In r l -> tmin r <= v * unit_ns p <= tmax r -> trs_contains s v = true) /\
  (forall v, trs_contains s v = true -> exists r, In r l /\ tmin r - unit_ns p < v * unit_ns p < tmax r + unit_ns p).
Proof.
  intros HF. unfold delete_times. rewrite convert_ranges_eq. cbn [option_map]. eexists. split; [reflexivity|].
  pose proof (unit_pos p) as Hu.
  assert (HF' : Forall (fun r => i64_range r /\ nonempty r) (map (fun r => TR (Z.quot (tmin r) (unit_ns p)) (Z.quot (tmax r) (unit_ns p))) l)).
  { apply Forall_forall. intros r Hr. apply in_map_iff in Hr as (q&<-&Hq). rewrite Forall_forall in HF. destruct (HF q Hq) as ([H1 H2]&H3).
    unfold i64_range, nonempty in *. cbn [tmin tmax]. repeat split; try (apply quot_i64; auto). apply Z.quot_le_mono; auto. }
  assert (Q : forall a, Z.abs (Z.quot a (unit_ns p) * unit_ns p) <= Z.abs a < Z.abs (Z.quot a (unit_ns p) * unit_ns p) + unit_ns p /\ 0 <= Z.quot a (unit_ns p) * a).
  { intros a. pose proof (Z.quot_rem' a (unit_ns p)). pose proof (Z.rem_bound_abs a (unit_ns p) ltac:(lia)).
    destruct (Z.le_gt_cases 0 a).
    - assert (0 <= Z.quot a (unit_ns p)) by (apply Z.quot_pos; lia). assert (0 <= Z.rem a (unit_ns p)) by (apply Z.rem_nonneg; lia). nia.
    - assert (E : Z.quot a (unit_ns p) = - Z.quot (-a) (unit_ns p)) by (rewrite Z.quot_opp_l; lia).
      assert (0 <= Z.quot (-a) (unit_ns p)) by (apply Z.quot_pos; lia). assert (Z.rem a (unit_ns p) <= 0) by (apply Z.rem_nonpos; lia). nia. }
  split.
  - intros v q Hq Hv. apply (new_set _ HF' v). eexists. split; [apply in_map_iff; exists q; split; [reflexivity|auto]|]. unfold instants. cbn [tmin tmax].
    pose proof (Q (tmin q)). pose proof (Q (tmax q)).
    destruct (Z.le_gt_cases (tmin q) 0), (Z.le_gt_cases 0 (tmax q)); split; nia.
  - intros v Hv. apply (new_set _ HF' v) in Hv as (r&Hr&Hv). apply in_map_iff in Hr as (q&<-&Hq). unfold instants in Hv. cbn [tmin tmax] in Hv.
    exists q. split; auto. pose proof (Q (tmin q)). pose proof (Q (tmax q)).
    assert (0 <= v * v) by nia. split; nia.
Qed.

(** *** packed ids *)
Lemma land_low a : Z.land a LOW_32BIT_MASK = a mod 2 ^ 32.
Proof. apply (land_mask a 32). lia. Qed.
Lemma unite_id_eq h i : 0 <= h < 2 ^ 32 -> 0 <= i < 2 ^ 32 -> unite_id h i = i + h * 2 ^ 32.
Proof.
  intros Hh Hi. unfold unite_id. cbv zeta. rewrite Z.shiftl_mul_pow2 by lia.
  change (LOW_32BIT_MASK mod 2 ^ 32) with LOW_32BIT_MASK. rewrite land_low. rewrite (Z.mod_small i) by lia.
  rewrite wrap_u64_id by (unfold is_u64, U64_MAX; change (2 ^ 64) with (2 ^ 32 * 2 ^ 32); nia).
  rewrite <- (lor_add i h 32) by lia. rewrite Z.shiftl_mul_pow2 by lia. apply Z.lor_comm.
Qed.
Lemma split_unite h i : 0 <= h < 2 ^ 32 -> 0 <= i < 2 ^ 32 -> split_id (unite_id h i) = (h, i).
Proof.
  intros Hh Hi. rewrite unite_id_eq by auto. unfold split_id. f_equal.
  - change HIGH_32BIT_MASK with (Z.shiftl LOW_32BIT_MASK 32). rewrite Z.shiftr_land, Z.shiftr_shiftl_l by lia.
    change (32 - 32) with 0. rewrite Z.shiftl_0_r, land_low. rewrite Z.shiftr_div_pow2 by lia.
    rewrite Z.div_add by lia. rewrite Z.div_small by lia. rewrite Z.mod_mod by lia. apply Z.mod_small. lia.
  - rewrite land_low. rewrite Z.mod_mod by lia. rewrite Z.mod_add by lia. apply Z.mod_small. lia.
Qed.
Lemma unite_split id : is_u64 id -> unite_id (fst (split_id id)) (snd (split_id id)) = id.
Proof.
  intros Hid. unfold split_id. cbn [fst snd].
  change HIGH_32BIT_MASK with (Z.shiftl LOW_32BIT_MASK 32). rewrite Z.shiftr_land, Z.shiftr_shiftl_l by lia.
  change (32 - 32) with 0. rewrite Z.shiftl_0_r, !land_low, Z.shiftr_div_pow2 by lia. rewrite !Z.mod_mod by lia.
  pose proof (Z.mod_pos_bound id (2 ^ 32) ltac:(lia)). pose proof (Z.mod_pos_bound (id / 2 ^ 32) (2 ^ 32) ltac:(lia)).
  rewrite unite_id_eq by auto.
  rewrite (Z.mod_small (id / 2 ^ 32)).
  - pose proof (Z.div_mod id (2 ^ 32) ltac:(lia)). lia.
  - unfold is_u64, U64_MAX in Hid. change (2 ^ 64) with (2 ^ 32 * 2 ^ 32) in Hid. split; [apply Z.div_pos; lia|]. apply Z.div_lt_upper_bound; lia.
Qed.
