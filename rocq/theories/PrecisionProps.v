(** C05, C40, C42: precision conversion, DELETE bounds, packed ids. *)
From Verif Require Import Prelude TimeRangeModel TimeRangeSpec PrecisionModel PrecisionSpec PrecisionProofs.

(** ** C42.  [unit_ns p] is the number of nanoseconds in one unit of precision [p]. *)
(** To a finer unit: the result is the same instant, and the conversion is refused exactly when that instant is
    not an i64 of the finer unit. *)
Theorem C42_to_finer_exact : forall from to ts, is_i64 ts -> unit_ns to <= unit_ns from ->
  forall v, timestamp_convert from to ts = Some v <-> v * unit_ns to = ts * unit_ns from /\ is_i64 v.
Proof. exact convert_finer. Qed.
Print Assumptions C42_to_finer_exact.
(** To a coarser unit: never refused; less than one unit away, towards the epoch. *)
Theorem C42_to_coarser_truncates : forall from to ts, is_i64 ts -> unit_ns from <= unit_ns to ->
  exists v, timestamp_convert from to ts = Some v /\ is_i64 v /\
    Z.abs (v * unit_ns to) <= Z.abs (ts * unit_ns from) < Z.abs (v * unit_ns to) + unit_ns to /\ 0 <= v * ts.
Proof. exact convert_coarser. Qed.
Print Assumptions C42_to_coarser_truncates.
Theorem C42_roundtrip : forall from to ts, is_i64 ts -> unit_ns from <= unit_ns to -> (unit_ns to | ts * unit_ns from) ->
  exists v, timestamp_convert from to ts = Some v /\ v * unit_ns to = ts * unit_ns from /\ timestamp_convert to from v = Some ts.
Proof. exact convert_roundtrip. Qed.
Print Assumptions C42_roundtrip.
Theorem C42_monotone : forall from to a b va vb, is_i64 a -> is_i64 b -> a <= b ->
  timestamp_convert from to a = Some va -> timestamp_convert from to b = Some vb -> va <= vb.
Proof. exact convert_mono. Qed.
Print Assumptions C42_monotone.
(** A configured duration read in a precision is the whole number of units, capped at i64::MAX. *)
Theorem C42_duration_units : forall d p, 0 <= dur_ns d -> is_inf d = false ->
  to_precision d p = Z.min (dur_ns d / unit_ns p) I64_MAX.
Proof. exact to_precision_spec. Qed.
Print Assumptions C42_duration_units.
Example C42_nonvacuous :
  timestamp_convert MS NS 9223372036854 = Some 9223372036854000000 /\ timestamp_convert MS NS 9223372036855 = None /\
  timestamp_convert NS MS (-1500000) = Some (-1) /\ (unit_ns MS | (-3000) * unit_ns US) /\ timestamp_convert US MS (-3000) = Some (-3).
Proof. repeat split; try reflexivity. exists (-3). reflexivity. Qed.

(** ** C05.  The DELETE applies to the stored timestamp [v] (in units of [p]) iff the instant [v * unit_ns p]
    nanoseconds is within one of the ranges the user gave.
    Partial: only for bounds that truncation towards zero does not widen. *)
Theorem C05_delete_bounds_partial : forall p l, Forall (fun r => i64_range r /\ nonempty r /\ exact_bounds p r) l ->
  exists s, delete_times p l = Some s /\
  forall v, trs_contains s v = true <-> exists r, In r l /\ tmin r <= v * unit_ns p <= tmax r.
Proof. exact delete_times_exact. Qed.
Print Assumptions C05_delete_bounds_partial.
(** Whatever the bounds, no row inside them survives, and a row wrongly removed is less than one unit outside. *)
Theorem C05_delete_covers : forall p l, Forall (fun r => i64_range r /\ nonempty r) l ->
  exists s, delete_times p l = Some s /\
  (forall v r, In r l -> tmin r <= v * unit_ns p <= tmax r -> trs_contains s v = true) /\
  (forall v, trs_contains s v = true -> exists r, In r l /\ tmin r - unit_ns p < v * unit_ns p < tmax r + unit_ns p).
Proof. exact delete_times_covers. Qed.
Print Assumptions C05_delete_covers.
Example C05_nonvacuous :
  let l := [TR (-1500000) 2700000; TR 5000000 I64_MAX] in
  Forall (fun r => i64_range r /\ nonempty r /\ exact_bounds MS r) l /\
  option_map inner (delete_times MS l) = Some [(-1, 2); (5, 9223372036854)].
Proof.
  cbn zeta. split; [|vm_compute; reflexivity].
  repeat apply Forall_cons; try apply Forall_nil.
  - split; [ok_range|split; [ok_range|]]. split; left; cbn; lia.
  - split; [ok_range|split; [ok_range|]]. split; [right; exists 5; reflexivity|left]. vm_compute. discriminate.
Qed.
(** FINDING.  A lower bound that is positive and not a whole unit is rounded down: in a millisecond database
    DELETE ... WHERE time >= '1970-01-01T00:00:01.0005' also removes the row at 00:00:01.000. *)
Theorem C05_lower_bound_refuted : exists p l v s, Forall (fun r => i64_range r /\ nonempty r) l /\
  delete_times p l = Some s /\ trs_contains s v = true /\ ~ exists r, In r l /\ tmin r <= v * unit_ns p <= tmax r.
Proof.
  exists MS, [TR 1000500000 I64_MAX], 1000. eexists. split; [ok_ranges|]. split; [reflexivity|]. split; [vm_compute; reflexivity|].
  intros (r&[<-|[]]&H). cbn in H. lia.
Qed.
Print Assumptions C05_lower_bound_refuted.
(** FINDING.  A negative upper bound is rounded up: time <= -0.5ms also removes the row at 0. *)
Theorem C05_upper_bound_refuted : exists p l v s, Forall (fun r => i64_range r /\ nonempty r) l /\
  delete_times p l = Some s /\ trs_contains s v = true /\ ~ exists r, In r l /\ tmin r <= v * unit_ns p <= tmax r.
Proof.
  exists MS, [TR I64_MIN (-500000)], 0. eexists. split; [ok_ranges|]. split; [reflexivity|]. split; [vm_compute; reflexivity|].
  intros (r&[<-|[]]&H). cbn in H. lia.
Qed.
Print Assumptions C05_upper_bound_refuted.
(** FINDING.  A DELETE whose WHERE clause has no time bound is given [i64::MIN, i64::MAX] nanoseconds, which becomes
    +-9223372036854 milliseconds: rows of a millisecond database outside that (year > 2262) are never removed. *)
Theorem C05_unbounded_refuted : exists p v s, is_i64 v /\
  delete_times p [tr_all] = Some s /\ trs_contains s v = false.
Proof.
  exists MS, 9223372036855. eexists. split; [unfold is_i64; rewrite I64_MIN_eq, I64_MAX_eq; lia|]. split; [reflexivity|]. vm_compute. reflexivity.
Qed.
Print Assumptions C05_unbounded_refuted.

(** ** C40 *)
Theorem C40_split_unite : forall h i, 0 <= h < 2 ^ 32 -> 0 <= i < 2 ^ 32 -> split_id (unite_id h i) = (h, i).
Proof. exact split_unite. Qed.
Print Assumptions C40_split_unite.
Theorem C40_unite_split : forall id, is_u64 id -> unite_id (fst (split_id id)) (snd (split_id id)) = id.
Proof. exact unite_split. Qed.
Print Assumptions C40_unite_split.
Theorem C40_unite_injective : forall h i h' i', 0 <= h < 2 ^ 32 -> 0 <= i < 2 ^ 32 -> 0 <= h' < 2 ^ 32 -> 0 <= i' < 2 ^ 32 ->
  unite_id h i = unite_id h' i' -> h = h' /\ i = i'.
Proof.
  intros h i h' i' H1 H2 H3 H4 E. pose proof (split_unite h i H1 H2) as A. rewrite E, split_unite in A by auto.
  inversion A; auto.
Qed.
Print Assumptions C40_unite_injective.
Example C40_nonvacuous : split_id (unite_id 4294967295 7) = (4294967295, 7) /\ unite_id 4294967295 7 = 18446744069414584327.
Proof. split; reflexivity. Qed.
