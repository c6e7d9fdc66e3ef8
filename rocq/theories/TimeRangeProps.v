(** C01: time-range sets behave as sets of instants. *)
From Verif Require Import Prelude TimeRangeModel TimeRangeSpec TimeRangeProofs.

(** [TimeRanges::new] contains exactly the instants of the ranges it was given. *)
Theorem C01_new_exact : forall l, Forall (fun r => i64_range r /\ nonempty r) l ->
  forall t, trs_contains (trs_new l) t = true <-> exists r, In r l /\ tmin r <= t <= tmax r.
Proof. exact new_set. Qed.
Print Assumptions C01_new_exact.
Example C01_new_exact_nonvacuous :
  let l := [TR 10 20; TR (-5) 3; TR 4 9; TR I64_MIN (I64_MIN + 1); TR 15 30] in
  Forall (fun r => i64_range r /\ nonempty r) l /\
  inner (trs_new l) = [(I64_MIN, I64_MIN + 1); (-5, 30)].
Proof. split; [|reflexivity]. ok_ranges. Qed.

(** Adding one range, or a slice of ranges, to an existing set.  Partial: the sets whose hull is
    already [i64::MIN, i64::MAX] are excluded, because there the addition is dropped
    (see [C01_push_refuted]). *)
Theorem C01_push_partial : forall s r t, reachable s -> i64_range r -> nonempty r ->
  ~ (trs_contains s (- 2 ^ 63) = true /\ trs_contains s (2 ^ 63 - 1) = true) ->
  (trs_contains (trs_push s r) t = true <-> trs_contains s t = true \/ tmin r <= t <= tmax r).
Proof.
  intros s r t R Hi Hn B. apply push_set; auto. apply not_true_iff_false. intros E. apply B.
  exact (proj1 (boundless_ends s R) E).
Qed.
Print Assumptions C01_push_partial.
Theorem C01_extend_partial : forall s l t, reachable s ->
  Forall (fun r => i64_range r /\ nonempty r) l ->
  ~ (trs_contains s (- 2 ^ 63) = true /\ trs_contains s (2 ^ 63 - 1) = true) ->
  (trs_contains (trs_extend s l) t = true <->
   trs_contains s t = true \/ exists r, In r l /\ tmin r <= t <= tmax r).
Proof.
  intros s l t R F B. apply extend_set; auto. apply not_true_iff_false. intros E. apply B.
  exact (proj1 (boundless_ends s R) E).
Qed.
Print Assumptions C01_extend_partial.
Example C01_push_nonvacuous :
  let s := trs_new [TR I64_MIN 0] in reachable s /\ trs_contains s (2 ^ 63 - 1) = false /\
  inner (trs_push s (TR 5 I64_MAX)) = [(I64_MIN, 0); (5, I64_MAX)].
Proof. cbn. split; [|split; reflexivity]. apply reach_extend; [constructor|]. ok_ranges. Qed.

(** FINDING.  [push] (and [extend_from_slice]) return early when the cached hull is
    [i64::MIN, i64::MAX], although the set may have gaps: after adding [MIN,0] and [5,MAX],
    adding [2,3] is silently ignored (domain.rs:299-314, 344-346). *)
Theorem C01_push_refuted : exists s r t, reachable s /\ i64_range r /\ nonempty r /\
  tmin r <= t <= tmax r /\ trs_contains (trs_push s r) t = false.
Proof.
  exists (trs_push (trs_push trs_empty (TR I64_MIN 0)) (TR 5 I64_MAX)), (TR 2 3), 2.
  sp; try ok_range; [|vm_compute; reflexivity].
  repeat apply reach_push; try apply reach_empty; ok_range.
Qed.
Print Assumptions C01_push_refuted.

(** FINDING.  A range with min > max "is considered none()" (domain.rs:61), but adding one to a
    set makes the set forget instants it contained: {[5,9]} plus the empty range [6,1]. *)
Theorem C01_empty_range_refuted : exists s r t, reachable s /\ i64_range r /\ ~ nonempty r /\
  trs_contains s t = true /\ trs_contains (trs_push s r) t = false.
Proof.
  exists (trs_push trs_empty (TR 5 9)), (TR 6 1), 7.
  sp; try ok_range; try (vm_compute; reflexivity).
  repeat apply reach_push; try apply reach_empty; ok_range.
Qed.
Print Assumptions C01_empty_range_refuted.

(** Inclusion, overlap, intersection and exclusion are the set operations. *)
Theorem C01_includes_exact : forall s r, reachable s -> nonempty r ->
  (trs_includes s r = true <-> forall t, tmin r <= t <= tmax r -> trs_contains s t = true).
Proof. exact includes_set. Qed.
Print Assumptions C01_includes_exact.
Theorem C01_overlaps_exact : forall s r, reachable s -> nonempty r ->
  (trs_overlaps s r = true <-> exists t, tmin r <= t <= tmax r /\ trs_contains s t = true).
Proof. exact overlaps_set. Qed.
Print Assumptions C01_overlaps_exact.
Theorem C01_intersect_exact : forall s r t, reachable s -> i64_range r -> nonempty r ->
  ((exists s', trs_intersect s r = Some s' /\ trs_contains s' t = true) <->
   trs_contains s t = true /\ tmin r <= t <= tmax r).
Proof. exact intersect_set. Qed.
Print Assumptions C01_intersect_exact.
Theorem C01_exclude_exact : forall s r t, reachable s -> i64_range r ->
  (trs_contains (trs_exclude s r) t = true <->
   trs_contains s t = true /\ ~ tmin r <= t <= tmax r).
Proof. exact exclude_set. Qed.
Print Assumptions C01_exclude_exact.
Theorem C01_exclude_many_exact : forall s l t, reachable s -> Forall i64_range l ->
  (trs_contains (trs_exclude_all s l) t = true <->
   trs_contains s t = true /\ ~ exists r, In r l /\ tmin r <= t <= tmax r).
Proof. exact exclude_all_set. Qed.
Print Assumptions C01_exclude_many_exact.
(** A single range minus another range. *)
Theorem C01_range_exclude_exact : forall a o t, i64_range a -> i64_range o ->
  ((exists q, (fst (tr_exclude a o) = Some q \/ snd (tr_exclude a o) = Some q) /\ tmin q <= t <= tmax q) <->
   tmin a <= t <= tmax a /\ ~ tmin o <= t <= tmax o).
Proof. exact tr_exclude_set. Qed.
Print Assumptions C01_range_exclude_exact.
(** The results are again sets the other theorems apply to. *)
Theorem C01_exclude_closed : forall s r, reachable s -> i64_range r -> reachable (trs_exclude s r).
Proof. exact exclude_reachable. Qed.
Print Assumptions C01_exclude_closed.
Theorem C01_intersect_closed : forall s r s', reachable s -> i64_range r -> nonempty r ->
  trs_intersect s r = Some s' -> reachable s'.
Proof. exact intersect_reachable. Qed.
Print Assumptions C01_intersect_closed.
Example C01_setops_nonvacuous :
  let s := trs_new [TR 0 10; TR 20 30; TR I64_MAX I64_MAX] in
  reachable s /\
  option_map inner (trs_intersect s (TR 5 25)) = Some [(5, 10); (20, 25)] /\
  inner (trs_exclude s (TR 5 25)) = [(0, 4); (26, 30); (I64_MAX, I64_MAX)] /\
  trs_includes s (TR 21 30) = true /\ trs_includes s (TR 10 20) = false /\ trs_overlaps s (TR 11 19) = false.
Proof. cbn zeta. split; [|vm_compute; auto]. apply reach_extend; [constructor|]. ok_ranges. Qed.

(** A single range minus a set of ranges.  Partial: no excluded range may end at i64::MAX. *)
Theorem C01_range_minus_set_partial : forall r s t, reachable s -> i64_range r -> nonempty r ->
  (forall q, In q (trs_ranges s) -> tmax q < I64_MAX) ->
  ((exists s', tr_exclude_time_ranges r s = Some s' /\ trs_contains s' t = true) <->
   tmin r <= t <= tmax r /\ ~ trs_contains s t = true).
Proof. exact exclude_time_ranges_set. Qed.
Print Assumptions C01_range_minus_set_partial.
Example C01_range_minus_set_nonvacuous :
  let s := trs_new [TR 3 4; TR 8 9] in reachable s /\ (forall q, In q (trs_ranges s) -> tmax q < I64_MAX) /\
  option_map inner (tr_exclude_time_ranges (TR 0 8) s) = Some [(0, 2); (5, 7)].
Proof.
  cbn zeta. split; [|split; [|vm_compute; auto]].
  - apply reach_extend; [constructor|]. ok_ranges.
  - replace (trs_ranges _) with [TR 3 4; TR 8 9] by (vm_compute; reflexivity).
    intros q [<-|[<-|[]]]; reflexivity.
Qed.
(** FINDING.  When an excluded range ends at i64::MAX, [checked_add(1).unwrap_or(max_ts)] leaves the
    instant i64::MAX in the result although it was excluded (domain.rs:174). *)
Theorem C01_range_minus_set_refuted : exists r s t s', reachable s /\ i64_range r /\ nonempty r /\
  tr_exclude_time_ranges r s = Some s' /\ trs_contains s' t = true /\ trs_contains s t = true.
Proof.
  exists (TR 0 I64_MAX), (trs_new [TR 5 I64_MAX]), I64_MAX.
  eexists. sp; [|ok_range|ok_range|vm_compute; reflexivity..].
  apply reach_extend; [constructor|]. ok_ranges.
Qed.
Print Assumptions C01_range_minus_set_refuted.

(** The predicates of a single range: the instants it contains, whether it is unbounded, and how many
    instants it has (as a 64-bit number: the range of all instants has 2^64 of them, reported as 0). *)
Theorem C01_range_predicates r : i64_range r ->
  (forall t, tr_contains r t = true <-> tmin r <= t <= tmax r) /\
  (tr_is_boundless r = true <-> forall t, - 2 ^ 63 <= t < 2 ^ 63 -> tmin r <= t <= tmax r) /\
  (tmax r < tmin r -> tr_total_time r = 0) /\
  (tmin r <= tmax r -> (tmin r <> - 2 ^ 63 \/ tmax r <> 2 ^ 63 - 1) -> tr_total_time r = tmax r - tmin r + 1).
Proof.
  intros H. split; [exact (range_contains r)|]. split; [|split].
  - rewrite range_boundless by auto. unfold is_i64, I64_MIN, I64_MAX, instants.
    split; intros K t T; apply K; lia.
  - intros L. rewrite range_total by auto. destruct (Z.ltb_spec (tmax r) (tmin r)); [reflexivity|lia].
  - intros L N1. rewrite range_total by auto. destruct (Z.ltb_spec (tmax r) (tmin r)); [lia|].
    apply Z.mod_small. destruct H as [[M1 M2] [M3 M4]]. unfold I64_MIN, I64_MAX in *. lia.
Qed.
Print Assumptions C01_range_predicates.
Example C01_range_predicates_nonvacuous :
  tr_total_time (TR 3 5) = 3 /\ tr_total_time (TR I64_MIN I64_MAX) = 0 /\ tr_total_time (TR (I64_MIN + 1) I64_MAX) = 2 ^ 64 - 1 /\
  tr_is_boundless (TR I64_MIN I64_MAX) = true /\ tr_is_boundless (TR 0 I64_MAX) = false.
Proof. vm_compute. auto. Qed.

(** The predicates of a set: it is empty when it has no instant.  It is "boundless" when it has the first and
    the last instant, whatever is missing in between. *)
Theorem C01_set_predicates s : reachable s ->
  (trs_is_empty s = true <-> forall t, trs_contains s t = false) /\
  (trs_is_boundless s = true <-> trs_contains s (- 2 ^ 63) = true /\ trs_contains s (2 ^ 63 - 1) = true).
Proof.
  intros R. split; [|exact (boundless_ends s R)].
  rewrite is_empty_none by auto. unfold holds. split; intros K t; specialize (K t); [apply not_true_iff_false; auto|congruence].
Qed.
Print Assumptions C01_set_predicates.
Example C01_set_predicates_nonvacuous :
  let s := trs_new [TR I64_MIN 0; TR 5 I64_MAX] in
  reachable s /\ trs_is_boundless s = true /\ trs_contains s 3 = false /\ trs_is_empty s = false.
Proof. cbn zeta. split; [|vm_compute; auto]. apply reach_extend; [constructor|]. ok_ranges. Qed.
