(** STATE_AGG, DURATION_IN and STATE_AT (C51). *)
From Coq Require Import Permutation.
From Verif Require Import Prelude AggSpec AggProofs AggProps StateAggModel StateAggSpec StateAggProofs.
Open Scope Z_scope.

Lemma rows_of_plan sort compact parts d : state_agg sort compact parts d -> NoDup (map fst (all_rows parts)) ->
  exists rows, d = evaluate sort compact rows /\ NoDup (map fst rows) /\ length rows = length (all_rows parts) /\ forall s u, holds rows s u <-> holds (all_rows parts) s u.
Proof.
  intros (rows & T & ->) N. apply collected in T. exists rows. split; [reflexivity|]. split; [eapply Permutation_NoDup; [apply Permutation_map, Permutation_sym; exact T|exact N]|]. split; [now apply Permutation_length|]. intros s u. now apply holds_iff.
Qed.
(** Over any partitions, batches and arrival order, of rows with distinct times: the total duration of a state is the number
    of time units in which it holds, with or without COMPACT. *)
Theorem C51_total_duration : forall sort compact parts d s, sorts sort -> NoDup (map fst (all_rows parts)) -> state_agg sort compact parts d ->
  exists n, duration_in2 d s = Some n /\ measures (holds (all_rows parts) s) n.
Proof.
  intros sort compact parts d s Hs N A. destruct (rows_of_plan _ _ _ _ A N) as (rows & -> & N' & _ & E). eexists. split; [reflexivity|].
  eapply measures_ext; [|apply whole_meas; [exact Hs|exact N']]. intro u. apply E.
Qed.
Print Assumptions C51_total_duration.
(** The duration from a time on; of at least two rows. *)
Theorem C51_duration_since_partial : forall sort parts d s start, sorts sort -> NoDup (map fst (all_rows parts)) -> state_agg sort false parts d -> (2 <= length (all_rows parts))%nat ->
  exists n, duration_in3 d s start = Some n /\ measures (fun u => holds (all_rows parts) s u /\ start <= u) n.
Proof.
  intros sort parts d s start Hs N A L. destruct (rows_of_plan _ _ _ _ A N) as (rows & -> & N' & Ln & E). unfold duration_in3. rewrite (not_compact sort Hs rows) by (rewrite Ln; exact L). eexists. split; [reflexivity|].
  eapply measures_ext; [|apply since_meas; [exact Hs|exact N']]. intro u. cbn beta. now rewrite E.
Qed.
Print Assumptions C51_duration_since_partial.
(** The duration in an interval. *)
Theorem C51_duration_within_partial : forall sort parts d s start interval, sorts sort -> NoDup (map fst (all_rows parts)) -> state_agg sort false parts d -> (2 <= length (all_rows parts))%nat -> 0 <= interval ->
  exists n, duration_in4 d s start interval = Some n /\ measures (fun u => holds (all_rows parts) s u /\ start <= u < start + interval) n.
Proof.
  intros sort parts d s start interval Hs N A L Hi. destruct (rows_of_plan _ _ _ _ A N) as (rows & -> & N' & Ln & E). unfold duration_in4. rewrite (not_compact sort Hs rows) by (rewrite Ln; exact L). eexists. split; [reflexivity|].
  eapply measures_ext; [|apply within_meas; [exact Hs|exact N'|lia]]. intro u. cbn beta. now rewrite E.
Qed.
Print Assumptions C51_duration_within_partial.
(** The state at a time is the one that holds then, null if none does, in whatever order the map is walked. *)
Theorem C51_state_at_partial : forall sort order parts d t, sorts sort -> reorders order -> NoDup (map fst (all_rows parts)) -> state_agg sort false parts d -> (2 <= length (all_rows parts))%nat ->
  exists r, state_at order d t = Some r /\ match r with Some s => holds (all_rows parts) s t | None => forall s, ~ holds (all_rows parts) s t end.
Proof.
  intros sort order parts d t Hs R N A L. destruct (rows_of_plan _ _ _ _ A N) as (rows & -> & N' & Ln & E). unfold state_at. rewrite (not_compact sort Hs rows) by (rewrite Ln; exact L). eexists. split; [reflexivity|].
  pose proof (at_ok sort Hs rows N' order t R) as W. destruct (walk _ t) as [s|]; [now apply E|]. intros s H. apply (W s). now apply E.
Qed.
Print Assumptions C51_state_at_partial.

Definition s_parts : list (list (list (Z * Z))) := [[[(10, 1)]; [(30, 1); (40, 3)]]; [[(15, 2)]; []]].
Example C51_case : NoDup (map fst (all_rows s_parts)) /\ exists d, state_agg isort false s_parts d /\
  duration_in2 d 1 = Some 15 /\ duration_in2 d 3 = Some 0 /\ duration_in3 d 1 12 = Some 13 /\ duration_in4 d 1 12 20 = Some 5 /\
  state_at (fun l => l) d 29 = Some (Some 2) /\ state_at (fun l => rev l) d 30 = Some (Some 1) /\ state_at (fun l => l) d 40 = Some None.
Proof.
  split; [repeat constructor; cbn; intuition discriminate|]. eexists. split.
  - eexists. split; [eexists [[_]; [_]]; split; [|reflexivity]; cbn; apply perm_swap|reflexivity].
  - repeat split; reflexivity.
Qed.
(** Finding: the aggregate of a single row is taken for a compact one; asking it for the state or the duration from a time on
    is an error, where the answer is null or 0. *)
Theorem C51_single_row_refuted : exists sort order parts d, sorts sort /\ reorders order /\ NoDup (map fst (all_rows parts)) /\ state_agg sort false parts d /\
  (forall s u, ~ holds (all_rows parts) s u) /\ state_at order d 5 = None /\ duration_in3 d 1 5 = None.
Proof.
  exists isort, (fun l => l), [[[(3, 1)]]], (evaluate isort false [(3, 1)]). split; [exact isort_ok|]. split; [intro; apply Permutation_refl|]. split; [repeat constructor; intros []|]. split; [|split; [|split; reflexivity]].
  - eexists. split; [eexists [[_]]; split; [|reflexivity]; cbn; apply Permutation_refl|reflexivity].
  - intros s u (t & [I|[]] & L1 & _ & t' & s' & [J|[]] & L2). injection I as <- <-. injection J as <- <-. lia.
Qed.
Print Assumptions C51_single_row_refuted.
(** Finding: a negative interval counts negatively. *)
Theorem C51_negative_interval_refuted : exists sort parts d n, sorts sort /\ NoDup (map fst (all_rows parts)) /\ state_agg sort false parts d /\ duration_in4 d 1 8 (-3) = Some n /\ n = -3.
Proof.
  exists isort, [[[(0, 1); (20, 1)]]], (evaluate isort false [(0, 1); (20, 1)]), (-3). split; [exact isort_ok|]. split; [repeat constructor; cbn; intuition discriminate|]. split; [|split; reflexivity].
  eexists. split; [eexists [[_]]; split; [|reflexivity]; cbn; apply Permutation_refl|reflexivity].
Qed.
Print Assumptions C51_negative_interval_refuted.
