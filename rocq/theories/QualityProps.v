(** C80: completeness, consistency, timeliness and validity. *)
From Coq Require Import QArith Qabs.
From Verif Require Import Prelude RepairModel ScreenModel QualityModel QualitySpec QualityProofs.
Open Scope Z_scope.

(** Every score lies between 0 and 1. *)
Theorem C80_score_partial : forall ty f rows q, select_quality ty f rows (Done q) -> (0 <= q <= 1)%Q.
Proof. intros ty f rows q (s & _ & H). exact (evaluate_score f s q H). Qed.
Print Assumptions C80_score_partial.

(** The order in which rows arrive does not matter when no two have the same time. *)
Theorem C80_order_partial : forall ty f rows rows' o o', Permutation rows rows' -> NoDup (map fst rows) ->
  select_quality ty f rows o -> select_quality ty f rows' o' -> o = o'.
Proof. intros ty f rows rows' o o'. apply quality_order. Qed.
Print Assumptions C80_order_partial.

(** One row every [d], with no more than eight missing in a row and fewer gaps than plain steps: completeness is the number of values that
    are there, divided by the number of rows there should be; nothing is redundant or late.  Partial: exact arithmetic; the conditions on
    the gaps are needed (see below). *)
Theorem C80_regular_partial : forall ty rows d n, ty <> CUInt -> spaced d (map fst rows) -> expected d (map fst rows) n ->
  2 <= present (map snd rows) ->
  (exists q, select_quality ty Completeness rows (Done q) /\ (q * inject_Z n == inject_Z (present (map snd rows)))%Q)
  /\ (exists q, select_quality ty Consistency rows (Done q) /\ (q == 1)%Q)
  /\ (exists q, select_quality ty Timeliness rows (Done q) /\ (q == 1)%Q).
Proof. intros ty rows d n. apply spaced_scores. Qed.
Print Assumptions C80_regular_partial.

(** A constant series is valid, also with missing values. *)
Theorem C80_constant_partial : forall ty c rows, ty <> CUInt -> (3 <= length rows)%nat -> StronglySorted Z.lt (map fst rows) ->
  2 <= present (map snd rows) -> (forall t q, In (t, Some q) rows -> (q == c)%Q) ->
  exists q, select_quality ty Validity rows (Done q) /\ (q == 1)%Q.
Proof. intros ty c rows. apply constant_missing_valid. Qed.
Print Assumptions C80_constant_partial.
(** Before validity is computed, missing values are filled: if the others lie on a line, with the values of that line, also before the
    first and after the last. *)
Theorem C80_line_partial : forall a b ts vs, StronglySorted Z.lt ts -> length vs = length ts -> 2 <= present vs ->
  (forall i q, nth_error vs i = Some (Some q) -> (q == a + b * inject_Z (nth i ts 0%Z))%Q) ->
  exists out, nan_process ts vs = Done out /\ length out = length ts /\
    forall i, (i < length ts)%nat -> exists q, nth i out Nan = Fin q /\ (q == a + b * inject_Z (nth i ts 0%Z))%Q.
Proof. exact nan_process_lin. Qed.
Print Assumptions C80_line_partial.
Example ex_line : exists out, nan_process [0; 10; 25; 40; 50] [None; Some 3%Q; None; Some 9%Q; None] = Done out /\
       Forall2 (fun x q => match x with Fin y => (y == q)%Q | _ => False end) out [1; 3; 6; 9; 11]%Q.
Proof. eexists. split; [vm_compute; reflexivity|]. repeat constructor. Qed.

Definition at_times (l : list Z) : list (Z * option Q) := map (fun t => (t, Some (inject_Z (t mod 7)))) l.
Lemma taken ty f l o : ty <> CUInt -> StronglySorted Z.le l -> evaluate f (at_times l) = o -> select_quality ty f (at_times l) o.
Proof.
  intros Ht Sd H. exists (at_times l). split; [|exact H]. rewrite column_same by exact Ht. split; [apply Permutation_refl|].
  unfold at_times. clear - Sd. induction Sd as [|t l Sl IH F]; cbn; constructor; [exact IH|]. rewrite Forall_map. eapply Forall_impl; [|exact F]. cbn. auto.
Qed.
Ltac sorted_times := repeat (constructor; [|repeat (constructor; [lia|]); constructor]); constructor.

(** A gap of ten steps or more does not count at all: 92 of 100 rows are missing and the series is complete (common.rs:148). *)
Theorem C80_long_gap_refuted : exists rows q, (forall t v, In (t, v) rows -> v <> None) /\ expected 1 (map fst rows) 100
  /\ length rows = 8%nat /\ select_quality CFloat Completeness rows (Done q) /\ (q == 1)%Q.
Proof.
  exists (at_times [0; 1; 2; 3; 96; 97; 98; 99]). eexists. split.
  - intros t v Hi. unfold at_times in Hi. apply in_map_iff in Hi. destruct Hi as (x & E & _). injection E as <- <-. discriminate.
  - split; [reflexivity|]. split; [reflexivity|]. split; [apply taken; [discriminate|sorted_times|vm_compute; reflexivity]|reflexivity].
Qed.
Print Assumptions C80_long_gap_refuted.
(** Two of three rows of the same time are redundant, one is counted: the row compared with is dropped together with the redundant one
    (common.rs:145-147, 169). *)
Theorem C80_redundant_refuted : exists rows q, length rows = 7%nat /\ length (filter (fun r => fst r =? 0) rows) = 3%nat
  /\ select_quality CFloat Consistency rows (Done q) /\ (q == 6 # 7)%Q.
Proof.
  exists (at_times [0; 0; 0; 1; 2; 3; 4]). eexists. split; [reflexivity|]. split; [reflexivity|].
  split; [apply taken; [discriminate|sorted_times|vm_compute; reflexivity]|reflexivity].
Qed.
Print Assumptions C80_redundant_refuted.
(** Validity of two rows panics: there is no change of speed, and its median is looked for (common.rs:226-228). *)
Theorem C80_two_rows_refuted : forall ty t1 t2 (x y : Q), ty <> CUInt -> t1 < t2 ->
  select_quality ty Validity [(t1, Some x); (t2, Some y)] Panic.
Proof.
  intros ty t1 t2 x y Ht L. exists [(t1, Some x); (t2, Some y)]. split.
  - rewrite column_same by exact Ht. split; [apply Permutation_refl|]. apply lt_le_rows. cbn. repeat constructor. exact L.
  - unfold evaluate, nan_process, line_e. cbn [map fst snd find_known length Nat.leb Nat.sub put_line_e pute middle_e bind cell nth].
    unfold line_e. cbn [nth pute sub_e neg_e add_e div_e].
    assert (N : Qeq_bool (inject_Z (t2 - t1)) 0 = false).
    { destruct (Qeq_bool (inject_Z (t2 - t1)) 0) eqn:E; [|reflexivity]. apply Qeq_bool_iff in E. unfold Qeq in E. cbn in E. lia. }
    rewrite N. cbn [mul_e add_e]. apply validity_panics. reflexivity.
Qed.
Print Assumptions C80_two_rows_refuted.
(** Validity panics when two series have a row at the same time with the same value: 0 / 0 is not a number and cannot be sorted. *)
Theorem C80_equal_times_refuted : exists rows, length rows = 6%nat /\ select_quality CFloat Validity rows Panic.
Proof.
  exists (at_times [0; 1; 2; 2; 3; 4]). split; [reflexivity|]. apply taken; [discriminate|sorted_times|vm_compute; reflexivity].
Qed.
Print Assumptions C80_equal_times_refuted.
(** All four functions refuse a BIGINT UNSIGNED column: its values are taken for NaN (accumulator.rs:177-190). *)
Theorem C80_unsigned_refuted : forall f rows o, select_quality CUInt f rows o -> o = Failed.
Proof.
  intros f rows o (s & (P & _) & <-). unfold evaluate.
  assert (A : forall v, In v (map snd s) -> v = None).
  { intros v Hv. apply in_map_iff in Hv. destruct Hv as (r & <- & Hr). apply (Permutation_in _ P) in Hr. apply in_map_iff in Hr.
    destruct Hr as (r0 & <- & _). reflexivity. }
  assert (F : forall l from i, (forall v, In v l -> v = None) -> find_known l from i = Nat.max (i + length l) from).
  { induction l as [|x l IH]; intros from i Hl; cbn [find_known length]; [f_equal; lia|].
    rewrite (Hl x) by (left; reflexivity). rewrite IH by (intros v Hv; apply Hl; right; exact Hv). f_equal. lia. }
  unfold nan_process. rewrite !F by exact A.
  match goal with |- context [(?a <=? ?b)%nat] => replace (a <=? b)%nat with true by (symmetry; apply Nat.leb_le; lia) end. reflexivity.
Qed.
Print Assumptions C80_unsigned_refuted.

(** ** the hypotheses are met *)
Example spaced_case : spaced 10 (map fst (at_times [0; 10; 20; 30; 60; 70; 80; 120; 130])) /\ expected 10 (map fst (at_times [0; 10; 20; 30; 60; 70; 80; 120; 130])) 14.
Proof.
  split; [|reflexivity]. split; [lia|]. split; [|vm_compute; repeat constructor]. cbn. intros g H.
  repeat (destruct H as [<-|H]; [first [exists 1; split; [lia|reflexivity]|exists 3; split; [lia|reflexivity]|exists 4; split; [lia|reflexivity]]|]). destruct H.
Qed.
Example late_counted : exists q, select_quality CFloat Timeliness (at_times [0; 10; 20; 40; 41; 50; 60]) (Done q) /\ (q == 6 # 7)%Q.
Proof. eexists. split; [apply taken; [discriminate|sorted_times|vm_compute; reflexivity]|reflexivity]. Qed.
Example constant_case : exists q, select_quality CInt Validity [(3, Some 5%Q); (7, None); (8, Some 5%Q)] (Done q) /\ (q == 1)%Q.
Proof.
  apply (C80_constant_partial CInt 5%Q); [discriminate|cbn; lia| |vm_compute; discriminate|].
  - cbn [map fst]. repeat (constructor; [|repeat (constructor; [lia|]); constructor]). constructor.
  - intros t q [E|[E|[E|[]]]]; try discriminate; injection E as _ <-; reflexivity.
Qed.
