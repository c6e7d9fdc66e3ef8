(** SAMPLE (C50). *)
From Coq Require Import Permutation Arith.
From Verif Require Import Prelude SampleModel SampleSpec SampleProofs.

(** Whatever the partitions, batches, arrival order and random numbers: SAMPLE returns rows of the input, none twice. *)
Theorem C50_rows_of_input : forall n parts out, plan_sample n parts out -> drawn_from out (rows_of parts).
Proof. exact plan_from. Qed.
Print Assumptions C50_rows_of_input.
(** It returns some row if there is one, and fewer than 2 n rows.  Missing from the full claim: exactly the smaller of n and the number of rows. *)
Theorem C50_size_partial : forall n parts out, (0 < n)%nat -> plan_sample n parts out -> (rows_of parts <> [] -> out <> []) /\ (length out <= 2 * n - 1)%nat.
Proof. exact plan_size. Qed.
Print Assumptions C50_size_partial.
(** When all rows come in one batch, it returns the smaller of n and the number of rows. *)
Theorem C50_single_batch_partial : forall n rows out, (0 < n)%nat -> plan_sample n [[rows]] out -> length out = Nat.min n (length rows).
Proof. exact one_plan. Qed.
Print Assumptions C50_single_batch_partial.

(** Executions for the examples: the numbers drawn are the first ones. *)
Lemma draw_first c m : draw c m (seq 0 (Nat.min c m)).
Proof. split; [apply seq_NoDup|]. split; [apply Forall_forall; intros i I; apply in_seq in I; lia|apply seq_length]. Qed.
Ltac go := first [reflexivity | eexists; eexists; split; [apply draw_first|]; split; [cbn -[Nat.div]; go|reflexivity]].
Ltac upd := first [reflexivity | eexists; split; [eexists; split; [unfold sample_data; cbn; reflexivity|cbn; reflexivity]|cbn [updates]; upd]].
Example C50_nonvacuous : exists out, plan_sample 2 [[[1; 2]; [3]]; [[]; [4; 5]]] out /\ out <> [].
Proof.
  assert (H : exists out, plan_sample 2 [[[1; 2]; [3]]; [[]; [4; 5]]] out).
  { eexists. eexists [_; _], [_; _]. split; [|split; [apply Permutation_refl|]].
    - constructor; [|constructor; [|constructor]].
      + eexists. split; [upd|]. cbn -[Nat.div]. go.
      + eexists. split; [eexists; split; [reflexivity|]; upd|]. cbn -[Nat.div]. go.
    - eexists. split; [upd|]. cbn -[Nat.div]. go. }
  destruct H as (out & H). exists out. split; [exact H|]. apply (plan_size 2 _ out ltac:(lia) H). discriminate.
Qed.
(** Finding: SAMPLE(x, 5) of nine rows in three batches is six rows. *)
Theorem C50_too_many_rows_refuted : exists n batches out, part_sample n batches out /\ n = 5%nat /\ length out = 6%nat.
Proof.
  exists 5%nat, [[1; 2; 3]; [4; 5; 6]; [7; 8; 9]]. eexists. split; [|split; [reflexivity|]].
  - eexists. split; [upd|]. cbn -[Nat.div]. go.
  - reflexivity.
Qed.
Print Assumptions C50_too_many_rows_refuted.
(** Finding: SAMPLE(x, 8) of seven rows in seven batches is four rows, although all seven fit. *)
Theorem C50_too_few_rows_refuted : exists n batches out, part_sample n batches out /\ n = 8%nat /\ length (concat batches) = 7%nat /\ length out = 4%nat.
Proof.
  exists 8%nat, [[1]; [2]; [3]; [4]; [5]; [6]; [7]]. eexists. split; [|split; [reflexivity|split; [reflexivity|]]].
  - eexists. split; [upd|]. cbn -[Nat.div]. go.
  - reflexivity.
Qed.
Print Assumptions C50_too_few_rows_refuted.
(** Finding: SAMPLE(x, 1) always returns a row of the first batch; no other row is ever drawn. *)
Theorem C50_one_of_first_batch_refuted : forall b bs out, b <> [] -> part_sample 1 (b :: bs) out -> exists x, out = [x] /\ In x b.
Proof. exact one_first. Qed.
Print Assumptions C50_one_of_first_batch_refuted.
Example C50_one_case : exists out, part_sample 1 [[1; 2]; [3]] out.
Proof.
  eexists. eexists. split.
  - eexists. split; [eexists; split; [unfold sample_data; cbn; eexists; split; [apply draw_first|reflexivity]|cbn; reflexivity]|]. cbn [updates]. upd.
  - cbn -[Nat.div]. go.
Qed.
