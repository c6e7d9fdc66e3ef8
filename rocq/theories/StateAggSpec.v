(** What it means for a state to hold, and for how long. *)
From Verif Require Import Prelude StateAggModel AggSpec.
From Coq Require Import Permutation.

(** A row sets the state from its time until the next row; nothing is known from the last row on. *)
Definition holds (rows : list (Z * Z)) (s u : Z) : Prop :=
  exists t, In (t, s) rows /\ t <= u /\ (forall t' s', In (t', s') rows -> t' <= u -> t' <= t) /\ exists t' s', In (t', s') rows /\ u < t'.
(** [n] is the number of time units with the property. *)
Definition measures (P : Z -> Prop) (n : Z) : Prop := exists l, NoDup l /\ (forall u, In u l <-> P u) /\ n = Z.of_nat (length l).
(** The result of the aggregate over partitions, batches and any arrival order of the partial states. *)
Definition state_agg (sort : list (Z * Z) -> list (Z * Z)) (compact : bool) (parts : list (list (list (Z * Z)))) (d : sdata) : Prop :=
  exists rows, two_stage [] sa_update (fun s => s) sa_merge parts rows /\ d = evaluate sort compact rows.
Definition reorders {A} (order : list A -> list A) : Prop := forall l, Permutation l (order l).
