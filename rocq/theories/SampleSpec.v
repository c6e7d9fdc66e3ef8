(** What SAMPLE may return. *)
From Verif Require Import Prelude SampleModel.
From Coq Require Import Permutation.

(** One partition: its batches go through an accumulator. *)
Definition part_sample (n : nat) (batches : list (list Z)) (out : list Z) : Prop :=
  exists states, updates n [] batches states /\ state n states out.
(** Two stages: the partial results reach the last accumulator in any order, in batches of any size
    (which does not matter: [merge_batch] takes them one by one). *)
Definition plan_sample (n : nat) (parts : list (list (list Z))) (out : list Z) : Prop :=
  exists partial arrivals, Forall2 (part_sample n) parts partial /\ Permutation arrivals partial /\ part_sample n arrivals out.
Definition rows_of (parts : list (list (list Z))) : list Z := concat (map (fun p => concat p) parts).
(** [out] consists of rows, each used at most once. *)
Definition drawn_from (out rows : list Z) : Prop := exists rest, Permutation rows (out ++ rest).
