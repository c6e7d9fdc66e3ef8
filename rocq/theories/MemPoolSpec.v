(** Vocabulary for the memory pool statements. *)
From Verif Require Import Prelude MemPoolModel.
(** Total held by clients 0 .. n-1. *)
Definition total (n : nat) (p : pool) : Z := fold_right Z.add 0 (map (p_held p) (seq 0 n)).
(** Steps that use only the checked path, with requests below [bound]. *)
Definition checked (bound : Z) (q : pool) (t : nat) (r : pool) : Prop :=
  match p_client r t with Trying a _ => a < bound | Idle => p_client q t = Idle -> p_held r t <= p_held q t end.
