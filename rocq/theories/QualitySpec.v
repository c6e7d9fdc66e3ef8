(** Specification for the data quality functions. *)
From Coq Require Import QArith.
From Verif Require Import Prelude.
Open Scope Z_scope.

(** the differences of neighbouring times *)
Fixpoint steps_of (ts : list Z) : list Z :=
  match ts with a :: ((b :: _) as r) => (b - a) :: steps_of r | _ => [] end.
(** a series with one row every [d], of which some rows are missing: no more than eight in a row, and most steps are not gaps *)
Definition spaced (d : Z) (ts : list Z) : Prop :=
  0 < d /\ (forall g, In g (steps_of ts) -> exists c, 1 <= c <= 9 /\ g = c * d)
  /\ (length (steps_of ts) < 2 * length (filter (Z.eqb d) (steps_of ts)))%nat.
(** the number of rows from the first to the last time, one every [d] *)
Definition expected (d : Z) (ts : list Z) (n : Z) : Prop := last ts 0 - hd 0 ts = (n - 1) * d.
(** the number of values that are there *)
Definition present (vs : list (option Q)) : Z := Z.of_nat (length (flat_map (fun v => match v with Some q => [q] | None => [] end) vs)).
