(** Specification for timestamp_repair: what a repair of a series on an evenly spaced grid is, and what it costs. *)
From Coq Require Import QArith Qround.
From Verif Require Import Prelude RepairModel.
Open Scope Z_scope.

(** [n] instants, [d] apart, the first at [start] *)
Definition grid (start d : Z) (n : nat) : list Z := map (fun i => start + d * Z.of_nat i) (seq 0 n).

(** [repair g rs out c]: the rows [out] have exactly the times [g], and they come from the rows [rs], in order, by moving rows
    to an instant of the grid (at the cost of the distance in nanoseconds), adding rows without a value and leaving out rows (at the cost of
    100 seconds each); [c] is the sum of the costs *)
Inductive repair : list Z -> list (Z * val) -> list (Z * val) -> Z -> Prop :=
| r_done : repair [] [] [] 0
| r_move p t v g rs out c : repair g rs out c -> repair (p :: g) ((t, v) :: rs) ((p, v) :: out) (Z.abs (t - p) + c)
| r_add p g rs out c : repair g rs out c -> repair (p :: g) rs ((p, NaN) :: out) (100000000000 + c)
| r_leave r g rs out c : repair g rs out c -> repair g (r :: rs) out (100000000000 + c).

(** no repair is cheaper *)
Definition cheapest (g : list Z) (rs out : list (Z * val)) : Prop :=
  exists c, repair g rs out c /\ forall out' c', repair g rs out' c' -> c <= c'.

(** the input as rows of the function: NULL and numbers that are not finite have no value *)
Definition input_rows (rows : list (Z * option Q)) : list (Z * val) :=
  map (fun r => (fst r, match snd r with Some q => Num q | None => NaN end)) rows.
(** rows of evenly spaced instants *)
Definition evenly (s d : Z) (rows : list (Z * option Q)) : Prop := map fst rows = grid s d (length rows).

(** a number a double holds exactly (the range of exponents is left out) *)
Definition is_double (q : Q) : Prop := exists m e : Z, Z.abs m <= 2 ^ 53 /\ (q == inject_Z m * Qpower 2 e)%Q.
(** rounding to doubles keeps the doubles *)
Definition rounding (fl : Q -> Q) : Prop := (forall a b, a == b -> fl a == fl b)%Q /\ (forall q, is_double q -> fl q == q)%Q.
(** a map is walked in some order of its distinct keys *)
Definition map_order (walk : list Z -> list Z) : Prop := forall l, Permutation (walk l) (nodup Z.eq_dec l).
