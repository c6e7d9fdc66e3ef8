(** What the metrics must say. *)
From Verif Require Import Prelude.
Open Scope Z_scope.

(** [(v, n)]: the value [v] was observed [n] times *)
Definition observed (xs : list (Z * Z)) : Prop := forall v n, In (v, n) xs -> 0 <= v < 2 ^ 64 /\ 0 <= n < 2 ^ 64.
Definition sum (l : list Z) : Z := fold_right Z.add 0 l.
(** how many observations satisfy the condition, and their sum *)
Definition how_many (p : Z -> bool) (xs : list (Z * Z)) : Z := sum (map snd (filter (fun x => p (fst x)) xs)).
Definition their_sum (p : Z -> bool) (xs : list (Z * Z)) : Z := sum (map (fun x => fst x * snd x) (filter (fun x => p (fst x)) xs)).
(** the value is not above the bound; no bound is infinity *)
Definition below (b : option Z) (v : Z) : bool := match b with Some le => v <=? le | None => true end.
(** the value is not above all thresholds *)
Definition covered (ts : list Z) (v : Z) : bool := existsb (fun t => v <=? t) ts.
