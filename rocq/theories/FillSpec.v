(** Specification for value_fill: neighbours of a missing value and the value each method promises for it. *)
From Coq Require Import QArith.
From Verif Require Import Prelude RepairModel.
Open Scope Z_scope.

Definition known_at (l : list (option Q)) (i : nat) (q : Q) : Prop := nth_error l i = Some (Some q).
Definition null_at (l : list (option Q)) (i : nat) : Prop := nth_error l i = Some None.
(** the nearest value before and after place [i], with its place *)
Definition before (l : list (option Q)) (i p : nat) (u : Q) : Prop :=
  (p < i)%nat /\ known_at l p u /\ forall k, (p < k < i)%nat -> null_at l k.
Definition after (l : list (option Q)) (i j : nat) (v : Q) : Prop :=
  (i < j)%nat /\ known_at l j v /\ forall k, (i < k < j)%nat -> null_at l k.
Definition none_before (l : list (option Q)) (i : nat) : Prop := forall k q, (k < i)%nat -> ~ known_at l k q.
Definition none_after (l : list (option Q)) (i : nat) : Prop := forall k q, (i < k)%nat -> ~ known_at l k q.

(** as many values as rows, and the values that were there are kept *)
Definition keeps (l : list (option Q)) (out : list val) : Prop :=
  length out = length l /\ forall i q, known_at l i q -> nth_error out i = Some (Num q).

(** on the straight line between the neighbours; at the ends, the nearest value *)
Definition on_line (l : list (option Q)) (i : nat) (x : Q) : Prop :=
  (forall p u j v, before l i p u -> after l i j v ->
     ((x - u) * inject_Z (Z.of_nat j - Z.of_nat p) == (v - u) * inject_Z (Z.of_nat i - Z.of_nat p))%Q)
  /\ (forall j v, none_before l i -> after l i j v -> (x == v)%Q)
  /\ (forall p u, before l i p u -> none_after l i -> (x == u)%Q).

(** the arithmetic mean of the values of [w] *)
Definition is_mean (w : list (option Q)) (x : Q) : Prop :=
  let vs := flat_map (fun o => match o with Some q => [q] | None => [] end) w in
  vs <> [] /\ (x * inject_Z (Z.of_nat (length vs)) == fold_right Qplus 0 vs)%Q.
(** the window of five rows around [i], cut at the ends *)
Definition window (l : list (option Q)) (i : nat) : list (option Q) := firstn (i + 3 - (i - 2)) (skipn (i - 2) l).

(** the autoregressive model of order 1: [theta] by least squares over neighbouring rows (a missing value counts as 0), [eps] the mean
    of what it leaves where both values are there *)
Definition neighbours (l : list (option Q)) : list (option Q * option Q) := combine l (skipn 1 l).
Definition or_zero (o : option Q) : Q := match o with Some q => q | None => 0%Q end.
Definition total (l : list Q) : Q := fold_right Qplus 0%Q l.
Definition both (l : list (option Q)) : list (Q * Q) :=
  flat_map (fun p => match p with (Some x, Some y) => [(x, y)] | _ => [] end) (neighbours l).
Definition ar_model (l : list (option Q)) (theta eps : Q) : Prop :=
  let squares := total (map (fun p => or_zero (fst p) * or_zero (fst p))%Q (neighbours l)) in
  ~ (squares == 0)%Q /\ (theta * squares == total (map (fun p => or_zero (fst p) * or_zero (snd p))%Q (neighbours l)))%Q /\
  both l <> [] /\ (eps * inject_Z (Z.of_nat (length (both l))) == total (map (fun p => snd p - theta * fst p)%Q (both l)))%Q.
