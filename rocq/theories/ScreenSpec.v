(** Specification for value_repair: missing values on straight lines in time, and limits of the speed of change. *)
From Coq Require Import QArith Qabs.
From Verif Require Import Prelude RepairModel FillSpec.
Open Scope Z_scope.

(** two values with none between them *)
Definition adjacent (vs : list (option Q)) (a : nat) (u : Q) (b : nat) (v : Q) : Prop :=
  (a < b)%nat /\ known_at vs a u /\ known_at vs b v /\ forall k, (a < k < b)%nat -> null_at vs k.
(** the pair of values a missing value at [i] is taken from: those around it, or the first two, or the last two *)
Definition taken_from (vs : list (option Q)) (i a b : nat) : Prop :=
  (a < i < b)%nat \/ ((i < a)%nat /\ none_before vs a) \/ ((b < i)%nat /\ none_after vs b).
(** [x] is right for row [i]: the value that was there, or the one on the straight line in time *)
Definition filled_in (ts : list Z) (vs : list (option Q)) (i : nat) (x : Q) : Prop :=
  (forall q, known_at vs i q -> (x == q)%Q)
  /\ (null_at vs i -> exists a u b v, adjacent vs a u b v /\ taken_from vs i a b
        /\ ((x - u) * inject_Z (nth b ts 0 - nth a ts 0)%Z == (v - u) * inject_Z (nth i ts 0 - nth a ts 0)%Z)%Q).

(** the change from row to row is at least [lo] and at most [hi] per nanosecond *)
Fixpoint within (lo hi : Q) (rows : list (Z * Q)) : Prop :=
  match rows with
  | a :: ((b :: _) as r) =>
      (lo * inject_Z (fst b - fst a)%Z <= snd b - snd a)%Q /\ (snd b - snd a <= hi * inject_Z (fst b - fst a)%Z)%Q /\ within lo hi r
  | _ => True
  end.
Definition same_rows (a b : list (Z * Q)) : Prop := Forall2 (fun x y => fst x = fst y /\ (snd x == snd y)%Q) a b.
Definition numbers (l : list (Z * Q)) : list (Z * val) := map (fun r => (fst r, Num (snd r))) l.

(** the median: the middle one of an odd number of values in order, or halfway between the two middle ones *)
Definition median_of (l : list Q) (m : Q) : Prop :=
  exists s, Permutation s l /\ StronglySorted Qle s
    /\ exists k, (length l = (2 * k + 1)%nat /\ (m == nth k s 0)%Q) \/ (length l = (2 * k + 2)%nat /\ (m * 2 == nth k s 0 + nth (S k) s 0)%Q).
(** the speeds of change from row to row *)
Fixpoint rates (rows : list (Z * Q)) : list Q :=
  match rows with
  | a :: ((b :: _) as r) => ((snd b - snd a) / inject_Z (fst b - fst a))%Q :: rates r
  | _ => []
  end.
(** the limits: those given, otherwise three times 1.4826 times the median deviation around the median speed *)
Definition limits (smin smax : option Q) (rows : list (Z * Q)) (lo hi : Q) : Prop :=
  exists m d, median_of (rates rows) m /\ median_of (map (fun r => Qabs (r - m)) (rates rows)) d
    /\ match smin with Some x => lo = x | None => (lo == m - 3 * (14826 # 10000) * d)%Q end
    /\ match smax with Some x => hi = x | None => (hi == m + 3 * (14826 # 10000) * d)%Q end.
