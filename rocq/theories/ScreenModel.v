(** Model of the function value_repair with the method screen, the default
    (/repo/query_server/query/src/extension/expr/ts_gen_func/data_repair/value_repair.rs).

    Simplifications.  Doubles are rationals with exact arithmetic; a value of the input is [None] when it is NULL or not finite.  The times
    are strictly ascending (rows of one series, sorted by the plan as in RepairModel): equal times divide by zero, which is left out.  The
    method lsgreedy is not modelled.  The argument text has been parsed. *)
From Coq Require Import QArith Qabs.
From Verif Require Import Prelude RepairModel.
Open Scope Z_scope.

(** value_repair.rs:125-131: the first finite value from a place on, or the length *)
Fixpoint find_known (vs : list (option Q)) (from i : nat) : nat :=
  match vs with
  | [] => Nat.max i from
  | x :: r => match x with
              | Some _ => if (from <=? i)%nat then i else find_known r from (S i)
              | None => find_known r from (S i)
              end
  end.
Fixpoint putq (i : nat) (v : Q) (out : list (option Q)) : list (option Q) :=
  match i, out with
  | O, _ :: r => Some v :: r
  | S i', x :: r => x :: putq i' v r
  | _, [] => []
  end.
Definition valq (vs : list (option Q)) (i : nat) : Q := match nth i vs None with Some q => q | None => 0%Q end.
Definition timeq (ts : list Z) (i : nat) : Z := nth i ts 0.
(** value_repair.rs:138-141, 148-151, 156-159: the line through two places *)
Definition line (ts : list Z) (vs : list (option Q)) (i1 i2 i : nat) : Q :=
  (valq vs i1 + (valq vs i2 - valq vs i1) * (inject_Z (timeq ts i - timeq ts i1) / inject_Z (timeq ts i2 - timeq ts i1)))%Q.
(** the inner loops: [n] places from [i] on *)
Fixpoint put_on_line (n i : nat) (ts : list Z) (i1 i2 : nat) (vs : list (option Q)) : list (option Q) :=
  match n with O => vs | S n' => put_on_line n' (S i) ts i1 i2 (putq i (line ts vs i1 i2 i) vs) end.
(** value_repair.rs:143-154: [n] places from [i] on *)
Fixpoint middle (n i : nat) (ts : list Z) (i1 i2 : nat) (vs : list (option Q)) : nat * nat * list (option Q) :=
  match n with
  | O => (i1, i2, vs)
  | S n' => match nth i vs None with
            | Some _ => middle n' (S i) ts i2 i (put_on_line (i - S i2) (S i2) ts i2 i vs)
            | None => middle n' (S i) ts i1 i2 vs
            end
  end.
(** value_repair.rs:121-162 process_nan; with a single finite value [index2] is the length and values[index2] panics *)
Definition process_nan (ts : list Z) (vs : list (option Q)) : outcome (list Q) :=
  let n := length vs in
  let i1 := find_known vs 0 0 in
  let i2 := find_known vs (S i1) 0 in
  if (n <? i2)%nat then Failed
  else if (i2 =? n)%nat then Panic
  else
    let vs1 := put_on_line i2 0 ts i1 i2 vs in
    let '(i1', i2', vs2) := middle (n - S i2) (S i2) ts i1 i2 vs1 in
    let vs3 := put_on_line (n - S i2') (S i2') ts i1' i2' vs2 in
    Done (map (fun x => match x with Some q => q | None => 0%Q end) vs3).

(** value_repair.rs:78-90 interval_median: as in RepairModel *)
Definition median_interval (ts : list Z) : outcome Z := interval_median ts.
(** value_repair.rs:94, 220: sort_by partial_cmp *)
Fixpoint insert_q (x : Q) (l : list Q) : list Q :=
  match l with [] => [x] | y :: r => if Qle_bool x y then x :: l else y :: insert_q x r end.
Definition sort_q (l : list Q) : list Q := fold_right insert_q [] l.
(** value_repair.rs:92-101 f64_median *)
Definition median_q (l : list Q) : Q :=
  let s := sort_q l in
  let n := length l in
  if Nat.even n then ((nth (n / 2 - 1) s 0 + nth (n / 2) s 0) / 2)%Q else nth (n / 2) s 0%Q.
(** value_repair.rs:103-110 mad *)
Definition mad (l : list Q) : Q := ((14826 # 10000) * median_q (map (fun v => Qabs (v - median_q l)) l))%Q.
(** value_repair.rs:112-119 speed *)
Fixpoint speeds (rows : list (Z * Q)) : list Q :=
  match rows with
  | a :: ((b :: _) as r) => ((snd b - snd a) / inject_Z (fst b - fst a))%Q :: speeds r
  | _ => []
  end.
(** value_repair.rs:210-212: the later rows of the window *)
Fixpoint in_window (limit : Z) (rows : list (Z * Q)) : list (Z * Q) :=
  match rows with [] => [] | r :: rest => if fst r <=? limit then r :: in_window limit rest else [] end.
(** value_repair.rs:208-222 get_median *)
Definition middle_value (row : Z * Q) (win : list (Z * Q)) (smin smax : Q) : Q :=
  let x := snd row :: map (fun r => (snd r + smin * inject_Z (fst row - fst r))%Q) win
                   ++ map (fun r => (snd r + smax * inject_Z (fst row - fst r))%Q) win in
  nth (length win) (sort_q x) 0%Q.
Definition minq (a b : Q) : Q := if Qle_bool a b then a else b.
Definition maxq (a b : Q) : Q := if Qle_bool a b then b else a.
(** value_repair.rs:224-239 get_repaired_value *)
Definition repaired_value (prev row : Z * Q) (mid smin smax : Q) : Q :=
  let xmin := (snd prev + smin * inject_Z (fst row - fst prev))%Q in
  let xmax := (snd prev + smax * inject_Z (fst row - fst prev))%Q in
  maxq xmin (minq xmax mid).
(** value_repair.rs:173-189, 198-206: row after row.  The code treats a row as soon as a row behind its window has been pushed, or at the
    end; all rows of the window are there then, and later rows are not looked at, so the window is taken from the whole list here. *)
Fixpoint screen_rows (w : Z) (smin smax : Q) (prev : option (Z * Q)) (rows : list (Z * Q)) : list (Z * Q) :=
  match rows with
  | [] => []
  | r :: rest =>
      let mid := middle_value r (in_window (fst r + w) rest) smin smax in
      let x := match prev with None => mid | Some p => repaired_value p r mid smin smax end in
      (fst r, x) :: screen_rows w smin smax (Some (fst r, x)) rest
  end.
(** value_repair.rs:164-196 screen *)
Definition screen (smin smax : option Q) (rows : list (Z * Q)) : outcome (list (Z * Q)) :=
  bind (median_interval (map fst rows)) (fun d =>
  let sp := speeds rows in
  let lo := match smin with Some x => x | None => (median_q sp - 3 * mad sp)%Q end in
  let hi := match smax with Some x => x | None => (median_q sp + 3 * mad sp)%Q end in
  Done (screen_rows (5 * d) lo hi None rows)).
(** value_repair.rs:10-19 compute and 64-76 value_repair, between the conversions of columns *)
Definition select_value_repair (ty : col_type) (smin smax : option Q) (rows : list (Z * option Q)) : outcome (list (Z * val)) :=
  match ty with
  | CUInt => Failed
  | _ => bind (process_nan (map fst rows) (map snd rows)) (fun vs =>
         bind (screen smin smax (combine (map fst rows) vs)) (fun out =>
         Done (map (fun r => (fst r, value_out ty (Num (snd r)))) out)))
  end.
