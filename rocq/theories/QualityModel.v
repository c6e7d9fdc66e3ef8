(** Model of the data quality functions completeness, consistency, timeliness and validity
    (/repo/query_server/query/src/extension/expr/aggregate_function/data_quality/common.rs, accumulator.rs).

    Simplifications.  Doubles are rationals with exact arithmetic, infinities and NaN.  Times are whole numbers; the factor by which the code
    scales them (accumulator.rs:183-186) cancels out and is left out, and so is the rounding of times to doubles.  A value of the input is
    [None] when it is NULL or not finite.  Which rows reach the accumulator is the subject of AggModel; here the whole series is given. *)
From Coq Require Import QArith Qabs Qround.
From Verif Require Import Prelude RepairModel ScreenModel.
Open Scope Z_scope.

(** doubles *)
Inductive ext := Fin (q : Q) | Inf (pos : bool) | Nan.
Definition is_nan (x : ext) : bool := match x with Nan => true | _ => false end.
Definition negative (q : Q) : bool := negb (Qle_bool 0 q).
Definition neg_e (x : ext) : ext := match x with Fin q => Fin (- q) | Inf s => Inf (negb s) | Nan => Nan end.
Definition add_e (x y : ext) : ext :=
  match x, y with
  | Fin a, Fin b => Fin (a + b)
  | Nan, _ | _, Nan => Nan
  | Inf s, Inf t => if Bool.eqb s t then Inf s else Nan
  | Inf s, _ | _, Inf s => Inf s
  end.
Definition sub_e (x y : ext) : ext := add_e x (neg_e y).
Definition mul_e (x y : ext) : ext :=
  match x, y with
  | Fin a, Fin b => Fin (a * b)
  | Nan, _ | _, Nan => Nan
  | Inf s, Inf t => Inf (Bool.eqb s t)
  | Inf s, Fin q | Fin q, Inf s => if Qeq_bool q 0 then Nan else Inf (Bool.eqb s (negb (negative q)))
  end.
Definition div_e (x y : ext) : ext :=
  match x, y with
  | Fin a, Fin b => if Qeq_bool b 0 then (if Qeq_bool a 0 then Nan else Inf (negb (negative a))) else Fin (a / b)
  | Nan, _ | _, Nan => Nan
  | Inf s, Inf _ => Nan
  | Inf s, Fin q => Inf (Bool.eqb s (negb (negative q)))
  | Fin _, Inf _ => Fin 0
  end.
Definition abs_e (x : ext) : ext := match x with Fin q => Fin (Qabs q) | Inf _ => Inf true | Nan => Nan end.
(** <=, false when a side is NaN *)
Definition le_e (x y : ext) : bool :=
  match x, y with
  | Nan, _ | _, Nan => false
  | Fin a, Fin b => Qle_bool a b
  | Inf false, _ | _, Inf true => true
  | _, _ => false
  end.
Definition gt_e (x y : ext) : bool := negb (is_nan x) && negb (is_nan y) && negb (le_e x y).

(** common.rs:79-123 nan_process: as process_nan of value_repair, but without the panic for a single value *)
Definition cell (x : option Q) : ext := match x with Some q => Fin q | None => Nan end.
Fixpoint pute (i : nat) (v : ext) (out : list ext) : list ext :=
  match i, out with
  | O, _ :: r => v :: r
  | S i', x :: r => x :: pute i' v r
  | _, [] => []
  end.
Definition line_e (ts : list Z) (vs : list ext) (i1 i2 i : nat) : ext :=
  add_e (nth i1 vs Nan) (mul_e (sub_e (nth i2 vs Nan) (nth i1 vs Nan))
    (div_e (Fin (inject_Z (nth i ts 0 - nth i1 ts 0))) (Fin (inject_Z (nth i2 ts 0 - nth i1 ts 0))))).
Fixpoint put_line_e (n i : nat) (ts : list Z) (i1 i2 : nat) (vs : list ext) : list ext :=
  match n with O => vs | S n' => put_line_e n' (S i) ts i1 i2 (pute i (line_e ts vs i1 i2 i) vs) end.
Fixpoint middle_e (n i : nat) (ts : list Z) (i1 i2 : nat) (vs : list ext) : nat * nat * list ext :=
  match n with
  | O => (i1, i2, vs)
  | S n' => if is_nan (nth i vs Nan) then middle_e n' (S i) ts i1 i2 vs
            else middle_e n' (S i) ts i2 i (put_line_e (i - S i2) (S i2) ts i2 i vs)
  end.
Definition nan_process (ts : list Z) (vs : list (option Q)) : outcome (list ext) :=
  let n := length vs in
  let i1 := find_known vs 0 0 in
  let i2 := find_known vs (S i1) 0 in
  if (n <=? i2)%nat then Failed
  else
    let vs1 := put_line_e i2 0 ts i1 i2 (map cell vs) in
    let '(i1', i2', vs2) := middle_e (n - S i2) (S i2) ts i1 i2 vs1 in
    Done (put_line_e (n - S i2') (S i2') ts i1' i2' vs2).

(** common.rs:220-232 median: sorting two or more values panics on NaN, and so does an empty list *)
Fixpoint insert_e (x : ext) (l : list ext) : list ext :=
  match l with [] => [x] | y :: r => if le_e x y then x :: l else y :: insert_e x r end.
Definition sort_e (l : list ext) : list ext := fold_right insert_e [] l.
Definition median_e (l : list ext) : outcome ext :=
  match l with
  | [] => Panic
  | [x] => Done x
  | _ =>
      if existsb is_nan l then Panic
      else
        let s := sort_e l in
        let n := length l in
        Done (if Nat.even n then div_e (add_e (nth (n / 2 - 1) s Nan) (nth (n / 2) s Nan)) (Fin 2) else nth (n / 2) s Nan)
  end.
(** common.rs:234-241 mad *)
Definition mad_e (l : list ext) : outcome ext :=
  bind (median_e l) (fun mid =>
  bind (median_e (map (fun v => abs_e (sub_e v mid)) l)) (fun m => Done (mul_e (Fin (14826 # 10000)) m))).
(** common.rs:172-182 findoutliers with k = 3 *)
Definition find_outliers (l : list ext) : outcome Z :=
  bind (median_e l) (fun mid =>
  bind (mad_e l) (fun sigma =>
  Done (Z.of_nat (length (filter (fun v => gt_e (abs_e (sub_e v mid)) (mul_e (Fin 3) sigma)) l))))).
(** common.rs:197-199, 204-206: differences of neighbours *)
Fixpoint steps_e (l : list ext) : list ext :=
  match l with a :: ((b :: _) as r) => sub_e b a :: steps_e r | _ => [] end.
(** common.rs:184-191 speed *)
Fixpoint speeds_e (ts : list Z) (vs : list ext) : list ext :=
  match ts, vs with
  | t :: ((u :: _) as ts'), a :: ((b :: _) as vs') => div_e (sub_e b a) (Fin (inject_Z (u - t))) :: speeds_e ts' vs'
  | _, _ => []
  end.
(** common.rs:193-209 value_detect and 213-217 validity *)
Definition validity (ts : list Z) (vs : list ext) : outcome Q :=
  bind (find_outliers vs) (fun a =>
  bind (find_outliers (steps_e vs)) (fun b =>
  bind (find_outliers (speeds_e ts vs)) (fun c =>
  bind (find_outliers (steps_e (speeds_e ts vs))) (fun d =>
  Done (1 - (1 # 4) * inject_Z (a + b + c + d) / inject_Z (Z.of_nat (length ts)))%Q)))).

(** common.rs:127-131: the intervals *)
Definition gaps_q (ts : list Z) : list Q := map inject_Z (intervals ts).
(** f64::round, of a number that is not negative *)
Definition round_q (x : Q) : Z := Qfloor (x + (1 # 2)).
(** common.rs:150-167: rows that came late; [want] is the number of rows missing, [prev] the row before the place looked at *)
Fixpoint look (base : Q) (want temp : Z) (prev : Z) (ws : list Z) : Z * list Z :=
  match ws with
  | [] => (temp, [])
  | c :: r =>
      let x := (inject_Z (c - prev) / base)%Q in
      if Qle_bool 2 x then (temp, ws)
      else if Qle_bool x (1 # 2) then
        let temp' := temp + 1 in
        if temp' =? want then (temp', r) else look base want temp' prev r
      else let '(t, r') := look base want temp c r in (t, c :: r')
  end.
Record counts := mkC { c_miss : Z; c_late : Z; c_red : Z }.
(** common.rs:144-169: one round, before the first row is taken off; a median interval of zero makes all tests false *)
Definition round_of (base : Q) (a b : Z) (ws : list Z) (c : counts) : list Z * counts :=
  if Qeq_bool base 0 then (a :: b :: ws, c)
  else
    let x := (inject_Z (b - a) / base)%Q in
    if Qle_bool x (1 # 2) then (a :: ws, mkC (c_miss c) (c_late c) (c_red c + 1))
    else if Qle_bool 2 x && Qle_bool x 9 then
      let want := round_q (x - 1) in
      let '(temp, ws') := look base want 0 b ws in
      (a :: b :: ws', mkC (c_miss c + (want - temp)) (c_late c + temp) (c_red c))
    else (a :: b :: ws, c).
(** common.rs:171-174: the window is filled up to ten rows *)
Definition refill (w rest : list Z) : list Z * list Z := (w ++ firstn (10 - length w) rest, skipn (10 - length w) rest).
(** common.rs:143-175: the loop; every round takes a row off, so the number of rows is enough as a bound *)
Fixpoint detect (fuel : nat) (base : Q) (w rest : list Z) (c : counts) : counts :=
  match fuel with
  | O => c
  | S f =>
      match w with
      | a :: b :: ws =>
          let '(w', c') := round_of base a b ws c in
          let '(w2, rest2) := refill (tl w') rest in
          detect f base w2 rest2 c'
      | _ => c
      end
  end.
(** common.rs:125-176 time_detect *)
Definition time_detect (ts : list Z) : counts :=
  detect (length ts) (median_q (gaps_q ts)) (firstn 10 ts) (skipn 10 ts) (mkC 0 0 0).

Inductive quality := Completeness | Consistency | Timeliness | Validity.
(** common.rs:44-50: NULL and not finite values *)
Definition specials (vs : list (option Q)) : Z := Z.of_nat (length (filter (fun v => match v with None => true | _ => false end) vs)).
(** accumulator.rs:74-103 evaluate, of rows that have been sorted by time; 200-212 the scores *)
Definition evaluate (f : quality) (s : list (Z * option Q)) : outcome Q :=
  let ts := map fst s in
  let vs := map snd s in
  let cnt := Z.of_nat (length s) in
  bind (nan_process ts vs) (fun filled =>
  match f with
  | Completeness => let c := time_detect ts in Done (1 - inject_Z (c_miss c + specials vs) / inject_Z (cnt + c_miss c))%Q
  | Consistency => Done (1 - inject_Z (c_red (time_detect ts)) / inject_Z cnt)%Q
  | Timeliness => Done (1 - inject_Z (c_late (time_detect ts)) / inject_Z cnt)%Q
  | Validity => validity ts filled
  end).
(** accumulator.rs:177-190 scalar_to_f64: BIGINT UNSIGNED is not among the types and becomes NaN *)
Definition column_value (ty : col_type) (v : option Q) : option Q := match ty with CUInt => None | _ => v end.
(** accumulator.rs:75-77: sort_unstable_by the time, so rows of equal time come in any order *)
Definition sorted_rows (rows s : list (Z * option Q)) : Prop :=
  Permutation s rows /\ StronglySorted (fun a b => fst a <= fst b) s.
Definition select_quality (ty : col_type) (f : quality) (rows : list (Z * option Q)) (out : outcome Q) : Prop :=
  exists s, sorted_rows (map (fun r => (fst r, column_value ty (snd r))) rows) s /\ evaluate f s = out.
