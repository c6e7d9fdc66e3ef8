(** Model of the function timestamp_repair
    (/repo/query_server/query/src/extension/expr/ts_gen_func/data_repair/timestamp_repair.rs) and of the
    conversions around it (/repo/query_server/query/src/extension/physical/plan_node/ts_gen_func/stream.rs,
    /repo/query_server/query/src/extension/utils.rs, /repo/query_server/query/src/extension/analyse/transform_ts_gen_func.rs).

    Simplifications.  Times are nanoseconds; sums and products of times and of costs are taken in [Z], so inputs are assumed
    small enough for 64 bits.  A value is a rational or [NaN]; conversions of integers to doubles are exact.  The
    argument text has been parsed; an unknown method or start mode, and its error, are left out.  The order in which a
    HashMap is walked and the rounding to doubles are parameters. *)
From Coq Require Import QArith Qround.
From Verif Require Import Prelude.
Open Scope Z_scope.

(** an f64 of the functions: a number, NaN (also for infinities, which the functions turn into NaN), or memory that was never written *)
Inductive val := Num (q : Q) | NaN | Uninit.
(** what a call ends with: rows, an error of the statement, a panic of the thread, or no end at all *)
Inductive outcome (A : Type) := Done (a : A) | Failed | Panic | Endless.
Arguments Done {A}. Arguments Failed {A}. Arguments Panic {A}. Arguments Endless {A}.
Definition bind {A B} (x : outcome A) (f : A -> outcome B) : outcome B :=
  match x with Done a => f a | Failed => Failed | Panic => Panic | Endless => Endless end.

(** timestamp_repair.rs:28-33 IntervalMode and 46-49 StartMode *)
Inductive interval_mode := ByMode | ByCluster | ByMedian | Given (ms : Z).
Inductive start_mode := SLinear | SMode.
(** timestamp_repair.rs:88-93 Op *)
Inductive op := Nothing | Insert | Remove.

(** timestamp_repair.rs:294-298, 304-307, 321-325: the differences of neighbours *)
Fixpoint intervals (ts : list Z) : list Z :=
  match ts with a :: ((b :: _) as r) => (b - a) :: intervals r | _ => [] end.
(** timestamp_repair.rs:303-308, 204-206: how often a key was counted *)
Definition times (l : list Z) (k : Z) : nat := count_occ Z.eq_dec l k.
(** timestamp_repair.rs:207-214, 309-317: the walk over the map keeps the first key with the largest count; [walk] lists the
    distinct keys in the order of the map *)
Definition most_frequent (walk : list Z -> list Z) (l : list Z) : Z :=
  fst (fold_left (fun acc k => if (snd acc <? times l k)%nat then (k, times l k) else acc) (walk l) (0, 0%nat)).
(** timestamp_repair.rs:326 sort_unstable *)
Fixpoint insert_sorted (x : Z) (l : list Z) : list Z :=
  match l with [] => [x] | y :: r => if x <=? y then x :: l else y :: insert_sorted x r end.
Definition sort_z (l : list Z) : list Z := fold_right insert_sorted [] l.
(** timestamp_repair.rs:320-332 get_interval_median; indices beyond the list panic *)
Definition interval_median (ts : list Z) : outcome Z :=
  let s := sort_z (intervals ts) in
  let size := length ts in
  if Nat.even size then
    match (size =? 0)%nat, nth_error s (size / 2 - 1), nth_error s (size / 2) with
    | false, Some a, Some b => Done (Z.quot (a + b) 2) | _, _, _ => Panic end
  else match nth_error s (size / 2) with Some a => Done a | None => Panic end.
(** timestamp_repair.rs:302-318 get_interval_mode: an empty input makes the upper bound of the loop wrap *)
Definition interval_mode_of (walk : list Z -> list Z) (ts : list Z) : outcome Z :=
  match ts with [] => Panic | _ => Done (most_frequent walk (intervals ts)) end.

(** timestamp_repair.rs:244-252: the nearest mean, the first one when several are *)
Fixpoint nearest (x : Z) (means : list Z) (j : nat) (best : Z) (id : nat) : nat :=
  match means with
  | [] => id
  | v :: r => let dist := Z.abs (x - v) in if dist <? best then nearest x r (S j) dist j else nearest x r (S j) best id
  end.
Definition i64_max : Z := 2 ^ 63 - 1.
(** timestamp_repair.rs:258-263: the samples of a cluster *)
Definition samples (data : list Z) (results : list nat) (c : nat) : list Z :=
  map fst (filter (fun p => (snd p =? c)%nat) (combine data results)).
Definition sum_z (l : list Z) : Z := fold_right Z.add 0 l.
(** timestamp_repair.rs:264-275: the new means *)
Definition new_mean (data : list Z) (results : list nat) (c : nat) (old : Z) : Z :=
  let s := samples data results c in
  match s with [] => old | _ => Z.quot (sum_z s) (Z.of_nat (length s)) end.
(** timestamp_repair.rs:239-276: rounds until no assignment changes *)
Fixpoint rounds (fuel : nat) (data : list Z) (means : list Z) (results : list nat) : option (list nat) :=
  match fuel with
  | O => None
  | S fuel =>
      let results' := map (fun x => nearest x means 0 i64_max 0%nat) data in
      let means' := map (fun p => new_mean data results' (fst p) (snd p)) (combine (seq 0 3) means) in
      if list_eq_dec Nat.eq_dec results' results then Some results' else rounds fuel data means' results'
  end.
(** timestamp_repair.rs:277-291: the largest cluster, the last one when several are (Iterator::max_by_key), and its mean *)
Definition largest (data : list Z) (results : list nat) : nat :=
  let n c := length (samples data results c) in
  if (Nat.max (n 0%nat) (n 1%nat) <=? n 2%nat)%nat then 2%nat else if (n 0%nat <=? n 1%nat)%nat then 1%nat else 0%nat.
(** timestamp_repair.rs:228-291 k_means_clustering with k = 3 *)
Definition k_means (fuel : nat) (data : list Z) : option Z :=
  let mx := match data with [] => 0 | x :: r => fold_right Z.max x r end in
  let mn := match data with [] => 0 | x :: r => fold_right Z.min x r end in
  let means := map (fun i => mn + Z.quot ((Z.of_nat i + 1) * (mx - mn)) 4) (seq 0 3) in
  match rounds fuel data means (map (fun _ => 0%nat) data) with
  | None => None
  | Some results =>
      let s := samples data results (largest data results) in
      Some (match s with [] => 0 | _ => Z.quot (sum_z s) (Z.of_nat (length s)) end)
  end.
(** timestamp_repair.rs:293-300 get_interval_cluster *)
Definition interval_cluster (fuel : nat) (ts : list Z) : outcome Z :=
  match ts with [] => Panic | _ => match k_means fuel (intervals ts) with Some d => Done d | None => Endless end end.

(** timestamp_repair.rs:190-197 getstart_linear *)
Definition start_linear (ts : list Z) (d : Z) : outcome Z :=
  match ts with
  | [] => Panic
  | _ => Done (Z.quot (sum_z (map (fun p => snd p - Z.of_nat (fst p) * d) (combine (seq 0 (length ts)) ts)))
                      (Z.of_nat (length ts)))
  end.
(** timestamp_repair.rs:199-226 getstart_mode; lines 222-224, a loop that subtracts [d] until the result is at most the first time,
    in closed form.  The remainder by zero panics. *)
Definition start_mode_of (walk : list Z -> list Z) (ts : list Z) (d : Z) : outcome Z :=
  match ts with
  | [] => Panic
  | first :: _ =>
      if d =? 0 then Panic else
      let key := most_frequent walk (map (fun v => Z.rem v d) ts) in
      let result := fold_left (fun acc v => if Z.rem v d =? key then v else acc) ts 0 in
      Done (if first <? result then result - d * ((result - first + d - 1) / d) else result)
  end.

(** timestamp_repair.rs:136 *)
Definition addcost : Z := 100000000000.
(** timestamp_repair.rs:149-166: one cell of the tables [f] and [steps], from its neighbours diagonally, above and to the left *)
Definition cell (p t : Z) (diag up left : Z * op) : Z * op :=
  if t =? p then (fst diag, Nothing)
  else
    let c := if fst up <? fst left then (fst up + addcost, Insert) else (fst left + addcost, Remove) in
    let m := fst diag + Z.abs (t - p) in
    if m <? fst c then (m, Nothing) else c.
(** timestamp_repair.rs:148-167: a row from the one above *)
Fixpoint fill_row (p : Z) (ts : list Z) (above : list (Z * op)) (left : Z * op) : list (Z * op) :=
  match ts, above with
  | t :: ts', diag :: ((up :: _) as above') =>
      let c := cell p t diag up left in c :: fill_row p ts' above' c
  | _, _ => []
  end.
(** timestamp_repair.rs:147-168: [n] rows from row [i] on *)
Fixpoint table (start d : Z) (ts : list Z) (above : list (Z * op)) (i n : nat) : list (list (Z * op)) :=
  match n with
  | O => []
  | S n' => let left := (addcost * Z.of_nat i, Insert) in
            let row := left :: fill_row (start + d * Z.of_nat (i - 1)) ts above left in
            row :: table start d ts row (S i) n'
  end.
(** timestamp_repair.rs:137-168: the whole table, rows 0 to n *)
Definition whole_table (start d : Z) (ts : list Z) (n : nat) : list (list (Z * op)) :=
  let row0 := map (fun j => (addcost * Z.of_nat j, Remove)) (seq 0 (S (length ts))) in
  row0 :: table start d ts row0 1 n.
Definition step_at (tab : list (list (Z * op))) (i j : nat) : op := snd (nth j (nth i tab []) (0, Remove)).
(** timestamp_repair.rs:169-185: the walk back; the rows are written from the last to the first, what is left when it stops
    keeps the zeros of lines 134-135 *)
Fixpoint walk_back (fuel : nat) (tab : list (list (Z * op))) (start d : Z) (vals : list val) (i j : nat) : list (Z * val) :=
  match fuel with
  | O => []
  | S fuel =>
      match i, j with
      | S i', S j' =>
          let p := start + d * Z.of_nat i' in
          match step_at tab i j with
          | Nothing => walk_back fuel tab start d vals i' j' ++ [(p, nth j' vals NaN)]
          | Insert => walk_back fuel tab start d vals i' j ++ [(p, NaN)]
          | Remove => walk_back fuel tab start d vals i j'
          end
      | _, _ => repeat (0, Num 0) i
      end
  end.
(** timestamp_repair.rs:130-132; [fl] rounds to a double *)
Definition grid_len (fl : Q -> Q) (last start d : Z) : nat :=
  Z.to_nat (Qceiling (fl (fl (fl (inject_Z (last - start)) / fl (inject_Z d)) + 1)%Q)).
(** timestamp_repair.rs:121-188 dp_repair.  A zero interval divides by 0.0: the length is then 0 (NaN and minus infinity convert
    to 0) or the largest usize, whose vectors cannot be allocated. *)
Definition dp_repair (fl : Q -> Q) (start d : Z) (ts : list Z) (vals : list val) : outcome (list (Z * val)) :=
  if (length ts <=? 2)%nat then Done (combine ts vals)
  else
    let lst := last ts 0 in
    if d =? 0 then (if start <? lst then Panic else Done [])
    else
      let n := grid_len fl lst start d in
      Done (walk_back (S (n + length ts)) (whole_table start d ts n) start d vals n (length ts)).

(** timestamp_repair.rs:95-119 timestamps_repair with 70-76 (a negative interval is refused; zero is not) *)
Definition timestamp_repair (fl : Q -> Q) (walk : list Z -> list Z) (fuel : nat) (im : interval_mode) (sm : start_mode)
    (ts : list Z) (vals : list val) : outcome (list (Z * val)) :=
  bind (match im with
        | ByCluster => interval_cluster fuel ts
        | ByMode => interval_mode_of walk ts
        | ByMedian => interval_median ts
        | Given i => if i <? 0 then Failed else Done (i * 1000000)
        end) (fun d =>
  bind (match sm with SLinear => start_linear ts d | SMode => start_mode_of walk ts d end) (fun start =>
  dp_repair fl start d ts vals)).

(** the types a value argument may have: DOUBLE, BIGINT, BIGINT UNSIGNED *)
Inductive col_type := CFloat | CInt | CUInt.
(** utils.rs:71-118 numeric_arr_as_f64_iter: nulls become NaN; an unsigned column is cast to the wrong array type and refused *)
Definition column_in (ty : col_type) (l : list (option Q)) : outcome (list val) :=
  match ty with
  | CUInt => Failed
  | _ => Done (map (fun x => match x with Some q => Num q | None => NaN end) l)
  end.
(** utils.rs:187-201 f64_vec_to_numeric_arr: NaN as i64 is 0, a number is cut towards zero *)
Definition value_out (ty : col_type) (v : val) : val :=
  match ty, v with
  | CFloat, _ => v
  | _, NaN => Num 0
  | _, Num q => Num (inject_Z (Z.quot (Qnum q) (Zpos (Qden q))))
  | _, Uninit => Uninit
  end.
(** transform_ts_gen_func.rs:251-259: the rows arrive in the order of their times; stream.rs:55-69: the result.  [rows] is the
    sorted input *)
Definition select_timestamp_repair (fl : Q -> Q) (walk : list Z -> list Z) (fuel : nat) (ty : col_type) (im : interval_mode)
    (sm : start_mode) (rows : list (Z * option Q)) : outcome (list (Z * val)) :=
  bind (column_in ty (map snd rows)) (fun vals =>
  bind (timestamp_repair fl walk fuel im sm (map fst rows) vals) (fun out =>
  Done (map (fun r => (fst r, value_out ty (snd r))) out))).
