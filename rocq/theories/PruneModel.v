(** The statistics of a page (minimum, maximum, number of nulls), written by a flush and by a
    compaction, and the pruning of column groups by them. *)
From Verif Require Import Prelude.
Open Scope Z_scope.

(** ** Values *)
(** models/src/field_value.rs FieldVal; a float is its 64 bits, a string its bytes.  The time column is
    an integer. *)
Inductive dtype := TBool | TFloat | TInt | TUint | TStr.
Inductive value := VBool (b : bool) | VFloat (bits : Z) | VInt (z : Z) | VUint (z : Z) | VStr (s : list Z).
Definition type_of (v : value) : dtype :=
  match v with VBool _ => TBool | VFloat _ => TFloat | VInt _ => TInt | VUint _ => TUint | VStr _ => TStr end.
Definition dtype_eqb (a b : dtype) : bool :=
  match a, b with TBool, TBool | TFloat, TFloat | TInt, TInt | TUint, TUint | TStr, TStr => true | _, _ => false end.

(** Rust's [<] on f64: false if one is NaN; both zeros are equal *)
Definition f_mag (b : Z) : Z := if 0x8000000000000000 <=? b then b - 0x8000000000000000 else b.
Definition f_nan (b : Z) : bool := 0x7FF0000000000000 <? f_mag b.
Definition f_num (b : Z) : Z := if 0x8000000000000000 <=? b then - f_mag b else f_mag b.
Definition f_lt (a b : Z) : bool := negb (f_nan a) && negb (f_nan b) && (f_num a <? f_num b).
Definition F_MAX : Z := 0x7FEFFFFFFFFFFFFF.
Definition F_MIN : Z := 0xFFEFFFFFFFFFFFFF.
(** Rust's [<] on byte slices *)
Fixpoint s_lt (a b : list Z) : bool :=
  match a, b with
  | _, [] => false
  | [], _ :: _ => true
  | x :: a', y :: b' => if x <? y then true else if y <? x then false else s_lt a' b'
  end.
Definition v_lt (a b : value) : bool :=
  match a, b with
  | VBool x, VBool y => negb x && y
  | VFloat x, VFloat y => f_lt x y
  | VInt x, VInt y => x <? y
  | VUint x, VUint y => x <? y
  | VStr x, VStr y => s_lt x y
  | _, _ => false
  end.

(** ** Pages *)
(** tsm/page.rs PageStatistics, ValueStatistics *)
Record stat := STAT { s_ty : dtype; s_min : option value; s_max : option value; s_nulls : Z }.
(** tsm/page.rs Page, PageMeta: the bit set, the values that are not null, the statistics.  Simplified:
    the encoding of the values (C06-C10) and the bytes of the page (C44) are left out. *)
Record page := PG { pg_name : Z; pg_ty : dtype; pg_valid : list bool; pg_vals : list value; pg_stat : stat }.
(** tsm/reader.rs data_buf_to_arrow_array: the values of the page, row by row *)
Fixpoint spread (valid : list bool) (vals : list value) : list (option value) :=
  match valid, vals with
  | true :: valid', v :: vals' => Some v :: spread valid' vals'
  | false :: valid', _ => None :: spread valid' vals
  | _, _ => []
  end.
Definition cells (p : page) : list (option value) := spread (pg_valid p) (pg_vals p).

(** *** Flush *)
(** column_data_ref.rs:5-9 ColumnDataRef *)
Record cdata := CD { c_ty : dtype; c_valid : list bool; c_vals : list value; c_min : value; c_max : value }.
(** column_data_ref.rs:36-58 ColumnDataRef::new with length 0 (mutable_column_ref.rs:14-24) *)
Definition new_column (ty : dtype) : cdata :=
  match ty with
  | TFloat => CD ty [] [] (VFloat F_MAX) (VFloat F_MIN)
  | TInt => CD ty [] [] (VInt I64_MAX) (VInt I64_MIN)
  | TUint => CD ty [] [] (VUint U64_MAX) (VUint 0)
  | TBool => CD ty [] [] (VBool false) (VBool true)
  | TStr => CD ty [] [] (VStr []) (VStr [])
  end.
(** column_data_ref.rs:83-170 push (59-81 push_ts for the time column); [None] is DataTypeMissMatch *)
Definition push (c : cdata) (v : option value) : option cdata :=
  match v with
  | None => Some (CD (c_ty c) (c_valid c ++ [false]) (c_vals c) (c_min c) (c_max c))
  | Some x =>
      if dtype_eqb (c_ty c) (type_of x) then
        let mx := match c_max c, x with
                  | VBool m, VBool b => if negb m && b then x else VBool m
                  | m, _ => if v_lt m x then x else m
                  end in
        let mn := match c_min c, x with
                  | VBool m, VBool b => if m && negb b then x else VBool m
                  | m, _ => if v_lt x m then x else m
                  end in
        Some (CD (c_ty c) (c_valid c ++ [true]) (c_vals c ++ [x]) mn mx)
      else None
  end.
Fixpoint push_all (c : cdata) (vs : list (option value)) : option cdata :=
  match vs with
  | [] => Some c
  | v :: vs' => match push c v with Some c' => push_all c' vs' | None => None end
  end.
(** page.rs:506-596 colref_to_page *)
Definition colref_to_page (name : Z) (c : cdata) : page :=
  PG name (c_ty c) (c_valid c) (c_vals c)
    (STAT (c_ty c) (Some (c_min c)) (Some (c_max c)) (Z.of_nat (length (c_valid c)) - Z.of_nat (length (c_vals c)))).
(** series_data.rs:214-262 convert_to_page, one column *)
Definition flush_page (name : Z) (ty : dtype) (vs : list (option value)) : option page :=
  match push_all (new_column ty) vs with Some c => Some (colref_to_page name c) | None => None end.

(** *** Compaction *)
Definition flatten (vs : list (option value)) : list value := concat (map (fun v => match v with Some x => [x] | None => [] end) vs).
Definition bits (vs : list (option value)) : list bool := map (fun v => match v with Some _ => true | None => false end) vs.
(** the loops of page.rs:133-149, 211-221, 240-255, 274-290 *)
Definition step_max (m x : value) : value := if v_lt m x then x else m.
Definition step_min (m x : value) : value := if v_lt x m then x else m.
(** Iterator::max, Iterator::min *)
Definition iter_max (l : list value) : option value := match l with [] => None | x :: l' => Some (fold_left (fun m y => if v_lt y m then m else y) l' x) end.
Definition iter_min (l : list value) : option value := match l with [] => None | x :: l' => Some (fold_left step_min l' x) end.
(** page.rs:100-353 arrow_array_to_page (writer.rs:249-277 write_record_batch).  An Arrow array has values
    of its type only; [None] for the others. *)
Definition arrow_array_to_page (name : Z) (ty : dtype) (vs : list (option value)) : option page :=
  let l := flatten vs in
  if forallb (fun x => dtype_eqb ty (type_of x)) l then
    let nulls := Z.of_nat (length vs) - Z.of_nat (length l) in
    let st := match ty with
              | TBool => STAT ty None None nulls
              | TInt => STAT ty (Some (fold_left step_min l (VInt I64_MAX))) (Some (fold_left step_max l (VInt I64_MIN))) nulls
              | TUint => STAT ty (Some (fold_left step_min l (VUint U64_MAX))) (Some (fold_left step_max l (VUint 0))) nulls
              | TFloat => STAT ty (Some (fold_left step_min l (VFloat F_MAX))) (Some (fold_left step_max l (VFloat F_MIN))) nulls
              | TStr => STAT ty (iter_min l) (iter_max l) nulls
              end in
    Some (PG name ty (bits vs) l st)
  else None.

(** ** Pruning *)
(** Arrow's comparison kernels: floats by IEEE 754's total order (-0 < +0 < … < infinity < NaN); null if an
    operand is null *)
Definition f_key (b : Z) : Z := if 0x8000000000000000 <=? b then - f_mag b - 1 else f_mag b.
Definition t_lt (a b : value) : bool := match a, b with VFloat x, VFloat y => f_key x <? f_key y | _, _ => v_lt a b end.
Inductive cmpop := Eq | Ne | Lt | Le | Gt | Ge.
Definition compare (op : cmpop) (a b : option value) : option bool :=
  match a, b with
  | Some x, Some y =>
      if dtype_eqb (type_of x) (type_of y) then
        Some (match op with
              | Eq => negb (t_lt x y) && negb (t_lt y x)
              | Ne => t_lt x y || t_lt y x
              | Lt => t_lt x y
              | Le => negb (t_lt y x)
              | Gt => t_lt y x
              | Ge => negb (t_lt x y)
              end)
      else None
  | _, _ => None
  end.
Definition and3 (a b : option bool) : option bool :=
  match a, b with
  | Some false, _ | _, Some false => Some false
  | Some true, Some true => Some true
  | _, _ => None
  end.
Definition or3 (a b : option bool) : option bool :=
  match a, b with
  | Some true, _ | _, Some true => Some true
  | Some false, Some false => Some false
  | _, _ => None
  end.
Definition not3 (a : option bool) : option bool := option_map negb a.
(** A predicate: comparisons of a column with a literal of its type, Boolean columns and their negations,
    AND, OR; everything else is [EOther] with a number. *)
Inductive expr :=
| ECmp (op : cmpop) (name : Z) (lit : option value)
| EBool (name : Z)
| ENot (name : Z)
| EAnd (l r : expr)
| EOr (l r : expr)
| EOther (k : nat).

(** A column group: its pages *)
Definition find_page (name : Z) (g : list page) : option page := find (fun p => pg_name p =? name) g.
Section Prune.
(** std::str::from_utf8 succeeds *)
Variable utf8 : list Z -> bool.
Definition as_scalar (v : option value) : option value :=
  match v with Some (VStr s) => if utf8 s then v else None | _ => v end.
(** statistics.rs:14-41 min_values, 43-70 max_values: one value per group; [None]: no statistics.  The
    type is that of the first group's page; groups without the column have null; ScalarValue::iter_to_array
    fails if the types differ. *)
Definition stat_values (sel : stat -> option value) (name : Z) (gs : list (list page)) : option (list (option value)) :=
  match gs with
  | [] => None
  | g0 :: _ =>
      match find_page name g0 with
      | None => None
      | Some p0 =>
          let xs := map (fun g => match find_page name g with
                                  | Some p => (s_ty (pg_stat p), as_scalar (sel (pg_stat p)))
                                  | None => (pg_ty p0, None)
                                  end) gs in
          if forallb (fun x => dtype_eqb (fst x) (match xs with y :: _ => fst y | [] => TBool end)) xs
          then Some (map snd xs) else None
      end
  end.
Definition stat_at (sel : stat -> option value) (name : Z) (gs : list (list page)) (i : nat) : option value :=
  match stat_values sel name gs with Some l => nth i l None | None => None end.
Definition as_bool (v : option value) : option bool := match v with Some (VBool b) => Some b | _ => None end.
(** DataFusion's PruningPredicate (27.0): build_statistics_expr, build_single_column_expr,
    build_predicate_expression; what it does not know becomes true *)
Fixpoint stat_eval (gs : list (list page)) (i : nat) (e : expr) : option bool :=
  match e with
  | ECmp op n lit =>
      let mn := stat_at s_min n gs i in
      let mx := stat_at s_max n gs i in
      match op with
      | Eq => and3 (compare Le mn lit) (compare Le lit mx)
      | Ne => or3 (compare Ne mn lit) (compare Ne lit mx)
      | Lt => compare Lt mn lit
      | Le => compare Le mn lit
      | Gt => compare Gt mx lit
      | Ge => compare Ge mx lit
      end
  | EBool n => or3 (as_bool (stat_at s_min n gs i)) (as_bool (stat_at s_max n gs i))
  | ENot n => not3 (and3 (as_bool (stat_at s_min n gs i)) (as_bool (stat_at s_max n gs i)))
  | EAnd l r => and3 (stat_eval gs i l) (stat_eval gs i r)
  | EOr l r => or3 (stat_eval gs i l) (stat_eval gs i r)
  | EOther _ => Some true
  end.
(** PruningPredicate::prune: unknown is kept *)
Definition prune (e : expr) (gs : list (list page)) : list bool :=
  map (fun i => match stat_eval gs i e with Some b => b | None => true end) (seq 0 (length gs)).
(** chunk.rs:12-28 filter_column_groups *)
Definition filter_column_groups (e : expr) (gs : list (list page)) : list (list page) :=
  map snd (filter (fun p => fst p) (combine (prune e gs) gs)).
End Prune.
