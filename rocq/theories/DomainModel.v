(** Model of value domains: Marker, Range, RangeValueSet, EqutableValueSet, Domain and
    ColumnDomains (/repo/common/models/src/predicate/domain.rs:424-1596).

    Simplifications.  A [ScalarValue] is a non-null scalar of an ordered type: a number of type
    tag [k] (integers, timestamps, dates, floats in their IEEE total order), a byte string, or a
    boolean; typed nulls are not modelled.  Scalars of different types never meet in
    [scalar_cmp]: every comparison in the code is preceded by a check that the data types are
    equal, except the sort at the head of [of_ranges], where different types panic; the model
    returns [None] (the error) there. *)
From Verif Require Import Prelude.

(** arrow DataType, for the types above. *)
Inductive dtype := DNum (k : Z) | DStr | DBool.
Inductive scalar := SNum (k z : Z) | SStr (s : list Z) | SBool (b : bool).
(** ScalarValue::get_datatype *)
Definition scalar_ty (s : scalar) : dtype :=
  match s with SNum k _ => DNum k | SStr _ => DStr | SBool _ => DBool end.
Definition dtype_eqb (a b : dtype) : bool :=
  match a, b with
  | DNum x, DNum y => x =? y
  | DStr, DStr => true
  | DBool, DBool => true
  | _, _ => false
  end.

(** ScalarValue::partial_cmp on values of one type; byte-wise for strings.  Across types the
    order is by type, which the code never asks for. *)
Fixpoint str_cmp (a b : list Z) : comparison :=
  match a, b with
  | [], [] => Eq
  | [], _ :: _ => Lt
  | _ :: _, [] => Gt
  | x :: a', y :: b' => match x ?= y with Eq => str_cmp a' b' | c => c end
  end.
Definition bool_cmp (a b : bool) : comparison :=
  match a, b with false, true => Lt | true, false => Gt | _, _ => Eq end.
Definition scalar_cmp (a b : scalar) : comparison :=
  match a, b with
  | SNum k x, SNum j y => match k ?= j with Eq => x ?= y | c => c end
  | SNum _ _, _ => Lt
  | SStr _, SNum _ _ => Gt
  | SStr x, SStr y => str_cmp x y
  | SStr _, SBool _ => Lt
  | SBool x, SBool y => bool_cmp x y
  | SBool _, _ => Gt
  end.
Definition scalar_eqb (a b : scalar) : bool :=
  match scalar_cmp a b with Eq => true | _ => false end.

(** domain.rs:425-432 Bound *)
Inductive bound := Below | Exactly | Above.
Definition bound_eqb (a b : bound) : bool :=
  match a, b with Below, Below => true | Exactly, Exactly => true | Above, Above => true | _, _ => false end.
(** domain.rs:447-452 Marker *)
Record marker := MK { m_ty : dtype; m_val : option scalar; m_bound : bound }.
(** domain.rs:531-575 constructors *)
Definition lower_unbound t := MK t None Above.
Definition lower_bounded t v := MK t (Some v) Above.
Definition exactly t v := MK t (Some v) Exactly.
Definition upper_unbound t := MK t None Below.
Definition upper_bounded t v := MK t (Some v) Below.
(** domain.rs:577-589 *)
Definition is_lower_unbound (m : marker) : bool :=
  match m_val m, m_bound m with None, Above => true | _, _ => false end.
Definition is_upper_unbound (m : marker) : bool :=
  match m_val m, m_bound m with None, Below => true | _, _ => false end.
(** domain.rs:590-593 check_type_compatibility *)
Definition m_same_ty (a b : marker) : bool := dtype_eqb (m_ty a) (m_ty b).
(** domain.rs:625-668 Ord for Marker: the bound takes no part.  The last two cases are the
    [unwrap] of an absent value (a marker with no value and bound Exactly), which no constructor
    builds. *)
Definition mcmp (a b : marker) : comparison :=
  if is_upper_unbound a then (if is_upper_unbound b then Eq else Gt)
  else if is_lower_unbound a then (if is_lower_unbound b then Eq else Lt)
  else if is_upper_unbound b then Lt
  else if is_lower_unbound b then Gt
  else match m_val a, m_val b with
       | Some x, Some y => scalar_cmp x y
       | _, _ => Eq
       end.
Definition mle (a b : marker) : bool := match mcmp a b with Gt => false | _ => true end.
(** domain.rs:596-624 PartialEq for Marker *)
Definition meq (a b : marker) : bool :=
  m_same_ty a b && match mcmp a b with Eq => true | _ => false end.
(** [std::cmp::max(a, b)] returns [b] when equal, [std::cmp::min(a, b)] returns [a]. *)
Definition mmax (a b : marker) : marker := match mcmp a b with Gt => a | _ => b end.
Definition mmin (a b : marker) : marker := match mcmp a b with Gt => b | _ => a end.

(** domain.rs:694-699 Range *)
Record range := RG { low : marker; high : marker }.
(** domain.rs:787-877 constructors *)
Definition r_all t := RG (lower_unbound t) (upper_unbound t).
Definition r_eq t v := RG (exactly t v) (exactly t v).
Definition r_gt t v := RG (lower_bounded t v) (upper_unbound t).
Definition r_ge t v := RG (exactly t v) (upper_unbound t).
Definition r_lt t v := RG (lower_unbound t) (upper_bounded t v).
Definition r_le t v := RG (lower_unbound t) (exactly t v).
Definition r_ne t v := [r_lt t v; r_gt t v].
Definition r_gtlt t a b := RG (lower_bounded t a) (upper_bounded t b).
Definition r_gelt t a b := RG (exactly t a) (upper_bounded t b).
Definition r_gtle t a b := RG (lower_bounded t a) (exactly t b).
Definition r_gele t a b := RG (exactly t a) (exactly t b).
(** domain.rs:770-785 check_type_compatibility *)
Definition r_same_ty (a b : range) : bool := m_same_ty (low a) (low b).
(** domain.rs:886-899 overlaps; [None] is the type error. *)
Definition overlaps (a b : range) : option bool :=
  if negb (r_same_ty a b) then None
  else Some (mle (low a) (high b) && mle (low b) (high a)
             && negb (meq (high a) (low b) && bound_eqb (m_bound (high a)) Below
                      && bound_eqb (m_bound (low b)) Above)).
(** domain.rs:903-921 intersect *)
Definition r_intersect (a b : range) : option range :=
  match overlaps a b with
  | Some true => Some (RG (mmax (low a) (low b)) (mmin (high a) (high b)))
  | _ => None
  end.
(** domain.rs:927-945 span *)
Definition r_span (a b : range) : option range :=
  match overlaps a b with
  | Some true => Some (RG (mmin (low a) (low b)) (mmax (high a) (high b)))
  | _ => None
  end.

(** domain.rs:1038-1041 RangeValueSet: BTreeMap<Marker, Range>. *)
Definition rmap := list (marker * range).
(** BTreeMap::insert: an equal key keeps its place and gets the new value. *)
Fixpoint rm_insert (k : marker) (r : range) (m : rmap) : rmap :=
  match m with
  | [] => [(k, r)]
  | (k', r') :: m' =>
      match mcmp k k' with
      | Lt => (k, r) :: (k', r') :: m'
      | Eq => (k', r) :: m'
      | Gt => (k', r') :: rm_insert k r m'
      end
  end.
Definition rm_values (m : rmap) : list range := map snd m.

(** domain.rs:1087-1092 EqutableValueSet: the HashSet of entries is a list without regard to order;
    an entry is (data type, value). *)
Record vset := VS { v_ty : dtype; v_white : bool; v_entries : list (dtype * scalar) }.
Definition entry_eqb (a b : dtype * scalar) : bool :=
  dtype_eqb (fst a) (fst b) && scalar_eqb (snd a) (snd b).
Definition has_entry (l : list (dtype * scalar)) (e : dtype * scalar) : bool := existsb (entry_eqb e) l.
Definition hs_inter (a b : list (dtype * scalar)) := filter (has_entry b) a.
Definition hs_diff (a b : list (dtype * scalar)) := filter (fun e => negb (has_entry b e)) a.
Definition hs_union (a b : list (dtype * scalar)) := a ++ hs_diff b a.

(** domain.rs:1125-1131 Domain *)
Inductive domain := DRange (m : rmap) | DEqutable (s : vset) | DNone | DAll.

(** [sort_by(|l, r| l.low.cmp(&r.low))]: stable insertion sort. *)
Fixpoint sort_insert (r : range) (l : list range) : list range :=
  match l with
  | [] => [r]
  | x :: l' => match mcmp (low r) (low x) with Lt | Eq => r :: l | Gt => x :: sort_insert r l' end
  end.
Fixpoint sort_ranges (l : list range) : list range :=
  match l with [] => [] | x :: l' => sort_insert x (sort_ranges l') end.

(** domain.rs:1151-1171 the coalescing loop.  [span(next).unwrap()] follows [Ok(true)] and cannot
    fail; the [None] branch stands for it. *)
Fixpoint coalesce (cur : range) (rest : list range) (m : rmap) : option rmap :=
  match rest with
  | [] => Some (rm_insert (low cur) cur m)
  | next :: rest' =>
      match overlaps cur next with
      | None => None
      | Some true => match r_span cur next with Some s => coalesce s rest' m | None => None end
      | Some false => coalesce next rest' (rm_insert (low cur) cur m)
      end
  end.
(** domain.rs:1139-1175 of_ranges; [None]: the data types differ. *)
Definition of_ranges (l : list range) : option domain :=
  match sort_ranges l with
  | [] => Some DNone
  | x :: l' => match coalesce x l' [] with Some m => Some (DRange m) | None => None end
  end.
(** domain.rs:1181-1195 of_values *)
Definition of_values (t : dtype) (white : bool) (vs : list scalar) : domain :=
  DEqutable (VS t white (map (fun v => (t, v)) vs)).

(** domain.rs:1246-1281 the two-pointer loop, collecting the overlaps; [None]: type error. *)
Definition push_isect (a b : range) (tl : option (list range)) : option (list range) :=
  match overlaps a b with
  | None => None
  | Some false => tl
  | Some true => match r_intersect a b, tl with Some r, Some l => Some (r :: l) | _, _ => None end
  end.
Fixpoint isect (xs : list range) : list range -> option (list range) :=
  match xs with
  | [] => fun _ => Some []
  | a :: xs' =>
      fix inner (ys : list range) : option (list range) :=
        match ys with
        | [] => Some []
        | b :: ys' =>
            push_isect a b
              (match mcmp (high a) (high b) with
               | Lt | Eq => match xs' with [] => Some [] | _ => isect xs' ys end
               | Gt => match ys' with [] => Some [] | _ => inner ys' end
               end)
        end
  end.
(** domain.rs:1243-1289 range_intersect *)
Definition range_intersect (a b : rmap) : option domain :=
  match a, b with
  | _ :: _, _ :: _ =>
      match isect (rm_values a) (rm_values b) with Some l => of_ranges l | None => None end
  | _, _ => None
  end.
(** domain.rs:1371-1378 range_union *)
Definition range_union (a b : rmap) : option domain := of_ranges (rm_values a ++ rm_values b).
(** domain.rs:1293-1367 value_intersect *)
Definition value_intersect (a b : vset) : option domain :=
  let '(w, e) :=
    match v_white a, v_white b with
    | true, true => (true, hs_inter (v_entries a) (v_entries b))
    | true, false => (true, hs_diff (v_entries a) (v_entries b))
    | false, true => (true, hs_diff (v_entries b) (v_entries a))
    | false, false => (false, hs_union (v_entries b) (v_entries a))
    end in
  Some (of_values (v_ty a) w (map snd e)).
(** domain.rs:1380-1424 value_union *)
Definition value_union (a b : vset) : option domain :=
  let '(w, e) :=
    match v_white a, v_white b with
    | true, true => (true, hs_union (v_entries a) (v_entries b))
    | true, false => (false, hs_diff (v_entries b) (v_entries a))
    | false, true => (false, hs_diff (v_entries a) (v_entries b))
    | false, false => (false, hs_inter (v_entries b) (v_entries a))
    end in
  Some (of_values (v_ty a) w (map snd e)).
(** domain.rs:1199-1215 Domain::intersect *)
Definition d_intersect (a b : domain) : option domain :=
  match a, b with
  | DRange x, DRange y => range_intersect x y
  | DEqutable x, DEqutable y => value_intersect x y
  | DNone, _ => Some DNone
  | _, DNone => Some DNone
  | DAll, _ => Some b
  | _, DAll => Some a
  | _, _ => None
  end.
(** domain.rs:1223-1239 Domain::union *)
Definition d_union (a b : domain) : option domain :=
  match a, b with
  | DRange x, DRange y => range_union x y
  | DEqutable x, DEqutable y => value_union x y
  | DNone, _ => Some b
  | _, DNone => Some a
  | DAll, _ => Some DAll
  | _, DAll => Some DAll
  | _, _ => None
  end.

(** ** ColumnDomains (domain.rs:1436-1596).  A column name is a [Z]; the HashMap is an association
    list with one entry per column (every operation below treats columns independently, so the
    iteration order does not matter).  [None]: no record matches. *)
Definition cmap := list (Z * domain).
Definition cdomains := option cmap.
Fixpoint cm_get (c : Z) (m : cmap) : option domain :=
  match m with [] => None | (k, d) :: m' => if k =? c then Some d else cm_get c m' end.
(** entry(c).and_modify(f).or_insert(d) *)
Fixpoint cm_upsert (c : Z) (f : domain -> domain) (d : domain) (m : cmap) : cmap :=
  match m with
  | [] => [(c, d)]
  | (k, x) :: m' => if k =? c then (k, f x) :: m' else (k, x) :: cm_upsert c f d m'
  end.
(** domain.rs:1457-1476 all, none, of *)
Definition cd_all : cdomains := Some [].
Definition cd_none : cdomains := None.
Definition cd_of (c : Z) (d : domain) : cdomains := Some [(c, d)].
Definition or_none (o : option domain) : domain := match o with Some d => d | None => DNone end.
Definition or_all (o : option domain) : domain := match o with Some d => d | None => DAll end.
(** domain.rs:1518-1538 intersect *)
Definition cd_intersect (a b : cdomains) : cdomains :=
  match a, b with
  | Some m1, Some m2 =>
      Some (fold_left (fun m e => cm_upsert (fst e) (fun v1 => or_none (d_intersect v1 (snd e))) (snd e) m) m2 m1)
  | _, None => None
  | None, _ => None
  end.
(** domain.rs:1545-1567 column_wise_union *)
Definition cd_union (a b : cdomains) : cdomains :=
  match a, b with
  | Some m1, Some m2 =>
      Some (flat_map (fun e => match cm_get (fst e) m1 with
                               | Some v1 => [(fst e, or_all (d_union v1 (snd e)))]
                               | None => []
                               end) m2)
  | _, None => a
  | None, _ => b
  end.
(** domain.rs:1569-1579 insert_or_union *)
Definition cd_insert_or_union (a : cdomains) (c : Z) (d : domain) : cdomains :=
  let m := match a with Some m => m | None => [] end in
  Some (cm_upsert c (fun e => match d_union e d with Some v => v | None => e end) d m).
(** domain.rs:1581-1590 insert_or_intersect *)
Definition cd_insert_or_intersect (a : cdomains) (c : Z) (d : domain) : cdomains :=
  match a with
  | Some m => Some (cm_upsert c (fun e => or_none (d_intersect e d)) d m)
  | None => None
  end.
(** domain.rs:1492-1515 translate_column, for a filter on the columns that keeps their names. *)
Definition cd_keep (p : Z -> bool) (a : cdomains) : cdomains :=
  match a with Some m => Some (filter (fun e => p (fst e)) m) | None => None end.
