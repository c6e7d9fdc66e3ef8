(** Specification of filters: three-valued SQL evaluation of an expression on a row. *)
From Verif Require Import Prelude TimeRangeModel DomainModel DomainSpec FilterModel.

Definition cmp_holds (o : cop) (c : comparison) : bool :=
  match o, c with
  | OEq, Eq => true | ONe, Lt => true | ONe, Gt => true | OLt, Lt => true
  | OLe, Lt => true | OLe, Eq => true | OGt, Gt => true | OGe, Gt => true | OGe, Eq => true
  | _, _ => false
  end.
Definition and3 (a b : option scalar) : option scalar :=
  match a, b with
  | Some (SBool false), _ => Some (SBool false)
  | _, Some (SBool false) => Some (SBool false)
  | Some (SBool true), Some (SBool true) => Some (SBool true)
  | _, _ => None
  end.
Definition or3 (a b : option scalar) : option scalar :=
  match a, b with
  | Some (SBool true), _ => Some (SBool true)
  | _, Some (SBool true) => Some (SBool true)
  | Some (SBool false), Some (SBool false) => Some (SBool false)
  | _, _ => None
  end.
Fixpoint eval (e : expr) (r : row) : option scalar :=
  match e with
  | ECol c => r c
  | ELit v => v
  | ECast f a => match eval a r with Some v => f v | None => None end
  | ECmp o a b =>
      match eval a r, eval b r with
      | Some x, Some y => Some (SBool (cmp_holds o (scalar_cmp x y)))
      | _, _ => None
      end
  | EAnd a b => and3 (eval a r) (eval b r)
  | EOr a b => or3 (eval a r) (eval b r)
  | EArith f a b => f (eval a r) (eval b r)
  | EUnsup f => f r
  | EOpaque f => f r
  end.
(** The row is selected by the WHERE clause. *)
Definition selected (e : expr) (r : row) : Prop := eval e r = Some (SBool true).

(** A row of a table: a time, and values of the columns' types. *)
Definition row_ok (cty : Z -> dtype) (r : row) (tm : Z) : Prop :=
  is_i64 tm /\ r TIME = Some (SNum TSK tm) /\ forall c v, r c = Some v -> scalar_ty v = cty c.
(** The row's columns lie in the column domains. *)
Definition row_in (d : cdomains) (r : row) : Prop :=
  match d with
  | None => False
  | Some m => forall c x, cm_get c m = Some x -> exists v, r c = Some v /\ in_domain v x
  end.

(** The comparisons of a column with a literal in an expression. *)
Fixpoint comparisons (e : expr) : list (Z * cop * scalar) :=
  match e with
  | ECmp o (ECol c) (ELit (Some v)) => [(c, o, v)]
  | ECmp o (ELit (Some v)) (ECol c) => [(c, reverse_op o, v)]
  | EAnd a b | EOr a b => comparisons a ++ comparisons b
  | _ => []
  end.
(** Which ends a comparison has at its literal. *)
Definition low_open (o : cop) : bool := match o with OGt | ONe => true | _ => false end.
Definition low_closed (o : cop) : bool := match o with OGe | OEq => true | _ => false end.
Definition high_open (o : cop) : bool := match o with OLt | ONe => true | _ => false end.
Definition high_closed (o : cop) : bool := match o with OLe | OEq => true | _ => false end.
(** No column is compared with one literal both strictly and inclusively from the same side. *)
Definition no_clash (l : list (Z * cop * scalar)) : Prop :=
  forall c o1 o2 v, In (c, o1, v) l -> In (c, o2, v) l ->
    low_open o1 && low_closed o2 = false /\ high_open o1 && high_closed o2 = false.

(** Literals have the column's type (as after type coercion); a timestamp literal is strictly
    inside the i64 range. *)
Definition lit_ok (cty : Z -> dtype) (n : Z * cop * scalar) : Prop :=
  let '(c, _, v) := n in scalar_ty v = cty c /\ (c = TIME -> I64_MIN < ts_of v < I64_MAX).
(** Table types: the time column holds timestamps, tags hold strings. *)
Definition table_ok (is_tag : Z -> bool) (cty : Z -> dtype) : Prop :=
  cty TIME = DNum TSK /\ is_tag TIME = false /\ forall c, is_tag c = true -> cty c = DStr.

(** *** Filters for which the push-down is proved sound *)
(** Operands of a comparison that contain no operator or predicate: columns, literals, casts and
    function calls. *)
Definition quiet (e : expr) : bool :=
  match e with ECol _ | ELit _ | ECast _ _ | EOpaque _ => true | _ => false end.
(** Every comparison has quiet operands, and no cast is applied to a time or tag column compared
    with a literal. *)
Definition cast_of (e : expr) : option Z := match e with ECast _ (ECol c) => Some c | _ => None end.
Fixpoint simple (pushed : Z -> bool) (e : expr) : Prop :=
  match e with
  | ECmp _ a b => quiet a = true /\ quiet b = true /\
      (forall c, cast_of a = Some c \/ cast_of b = Some c -> pushed c = false)
  | EAnd a b | EOr a b => simple pushed a /\ simple pushed b
  | _ => True
  end.
(** Under every OR, no clash among the comparisons of time and tag columns. *)
Fixpoint or_ok (pushed : Z -> bool) (e : expr) : Prop :=
  match e with
  | EAnd a b => or_ok pushed a /\ or_ok pushed b
  | EOr a b => or_ok pushed a /\ or_ok pushed b /\
      no_clash (filter (fun n => pushed (fst (fst n))) (comparisons a ++ comparisons b))
  | _ => True
  end.
Definition lits_ok (pushed : Z -> bool) (cty : Z -> dtype) (e : expr) : Prop :=
  Forall (lit_ok cty) (filter (fun n => pushed (fst (fst n))) (comparisons e)).

(** *** DELETE filters *)
(** Conjunctions of comparisons of one kind of column (time, or tags) with non-null literals. *)
Fixpoint all_kind (is_time : bool) (e : expr) : Prop :=
  match e with
  | ECmp _ (ECol c) (ELit (Some _)) | ECmp _ (ELit (Some _)) (ECol c) => (c =? TIME) = is_time
  | EAnd a b => all_kind is_time a /\ all_kind is_time b
  | _ => False
  end.
(** The shapes the translation handles: tag conditions only, time conditions only, or one
    conjunction of the former with one of the latter, each parenthesised as a group. *)
Definition grouped (e : expr) : Prop :=
  (exists k, all_kind k e) \/ (exists k a b, e = EAnd a b /\ all_kind k a /\ all_kind (negb k) b).
