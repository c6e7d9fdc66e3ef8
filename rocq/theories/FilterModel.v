(** Model of the translation of WHERE clauses into column domains
    (/repo/common/models/src/predicate/transformation.rs:22-590, utils.rs:11-75,
    domain.rs:1710-1790 Predicate, and /repo/query_server/query/src/execution/dml/delete_from_table.rs:26-95).

    Simplifications.  A column is a number; the time column (TIME_FIELD_NAME) is [TIME].  DataFusion
    expressions are grouped by how the visitors treat them; an expression the visitors do not look
    into carries its meaning as a function of the row.  Typed nulls other than string nulls are
    not modelled. *)
From Verif Require Import Prelude TimeRangeModel DomainModel.

Definition TIME : Z := 0.
(** the type tag of Timestamp(Nanosecond) *)
Definition TSK : Z := 0.
Definition row := Z -> option scalar.

Inductive cop := OEq | ONe | OLt | OLe | OGt | OGe.
Inductive expr :=
| ECol (c : Z)
| ELit (v : option scalar)                       (* None: Null or Utf8(None) *)
| ECast (f : scalar -> option scalar) (e : expr) (* CAST: f converts the value *)
| ECmp (o : cop) (a b : expr)                    (* = != < <= > >= *)
| EAnd (a b : expr)
| EOr (a b : expr)
| EArith (f : option scalar -> option scalar -> option scalar) (a b : expr) (* any other binary operator *)
| EUnsup (f : row -> option scalar)  (* Like, Not, Is[Not]Null, Between, InList, ... *)
| EOpaque (f : row -> option scalar). (* function calls, CASE, aliases, ... *)

(** transformation.rs:29-37 reverse_op *)
Definition reverse_op (o : cop) : cop :=
  match o with OLt => OGt | OLe => OGe | OGt => OLt | OGe => OLe | o => o end.
(** transformation.rs:40-82 NormalizedSimpleComparison::of *)
Definition norm (l : expr) (o : cop) (r : expr) : option (Z * cop * scalar) :=
  match l, r with
  | ECol c, ELit (Some v) => Some (c, o, v)
  | ELit (Some v), ECol c => Some (c, reverse_op o, v)
  | ECast _ (ECol c), ELit (Some v) => Some (c, o, v)
  | ELit (Some v), ECast _ (ECol c) => Some (c, reverse_op o, v)
  | _, _ => None
  end.
(** transformation.rs:84-122 is_orderable *)
Definition is_orderable (v : scalar) : bool := match v with SBool _ => false | _ => true end.
(** transformation.rs:148-163 get_range_fn *)
Definition get_range_fn (o : cop) (t : dtype) (v : scalar) : list range :=
  match o with
  | OEq => [r_eq t v] | OLt => [r_lt t v] | OLe => [r_le t v]
  | OGt => [r_gt t v] | OGe => [r_ge t v] | ONe => r_ne t v
  end.
(** transformation.rs:296-326 nsc_to_column_domains_with_range, nsc_to_domains_with_equtable;
    510-540 the same for DELETE.  [of_ranges(..).unwrap()] does not fail on one type. *)
Definition nsc_domain (o : cop) (v : scalar) : domain :=
  if is_orderable v then
    match of_ranges (get_range_fn o (scalar_ty v) v) with Some d => d | None => DAll end
  else of_values (scalar_ty v) (match o with OEq => true | _ => false end) [v].
Definition nsc_domains (n : Z * cop * scalar) : cdomains :=
  let '(c, o, v) := n in cd_of c (nsc_domain o v).
(** transformation.rs:332-350 construct_value_set_and_push_current_domain_stack *)
Definition cmp_domains (l : expr) (o : cop) (r : expr) : cdomains :=
  match norm l o r with Some n => nsc_domains n | None => cd_all end.

(** ** Query filters: RowExpressionToDomainsVisitor (transformation.rs:165-293).
    The head of the list is the back of [current_domain_stack].  Visiting order is that of
    DataFusion's TreeNode::visit: pre_visit; unless it skips, the children left to right, then
    post_visit. *)
Fixpoint qvisit (e : expr) (s : list cdomains) : list cdomains :=
  match e with
  | ECol _ | ELit _ => s
  | ECast _ _ => s                      (* [_ => Skip] *)
  | EOpaque _ => s                      (* [_ => Skip] *)
  | EArith _ _ _ => cd_all :: s         (* not supported: push all, Skip *)
  | EUnsup _ => cd_all :: s
  | ECmp o a b => cmp_domains a o b :: qvisit b (qvisit a s)
  | EAnd a b =>
      match qvisit b (qvisit a s) with
      | d1 :: d2 :: s' => cd_intersect d1 d2 :: s'
      | _ => []                         (* both pops are consumed, nothing is pushed *)
      end
  | EOr a b =>
      match qvisit b (qvisit a s) with
      | d1 :: d2 :: s' => cd_union d1 d2 :: s'
      | _ => []
      end
  end.
(** transformation.rs:279-287 expr_to_column_domains *)
Definition expr_to_column_domains (e : expr) : cdomains :=
  match qvisit e [] with d :: _ => d | [] => cd_all end.

(** utils.rs:24-29, 37-46: the bounds of a range over timestamps.  The assertion that the values
    are timestamps is not modelled: a value of another type reads as 0. *)
Definition ts_of (v : scalar) : Z := match v with SNum _ z => z | _ => 0 end.
Definition marker_bnd (m : marker) : bnd :=
  match m_val m with
  | None => Unbounded
  | Some v => match m_bound m with Exactly => Included (ts_of v) | _ => Excluded (ts_of v) end
  end.
Definition range_tr (r : range) : trange := tr_of_bounds (marker_bnd (low r)) (marker_bnd (high r)).
(** utils.rs:11-75 filter_to_time_ranges *)
Definition filter_to_time_ranges (d : cdomains) : list trange :=
  match d with
  | None => []
  | Some [] => [tr_all]
  | Some m =>
      match cm_get TIME m with
      | None => [tr_all]
      | Some (DRange rs) => map range_tr (rm_values rs)
      | Some (DEqutable s) =>
          if v_white s then map (fun e => TR (ts_of (snd e)) (ts_of (snd e))) (v_entries s) else [tr_all]
      | Some DAll => [tr_all]
      | Some DNone => []
      end
  end.
(** domain.rs:1764-1787 Predicate::resolve: time ranges and tag domains; [is_tag] tells the tag
    columns of the table. *)
Definition resolve (is_tag : Z -> bool) (d : cdomains) : tranges * cdomains :=
  (trs_new (filter_to_time_ranges (cd_keep (fun c => c =? TIME) d)), cd_keep is_tag d).
(** domain.rs:1728-1762 push_down_filter, then resolve *)
Definition push_down (is_tag : Z -> bool) (e : expr) : tranges * cdomains :=
  resolve is_tag (expr_to_column_domains e).

(** ** DELETE filters: DeleteSelectionExpressionToDomainsVisitor (transformation.rs:352-590).
    Heads of the lists are the backs of the three stacks. *)
Record dctx := DC { d_flags : list bool; d_tags : list cdomains; d_times : list cdomains }.
(** transformation.rs:360-369 push_back *)
Definition dc_push (x : dctx) (d : cdomains) (is_time : bool) : dctx :=
  if is_time then DC (is_time :: d_flags x) (d_tags x) (d :: d_times x)
  else DC (is_time :: d_flags x) (d :: d_tags x) (d_times x).
(** transformation.rs:371-402 try_intersect_top2_domains; [None]: a pop on an empty stack panics *)
Definition try_intersect (x : dctx) : option dctx :=
  match d_flags x with
  | f1 :: f2 :: fs =>
      if Bool.eqb f1 f2 then
        if f1 then
          match d_times x with
          | d1 :: d2 :: ds => Some (DC (f2 :: fs) (d_tags x) (cd_intersect d1 d2 :: ds))
          | _ => None
          end
        else
          match d_tags x with
          | d1 :: d2 :: ds => Some (DC (f2 :: fs) (cd_intersect d1 d2 :: ds) (d_times x))
          | _ => None
          end
      else Some (DC (f2 :: fs) (d_tags x) (d_times x))
  | _ => Some x   (* one flag: pushed back; none: nothing *)
  end.
(** transformation.rs:567-589 construct_value_set_and_push_domain_stack *)
Definition dc_construct (x : dctx) (a : expr) (o : cop) (b : expr) : dctx :=
  match norm a o b with
  | Some (c, o', v) => dc_push x (cd_of c (nsc_domain o' v)) (c =? TIME)
  | None => x     (* "push nothing!" *)
  end.
(** transformation.rs:424-506 pre_visit and post_visit; [None] is the NotImplemented error *)
Fixpoint dvisit (e : expr) (x : dctx) : option dctx :=
  match e with
  | ECol _ | ELit _ => Some x
  | ECast _ a => dvisit a x
  | EOr _ _ | EArith _ _ _ | EUnsup _ | EOpaque _ => None
  | ECmp o a b =>
      match dvisit a x with
      | None => None
      | Some x1 =>
          match dvisit b x1 with
          | None => None
          | Some x2 =>
              match a, b with
              | ECol _, ELit _ | ELit _, ECol _ => Some (dc_construct x2 a o b)
              | ELit _, ECast _ (ECol _) | ECast _ (ECol _), ELit _ => Some (dc_construct x2 a o b)
              | _, _ => None
              end
          end
      end
  | EAnd a b =>
      match dvisit a x with
      | None => None
      | Some x1 => match dvisit b x1 with None => None | Some x2 => try_intersect x2 end
      end
  end.
(** transformation.rs:405-414, 513-520 expr_to_tag_and_time_domains *)
Definition head_or_all (l : list cdomains) : cdomains := match l with d :: _ => d | [] => cd_all end.
Definition expr_to_tag_and_time_domains (e : expr) : option (cdomains * cdomains) :=
  match dvisit e (DC [] [] []) with
  | Some x => Some (head_or_all (d_tags x), head_or_all (d_times x))
  | None => None
  end.
(** delete_from_table.rs:56-83: the predicate of a DELETE on a nanosecond database (for the other
    precisions see PrecisionModel). *)
Definition delete_predicate (e : expr) : option (tranges * cdomains) :=
  match expr_to_tag_and_time_domains e with
  | Some (tags, time) => Some (trs_new (filter_to_time_ranges time), tags)
  | None => None
  end.
