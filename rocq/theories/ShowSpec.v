(** What SHOW SERIES and SHOW TAG VALUES must list. *)
From Verif Require Import Prelude TimeRangeModel DomainModel FilterModel FilterSpec ShowModel.

Definition is_tag (tags : list tcol) (c : Z) : bool := existsb (fun k => k_col k =? c) tags.
(** The series is one that the WHERE clause selects: by its tags alone, or because of one of its rows. *)
Definition chosen (e : option expr) (where_contain_time : bool) (s : series) : Prop :=
  if where_contain_time then exists t, In t (s_times s) /\ match e with Some e => selected e (srow s t) | None => True end
  else match e with Some e => selected e (srow s 0) | None => True end.

(** Times are 64-bit, the tags of a series are columns of the table, the time column is not a tag. *)
Definition data_ok (tags : list tcol) (data : list series) : Prop :=
  is_tag tags TIME = false /\
  Forall (fun s => Forall is_i64 (s_times s) /\ Forall (fun x => is_tag tags (fst x) = true) (s_tags s)) data.
Definition show_type (c : Z) : dtype := if c =? TIME then DNum TSK else DStr.
(** The condition depends on the tags only. *)
Definition tags_only (tags : list tcol) (e : expr) : Prop :=
  forall r r', (forall c, is_tag tags c = true -> r c = r' c) -> eval e r = eval e r'.
(** The restrictions of C03 on the pushed-down conditions, and of C04 on their ends. *)
Definition usual (pushed : Z -> bool) (e : expr) : Prop :=
  simple pushed e /\ or_ok pushed e /\ lits_ok pushed show_type e /\ no_clash (filter (fun n => pushed (fst (fst n))) (comparisons e)).
(** Every leaf of the AND/OR structure is a comparison or a predicate such as LIKE, IN, IS NULL or NOT, not a bare column, literal or
    function call. *)
Fixpoint leaves_ok (e : expr) : bool :=
  match e with
  | ECol _ | ELit _ | ECast _ _ | EOpaque _ => false
  | EAnd a b | EOr a b => leaves_ok a && leaves_ok b
  | _ => true
  end.
(** Column, possibly cast, = < <= > >= literal, or the other way round: what the table takes over. *)
Definition column_literal (c : expr) : bool :=
  match c with
  | ECmp ONe _ _ => false
  | ECmp _ (ECol _) (ELit _) | ECmp _ (ECast _ (ECol _)) (ELit _) | ECmp _ (ELit _) (ECol _) | ECmp _ (ELit _) (ECast _ (ECol _)) => true
  | _ => false
  end.
(** A conjunct the table takes over compares a tag with a literal that is not null. *)
Definition exact_ok (tags : list tcol) (c : expr) : Prop :=
  match c with
  | ECmp _ (ECol k) (ELit (Some _)) | ECmp _ (ELit (Some _)) (ECol k) => is_tag tags k = true
  | _ => column_literal c = false
  end.
Definition where_ok (tags : list tcol) (where_contain_time : bool) (e : option expr) : Prop :=
  match e with
  | None => True
  | Some e =>
      if where_contain_time then usual (fun c => (c =? TIME) || is_tag tags c) e
      else usual (is_tag tags) e /\ Forall (tags_only tags) (conjuncts e) /\ leaves_ok e = true /\ Forall (exact_ok tags) (conjuncts e)
  end.

(** Names without ',' and '=', all different; values without ','. *)
Definition names_ok (tags : list tcol) : Prop :=
  NoDup (map k_name tags) /\ Forall (fun k => ~ In 44 (k_name k) /\ ~ In 61 (k_name k)) tags.
Definition values_ok (data : list series) : Prop := Forall (fun s => Forall (fun x => ~ In 44 (snd x)) (s_tags s)) data.
(** One entry per row. *)
Definition rows_of (c : Z) (data : list series) : list (option (list Z)) :=
  flat_map (fun s => repeat (tag_of s c) (length (s_times s))) data.
