(** Specification of value domains as sets of scalars. *)
From Verif Require Import Prelude DomainModel.

(** The order of the scalars of one type. *)
Definition sle (a b : scalar) : Prop := scalar_cmp a b <> Gt.
Definition slt (a b : scalar) : Prop := scalar_cmp a b = Lt.

(** What the two ends of a range say about a value (the [RangeBounds] instance, domain.rs:701-709:
    no value means unbounded, Exactly means included, Above and Below mean excluded). *)
Definition above_low (v : scalar) (m : marker) : Prop :=
  match m_val m with
  | None => True
  | Some a => match m_bound m with Exactly => sle a v | _ => slt a v end
  end.
Definition below_high (v : scalar) (m : marker) : Prop :=
  match m_val m with
  | None => True
  | Some a => match m_bound m with Exactly => sle v a | _ => slt v a end
  end.
Definition in_range (v : scalar) (r : range) : Prop := above_low v (low r) /\ below_high v (high r).
Definition in_ranges (v : scalar) (l : list range) : Prop := exists r, In r l /\ in_range v r.

(** The values a domain denotes. *)
Definition in_domain (v : scalar) (d : domain) : Prop :=
  match d with
  | DRange m => in_ranges v (rm_values m)
  | DEqutable s => if v_white s then In v (map snd (v_entries s)) else ~ In v (map snd (v_entries s))
  | DNone => False
  | DAll => True
  end.

(** Ranges a program can write: built by the public constructors from values of type [t], with the
    lower end not above the upper end. *)
Inductive range_built (t : dtype) : range -> Prop :=
| rb_all : range_built t (r_all t)
| rb_eq v : scalar_ty v = t -> range_built t (r_eq t v)
| rb_gt v : scalar_ty v = t -> range_built t (r_gt t v)
| rb_ge v : scalar_ty v = t -> range_built t (r_ge t v)
| rb_lt v : scalar_ty v = t -> range_built t (r_lt t v)
| rb_le v : scalar_ty v = t -> range_built t (r_le t v)
| rb_gtlt a b : scalar_ty a = t -> scalar_ty b = t -> sle a b -> range_built t (r_gtlt t a b)
| rb_gelt a b : scalar_ty a = t -> scalar_ty b = t -> sle a b -> range_built t (r_gelt t a b)
| rb_gtle a b : scalar_ty a = t -> scalar_ty b = t -> sle a b -> range_built t (r_gtle t a b)
| rb_gele a b : scalar_ty a = t -> scalar_ty b = t -> sle a b -> range_built t (r_gele t a b).

(** Domains a program can obtain over a column of type [t]. *)
Inductive domain_built (t : dtype) : domain -> Prop :=
| db_none : domain_built t DNone
| db_all : domain_built t DAll
| db_ranges l d : Forall (range_built t) l -> of_ranges l = Some d -> domain_built t d
| db_values w vs : Forall (fun v => scalar_ty v = t) vs -> domain_built t (of_values t w vs)
| db_union a b d : domain_built t a -> domain_built t b -> d_union a b = Some d -> domain_built t d
| db_intersect a b d : domain_built t a -> domain_built t b -> d_intersect a b = Some d -> domain_built t d.

(** The lower and upper ends occurring in a domain. *)
Definition lows (d : domain) : list marker := match d with DRange m => map low (rm_values m) | _ => [] end.
Definition highs (d : domain) : list marker := match d with DRange m => map high (rm_values m) | _ => [] end.
(** All ends at the value [v] are open, or all are closed. *)
Definition agree (v : scalar) (l : list marker) : Prop :=
  forall a b, In a l -> In b l -> m_val a = Some v -> m_val b = Some v -> m_bound a = m_bound b.
(** No end at [v] is open in one of the two domains and closed in the other. *)
Definition ends_agree (v : scalar) (a b : domain) : Prop :=
  agree v (lows a ++ lows b) /\ agree v (highs a ++ highs b).
