(** Specification: a replica answers like the vnode its snapshot was taken from. *)
From Verif Require Import Prelude MergeModel MergeSpec ReadModel ReadSpec SummaryModel SummarySpec SnapshotModel.
Open Scope Z_scope.

(** The answers of a query that reads the chunks [cs], whichever way they were sorted by time. *)
Definition answers (width bs : nat) (cs : list chunk) (out : list mrow) : Prop :=
  exists l, time_sorted cs l /\ read_series width bs (fun _ => true) l = Some out.
(** Files of a series: rows in time order, inside the time range of the file. *)
Definition files_ok (width : nat) (contents : Z -> list mrow) (v : version) : Prop :=
  forall m, In m (concat (v_levels v)) -> I64_MIN <= m_max m /\ chunk_ok width (CH (m_id m) (m_min m) (m_max m) (contents (m_id m))).
(** Two files that share an instant are listed (level 0 first) in the order of their ids. *)
Definition listed_in_order (v : version) : Prop :=
  forall l1 a l2 b l3 t, concat (v_levels v) = l1 ++ a :: l2 ++ b :: l3 ->
    m_min a <= t <= m_max a -> m_min b <= t <= m_max b -> m_id a < m_id b.
