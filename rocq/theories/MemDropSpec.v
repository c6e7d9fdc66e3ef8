(** What DROP COLUMN does to the rows of a series. *)
From Verif Require Import Prelude MergeModel MemModel MemSpec.
Open Scope Z_scope.

(** A row over the columns [cols] without the columns [cids]. *)
Definition without (cids cols : list Z) (r : mrow) : mrow :=
  MR (r_ts r) (map snd (filter (fun cv => negb (mem_z (fst cv) cids)) (combine cols (r_cols r)))).
(** No time stamp was written twice to the series (and is still there). *)
Definition times_once (sid : Z) (h : list cop) : Prop := NoDup (map p_ts (filter (fun p => p_sid p =? sid) (points h))).
(** Schemas name each column once. *)
Definition columns_once (o : cop) : Prop := match o with CWrite _ _ cols _ => NoDup cols | _ => True end.
