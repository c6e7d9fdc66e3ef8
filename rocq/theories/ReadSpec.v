(** Specification of reading a series from several chunks. *)
From Verif Require Import Prelude MergeModel MergeSpec ReadModel.

(** The order of time ranges used for sorting: by start, then by end
    (models predicate/domain.rs, derived order of TimeRange). *)
Definition range_le (a b : chunk) : Prop := c_min a < c_min b \/ (c_min a = c_min b /\ c_max a <= c_max b).
(** [l] is some result of sorting [cs] by time range. *)
Definition time_sorted (cs l : list chunk) : Prop := Permutation cs l /\ StronglySorted range_le l.
(** [l] is [cs] ordered by file id, oldest first. *)
Definition file_sorted (cs l : list chunk) : Prop :=
  Permutation cs l /\ StronglySorted (fun a b => c_file a < c_file b) l.
(** A chunk: strictly increasing time stamps, all inside its time range, rows of one width. *)
Definition chunk_ok (width : nat) (c : chunk) : Prop :=
  c_min c <= c_max c /\
  StronglySorted (fun a b => r_ts a < r_ts b) (c_rows c) /\
  Forall (fun r => c_min c <= r_ts r <= c_max c /\ length (r_cols r) = width) (c_rows c).
