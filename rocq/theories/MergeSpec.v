(** Specification of the merge of sorted streams with per-column de-duplication. *)
From Verif Require Import Prelude MergeModel.

(** The rows of a stream, and of all streams in stream order. *)
Definition rows_of (s : list batch) : list mrow := concat s.
Definition all_rows (streams : list (list batch)) : list mrow := concat (map rows_of streams).
(** The rows with one time stamp: earlier streams first, in stream order. *)
Definition rows_at (t : Z) (l : list mrow) : list mrow := filter (fun r => r_ts r =? t) l.
(** The last non-null value. *)
Definition last_value (l : list (option Z)) : option Z :=
  fold_left (fun acc o => match o with Some v => Some v | None => acc end) l None.
(** [out] is the merge of [l]: one row per time stamp of [l], in increasing order, each column
    holding the last non-null value of the rows with that time stamp. *)
Definition merged (width : nat) (l out : list mrow) : Prop :=
  StronglySorted (fun a b => r_ts a < r_ts b) out /\
  (forall t, In t (map r_ts out) <-> In t (map r_ts l)) /\
  forall r, In r out -> length (r_cols r) = width /\
    forall c, (c < width)%nat -> col c r = last_value (map (col c) (rows_at (r_ts r) l)).
(** Input streams: sorted by time, rows of one width. *)
Definition stream_ok (width : nat) (s : list batch) : Prop :=
  StronglySorted (fun a b => r_ts a <= r_ts b) (rows_of s) /\
  Forall (fun r => length (r_cols r) = width) (rows_of s).
