(** Specification of compaction. *)
From Verif Require Import Prelude MergeModel MergeSpec ReadModel ReadSpec CompactModel.

(** The rows of a series that a file still has after its deletions, block after block. *)
Definition file_rows (sid : Z) (f : cfile) : list mrow :=
  concat (map (fun s => if fst s =? sid then concat (map b_live (snd s)) else []) (f_series f)).
(** … of several files, in the order of the list. *)
Definition live_rows (sid : Z) (fs : list cfile) : list mrow := concat (map (file_rows sid) fs).
(** The rows of a series in the file written, block after block. *)
Definition written (sid : Z) (out : list (Z * list mrow)) : list mrow :=
  concat (map snd (filter (fun p => fst p =? sid) out)).

Definition rows_ok (width : nat) (lo hi : Z) (rows : list mrow) : Prop :=
  StronglySorted (fun a b => r_ts a < r_ts b) rows /\
  Forall (fun r => lo <= r_ts r <= hi /\ length (r_cols r) = width) rows.
(** A block: rows in time order inside its time range; without tombstones nothing is hidden. *)
Definition block_ok (width : nat) (tomb : bool) (b : cblock) : Prop :=
  I64_MIN <= b_min b /\ b_min b <= b_max b /\ b_max b <= I64_MAX /\
  rows_ok width (b_min b) (b_max b) (b_raw b) /\ rows_ok width (b_min b) (b_max b) (b_live b) /\
  (tomb = false -> b_live b = b_raw b).
(** A file: every series once, in order of id; the blocks of a series follow each other in time. *)
Definition file_ok (width : nat) (f : cfile) : Prop :=
  StronglySorted (fun a b => fst a < fst b) (f_series f) /\
  Forall (fun s => StronglySorted (fun a b => b_max a < b_min b) (snd s) /\ Forall (block_ok width (f_tomb f)) (snd s)) (f_series f).
(** The request: readers are numbered by position. *)
Definition request_ok (width : nat) (fs : list cfile) : Prop :=
  map f_idx fs = seq 0 (length fs) /\ Forall (file_ok width) fs.
(** No file is empty and the first series ids of the files are in ascending order. *)
Definition by_first_series (fs : list cfile) : Prop :=
  Forall (fun f => f_series f <> []) fs /\
  StronglySorted (fun a b => match f_series a, f_series b with
                             | (x, _) :: _, (y, _) :: _ => x <= y
                             | _, _ => True
                             end) fs.
(** Rows inside and outside a time range. *)
Definition in_window (lo hi : Z) (rows : list mrow) : list mrow := filter (fun r => (lo <=? r_ts r) && (r_ts r <=? hi)) rows.
Definition outside (lo hi : Z) (rows : list mrow) : list mrow := filter (fun r => negb ((lo <=? r_ts r) && (r_ts r <=? hi))) rows.
