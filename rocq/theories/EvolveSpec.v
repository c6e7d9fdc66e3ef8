(** Specification: what compaction must keep when columns were added to a table. *)
From Verif Require Import Prelude MergeModel MergeSpec CompactModel CompactSpec EvolveModel.

(** The value of the column with id [u] in a row of a block with columns [cols]. *)
Fixpoint value (u : Z) (cols : list scol) (vals : list (option Z)) : option Z :=
  match cols, vals with
  | c :: cols', v :: vals' => if sc_id c =? u then v else value u cols' vals'
  | _, _ => None
  end.
(** A row seen as the values of the columns [U] of the table. *)
Definition view (U : list Z) (cols : list scol) (r : mrow) : mrow := MR (r_ts r) (map (fun u => value u cols (r_cols r)) U).
(** The rows of the series that are left in the files, file after file, … *)
Definition rows_before (U : list Z) (fs : list sfile) : list mrow :=
  concat (map (fun f => concat (map (fun b => map (view U (sb_cols b)) (sb_live b)) (sf_blocks f))) fs).
(** … and those in the file written. *)
Definition rows_after (U : list Z) (out : list oblock) : list mrow :=
  concat (map (fun o => map (view U (sb_cols (stored o))) (sb_raw (stored o))) out).
(** Blocks and files of a series, as in CompactSpec: every row has one value per column. *)
Definition sblock_ok (tomb : bool) (b : sblock) : Prop :=
  block_ok (length (sb_cols b)) tomb (CB (sb_min b) (sb_max b) (sb_raw b) (sb_live b)).
Definition sfile_ok (f : sfile) : Prop :=
  StronglySorted (fun a b => sb_max a < sb_min b) (sf_blocks f) /\ Forall (sblock_ok (sf_tomb f)) (sf_blocks f).
Definition has (u : Z) (b : sblock) : Prop := In u (map sc_id (sb_cols b)).
(** The schema versions of the files tell the truth: a block in a file of a later, or the same,
    version has all the columns of [U] that a block in a file of an earlier version has. *)
Definition labels_ok (U : list Z) (fs : list sfile) : Prop :=
  forall f b f' b', In f fs -> In b (sf_blocks f) -> In f' fs -> In b' (sf_blocks f') -> sf_label f <= sf_label f' ->
  forall u, In u U -> has u b -> has u b'.
