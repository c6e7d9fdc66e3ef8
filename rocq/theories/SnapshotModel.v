(** A vnode rebuilt from a snapshot of another replica: vnode_store.rs:139-215 (create_snapshot,
    apply_snapshot), database.rs:133-190 (add_tsfamily), version.rs:349-372 (rename_file),
    coordinator/src/raft/mod.rs:94-131 (download_snapshot_files).  One series, as in ReadModel: a file has
    the rows [contents] of the series and, beside it, a tombstone file with the ranges [dead].  Only the
    data in files is looked at: what is in the caches of the source is sent again from the raft log. *)
From Verif Require Import Prelude MergeModel MemModel ReadModel SummaryModel.
Open Scope Z_scope.

(** A file as the reader sees it: rows under a tombstone are left out (tsm/reader.rs; C27). *)
Definition live_rows (dead : list (Z * Z)) (rows : list mrow) : list mrow :=
  filter (fun r => negb (existsb (fun p => (fst p <=? r_ts r) && (r_ts r <=? snd p)) dead)) rows.
Definition file_chunk (contents : Z -> list mrow) (dead : Z -> list (Z * Z)) (m : meta) : chunk :=
  CH (m_id m) (m_min m) (m_max m) (live_rows (dead (m_id m)) (contents (m_id m))).
(** The chunks a query of the source reads. *)
Definition version_chunks (contents : Z -> list mrow) (dead : Z -> list (Z * Z)) (v : version) : list chunk :=
  map (file_chunk contents dead) (concat (v_levels v)).

(** What the replica has on disk after the snapshot was applied: the data files of the snapshot, in the
    order of its edit, under new ids; tombstone files are neither downloaded nor renamed. *)
Fixpoint assoc (i : Z) (l : list (Z * Z)) : option Z :=
  match l with [] => None | (a, b) :: l => if a =? i then Some b else assoc i l end.
Definition new_ids (v : version) : list (Z * Z) :=
  let files := e_add (build_edit v) in combine (map m_id (renumber 1 files)) (map m_id files).
Definition replica_contents (contents : Z -> list mrow) (v : version) (i : Z) : list mrow :=
  match assoc i (new_ids v) with Some old => contents old | None => [] end.
Definition replica_dead (i : Z) : list (Z * Z) := [].
(** The chunks a query of the replica reads. *)
Definition replica_chunks (contents : Z -> list mrow) (v : version) : list chunk :=
  version_chunks (replica_contents contents v) replica_dead (s_ver (s_snapshot v)).
