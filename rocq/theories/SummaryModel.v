(** The summary of a vnode: tskv/src/tsfamily/{summary,version,level_info}.rs.
    The summary file is the list of its records, each an edit; that a complete record is read back and a
    torn last record ignored is C13 and C14.  bincode is taken to read back what it wrote.  The id of the
    vnode in each file description is left out: it is the same for all. *)
From Verif Require Import Prelude.
Open Scope Z_scope.

(** Models version.rs:246-256 (CompactMeta), also what a ColumnFile keeps (256-276). *)
Record meta := MT { m_id : Z; m_size : Z; m_level : nat; m_min : Z; m_max : Z; m_delta : bool }.
(** Models version.rs:374-389 (VersionEdit); partly_del_files is not written. *)
Inductive vact := AAdd | ADel | AUpd.
Record edit := ED { e_seq : Z; e_fid : Z; e_maxts : Z; e_add : list meta; e_del : list meta; e_act : vact }.
(** Models version.rs:25-36 (Version); the five levels are a list. *)
Record version := VER { v_seq : Z; v_maxts : Z; v_levels : list (list meta) }.
Definition no_levels : list (list meta) := [[]; []; []; []; []].

(** Models level_info.rs:113-116 (sort_file_asc), a stable sort. *)
Fixpoint ins (x : meta) (l : list meta) : list meta :=
  match l with [] => [x] | y :: l => if m_id x <? m_id y then x :: y :: l else y :: ins x l end.
Definition sort_files (l : list meta) : list meta := fold_left (fun acc x => ins x acc) l [].
(** Models level_info.rs:67-101 (push_compact_meta, push_column_file). *)
Definition push_file (l : list meta) (x : meta) : list meta := sort_files (l ++ [x]).

Definition has_id (l : list meta) (i : Z) : bool := existsb (fun m => m_id m =? i) l.
(** Models version.rs:118-133 (update_max_level_ts). *)
Definition max_ts_of (levels : list (list meta)) : Z := fold_left Z.max (map m_max (concat levels)) I64_MIN.
(** Models version.rs:61-116 (copy_apply_version_edits): a file goes when the edit deletes its id at its
    level.  An added level of 5 or more panics; edits here have smaller ones. *)
Definition apply_level (e : edit) (l : nat) (files : list meta) : list meta :=
  let kept := filter (fun f => negb (has_id (filter (fun d => (m_level d =? m_level f)%nat) (e_del e)) (m_id f))) files in
  fold_left push_file (filter (fun m => (m_level m =? l)%nat) (e_add e)) (fold_left push_file kept []).
Definition apply_edit (v : version) (e : edit) : version :=
  let levels := map (fun p => apply_level e (fst p) (snd p)) (combine (seq 0 5) (v_levels v)) in
  VER (Z.max (v_seq v) (e_seq e)) (max_ts_of levels) levels.

(** Models version.rs:499-503 (add_file). *)
Definition add_file (e : edit) (m : meta) (maxts : Z) : edit :=
  ED (e_seq e) (Z.max (e_fid e) (m_id m)) (Z.max (e_maxts e) maxts) (e_add e ++ [m]) (e_del e) (e_act e).
(** Models version.rs:391-404, 421-433 (new_add_vnode) and tseries_family.rs:273-289 (build_version_edit). *)
Definition new_add_vnode (seq : Z) : edit := ED seq 0 I64_MIN [] [] AAdd.
Definition build_edit (v : version) : edit :=
  fold_left (fun e m => add_file e m (v_maxts v)) (concat (v_levels v)) (new_add_vnode (v_seq v)).

Section Order.
(** The order in which the recovered hash map of files is walked. *)
Variable order : list meta -> list meta.
(** Models summary.rs:65-85: which edits count. *)
Definition pick_edits (records : list edit) : list edit :=
  fold_left (fun acc e => match e_act e with AAdd => [e] | ADel => [] | AUpd => acc ++ [e] end) records [].
(** Models summary.rs:91-106: the map of files. *)
Definition file_remove (i : Z) (files : list meta) : list meta := filter (fun m => negb (m_id m =? i)) files.
Definition file_insert (files : list meta) (m : meta) : list meta := m :: file_remove (m_id m) files.
Definition files_edit (files : list meta) (e : edit) : list meta :=
  fold_left file_insert (e_add e) (fold_left (fun fs d => file_remove (m_id d) fs) (e_del e) files).
Fixpoint level_upd (l : nat) (f : list meta -> list meta) (levels : list (list meta)) : list (list meta) :=
  match levels, l with
  | [], _ => []
  | x :: levels, O => f x :: levels
  | x :: levels, S l => x :: level_upd l f levels
  end.
(** Models summary.rs:53-131 (recover): the version and the next file id. *)
Definition recover (records : list edit) : option (version * Z) :=
  match pick_edits records with
  | [] => None
  | es =>
      let files := order (fold_left files_edit es []) in
      Some (VER (fold_left Z.max (map e_seq es) 0) (fold_left Z.max (map e_maxts es) I64_MIN)
                (fold_left (fun lv m => level_upd (m_level m) (fun l => push_file l m) lv) files no_levels),
            fold_left Z.max (map e_fid es) 0 + 1)
  end.

(** * The vnode *)
(** [s_tmp]: the writer has been left on the temporary file, which holds these records. *)
Record vstate := VS { s_file : list edit; s_tmp : option (list edit); s_ver : version; s_next : Z }.
(** Models database.rs:98-127 (create_tsfamily for a new vnode). *)
Definition s_create : vstate := VS [new_add_vnode 0] None (apply_edit (VER 0 I64_MIN no_levels) (new_add_vnode 0)) 1.
Definition write_edit (s : vstate) (e : edit) : vstate :=
  match s_tmp s with
  | Some t => VS (s_file s) (Some (t ++ [e])) (s_ver s) (s_next s)
  | None => VS (s_file s ++ [e]) None (s_ver s) (s_next s)
  end.
(** Models summary.rs:134-190 (apply_version_edit) and 193-218 (rewrite_summary_file): [rw] says whether the
    file has reached its maximal size, [rw_ok] whether writing and renaming the temporary file succeeds. *)
Definition s_apply (s : vstate) (e : edit) (rw rw_ok : bool) : vstate :=
  let s := write_edit s e in
  let v := apply_edit (s_ver s) e in
  if rw then
    if rw_ok then VS [build_edit v] None v (s_next s)
    else VS (s_file s) (Some []) v (s_next s)
  else VS (s_file s) (s_tmp s) v (s_next s).
(** Models a restart: summary.rs:37-52 (new, IDGenerator::new(1)), database.rs:79-97. *)
Definition s_restart (s : vstate) : vstate :=
  match recover (s_file s) with
  | Some (v, n) => VS (s_file s) None v n
  | None => s_create
  end.
(** Models id_generator.rs:20-22 (next_id). *)
Definition s_alloc (s : vstate) : vstate := VS (s_file s) (s_tmp s) (s_ver s) (s_next s + 1).
(** Models vnode_store.rs:174-215 (apply_snapshot) and database.rs:133-190 (add_tsfamily): the vnode is
    removed, a new summary hands out new file ids in the order of the snapshot's files. *)
Fixpoint renumber (n : Z) (l : list meta) : list meta :=
  match l with [] => [] | m :: l => MT n (m_size m) (m_level m) (m_min m) (m_max m) (m_delta m) :: renumber (n + 1) l end.
Definition s_snapshot (snap : version) : vstate :=
  let e := build_edit snap in
  let ve := ED (e_seq e) (e_fid e) (e_maxts e) (renumber 1 (e_add e)) (e_del e) (e_act e) in
  VS [ve] None (apply_edit (VER (e_seq e) (e_maxts e) no_levels) ve) (1 + Z.of_nat (length (e_add e))).
End Order.
