(** Model of the storage engine of a vnode, seen from one series: caches, files, flush, compaction
    and delete, with flush and compaction split into the steps that other requests can fall between
    (/repo/tskv/src/vnode_store.rs:573-608, tsfamily/tseries_family.rs:130-250,
    tsfamily/super_version.rs:92-135, compaction/flush.rs:59-200, compaction/job.rs:150-400,
    compaction/compact.rs:508-606, tsfamily/summary.rs:134-195, tsfamily/version.rs:62-115,
    tsm/tombstone.rs:281-325).

    Simplifications.  One series of one table schema: the field columns [cols], schema version 1.
    A file is its rows (C44 and C06-C09: what the pages decode to) and the list of time ranges
    deleted from it; the recording and reloading of these ranges is C27.  The order of the input
    files of a compaction is part of the request.  A level file and a delta file differ only in
    whether the output range of the compaction covers them.  Bucketing of files by level, WAL and
    restart are left out. *)
From Verif Require Import Prelude MergeModel MemModel ReadModel CompactModel.

(** memcache.rs:60-80 MemCache restricted to the series; [k_page] is what a running flush has read
    from it (flush.rs:140-200), the cache being still in place *)
Record scache := SCA { k_id : Z; k_data : sdata; k_page : option (list mrow) }.
(** column_file.rs ColumnFile with the contents of the TSM file and of its tombstone file *)
Record sfile := SFI { s_id : Z; s_rows : list mrow; s_tombs : list (Z * Z) }.
(** A compaction that has read its input and has not been applied: the id and rows of its output,
    the output range and, per input file, the tombstones saved to the temporary tombstone file *)
Record cjob := CJB { j_id : Z; j_lo : Z; j_hi : Z; j_in : list (Z * list (Z * Z)); j_rows : list mrow }.
(** tseries_family.rs:20-40 TseriesFamily; [e_next] is the vnode's one generator of file ids *)
Record engine := ENG { e_next : Z; e_id : Z; e_data : sdata; e_imm : list scache; e_files : list sfile; e_jobs : list cjob }.

(** tseries_family.rs:50-60: the mutable cache takes the first id *)
Definition en_new : engine := ENG 2 1 sd_new [] [] [].

Definition in_trs (trs : list (Z * Z)) (t : Z) : bool := existsb (fun tr => (fst tr <=? t) && (t <=? snd tr)) trs.
(** tsm/reader.rs: the rows of a file outside its tombstones *)
Definition live (f : sfile) : list mrow := filter (fun r => negb (in_trs (s_tombs f) (r_ts r))) (s_rows f).
(** The time range in a file's chunk meta (series_data.rs:213-262, from the rows written) *)
Definition rows_min (l : list mrow) : Z := match l with r :: _ => r_ts r | [] => 0 end.
Definition rows_max (l : list mrow) : Z := last (map r_ts l) 0.

(** tseries_family.rs:250-262 put_points, memcache.rs:112-138 *)
Definition en_write (cols : list Z) (rows : list mrow) (e : engine) : engine :=
  ENG (e_next e) (e_id e) (sd_write (e_data e) (new_group (SC 1 cols) rows)) (e_imm e) (e_files e) (e_jobs e).
(** tseries_family.rs:175-200 switch_to_immutable: nothing happens when the mutable cache is empty *)
Definition en_switch (e : engine) : engine :=
  match d_groups (e_data e) with
  | [] => e
  | _ => ENG (e_next e + 1) (e_next e) sd_new (e_imm e ++ [SCA (e_id e) (e_data e) None]) (e_files e) (e_jobs e)
  end.
(** flush.rs:140-200, series_data.rs:213-262 convert_to_page: read the rows of an immutable cache *)
Definition en_flush_read (id : Z) (e : engine) : engine :=
  ENG (e_next e) (e_id e) (e_data e)
      (map (fun k => if k_id k =? id then SCA (k_id k) (k_data k) (Some (sd_read (fun _ => true) (k_data k))) else k) (e_imm e))
      (e_files e) (e_jobs e).
(** flush.rs:59-130 (no file without rows), summary.rs:134-180, tseries_family.rs:150-170 new_version:
    the file, under the cache's id, replaces the cache *)
Definition en_flush_apply (id : Z) (e : engine) : engine :=
  match find (fun k => k_id k =? id) (e_imm e) with
  | Some (SCA _ _ (Some page)) =>
      ENG (e_next e) (e_id e) (e_data e) (filter (fun k => negb (k_id k =? id)) (e_imm e))
          (e_files e ++ match page with [] => [] | _ => [SFI id page []] end) (e_jobs e)
  | _ => e
  end.

Fixpoint pick_files (ids : list Z) (fs : list sfile) : option (list sfile) :=
  match ids with
  | [] => Some []
  | i :: ids' => match find (fun f => s_id f =? i) fs, pick_files ids' fs with
                 | Some f, Some l => Some (f :: l)
                 | _, _ => None
                 end
  end.
Fixpoint nodupb (l : list Z) : bool :=
  match l with [] => true | x :: l' => negb (existsb (Z.eqb x) l') && nodupb l' end.
(** column_file.rs mark_compacting: files of a running compaction are not picked again *)
Definition busy (jobs : list cjob) (id : Z) : bool := existsb (fun j => existsb (fun i => fst i =? id) (j_in j)) jobs.
(** The inputs as the compaction iterator sees them: one series, one block per file *)
Definition as_input (n : nat) (f : sfile) : cfile :=
  CF n (match s_tombs f with [] => false | _ => true end)
     [(0, [CB (rows_min (s_rows f)) (rows_max (s_rows f)) (s_rows f) (live f)])].
Definition as_inputs (fs : list sfile) : list cfile := map (fun p => as_input (fst p) (snd p)) (combine (seq 0 (length fs)) fs).
(** compact.rs:508-606 run_normal_compaction_job (range: everything) and run_delta_compaction_job:
    save the tombstones, read and merge the inputs; the output's id is taken from the generator
    (writer_wrapper.rs:85-95) *)
Definition en_compact_read (width bs : nat) (ids : list Z) (lo hi : Z) (e : engine) : engine :=
  if nodupb ids && negb (existsb (busy (e_jobs e)) ids) then
    match pick_files ids (e_files e) with
    | Some fs =>
        match compact_files width bs lo hi (as_inputs fs) with
        | Some out =>
            ENG (e_next e + 1) (e_id e) (e_data e) (e_imm e) (e_files e)
                (e_jobs e ++ [CJB (e_next e) lo hi (map (fun f => (s_id f, s_tombs f)) fs) (concat (map snd out))])
        | None => e
        end
    | None => e
    end
  else e.
(** What becomes of one file: an input inside the output range is removed, any other input gets the
    saved tombstones and the output range (tombstone.rs:281-325) in place of its own *)
Definition after_compact (j : cjob) (f : sfile) : list sfile :=
  match find (fun i => fst i =? s_id f) (j_in j) with
  | None => [f]
  | Some (_, saved) =>
      if (j_lo j <=? rows_min (s_rows f)) && (rows_max (s_rows f) <=? j_hi j) then []
      else [SFI (s_id f) (s_rows f) (saved ++ [(j_lo j, j_hi j)])]
  end.
(** job.rs:200-215, summary.rs:134-180 apply_version_edit *)
Definition en_compact_apply (id : Z) (e : engine) : engine :=
  match find (fun j => j_id j =? id) (e_jobs e) with
  | Some j =>
      ENG (e_next e) (e_id e) (e_data e) (e_imm e)
          (concat (map (after_compact j) (e_files e)) ++ match j_rows j with [] => [] | _ => [SFI id (j_rows j) []] end)
          (filter (fun j => negb (j_id j =? id)) (e_jobs e))
  | None => e
  end.
(** vnode_store.rs:573-608, tseries_family.rs:238-247, super_version.rs:92-135: delete from the caches,
    then add tombstones to the files of the current version.  A running flush or compaction is not
    waited for or told *)
Definition en_delete (trs : list (Z * Z)) (e : engine) : engine :=
  ENG (e_next e) (e_id e) (sd_delete_ranges (e_data e) trs)
      (map (fun k => SCA (k_id k) (sd_delete_ranges (k_data k) trs) (k_page k)) (e_imm e))
      (map (fun f => SFI (s_id f) (s_rows f) (s_tombs f ++ trs)) (e_files e))
      (e_jobs e).

(** iterator.rs:290-342: what a query reads the series from *)
Definition cache_chunk (id : Z) (d : sdata) : list chunk :=
  match d_groups d with [] => [] | _ => [CH id (d_min d) (d_max d) (sd_read (fun _ => true) d)] end.
Definition file_chunk (f : sfile) : chunk := CH (s_id f) (rows_min (s_rows f)) (rows_max (s_rows f)) (live f).
Definition chunks (e : engine) : list chunk :=
  map file_chunk (e_files e) ++ concat (map (fun k => cache_chunk (k_id k) (k_data k)) (e_imm e)) ++ cache_chunk (e_id e) (e_data e).
