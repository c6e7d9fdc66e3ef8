(** Model of what compaction does with columns when the schema of a table has changed between the
    files (/repo/tskv/src/compaction/comapcting_block_meta_group.rs:52-290, compact.rs:36-150,
    595-691, compacting_block_meta.rs, tsm/writer.rs:249-316,399-452, tsm/reader.rs:316-334,623-632).

    Simplifications.  One series of one table.  A file is its tombstone flag, the version of the
    table schema in its footer ([label]) and the column groups ("blocks") of the series; a block is
    its time range, its field columns (the time column is left out: every block has it, and rows have
    their time stamp), the rows stored in it and the rows left after the file's tombstones.  The
    types of two columns with one id are the same (C57), so that the arrays of an adapted batch always
    fit the target schema.  How the blocks of a series are found is in CompactModel.v; merging rows
    is in MergeModel.v.  Metrics and logging are left out. *)
From Verif Require Import Prelude MergeModel CompactModel.

(** models/schema/tskv_table_schema.rs TableColumn, as far as used: a column's id and name *)
Record scol := COL { sc_id : Z; sc_name : Z }.
Record sblock := SB { sb_min : Z; sb_max : Z; sb_cols : list scol; sb_raw : list mrow; sb_live : list mrow }.
(** tsm/chunk_group.rs: the footer has one schema per table *)
Record sfile := SF { sf_tomb : bool; sf_label : Z; sf_blocks : list sblock }.
(** compacting_block_meta.rs:15-22 *)
Record sbm := SBM { sm_idx : nat; sm_tomb : bool; sm_label : Z; sm_blk : sblock }.

(** compact.rs:377-395: the blocks that meet the output range *)
Definition s_chunk (lo hi : Z) (i : nat) (f : sfile) : list sbm :=
  map (SBM i (sf_tomb f) (sf_label f))
      (filter (fun b => boundless lo hi || tr_overlaps (sb_min b) (sb_max b) lo hi) (sf_blocks f)).
(** compact.rs:346-403, for one series *)
Fixpoint s_collect (lo hi : Z) (i : nat) (fs : list sfile) : list sbm :=
  match fs with [] => [] | f :: fs' => s_chunk lo hi i f ++ s_collect lo hi (S i) fs' end.

(** compacting_block_meta.rs:41-56 Ord: by time range *)
Definition s_le (a b : sbm) : bool :=
  (sb_min (sm_blk a) <? sb_min (sm_blk b))
  || ((sb_min (sm_blk a) =? sb_min (sm_blk b)) && (sb_max (sm_blk a) <=? sb_max (sm_blk b))).
Fixpoint s_insert (b : sbm) (l : list sbm) : list sbm :=
  match l with [] => [b] | x :: l' => if s_le b x then b :: l else x :: s_insert b l' end.
Fixpoint s_sort (l : list sbm) : list sbm := match l with [] => [] | b :: l' => s_insert b (s_sort l') end.
(** comapcting_block_meta_group.rs:25-50 *)
Record sgroup := SG { sg_lo : Z; sg_hi : Z; sg_blks : list sbm }.
Definition s_one (b : sbm) : sgroup := SG (sb_min (sm_blk b)) (sb_max (sm_blk b)) [b].
(** compact.rs:474-482 *)
Fixpoint s_absorb (h : sgroup) (l : list sgroup) : sgroup * list sgroup :=
  match l with
  | [] => (h, [])
  | g :: l' =>
      if tr_overlaps (sg_lo h) (sg_hi h) (sg_lo g) (sg_hi g)
      then s_absorb (SG (Z.min (sg_lo h) (sg_lo g)) (Z.max (sg_hi h) (sg_hi g)) (sg_blks h ++ sg_blks g)) l'
      else let (h', r) := s_absorb h l' in (h', g :: r)
  end.
(** compact.rs:454-492 *)
Fixpoint s_group_all (fuel : nat) (l : list sgroup) : list sgroup :=
  match fuel, l with
  | S fuel', h :: l' => let (h', r) := s_absorb h l' in h' :: s_group_all fuel' r
  | _, _ => []
  end.
(** compact.rs:427-506 fill_compacting_block_meta_groups *)
Definition s_groups (c : list sbm) : list sgroup := s_group_all (length c) (map s_one (s_sort c)).
(** comapcting_block_meta_group.rs:63 sort_by_key(reader_idx), stable *)
Fixpoint s_insert_idx (b : sbm) (l : list sbm) : list sbm :=
  match l with [] => [b] | x :: l' => if (sm_idx b <=? sm_idx x)%nat then b :: l else x :: s_insert_idx b l' end.
Fixpoint s_sort_idx (l : list sbm) : list sbm := match l with [] => [] | b :: l' => s_insert_idx b (s_sort_idx l') end.

(** A record batch: the schema version in its metadata, its columns, its rows *)
Record rbatch := RBT { rb_ver : Z; rb_cols : list scol; rb_rows : list mrow }.
(** compact.rs:36-60 CompactingBlock (nothing builds [Encoded]); [ts] is the version of [table_schema] *)
Inductive oblock := Decoded (ts : Z) (b : rbatch) | Raw (ts : Z) (b : sblock).
(** compact.rs:101-118 decode; the version of a raw block is that of the schema it came with *)
Definition decode (o : oblock) : rbatch :=
  match o with
  | Decoded _ b => b
  | Raw ts b => RBT ts (sb_cols b) (sb_raw b)
  end.
(** compact.rs:125-140 len *)
Definition o_len (o : oblock) : nat := length (rb_rows (decode o)).
(** compact.rs:120-123 decode_opt; utils.rs:10-58 *)
Definition cut_batch (lo hi : Z) (b : rbatch) : rbatch := RBT (rb_ver b) (rb_cols b) (cut lo hi (rb_rows b)).
(** compact.rs:190-224 get_record_batch; tsm/reader.rs:316-334 read_record_batch: the version of the
    batch is that of the file's schema *)
Definition s_get (lo hi : Z) (m : sbm) : option rbatch :=
  let b := sm_blk m in
  let rb := RBT (sm_label m) (sb_cols b) (sb_live b) in
  if boundless lo hi then Some rb
  else if tr_overlaps (sb_min b) (sb_max b) lo hi
       then Some (if tr_includes lo hi (sb_min b) (sb_max b) then rb else cut_batch lo hi rb)
       else None.

(** comapcting_block_meta_group.rs:205-236: the schema of the batch of the greatest version;
    [max_by_key] gives the last one of several *)
Definition target (l : list rbatch) : option rbatch :=
  fold_left (fun acc b => match acc with None => Some b | Some a => if rb_ver a <=? rb_ver b then Some b else Some a end)
            l None.
(** comapcting_block_meta_group.rs:254-280: the position of the first column with the id *)
Fixpoint find_col (id : Z) (cols : list scol) : option nat :=
  match cols with
  | [] => None
  | c :: cols' => if sc_id c =? id then Some 0%nat else option_map S (find_col id cols')
  end.
(** comapcting_block_meta_group.rs:247-290 record_batch_project_schema: nulls for a column the batch
    does not have *)
Definition project (cols : list scol) (b : rbatch) : list mrow :=
  map (fun r => MR (r_ts r) (map (fun c => match find_col (sc_id c) (rb_cols b) with
                                          | Some i => nth i (r_cols r) None
                                          | None => None
                                          end) cols)) (rb_rows b).
(** comapcting_block_meta_group.rs:172-245 merge_record_batches, schema_adapt_record_batches *)
Definition s_merge (bs : nat) (l : list rbatch) : option (list rbatch) :=
  match target l with
  | None => None
  | Some t =>
      option_map (map (RBT (rb_ver t) (rb_cols t))) (merge_batches (length (rb_cols t)) bs (map (project (rb_cols t)) l))
  end.
(** comapcting_block_meta_group.rs:52-170 merge_with_previous_block; [table_schema] is that of the
    file with the lowest reader index *)
Definition s_merge_prev (bs : nat) (lo hi : Z) (prev : option oblock) (g : sgroup) : option (list oblock) :=
  let blks := s_sort_idx (sg_blks g) in
  match blks with
  | [] => Some []
  | m0 :: _ =>
      let ts := sm_label m0 in
      let merge :=
        option_map (map (Decoded ts))
          (s_merge bs (concat (map (fun m => opt_list (s_get lo hi m)) blks)
                       ++ opt_list (option_map (fun p => cut_batch lo hi (decode p)) prev))) in
      match blks with
      | [m] =>
          if negb (sm_tomb m) && tr_includes lo hi (sb_min (sm_blk m)) (sb_max (sm_blk m))
          then if (bs <=? length (sb_raw (sm_blk m)))%nat then Some (opt_list prev ++ [Raw ts (sm_blk m)])
               else match prev with
                    | Some p =>
                        option_map (map (Decoded ts)) (s_merge bs [decode (Raw ts (sm_blk m)); cut_batch lo hi (decode p)])
                    | None => Some [Raw ts (sm_blk m)]
                    end
          else merge
      | _ => merge
      end
  end.
(** compact.rs:648-678 *)
Fixpoint s_split_last (bs : nat) (l : list oblock) : list oblock * option oblock :=
  match l with
  | [] => ([], None)
  | [b] => if (o_len b <? bs)%nat then ([], Some b) else ([b], None)
  | b :: l' => let (w, p) := s_split_last bs l' in (b :: w, p)
  end.
(** compact.rs:619-679 for the groups of one series *)
Fixpoint s_compact_groups (bs : nat) (lo hi : Z) (prev : option oblock) (gs : list sgroup)
  : option (list oblock * option oblock) :=
  match gs with
  | [] => Some ([], prev)
  | g :: gs' =>
      match s_merge_prev bs lo hi prev g with
      | None => None
      | Some blks =>
          let (w, p) := s_split_last bs blks in
          match s_compact_groups bs lo hi p gs' with
          | None => None
          | Some (w', p') => Some (w ++ w', p')
          end
      end
  end.
(** compact.rs:595-691 compact_files, for one series: the blocks handed to the writer *)
Definition s_compact (bs : nat) (lo hi : Z) (fs : list sfile) : option (list oblock) :=
  option_map (fun wp => fst wp ++ opt_list (snd wp)) (s_compact_groups bs lo hi None (s_groups (s_collect lo hi 0 fs))).

(** ** The file written *)
Definition o_schema (o : oblock) : Z := match o with Decoded ts _ => ts | Raw ts _ => ts end.
(** writer.rs:399-407 insert_schema, over the blocks written *)
Definition insert_schema (l : list oblock) : option Z :=
  fold_left (fun acc o => match acc with None => Some (o_schema o) | Some v => if v <? o_schema o then Some (o_schema o) else Some v end) l None.
(** writer.rs:249-316 write_record_batch: the time range is that of the time page; a raw block keeps
    its column group *)
Definition min_ts (rows : list mrow) : Z := fold_left (fun a r => Z.min a (r_ts r)) rows I64_MAX.
Definition max_ts (rows : list mrow) : Z := fold_left (fun a r => Z.max a (r_ts r)) rows I64_MIN.
Definition stored (o : oblock) : sblock :=
  match o with
  | Decoded _ b => SB (min_ts (rb_rows b)) (max_ts (rb_rows b)) (rb_cols b) (rb_rows b) (rb_rows b)
  | Raw _ b => SB (sb_min b) (sb_max b) (sb_cols b) (sb_raw b) (sb_raw b)
  end.
Definition out_file (out : list oblock) : sfile :=
  SF false (match insert_schema out with Some v => v | None => 0 end) (map stored out).

(** ** A flush *)
(** mem_cache/series_data.rs:214-262 convert_to_page, compaction/flush.rs:57-110: every series is
    written with the columns of its own latest schema; the footer of the file keeps the newest schema
    of all its series.  [others] are the versions of the other series of the table in the cache. *)
Definition flush_file (others : list Z) (ver : Z) (cols : list scol) (rows : list mrow) : sfile :=
  SF false (fold_left Z.max others ver) [SB (min_ts rows) (max_ts rows) cols rows rows].
