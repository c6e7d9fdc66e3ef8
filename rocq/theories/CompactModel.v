(** Model of compaction (/repo/tskv/src/compaction/compact.rs,
    compacting_block_meta.rs, comapcting_block_meta_group.rs, utils.rs, writer_wrapper.rs).

    Simplifications.  A file is its tombstone flag and its series, each with its column groups
    ("blocks"); a block is its time range, the rows stored in it and the rows left after its file's
    tombstones ([reader.rs] read_record_batch).  All rows are aligned to one schema.  Encoding is left
    out: a raw copy keeps the stored rows.  Errors of the merge are [None].  The result is the list
    of blocks handed to the writer, in order; the writer appends a column group to the chunk of the
    block's series and never starts a second file (writer_wrapper.rs:87-95, max_size 0).  Metrics,
    logging and the index [tsm_reader_to_compacting_file_map] (it only skips exhausted files and
    leads from a block back to its own file) are left out. *)
From Verif Require Import Prelude MergeModel.

Record cblock := CB { b_min : Z; b_max : Z; b_raw : list mrow; b_live : list mrow }.
(** compact.rs:146-190 CompactingFile: the series ids still to come, sorted *)
Record cfile := CF { f_idx : nat; f_tomb : bool; f_series : list (Z * list cblock) }.
(** compacting_block_meta.rs:15-22: a block with its reader index and its file's tombstone flag *)
Record cbm := BM { m_idx : nat; m_tomb : bool; m_blk : cblock }.

(** predicate/domain.rs TimeRange::{overlaps,includes,contains,is_boundless} *)
Definition tr_overlaps (lo hi a b : Z) : bool := negb ((hi <? a) || (b <? lo)).
Definition tr_includes (lo hi a b : Z) : bool := (lo <=? a) && (b <=? hi).
Definition tr_contains (lo hi t : Z) : bool := (lo <=? t) && (t <=? hi).
Definition boundless (lo hi : Z) : bool := (lo =? I64_MIN) && (hi =? I64_MAX).

(** compact.rs:186-188 peek *)
Definition peek (f : cfile) : option Z := match f_series f with [] => None | s :: _ => Some (fst s) end.
(** compact.rs:243-253 Ord: by next series id, exhausted files last *)
Definition peek_le (a b : cfile) : bool :=
  match peek a, peek b with
  | Some x, Some y => x <=? y
  | Some _, None => true
  | None, Some _ => false
  | None, None => true
  end.
Fixpoint insert_cf (f : cfile) (l : list cfile) : list cfile :=
  match l with [] => [f] | x :: l' => if peek_le f x then f :: l else x :: insert_cf f l' end.
(** compact.rs:405: a stable sort *)
Fixpoint sort_cf (l : list cfile) : list cfile :=
  match l with [] => [] | f :: l' => insert_cf f (sort_cf l') end.

(** compact.rs:377-395: the blocks of a chunk that meet the output range *)
Definition chunk_blocks (lo hi : Z) (f : cfile) (bl : list cblock) : list cbm :=
  map (BM (f_idx f) (f_tomb f))
      (filter (fun b => boundless lo hi || tr_overlaps (b_min b) (b_max b) lo hi) bl).
(** compact.rs:346-403: collect the series from the leading files *)
Fixpoint collect (lo hi : Z) (curr : Z) (fs : list cfile) : list cbm * list cfile :=
  match fs with
  | [] => ([], [])
  | f :: fs' =>
      match f_series f with
      | [] => let (c, r) := collect lo hi curr fs' in (c, f :: r)
      | (sid, bl) :: tl =>
          if curr =? sid
          then let (c, r) := collect lo hi curr fs' in
               (chunk_blocks lo hi f bl ++ c, CF (f_idx f) (f_tomb f) tl :: r)
          else ([], fs)
      end
  end.
(** compact.rs:331-424 next_series_id; [None] out of fuel, [Some None] finished *)
Fixpoint next_series (fuel : nat) (lo hi : Z) (fs : list cfile) : option (option (Z * list cbm * list cfile)) :=
  match fuel with
  | O => None
  | S fuel' =>
      match fs with
      | [] => Some None
      | f :: _ =>
          match peek f with
          | None => Some None
          | Some curr =>
              let (c, fs') := collect lo hi curr fs in
              match c with
              | [] => next_series fuel' lo hi (sort_cf fs')
              | _ => Some (Some (curr, c, sort_cf fs'))
              end
          end
      end
  end.

(** compacting_block_meta.rs:41-56 Ord, for blocks of one series: by time range *)
Definition blk_le (a b : cbm) : bool :=
  (b_min (m_blk a) <? b_min (m_blk b)) || ((b_min (m_blk a) =? b_min (m_blk b)) && (b_max (m_blk a) <=? b_max (m_blk b))).
Fixpoint insert_blk (b : cbm) (l : list cbm) : list cbm :=
  match l with [] => [b] | x :: l' => if blk_le b x then b :: l else x :: insert_blk b l' end.
Fixpoint sort_blks (l : list cbm) : list cbm := match l with [] => [] | b :: l' => insert_blk b (sort_blks l') end.

(** comapcting_block_meta_group.rs:25-47: the blocks and the time range of a group *)
Record bgroup := BG { g_lo : Z; g_hi : Z; g_blks : list cbm }.
Definition one_group (b : cbm) : bgroup := BG (b_min (m_blk b)) (b_max (m_blk b)) [b].
(** compact.rs:474-482: the head takes in every later group it overlaps *)
Fixpoint absorb (h : bgroup) (l : list bgroup) : bgroup * list bgroup :=
  match l with
  | [] => (h, [])
  | g :: l' =>
      if tr_overlaps (g_lo h) (g_hi h) (g_lo g) (g_hi g)
      then absorb (BG (Z.min (g_lo h) (g_lo g)) (Z.max (g_hi h) (g_hi g)) (g_blks h ++ g_blks g)) l'
      else let (h', r) := absorb h l' in (h', g :: r)
  end.
(** compact.rs:454-492 *)
Fixpoint group_all (fuel : nat) (l : list bgroup) : list bgroup :=
  match fuel, l with
  | S fuel', h :: l' => let (h', r) := absorb h l' in h' :: group_all fuel' r
  | _, _ => []
  end.
(** compact.rs:427-494 fill_compacting_block_meta_groups *)
Definition block_groups (c : list cbm) : list bgroup :=
  group_all (length c) (map one_group (sort_blks c)).

(** comapcting_block_meta_group.rs:63 sort_by_key(reader_idx), stable *)
Fixpoint insert_idx (b : cbm) (l : list cbm) : list cbm :=
  match l with [] => [b] | x :: l' => if (m_idx b <=? m_idx x)%nat then b :: l else x :: insert_idx b l' end.
Fixpoint sort_idx (l : list cbm) : list cbm := match l with [] => [] | b :: l' => insert_idx b (sort_idx l') end.

(** utils.rs:10-58 filter_record_batch_by_time_range *)
Definition cut (lo hi : Z) (rows : list mrow) : list mrow := filter (fun r => tr_contains lo hi (r_ts r)) rows.
(** compact.rs:190-224 get_record_batch *)
Definition get_batch (lo hi : Z) (b : cblock) : option (list mrow) :=
  if boundless lo hi then Some (b_live b)
  else if tr_overlaps (b_min b) (b_max b) lo hi
       then Some (if tr_includes lo hi (b_min b) (b_max b) then b_live b else cut lo hi (b_live b))
       else None.
(** comapcting_block_meta_group.rs:172-200 merge_record_batches; no batch at all is an error *)
Definition merge_batches (width bs : nat) (l : list (list mrow)) : option (list (list mrow)) :=
  match l with
  | [] => None
  | _ => sort_merge (length (concat l) + 2) width bs (map (fun rows => [rows]) l)
  end.
Definition opt_list {A} (o : option A) : list A := match o with Some x => [x] | None => [] end.
(** comapcting_block_meta_group.rs:49-170 merge_with_previous_block *)
Definition merge_prev (width bs : nat) (lo hi : Z) (prev : option (list mrow)) (g : bgroup) : option (list (list mrow)) :=
  let blks := sort_idx (g_blks g) in
  let merge :=
    merge_batches width bs
      (concat (map (fun m => opt_list (get_batch lo hi (m_blk m))) blks) ++ opt_list (option_map (cut lo hi) prev)) in
  match blks with
  | [] => Some []
  | [m] =>
      if negb (m_tomb m) && tr_includes lo hi (b_min (m_blk m)) (b_max (m_blk m))
      then if (bs <=? length (b_raw (m_blk m)))%nat then Some (opt_list prev ++ [b_raw (m_blk m)])
           else match prev with
                | Some p => merge_batches width bs [b_raw (m_blk m); cut lo hi p]
                | None => Some [b_raw (m_blk m)]
                end
      else merge
  | _ => merge
  end.
(** compact.rs:648-678: which blocks are written and which is kept to be extended *)
Fixpoint split_last (bs : nat) (l : list (list mrow)) : list (list mrow) * option (list mrow) :=
  match l with
  | [] => ([], None)
  | [b] => if (length b <? bs)%nat then ([], Some b) else ([b], None)
  | b :: l' => let (w, p) := split_last bs l' in (b :: w, p)
  end.
(** compact.rs:619-679, for the groups of one series; [out] is what was written *)
Fixpoint compact_groups (width bs : nat) (lo hi : Z) (prev : option (list mrow)) (gs : list bgroup)
  : option (list (list mrow) * option (list mrow)) :=
  match gs with
  | [] => Some ([], prev)
  | g :: gs' =>
      match merge_prev width bs lo hi prev g with
      | None => None
      | Some blks =>
          let (w, p) := split_last bs blks in
          match compact_groups width bs lo hi p gs' with
          | None => None
          | Some (w', p') => Some (w ++ w', p')
          end
      end
  end.
(** compact.rs:595-691 compact_files: [prev] is the kept block with its series *)
Fixpoint compact_loop (fuel width bs : nat) (lo hi : Z) (prev : option (Z * list mrow)) (fs : list cfile)
  : option (list (Z * list mrow)) :=
  match fuel with
  | O => None
  | S fuel' =>
      match next_series fuel lo hi fs with
      | None => None
      | Some None => Some (opt_list prev)
      | Some (Some (sid, c, fs')) =>
          let same := match prev with Some (s, b) => if s =? sid then Some b else None | None => None end in
          let flush := match prev with Some (s, b) => if s =? sid then [] else [(s, b)] | None => [] end in
          match compact_groups width bs lo hi same (block_groups c) with
          | None => None
          | Some (w, p) =>
              match compact_loop fuel' width bs lo hi (option_map (pair sid) p) fs' with
              | None => None
              | Some rest => Some (flush ++ map (pair sid) w ++ rest)
              end
          end
      end
  end.
(** [fs] are the files in the order of the request; the reader index is the position *)
Definition entries (fs : list cfile) : nat := length (concat (map f_series fs)).
Definition compact_files (width bs : nat) (lo hi : Z) (fs : list cfile) : option (list (Z * list mrow)) :=
  compact_loop (S (entries fs)) width bs lo hi None fs.

(** picker.rs:115-120 compare_column_file: the order of the files in a level compaction request, by
    smallest time stamp and then size; a file is (min_ts, size, contents) *)
Fixpoint insert_pick (f : Z * Z * cfile) (l : list (Z * Z * cfile)) : list (Z * Z * cfile) :=
  match l with
  | [] => [f]
  | x :: l' =>
      let '(m, s, _) := f in let '(m', s', _) := x in
      if (m <? m') || ((m =? m') && (s <=? s')) then f :: l else x :: insert_pick f l'
  end.
Fixpoint pick_order (l : list (Z * Z * cfile)) : list (Z * Z * cfile) :=
  match l with [] => [] | f :: l' => insert_pick f (pick_order l') end.
