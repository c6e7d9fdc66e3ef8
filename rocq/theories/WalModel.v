(** Model of the raft log kept in write-ahead-log files: tskv/src/wal/{mod,writer,reader,wal_store}.rs, on top of the record
    file model (RecordModel) and of the entry cache (RingModel).
    An entry is any type [E] with its index, its type byte and its encoding (bincode and the configured compressor,
    wal/mod.rs:255-290).  I/O errors are not modelled.  The directory is the list of the WAL files by ascending id
    (names are zero-padded to six digits, file_utils.rs:101-104, so name order is id order below 1000000). *)
From Verif Require Import Prelude Bytes RecordModel RingModel.

Section Wal.
Variable crc : list Z -> Z.
Context {E : Type}.
Variables (e_index e_type : E -> Z) (enc : E -> list Z) (dec : list Z -> option E).
(** WalOptions.wal_max_file_size *)
Variable max_size : Z.

Definition dir := list (Z * list Z).
Definition dir_get (d : dir) (id : Z) : list Z := match find (fun x => fst x =? id) d with Some x => snd x | None => [] end.
Fixpoint dir_put (d : dir) (id : Z) (f : list Z) : dir :=
  match d with
  | [] => [(id, f)]
  | (i, g) :: d' => if i =? id then (id, f) :: d' else if id <? i then (id, f) :: d else (i, g) :: dir_put d' id f
  end.
Definition dir_remove (d : dir) (ids : list Z) : dir := filter (fun x => negb (existsb (Z.eqb (fst x)) ids)) d.
(** file_utils.rs:185-219 get_max_sequence_file_name *)
Definition max_id (d : dir) : Z := fold_left (fun m x => if m <? fst x then fst x else m) d 0.

(** wal_store.rs:149-155 WalFileMeta *)
Record fmeta := Meta { m_id : Z; m_min : Z; m_max : Z; m_reader : reader; m_index : list (Z * Z) }.
(** wal_store.rs:252-256 RaftEntryStorageInner with VnodeWal (wal/mod.rs:96-102); [s_cur] and [s_size] are the id and size
    of the WalWriter (wal/writer.rs:11-17) *)
Record store := Store { s_dir : dir; s_cur : Z; s_size : Z; s_metas : list fmeta; s_cache : kvcache E }.

(** wal/writer.rs:22-39 WalWriter::open *)
Definition open_file (d : dir) (id : Z) : dir * Z :=
  let f := writer_open crc (dir_get d id) in (dir_put d id f, zlen f).
(** wal/mod.rs:121-134 open_writer *)
Definition open_writer (d : dir) : dir * Z * Z :=
  let id := match d with [] => 1 | _ => max_id d end in
  let '(d', n) := open_file d id in (d', id, n).
(** wal/mod.rs:105-119 VnodeWal::new and wal_store.rs:28-39 RaftEntryStorage::new on the directory [d] *)
Definition store_new (d : dir) : store :=
  let '(d', id, n) := open_writer d in Store d' id n [] (kc_new 256).

(** wal/mod.rs:136-149 roll_wal_file *)
Definition roll (s : store) : store :=
  if s_size s >? max_size then
    let '(d', n) := open_file (s_dir s) (s_cur s + 1) in Store d' (s_cur s + 1) n (s_metas s) (s_cache s)
  else s.
(** wal/writer.rs:77-85 truncate and wal/mod.rs:151-164 truncate_wal_file *)
Definition truncate_wal (s : store) (id pos : Z) : store :=
  if s_cur s =? id then
    if s_size s <=? pos then s
    else Store (dir_put (s_dir s) id (slice (dir_get (s_dir s) id) 0 pos)) id pos (s_metas s) (s_cache s)
  else
    let '(d', n) := open_file (s_dir s) id in
    Store (if n <=? pos then d' else dir_put d' id (slice (dir_get d' id) 0 pos)) (s_cur s) (s_size s) (s_metas s) (s_cache s).
(** wal/mod.rs:166-179 rollback_wal_writer *)
Definition rollback (s : store) (ids : list Z) : store :=
  let '(d', id, n) := open_writer (dir_remove (s_dir s) ids) in Store d' id n (s_metas s) (s_cache s).

(** wal/writer.rs:41-69 append_raft_entry: the record's data; version V1 = 1, type Wal = 8 *)
Definition wal_data (e : E) : list Z := e_type e :: be_bytes 8 (e_index e) ++ enc e.
(** wal/mod.rs:181-194 write_raft_entry; None: the record is too long *)
Definition write_raft_entry (s : store) (e : E) : option (store * Z * Z) :=
  let s1 := roll s in
  match write_record crc (dir_get (s_dir s1) (s_cur s1)) 1 8 (wal_data e) with
  | None => None
  | Some f => Some (Store (dir_put (s_dir s1) (s_cur s1) f) (s_cur s1) (s_size s1 + 14 + zlen (wal_data e)) (s_metas s1) (s_cache s1),
                    s_cur s1, s_size s1)
  end.
(** wal/mod.rs:196-207 wal_reader *)
Definition wal_reader (s : store) (id : Z) : reader :=
  if id =? s_cur s then reader_new (dir_get (s_dir s) id) else reader_open crc (dir_get (s_dir s) id).

(** wal_store.rs:178-188 mark_entry *)
Definition mark_entry (m : fmeta) (index pos : Z) : fmeta :=
  Meta (m_id m) (if (m_min m =? U64_MAX) || (m_min m >? index) then index else m_min m)
       (if (m_max m =? U64_MAX) || (m_max m <? index) then index else m_max m) (m_reader m) (m_index m ++ [(index, pos)]).
(** The vector [entry_index] is searched with binary_search_by on its first components (190-228); on a strictly ascending
    vector that is the number of smaller indexes. *)
Definition bsearch (l : list (Z * Z)) (index : Z) : nat := length (filter (fun x => fst x <? index) l).
(** wal_store.rs:190-202 WalFileMeta::del_before *)
Definition meta_del_before (m : fmeta) (index : Z) : fmeta :=
  if (m_min m =? U64_MAX) || (m_min m >=? index) then m
  else Meta (m_id m) index (m_max m) (m_reader m) (skipn (bsearch (m_index m) index) (m_index m)).
(** wal_store.rs:204-230 WalFileMeta::del_after *)
Definition meta_del_after (m : fmeta) (index : Z) : fmeta * Z :=
  if (m_max m =? U64_MAX) || (m_max m <? index) then (m, 0)
  else if index =? 0 then (Meta (m_id m) U64_MAX U64_MAX (m_reader m) [], 0)
  else
    let i := bsearch (m_index m) index in
    (Meta (m_id m) (m_min m) (index - 1) (m_reader m) (firstn i (m_index m)),
     match nth_error (m_index m) i with Some x => snd x | None => 0 end).

(** wal/reader.rs:89-109 WalRecordData::new: the entry, None on a decoding error (9-byte header) *)
Definition decode_record (data : list Z) : option E := if zlen data <? 9 then None else dec (skipn 9 data).
Inductive gres := GSome (e : E) | GNone | GErr.
(** wal_store.rs:232-249 get_entry_by_index, get_entry and wal/reader.rs:54-68 read_wal_record_data.  A reader without
    footer has its footer position at the end of the file.  None: a panic. *)
Definition has_footer (r : reader) : bool := negb (r_footer_pos r =? r_flen r).
Definition get_entry_by_index (d : dir) (m : fmeta) (index : Z) : option (gres * fmeta) :=
  match find (fun x => fst x =? index) (m_index m) with
  | None => Some (GNone, m)
  | Some (_, pos) =>
      let f := dir_get d (m_id m) in
      let with_reader r := Meta (m_id m) (m_min m) (m_max m) r (m_index m) in
      match read_record_at crc f (reload_metadata f (has_footer (m_reader m)) (m_reader m)) pos with
      | Good rec r => Some (match decode_record (rec_data rec) with Some e => GSome e | None => GErr end, with_reader r)
      | Fail Eof r => Some (GNone, with_reader r)
      | Fail _ r => Some (GErr, with_reader r)
      | Crash | NoFuel => None
      end
  end.

(** [upd_first p f l] changes the first element satisfying [p]. *)
Fixpoint upd_first {A} (p : A -> bool) (f : A -> A) (l : list A) : option (list A) :=
  match l with
  | [] => None
  | x :: l' => if p x then Some (f x :: l') else match upd_first p f l' with Some r => Some (x :: r) | None => None end
  end.
(** wal_store.rs:259-283 mark_write_wal *)
Definition mark_write_wal (s : store) (e : E) (id pos : Z) : store :=
  let metas := match upd_first (fun m => m_id m =? id) (fun m => mark_entry m (e_index e) pos) (rev (s_metas s)) with
               | Some l => rev l
               | None => s_metas s ++ [mark_entry (Meta id U64_MAX U64_MAX (wal_reader s id) []) (e_index e) pos]
               end in
  Store (s_dir s) (s_cur s) (s_size s) metas (kc_put (s_cache s) (e_index e) e).

(** wal_store.rs:363-377 min_sequence, max_sequence *)
Definition min_sequence (s : store) : Z := match s_metas s with [] => U64_MAX | m :: _ => m_min m end.
Definition max_sequence (s : store) : Z := match rev (s_metas s) with [] => U64_MAX | m :: _ => m_max m end.
Definition retain (ids : list Z) (l : list fmeta) : list fmeta := filter (fun m => negb (existsb (Z.eqb (m_id m)) ids)) l.

(** wal_store.rs:285-314 mark_delete_before; None: out of fuel in the cache model *)
Fixpoint before_loop (k : Z) (l : list fmeta) : list Z * list fmeta :=
  match l with
  | [] => ([], [])
  | m :: l' =>
      if m_max m <? k then let '(d, r) := before_loop k l' in (m_id m :: d, m :: r)
      else if m_min m <? k then let '(d, r) := before_loop k l' in (d, meta_del_before m k :: r)
      else ([], l)
  end.
Definition mark_delete_before (s : store) (k : Z) : option store :=
  if min_sequence s >=? k then Some s
  else
    let '(ids, metas) := before_loop k (s_metas s) in
    match kc_del_before (s_cache s) k with
    | None => None
    | Some c => Some (rollback (Store (s_dir s) (s_cur s) (s_size s) (retain ids metas) c) ids)
    end.

(** wal_store.rs:316-348 mark_delete_after; the loop runs over the files from the last: ids to delete, metas (last first) and
    the truncation to make *)
Fixpoint after_loop (k : Z) (l : list fmeta) : list Z * list fmeta * option (Z * Z) :=
  match l with
  | [] => ([], [], None)
  | m :: l' =>
      if m_min m >=? k then let '(d, r, t) := after_loop k l' in (m_id m :: d, m :: r, t)
      else if m_max m >=? k then
        let '(m', pos) := meta_del_after m k in ([], m' :: l', if pos >? 0 then Some (m_id m, pos) else None)
      else ([], l, None)
  end.
Definition mark_delete_after (s : store) (k : Z) : option store :=
  if (max_sequence s <? k) || (max_sequence s =? U64_MAX) then Some s
  else
    let '(ids, metas, t) := after_loop k (rev (s_metas s)) in
    let s1 := match t with Some (id, pos) => truncate_wal s id pos | None => s end in
    match kc_del_after (s_cache s1) k with
    | None => None
    | Some c => Some (rollback (Store (s_dir s1) (s_cur s1) (s_size s1) (retain ids (rev metas)) c) ids)
    end.

(** wal_store.rs:410-426 read_raft_entry *)
Fixpoint read_in (d : dir) (index : Z) (l : list fmeta) : option (gres * list fmeta) :=
  match l with
  | [] => Some (GNone, [])
  | m :: l' =>
      if (index >=? m_min m) && (index <=? m_max m) then
        match get_entry_by_index d m index with Some (g, m') => Some (g, m' :: l') | None => None end
      else match read_in d index l' with Some (g, r) => Some (g, m :: r) | None => None end
  end.
Definition set_metas (s : store) (l : list fmeta) : store := Store (s_dir s) (s_cur s) (s_size s) l (s_cache s).
Definition read_raft_entry (s : store) (index : Z) : option (gres * store) :=
  match kc_get (s_cache s) index with
  | Some e => Some (GSome e, s)
  | None => match read_in (s_dir s) index (rev (s_metas s)) with Some (g, l) => Some (g, set_metas s (rev l)) | None => None end
  end.

(** wal_store.rs:350-361 entries_from_cache, for [n] indexes from [start] *)
Fixpoint entries_from_cache (c : kvcache E) (start : Z) (n : nat) : option (list E) :=
  match n with
  | O => Some []
  | S n' => match kc_get c start with
            | Some e => match entries_from_cache c (start + 1) n' with Some l => Some (e :: l) | None => None end
            | None => None
            end
  end.
(** wal_store.rs:394-403: the inner loop over one file, then over the files; the bool says whether all reads succeeded *)
Fixpoint read_range (d : dir) (m : fmeta) (start : Z) (n : nat) : option (list E * bool * fmeta) :=
  match n with
  | O => Some ([], true, m)
  | S n' =>
      match get_entry_by_index d m start with
      | None => None
      | Some (GErr, m') => Some ([], false, m')
      | Some (g, m') =>
          match read_range d m' (start + 1) n' with
          | None => None
          | Some (l, ok, m'') => Some (match g with GSome e => e :: l | _ => l end, ok, m'')
          end
      end
  end.
(** wal_store.rs:158-176 is_empty, intersection *)
Definition intersection (m : fmeta) (start end_ : Z) : option (Z * Z) :=
  if (m_min m =? U64_MAX) || (m_max m =? U64_MAX) then None
  else
    let a := Z.max (m_min m) start in
    let b := Z.min (m_max m + 1) end_ in
    if a <=? b then Some (a, b) else None.
Fixpoint read_files (d : dir) (start end_ : Z) (l : list fmeta) : option (list E * bool * list fmeta) :=
  match l with
  | [] => Some ([], true, [])
  | m :: l' =>
      match (match intersection m start end_ with
             | Some (a, b) => read_range d m a (Z.to_nat (b - a))
             | None => Some ([], true, m)
             end) with
      | None => None
      | Some (es, false, m') => Some (es, false, m' :: l')
      | Some (es, true, m') =>
          match read_files d start end_ l' with
          | None => None
          | Some (es', ok, r) => Some (es ++ es', ok, m' :: r)
          end
      end
  end.
(** wal_store.rs:387-408 read_raft_entry_range; the list is None on a read error *)
Definition read_raft_entry_range (s : store) (start end_ : Z) : option (option (list E) * store) :=
  match entries_from_cache (s_cache s) start (Z.to_nat (end_ - start)) with
  | Some l => Some (Some l, s)
  | None =>
      match read_files (s_dir s) start end_ (s_metas s) with
      | None => None
      | Some (l, ok, metas) => Some (if ok then Some l else None, set_metas s metas)
      end
  end.

(** wal_store.rs:75-98 append; the bool: false on an error *)
Fixpoint append_entries (s : store) (es : list E) : store * bool :=
  match es with
  | [] => (s, true)
  | e :: es' =>
      match write_raft_entry s e with
      | None => (roll s, false)
      | Some (s1, id, pos) => append_entries (mark_write_wal s1 e id pos) es'
      end
  end.

(** wal_store.rs:490-530 recover_record, without the replay into the engine; [apply] is the applied index *)
Definition recover_record (s : store) (id : Z) (e : E) (pos : Z) (apply : option Z) : store :=
  match apply with
  | Some a => if e_index e >? a then truncate_wal s id pos else mark_write_wal s e id pos
  | None => mark_write_wal s e id pos
  end.
(** wal_store.rs:446-484 the loop over one file, with wal/reader.rs:34-52 next_wal_entry inlined: crc errors are passed over;
    every other error becomes WalTruncated (or a decoding error), on which the loop continues; the arm for
    RecordFileInvalidDataSize is never taken.  None: a panic, or out of fuel. *)
Fixpoint recover_file (fuel : nat) (s : store) (id : Z) (apply : option Z) (r : reader) : option store :=
  match fuel with
  | O => None
  | S n =>
      match read_record crc (dir_get (s_dir s) id) r with
      | Good rec r' =>
          match decode_record (rec_data rec) with
          | Some e => recover_file n (recover_record s id e (rec_pos rec) apply) id apply r'
          | None => recover_file n s id apply r'
          end
      | Fail Eof _ => Some s
      | Fail _ r' => recover_file n s id apply r'
      | Crash | NoFuel => None
      end
  end.
Fixpoint recover_files (s : store) (ids : list Z) (apply : option Z) : option store :=
  match ids with
  | [] => Some s
  | id :: ids' =>
      match recover_file (length (dir_get (s_dir s) id) + 2) s id apply (wal_reader s id) with
      | Some s' => recover_files s' ids' apply
      | None => None
      end
  end.
(** Opening the log of an existing directory: VnodeWal::new, then wal_store.rs:42-70 and 429-488 recover *)
Definition recover (d : dir) (apply : option Z) : option store :=
  let s := store_new d in
  match recover_files s (map fst (s_dir s)) apply with
  | None => None
  | Some s' => match apply with Some a => mark_delete_after s' (a + 1) | None => Some s' end
  end.

(** The operations of trait EntryStorage (replication/src/lib.rs), plus a restart of the process: everything in memory is lost
    and the log is recovered from the directory, [apply] being the applied index stored by the state machine. *)
Inductive op := OAppend (es : list E) | ODelBefore (k : Z) | ODelAfter (k : Z) | OEntry (k : Z) | OEntries (a b : Z) | OLast | OMetrics
  | ORestart (apply : option Z).
Inductive ans := AOk | AError | AEntry (e : option E) | AEntries (l : list E) | AMetrics (min max : Z).
(** wal_store.rs:73-144 *)
Definition step (s : store) (o : op) : option (ans * store) :=
  match o with
  | OAppend es => let '(s', ok) := append_entries s es in Some (if ok then AOk else AError, s')
  | ODelBefore k => match mark_delete_before s k with Some s' => Some (AOk, s') | None => None end
  | ODelAfter k => match mark_delete_after s k with Some s' => Some (AOk, s') | None => None end
  | OEntry k => match read_raft_entry s k with
                | Some (GSome e, s') => Some (AEntry (Some e), s')
                | Some (GNone, s') => Some (AEntry None, s')
                | Some (GErr, s') => Some (AError, s')
                | None => None
                end
  | OEntries a b => match read_raft_entry_range s a b with
                    | Some (Some l, s') => Some (AEntries l, s')
                    | Some (None, s') => Some (AError, s')
                    | None => None
                    end
  | OLast => Some (AEntry (kc_last (s_cache s)), s)
  | OMetrics => Some (AMetrics (min_sequence s) (max_sequence s), s)
  | ORestart apply => match recover (s_dir s) apply with Some s' => Some (AOk, s') | None => None end
  end.
Fixpoint exec (s : store) (os : list op) : option (list ans * store) :=
  match os with
  | [] => Some ([], s)
  | o :: os' => match step s o with
                | None => None
                | Some (a, s1) => match exec s1 os' with Some (l, s2) => Some (a :: l, s2) | None => None end
                end
  end.
End Wal.
Arguments store : clear implicits.
Arguments op : clear implicits.
Arguments ans : clear implicits.
