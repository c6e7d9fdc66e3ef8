(** Model of record files: tskv/src/record_file/{writer,reader,record,mod}.rs, of the WAL reader
    (tskv/src/wal/reader.rs) and of the scan made by WAL recovery (tskv/src/wal/wal_store.rs:429-488).
    A file is the list of its bytes.  crc32 is an arbitrary function of the hashed bytes.  I/O errors are not modelled. *)
From Verif Require Import Prelude Bytes.

Definition zlen {A} (l : list A) : Z := Z.of_nat (length l).
(** At most [n] bytes of [l] from offset [pos]. *)
Definition slice (l : list Z) (pos n : Z) : list Z :=
  firstn (Z.to_nat (Z.min n (zlen l))) (skipn (Z.to_nat (Z.min pos (zlen l))) l).

(** record_file/mod.rs:47-72 *)
Definition FILE_MAGIC : list Z := [82; 69; 67; 79].
Definition RECORD_MAGIC : list Z := [70; 108; 79; 103].
Definition FOOTER_LEN : Z := 32.
Definition HEADER_LEN : Z := 14.
Definition READER_BUF_SIZE : Z := 67108864.

(** record.rs:2-7 *)
Record record := Rec { rec_type : Z; rec_version : Z; rec_data : list Z; rec_pos : Z }.

Section WithCrc.
Variable crc : list Z -> Z.

(** mod.rs:56-62 file_crc_source_len *)
Definition crc_source_len (file_len footer_len : Z) : Z :=
  if file_len >? 4 + 1024 + footer_len then 1024 else file_len - (4 + footer_len).

(** reader.rs:33-71 read_footer_from: the footer position, None = NoFooter *)
Definition read_footer (f : list Z) : option Z :=
  if zlen f <? 4 + FOOTER_LEN then None
  else
    let footer_pos := zlen f - FOOTER_LEN in
    if crc (slice f 4 (crc_source_len (zlen f) FOOTER_LEN)) =? of_be (slice f (footer_pos + 4) 4) then Some footer_pos else None.

(** writer.rs:25-71 Writer::open: the content of the file after opening.  The checked_sub cannot fail when a footer
    was found. *)
Definition writer_open (f : list Z) : list Z :=
  match f with
  | [] => FILE_MAGIC
  | _ => match read_footer f with Some p => slice f 0 p | None => f end
  end.

(** writer.rs:74-130 write_record: the bytes appended; the data is one byte string here (the code takes it in pieces and
    writes and hashes them in order).  None: the length is not a u32.  Writes go through FileStreamWriter's buffer and reach
    the file in order (file_system/file/stream_writer.rs). *)
Definition record_bytes (version type : Z) (data : list Z) : list Z :=
  RECORD_MAGIC ++ [version; type] ++ be_bytes 4 (zlen data)
    ++ be_bytes 4 (crc ([version; type] ++ be_bytes 4 (zlen data) ++ data)) ++ data.
Definition write_record (f : list Z) (version type : Z) (data : list Z) : option (list Z) :=
  if zlen data <? 2 ^ 32 then Some (f ++ record_bytes version type data) else None.

(** reader.rs:73-83 Reader.  [r_buf] is the vector [buf] without its trailing zeros up to capacity [r_cap] = buf.len(). *)
Record reader := Reader { r_pos : Z; r_buf : list Z; r_cap : Z; r_len : Z; r_use : Z; r_footer_pos : Z; r_flen : Z }.

Inductive rerr := Eof | BadSize (pos len : Z) | BadCrc (r : record).
(** [Crash] is a panic (slice index out of range). *)
Inductive outcome (A : Type) := Good (a : A) (r : reader) | Fail (e : rerr) (r : reader) | Crash | NoFuel.
Arguments Good {A} _ _. Arguments Fail {A} _ _. Arguments Crash {A}. Arguments NoFuel {A}.
Definition obind {A B} (o : outcome A) (k : A -> reader -> outcome B) : outcome B :=
  match o with Good a r => k a r | Fail e r => Fail e r | Crash => Crash | NoFuel => NoFuel end.

(** reader.rs:86-123 Reader::open; the subtraction wraps for a file shorter than the magic number *)
Definition reader_open (f : list Z) : reader :=
  let '(footer_pos, has) := match read_footer f with Some p => (p, true) | None => (zlen f, false) end in
  let records_len := wrap_u64 (if has then zlen f - FOOTER_LEN - 4 else zlen f - 4) in
  Reader 4 [] (Z.min records_len READER_BUF_SIZE) 0 0 footer_pos (zlen f).
(** reader.rs:125-149 Reader::new, used for the file being written (writer.rs:175-190), without a footer *)
Definition reader_new (f : list Z) : reader :=
  Reader 4 [] (Z.min (wrap_u64 (zlen f - 4)) READER_BUF_SIZE) 0 0 (zlen f) (zlen f).

(** reader.rs:307-322 load_buf: reads min(buf.len(), rest of the file) bytes over the start of the buffer *)
Definition load_buf (f : list Z) (r : reader) : reader :=
  let data := slice f (r_pos r) (r_cap r) in
  Reader (r_pos r) (data ++ skipn (length data) (r_buf r)) (r_cap r) (zlen data) 0 (r_footer_pos r) (r_flen r).

(** reader.rs:152-187 set_pos *)
Definition set_pos (f : list Z) (r : reader) (pos : Z) : outcome unit :=
  let at_ p u := Reader p (r_buf r) (r_cap r) (r_len r) u (r_footer_pos r) (r_flen r) in
  if r_pos r - r_use r =? pos then Good tt (at_ pos 0)
  else if pos >? r_flen r then Fail Eof r
  else if r_pos r >? pos then
    let size := r_pos r - pos in
    if r_use r >? size then Good tt (at_ pos (r_use r - size)) else Good tt (load_buf f (at_ pos (r_use r)))
  else if r_pos r <? pos then
    let size := pos - r_pos r in
    if r_len r - r_use r >? size then Good tt (at_ pos (r_use r + size)) else Good tt (load_buf f (at_ pos (r_use r)))
  else Good tt r.

(** reader.rs:324-333 read_buf: the reader with the wanted bytes in its buffer, and the slice returned *)
Definition fill (f : list Z) (r : reader) (size : Z) : reader :=
  let r1 := if r_cap r <? size then Reader (r_pos r) (r_buf r) size (r_len r) (r_use r) (r_footer_pos r) (r_flen r) else r in
  if r_len r1 - r_use r1 <? size then load_buf f r1 else r1.
Definition got (r : reader) (size : Z) : list Z := slice (r_buf r) (r_use r) (Z.min (r_use r + size) (r_len r) - r_use r).
(** decode_be_u32 (byte_utils.rs:7-9) reads four bytes from the start of the slice whatever its length: past the loaded
    bytes it sees what the buffer held before, or its zeros. *)
Definition peek4 (r : reader) : list Z := slice (r_buf r ++ repeat 0 4) (r_use r) 4.

(** reader.rs:190-202 find_record_header: the header's position and slice *)
Fixpoint find_record_header (fuel : nat) (f : list Z) (r : reader) : outcome (Z * list Z) :=
  match fuel with
  | O => NoFuel
  | S n =>
      let r1 := fill f r 4 in
      if list_eq_dec Z.eq_dec (peek4 r1) RECORD_MAGIC then
        let r2 := fill f r1 HEADER_LEN in Good (r_pos r2, got r2 HEADER_LEN) r2
      else obind (set_pos f r1 (r_pos r1 + 1)) (fun _ r2 => find_record_header n f r2)
  end.

(** reader.rs:209-294 read_record *)
Definition read_record (f : list Z) (r : reader) : outcome record :=
  if r_pos r + HEADER_LEN >=? r_footer_pos r then Fail Eof r
  else
    obind (find_record_header (length f + 2) f r) (fun '(header_pos, header) r1 =>
    if zlen header <? HEADER_LEN then Crash
    else
      let version := nth 4 header 0 in
      let type := nth 5 header 0 in
      let size := of_be (slice header 6 4) in
      let stored := of_be (slice header 10 4) in
      let data_pos := header_pos + HEADER_LEN in
      obind (set_pos f r1 data_pos) (fun _ r2 =>
      let r3 := fill f r2 size in
      let data := got r3 size in
      if zlen data <? size then Fail (BadSize header_pos size) r3
      else
        obind (set_pos f r3 (data_pos + size)) (fun _ r4 =>
        if crc (slice header 4 6 ++ data) =? stored then Good (Rec type version data header_pos) r4
        else obind (set_pos f r4 (header_pos + 1)) (fun _ r5 => Fail (BadCrc (Rec type version data header_pos)) r5)))).

(** reader.rs:296-299 read_record_at *)
Definition read_record_at (f : list Z) (r : reader) (pos : Z) : outcome record :=
  obind (set_pos f r pos) (fun _ r1 => read_record f r1).
(** reader.rs:335-344 reload_metadata *)
Definition reload_metadata (f : list Z) (has_footer : bool) (r : reader) : reader :=
  Reader (r_pos r) (r_buf r) (r_cap r) (r_len r) (r_use r) (if has_footer then r_footer_pos r else zlen f) (zlen f).

(** Reading on until an error that is not passed over; [skip] says which errors the consumer passes over:
    none (e.g. tskv/src/version_set.rs:79-95) or, in WAL recovery, every error but Eof (wal/reader.rs:34-52 and
    wal_store.rs:447-483: next_wal_entry turns the size error into WalTruncated, so the truncating arm 466 is never taken and
    479-482 continues).  The end: Some error, or None for a crash. *)
Fixpoint read_all (fuel : nat) (skip : rerr -> bool) (f : list Z) (r : reader) : list record * option rerr :=
  match fuel with
  | O => ([], None)
  | S n =>
      match read_record f r with
      | Good rec r' => let '(l, e) := read_all n skip f r' in (rec :: l, e)
      | Fail e r' => if skip e then read_all n skip f r' else ([], Some e)
      | Crash | NoFuel => ([], None)
      end
  end.
Definition skip_none (e : rerr) : bool := false.
Definition skip_errors (e : rerr) : bool := match e with Eof => false | _ => true end.
Definition read_file (skip : rerr -> bool) (f : list Z) : list record * option rerr :=
  read_all (length f + 2) skip f (reader_open f).
End WithCrc.
Arguments Good {A} _ _. Arguments Fail {A} _ _. Arguments Crash {A}. Arguments NoFuel {A}.
