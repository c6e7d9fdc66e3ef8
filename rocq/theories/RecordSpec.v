(** What record files promise: histories of a file and what reading it must give. *)
From Verif Require Import Prelude Bytes RecordModel.

(** A checksum function gives 32-bit values. *)
Definition crc32_like (crc : list Z -> Z) : Prop := forall l, 0 <= crc l < 2 ^ 32.
(** The CRC-32 (IEEE 802.3, reflected) computed by crate crc32fast, used in the concrete cases. *)
Definition crc32_step (c : Z) : Z := if Z.odd c then Z.lxor (Z.shiftr c 1) 0xEDB88320 else Z.shiftr c 1.
Definition crc32_byte (c b : Z) : Z := Nat.iter 8 crc32_step (Z.lxor c b).
Definition crc32 (l : list Z) : Z := Z.lxor (fold_left crc32_byte l 0xFFFFFFFF) 0xFFFFFFFF mod 2 ^ 32.

(** A record handed to the writer. *)
Record item := Item { it_version : Z; it_type : Z; it_data : list Z }.
Definition item_ok (i : item) : Prop := is_byte (it_version i) /\ is_byte (it_type i) /\ Forall is_byte (it_data i).
Definition append (crc : list Z -> Z) (f : list Z) (i : item) : option (list Z) :=
  write_record crc f (it_version i) (it_type i) (it_data i).
(** The record a reader should see for [i] written when the file was [f]. *)
Definition seen_as (f : list Z) (i : item) : record := Rec (it_type i) (it_version i) (it_data i) (zlen f).

(** The file does not look as if it ended with a footer (32 bytes, the checksum in bytes 4 to 7): it is too short for one, or
    the checksum of the up to 1024 bytes between the magic number and that place is not what is there. *)
Definition no_footer (crc : list Z -> Z) (f : list Z) : Prop :=
  zlen f < 36 \/ crc (slice f 4 (Z.min 1024 (zlen f - 36))) <> of_be (slice f (zlen f - 28) 4).

(** Histories without crashes: the file and the records acknowledged so far.  A file is opened by the writer any number of
    times, each time in a state satisfying [ok]. *)
Inductive history (crc : list Z -> Z) (ok : list Z -> Prop) : list Z -> list record -> Prop :=
| HNew : history crc ok (writer_open crc []) []
| HWrite f rs i g : history crc ok f rs -> item_ok i -> append crc f i = Some g -> history crc ok g (rs ++ [seen_as f i])
| HReopen f rs : history crc ok f rs -> ok f -> history crc ok (writer_open crc f) rs.

(** The last record of a file is not read back when it has no data. *)
Definition readable (rs : list record) : list record :=
  match rs with [] => [] | _ => if zlen (rec_data (last rs (Rec 0 0 [] 0))) =? 0 then removelast rs else rs end.

(** Handles on a growing file: opened at some time, then reads at any positions interleaved with appends. *)
Inductive handle (crc : list Z -> Z) : list Z -> reader -> Prop :=
| HdOpen f : 4 <= zlen f -> Forall is_byte f -> handle crc f (reader_new f)
| HdAppend f r bytes : handle crc f r -> Forall is_byte bytes -> handle crc (f ++ bytes) r
| HdRead f r pos r' : handle crc f r -> 0 <= pos ->
    (exists rec, read_record_at crc f (reload_metadata f false r) pos = Good rec r')
    \/ (exists e, read_record_at crc f (reload_metadata f false r) pos = Fail e r') ->
    handle crc f r'.

(** Histories with crashes: at a crash a proper prefix of the record being written reaches the file; afterwards the writer
    reopens the file and goes on.  [ts] are the offsets of the incomplete records.  [torn] restricts the prefixes. *)
Inductive crash_history (crc : list Z -> Z) (torn : list Z -> Prop) : list Z -> list record -> list Z -> Prop :=
| CNew : crash_history crc torn (writer_open crc []) [] []
| CWrite f rs ts i g : crash_history crc torn f rs ts -> item_ok i -> append crc f i = Some g ->
    crash_history crc torn g (rs ++ [seen_as f i]) ts
| CCrash f rs ts i g k : crash_history crc torn f rs ts -> item_ok i -> append crc f i = Some g ->
    zlen f < k < zlen g -> torn (slice g (zlen f) (k - zlen f)) -> no_footer crc (slice g 0 k) ->
    crash_history crc torn (writer_open crc (slice g 0 k)) rs (ts ++ [zlen f]).

(** The record that starts at [p] is rejected: it is longer than the file, or its checksum does not match (as it should when
    an incomplete record has been continued with other bytes). *)
Definition torn_detected (crc : list Z -> Z) (f : list Z) (p : Z) : Prop :=
  let size := of_be (slice f (p + 6) 4) in
  zlen f < p + 14 + size \/ crc (slice f (p + 4) 6 ++ slice f (p + 14) size) <> of_be (slice f (p + 10) 4).
(** A torn write that holds the whole header and no other byte equal to the first byte of the magic number. *)
Definition clean_tear (t : list Z) : Prop := 14 <= zlen t /\ Forall (fun b => b <> 70) (tl t).
(** A torn write that stops within the first three bytes. *)
Definition short_tear (t : list Z) : Prop := zlen t <= 3.
