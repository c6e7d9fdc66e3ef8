(** What a raft log promises, in terms of its operations: a list of entries with consecutive indexes. *)
From Verif Require Import Prelude Bytes RecordModel RecordSpec WalModel.

Section Spec.
Context {E : Type}.
Variable e_index : E -> Z.

(** Indexes i, i+1, ... below the reserved value u64::MAX. *)
Fixpoint from (i : Z) (l : list E) : Prop := match l with [] => True | e :: l' => e_index e = i /\ from (i + 1) l' end.
Definition consecutive (l : list E) : Prop := exists i, 0 <= i /\ i + zlen l <= U64_MAX /\ from i l.

(** The log, the entries purged from its front so far, and how many entries at its end the entry cache holds. *)
Record log := Log { l_purged : list E; l_entries : list E; l_cached : nat }.
Definition last_of (l : list E) : option E := match rev l with [] => None | e :: _ => Some e end.
Definition first_index (l : list E) : Z := match l with [] => U64_MAX | e :: _ => e_index e end.
Definition last_index (l : list E) : Z := match last_of l with None => U64_MAX | Some e => e_index e end.
Definition keep (apply : option Z) (l : list E) : list E :=
  match apply with None => l | Some a => filter (fun e => e_index e <=? a) l end.

(** [SLast]: the last entry, when the cache holds one.  [SRestart]: some of the purged entries, [old], come back, and the
    entries above the applied index go. *)
Inductive spec_step : log -> op E -> ans E -> log -> Prop :=
| SAppend p l n es : spec_step (Log p l n) (OAppend es) AOk (Log p (l ++ es) (min 256 (n + length es)))
| SDelBefore p l n k : spec_step (Log p l n) (ODelBefore k) AOk
    (Log (p ++ filter (fun e => e_index e <? k) l) (filter (fun e => k <=? e_index e) l)
         (min n (length (filter (fun e => k <=? e_index e) l))))
| SDelAfter p l n k : spec_step (Log p l n) (ODelAfter k) AOk
    (Log p (filter (fun e => e_index e <? k) l) (n - length (filter (fun e => k <=? e_index e) l)))
| SEntry p l n k : spec_step (Log p l n) (OEntry k) (AEntry (find (fun e => e_index e =? k) l)) (Log p l n)
| SEntries p l n a b : spec_step (Log p l n) (OEntries a b)
    (AEntries (filter (fun e => (a <=? e_index e) && (e_index e <? b))%bool l)) (Log p l n)
| SLast p l n : spec_step (Log p l n) OLast (AEntry (if (n =? 0)%nat then None else last_of l)) (Log p l n)
| SMetrics p l n : spec_step (Log p l n) OMetrics (AMetrics (first_index l) (last_index l)) (Log p l n)
| SRestart p old l n apply : spec_step (Log (p ++ old) l n) (ORestart apply) AOk
    (Log p (keep apply (old ++ l)) (min 256 (length (keep apply (old ++ l))))).
Inductive spec_run : log -> list (op E * ans E) -> log -> Prop :=
| SpNil l : spec_run l [] l
| SpCons l o a l1 tr l2 : spec_step l o a l1 -> spec_run l1 tr l2 -> spec_run l ((o, a) :: tr) l2.
End Spec.

Section Runs.
Variable crc : list Z -> Z.
Context {E : Type}.
Variables (e_index e_type : E -> Z) (enc : E -> list Z) (dec : list Z -> option E) (max_size : Z).

(** The encoding of entries: bytes that decode to the entry, and a record that is not too long. *)
Definition coded (e : E) : Prop :=
  is_byte (e_type e) /\ Forall is_byte (enc e) /\ zlen (enc e) + 9 < 2 ^ 32 /\ dec (enc e) = Some e.
(** No prefix of a file that ends between two records is taken for a file closed by a footer (see [no_footer]). *)
Definition wal_bytes (es : list E) : list Z := flat_map (fun e => record_bytes crc 1 8 (wal_data e_index e_type enc e)) es.
Definition footers_ok (s : store E) : Prop := forall id es1 es2, In (id, FILE_MAGIC ++ wal_bytes (es1 ++ es2)) (s_dir s) ->
  no_footer crc (FILE_MAGIC ++ wal_bytes es1).
(** The operations raft makes: entries are appended after the last one; [del_after k] only when the reader of the file that holds
    entry [k] has nothing in its buffer from there on; a restart that drops entries, only with files that fit in the
    reader's buffer. *)
Definition op_ok (s : store E) (o : op E) : Prop :=
  match o with
  | OAppend es => Forall coded es /\ consecutive e_index es /\
      (max_sequence s = U64_MAX \/ match es with [] => True | e :: _ => e_index e = max_sequence s + 1 end)
  | ODelBefore k => 0 <= k <= U64_MAX
  | ODelAfter k => 0 <= k /\ forall m pos, In m (s_metas s) -> In (k, pos) (m_index m) ->
      r_pos (m_reader m) - r_use (m_reader m) + r_len (m_reader m) <= pos
  | ORestart (Some a) => 0 <= a /\ (max_sequence s <= a \/ forall id f, In (id, f) (s_dir s) -> zlen f <= 4 + READER_BUF_SIZE)
  | _ => True
  end.
Inductive runs : store E -> list (op E * ans E) -> store E -> Prop :=
| RNil s : runs s [] s
| RCons s o a s1 tr s2 : op_ok s o -> footers_ok s -> step crc e_index e_type enc dec max_size s o = Some (a, s1) ->
    runs s1 tr s2 -> runs s ((o, a) :: tr) s2.
End Runs.
