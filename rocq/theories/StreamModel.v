(** Model of continuous (stream) queries: the trigger loop of
    /repo/query_server/query/src/execution/stream/mod.rs, the watermark of
    query/src/extension/physical/plan_node/watermark.rs, the offsets of
    query/src/stream/offset_tracker/mod.rs, the aggregation state kept between two runs
    (extension/physical/plan_node/state_restore.rs, state_save.rs, query/src/stream/state_store/memory.rs,
    extension/physical/optimizer_rule/add_state_store.rs), the watermark that is kept across a restart
    (query/src/stream/watermark_tracker.rs) and the source (query/src/data_source/stream/tskv/provider.rs).

    Simplifications.  The query reads one stream table (joins are refused, stream_checker.rs:28-66) and
    has no WHERE.  The partial state of the aggregates of a group is the list of the rows that were
    aggregated (that the aggregates themselves do not depend on how the rows are split is C49).  The
    operators of DataFusion (Partial, PartialMerge and Final aggregation, hash exchange, cast of a
    timestamp literal) are taken as documented. *)
From Verif Require Import Prelude.

(** a row of the stream table: its event time in the unit of the table, the value it is grouped by
    and the rest of the row *)
Record row := RW { r_time : Z; r_tag : Z; r_val : Z }.

(** the values of the columns a query groups by: the one computed from the event time and the others *)
Definition key := (Z * Z)%type.
Definition key_eqb (a b : key) : bool := (fst a =? fst b) && (snd a =? snd b).

(** a row between two aggregations: the key of a group and the state of its aggregates *)
Definition grow := (key * list row)%type.

(** The query: nanoseconds in one unit of the event time column, the group key, the columns of the
    aggregated rows whose type is a timestamp (of the key or of the states, e.g. of last(time, ..)),
    the number of partitions of the final aggregation and the hash of the exchange before it.  [q_key]
    is [None] for a query without aggregation. *)
Record query := QU {
  q_unit : Z;
  q_key : option (row -> key);
  q_cols : list (key -> list row -> Z);
  q_parts : nat;
  q_hash : key -> nat }.

(** memory.rs:40-50: one store for each partition of the final aggregation *)
Record store := ST { st_comm : list grow; st_unc : list grow }.

(** what a running query holds: watermark_tracker.rs:34-38 global_watermark_ns, the watermark written
    to the table of watermarks (commit, 182-221), offset_tracker/mod.rs:11-14 and the state stores
    (memory.rs:14-16) *)
Record sq := SQ {
  s_wm : Z;
  s_saved : option Z;
  s_processed : option Z;
  s_available : option Z;
  s_stores : list store }.

(** execution/stream/mod.rs:88-131 build with watermark_tracker.rs:41-166 try_new: offsets and state
    stores start empty; the watermark is the one that was written last, or i64::MIN *)
Definition start (q : query) (saved : option Z) : sq :=
  SQ (match saved with Some w => w | None => I64_MIN end) saved None None
     (repeat (ST [] []) (q_parts q)).

(** offset_tracker/mod.rs:29-40 update_available_offset with provider.rs:73-79: the latest offset of
    a stream table is always i64::MAX *)
Definition update_available (s : sq) : sq :=
  if match s_processed s with Some p => p | None => I64_MIN end <? I64_MAX
  then SQ (s_wm s) (s_saved s) (s_processed s) (Some I64_MAX) (s_stores s)
  else s.

(** offset_tracker/mod.rs:42-60 available_offsets: from the offset after the processed one *)
Definition scan_start (s : sq) : option Z :=
  match s_processed s with Some p => Some (wrap_i64 (p + 1)) | None => None end.

(** provider.rs:32-54 construct_filters: the event time is compared with literals in nanoseconds *)
Definition scan (q : query) (st : option Z) (fin : Z) (table : list row) : list row :=
  filter (fun r => (r_time r * q_unit q <? fin)
                   && match st with Some b => b <=? r_time r * q_unit q | None => true end) table.

(** the maximum of the event times of a batch (watermark.rs:250-285 max_timestamp) *)
Definition batch_max (b : list row) : option Z :=
  match b with
  | [] => None
  | r :: b' => Some (fold_left (fun m x => Z.max m (r_time x)) b' (r_time r))
  end.

(** watermark.rs:190-221 compute_watermark: each batch with rows replaces the maximum *)
Definition part_max (bs : list (list row)) : option Z :=
  fold_left (fun m b => match batch_max b with Some v => Some v | None => m end) bs None.

(** watermark.rs:226-241 poll_next and watermark_tracker.rs:172-178 update_watermark: the watermark is
    set each time a partition of the scan ends; the delay of the stream table is ignored.  The
    partitions are in the order in which they end. *)
Definition watermark_after (wm : Z) (parts : list (list (list row))) : Z :=
  fold_left (fun w bs => match part_max bs with Some v => v | None => w end) parts wm.

(** adds the state of a group to the groups that were seen *)
Fixpoint add_group (g : grow) (gs : list grow) : list grow :=
  match gs with
  | [] => [g]
  | (k, rs) :: gs' => if key_eqb k (fst g) then (k, rs ++ snd g) :: gs' else (k, rs) :: add_group g gs'
  end.

(** AggregateExec in mode PartialMerge (add_state_store.rs:65-73): one row for each group *)
Definition merge_groups (gs : list grow) : list grow := fold_left (fun acc g => add_group g acc) gs [].

(** AggregateExec in mode Partial over one partition of the scan *)
Definition partial (kf : row -> key) (bs : list (list row)) : list grow :=
  merge_groups (map (fun r => (kf r, [r])) (concat bs)).

(** the exchange by the hash of the key: the partial groups that reach partition [p] *)
Definition exchange (q : query) (p : nat) (gs : list grow) : list grow :=
  filter (fun g => Nat.eqb (q_hash q (fst g)) p) gs.

(** state_save.rs:319-365 create_watermark_predicate looks only at columns of type Timestamp(ns) *)
Definition cols (q : query) : list (key -> list row -> Z) := if q_unit q =? 1 then q_cols q else [].

(** state_save.rs:46-51: some timestamp is later than the watermark; without such a column there is
    no predicate *)
Definition not_late (q : query) (wm : Z) (g : grow) : bool :=
  match cols q with
  | [] => true
  | c => existsb (fun f => wm <? f (fst g) (snd g)) c
  end.

(** state_save.rs:52-57: every timestamp is at or before the watermark *)
Definition expired (q : query) (wm : Z) (g : grow) : bool :=
  match cols q with
  | [] => false
  | c => forallb (fun f => f (fst g) (snd g) <=? wm) c
  end.

(** state_restore.rs:80-96,124-145: the committed batches, last one first, then the input; then the
    merge *)
Definition restored (st : store) (input : list grow) : list grow :=
  merge_groups (rev (st_comm st) ++ input).

(** state_save.rs:181-216: rows that are not late are put into the store and passed on *)
Definition put (q : query) (wm : Z) (st : store) (input : list grow) : store * list grow :=
  let out := filter (not_late q wm) (restored st input) in
  (ST (st_comm st) (st_unc st ++ out), out).

(** state_save.rs:217-228 at the end of the input, memory.rs:62-90 expire and 93-103 commit: what is
    not expired becomes the committed state *)
Definition commit_store (q : query) (wm : Z) (st : store) : store :=
  ST (filter (fun g => negb (expired q wm g)) (st_unc st)) [].

(** the final aggregation of one partition: what it keeps and what it passes on *)
Definition run_part (q : query) (wm : Z) (p : nat) (st : store) (gs : list grow) : store * list grow :=
  let r := put q wm st (exchange q p gs) in (commit_store q wm (fst r), snd r).

Definition numbered (stores : list store) : list (nat * store) := combine (seq 0 (length stores)) stores.

(** execution/stream/mod.rs:361-381: the end of a run whose output was written *)
Definition finish (wm0 : Z) (s : sq) : sq :=
  if wm0 <? s_wm s
  then SQ (s_wm s) (Some (s_wm s))
          (match s_available s with Some o => Some (Z.min (s_wm s) o) | None => s_processed s end)
          None (s_stores s)
  else SQ wm0 (s_saved s) (s_processed s) (s_available s) (s_stores s).

(** what a run writes: groups, or the rows themselves *)
Record output := OUT { o_groups : list grow; o_rows : list row }.

Definition set_wm (s : sq) (w : Z) (stores : list store) : sq :=
  SQ w (s_saved s) (s_processed s) (s_available s) stores.

(** execution/stream/mod.rs:293-382 execute and execute_once.  [parts] are the batches the scan
    returns, by partition. *)
Definition run (q : query) (parts : list (list (list row))) (s : sq) : sq * output :=
  match s_available (update_available s) with
  | None => (s, OUT [] [])
  | Some _ =>
      let s1 := update_available s in
      let wm0 := s_wm s1 in
      let wm1 := watermark_after wm0 parts in
      match q_key q with
      | None => (finish wm0 (set_wm s1 wm1 (s_stores s1)), OUT [] (concat (concat parts)))
      | Some kf =>
          let gs := concat (map (partial kf) parts) in
          let rs := map (fun e => run_part q wm0 (fst e) (snd e) gs) (numbered (s_stores s1)) in
          (finish wm0 (set_wm s1 wm1 (map fst rs)), OUT (concat (map snd rs)) [])
      end
  end.

(** the rows the scan of the next run returns *)
Definition scanned (q : query) (s : sq) (table : list row) : list row :=
  match s_available (update_available s) with
  | None => []
  | Some fin => scan q (scan_start s) fin table
  end.

(** A run that ends with an error after its scan ended: the partitions before [n] were finished,
    partition [n] passed on its rows and was dropped before the end of its input, the others did not
    start.  The next run starts from what is left (trigger/executor.rs:78-90). *)
Definition run_error (q : query) (n : nat) (parts : list (list (list row))) (s : sq) : sq * output :=
  let s1 := update_available s in
  let wm0 := s_wm s1 in
  match q_key q with
  | None => (set_wm s1 (watermark_after wm0 parts) (s_stores s1), OUT [] (concat (concat (firstn n parts))))
  | Some kf =>
      let gs := concat (map (partial kf) parts) in
      let rs := map (fun e =>
                       if (fst e <? n)%nat then run_part q wm0 (fst e) (snd e) gs
                       else if Nat.eqb (fst e) n then put q wm0 (snd e) (exchange q (fst e) gs)
                       else (snd e, [])) (numbered (s_stores s1)) in
      (set_wm s1 (watermark_after wm0 parts) (map fst rs), OUT (concat (map snd rs)) [])
  end.

(** What happens to a query: a run that ends well, a run that ends with an error, a run during which
    the server stops after a part of its output was written ([wrote] chooses it) and before the
    watermark was, and a restart between two runs.  Each run comes with the content of the table when
    it scans and with the batches the scan returns. *)
Inductive event :=
| Run (table : list row) (parts : list (list (list row)))
| RunError (n : nat) (table : list row) (parts : list (list (list row)))
| Crash (table : list row) (parts : list (list (list row))) (wrote : list bool)
| Restart.

(** the elements chosen by a list of booleans *)
Fixpoint chosen {A} (bs : list bool) (l : list A) : list A :=
  match bs, l with
  | b :: bs', x :: l' => if b then x :: chosen bs' l' else chosen bs' l'
  | _, _ => []
  end.

Definition event_step (q : query) (e : event) (s : sq) : sq * output :=
  match e with
  | Run _ parts => run q parts s
  | RunError n _ parts => run_error q n parts s
  | Crash _ parts wrote =>
      let o := snd (run q parts s) in
      (start q (s_saved s), OUT (chosen wrote (o_groups o)) (chosen wrote (o_rows o)))
  | Restart => (start q (s_saved s), OUT [] [])
  end.

(** the scan of a run returns the rows of the table it asks for, in any partitions and batches *)
Definition event_ok (q : query) (e : event) (s : sq) : Prop :=
  match e with
  | Run t parts | RunError _ t parts | Crash t parts _ => Permutation (concat (concat parts)) (scanned q s t)
  | Restart => True
  end.

(** everything a query wrote, in order *)
Fixpoint history (q : query) (es : list event) (s : sq) : sq * list output :=
  match es with
  | [] => (s, [])
  | e :: es' => let r := event_step q e s in let r' := history q es' (fst r) in (fst r', snd r :: snd r')
  end.

Fixpoint history_ok (q : query) (es : list event) (s : sq) : Prop :=
  match es with
  | [] => True
  | e :: es' => event_ok q e s /\ history_ok q es' (fst (event_step q e s))
  end.
