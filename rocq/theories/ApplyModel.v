(** Model of how a replica applies the replicated log and comes back after a crash
    (/repo/replication/src/node_store.rs, state_store.rs; recovery: /repo/tskv/src/wal/wal_store.rs,
    /repo/coordinator/src/raft/manager.rs; the metadata service's engine: /repo/meta/src/store/storage.rs).

    Simplifications.  The log is the plain sorted list of its entries (C15 proves the files behave like
    one; entries a purge leaves behind are below [last_seq], see C43).  An index is a positive number,
    0 stands for "none".  An entry carries a command, or nothing (blank and membership entries).  The
    engine is any state with any function that applies a command; for a vnode it is the data files with
    what was not flushed yet.  A flush writes all of the engine's state,
    and only a flush does: commands that change the index or the tombstone files at once are applied again on
    top of their own effect (C18 records where that matters).  A process crash loses what is
    in memory and keeps what was written (power failures, where LMDB without sync and unsynced files
    may lose data, are not modelled).  Terms are left out. *)
From Verif Require Import Prelude.

Section ENGINE.
  Variables (S C : Type) (init : S) (apply : S -> C -> S).
  Definition entry := (Z * option C)%type.
  (** node_store.rs:29-35 NodeStorage.  [st_applied] and [st_log] are on disk; the engine is the pair of what is on disk (with
      the index it covers) and what a running node sees (with the index it has applied) *)
  Record node := ND { st_applied : Z; st_log : list entry; st_disk : S; st_last_seq : Z; st_mem : S; st_mem_idx : Z }.
  Definition node_new : node := ND 0 [] init 0 init 0.

  (** node_store.rs:384-407 append_to_log: [del_after(begin)] and append *)
  Definition append_to_log (n : node) (es : list entry) : node :=
    match es with
    | [] => n
    | e :: _ => ND (st_applied n) (filter (fun x => fst x <? fst e) (st_log n) ++ es) (st_disk n) (st_last_seq n) (st_mem n) (st_mem_idx n)
    end.
  (** node_store.rs:410-424 delete_conflict_logs_since *)
  Definition delete_conflict_logs_since (n : node) (i : Z) : node :=
    ND (st_applied n) (filter (fun x => fst x <? i) (st_log n)) (st_disk n) (st_last_seq n) (st_mem n) (st_mem_idx n).
  (** node_store.rs:427-444 purge_logs_upto *)
  Definition purge_logs_upto (n : node) (i : Z) : node :=
    ND (st_applied n) (filter (fun x => i <? fst x) (st_log n)) (st_disk n) (st_last_seq n) (st_mem n) (st_mem_idx n).
  (** node_store.rs:485-487 in apply_to_state_machine: first the index is recorded as applied ... *)
  Definition mark_applied (n : node) (i : Z) : node := ND i (st_log n) (st_disk n) (st_last_seq n) (st_mem n) (st_mem_idx n).
  (** node_store.rs:489-521: ... then the entry is applied *)
  Definition app (s : S) (c : option C) : S := match c with Some x => apply s x | None => s end.
  Definition engine_apply (n : node) (e : entry) : node :=
    ND (st_applied n) (st_log n) (st_disk n) (st_last_seq n) (app (st_mem n) (snd e)) (fst e).
  (** a flush: the files now hold everything up to what was applied (tsfamily/version.rs:108) *)
  Definition flush (n : node) : node := ND (st_applied n) (st_log n) (st_mem n) (st_mem_idx n) (st_mem n) (st_mem_idx n).
  (** the metadata engine writes its database in the same call (storage.rs:62-75) *)
  Definition engine_apply_durable (n : node) (e : entry) : node := flush (engine_apply n e).
  (** node_store.rs:171-184 apply_snapshot: the index first, then the data *)
  Definition install_data (n : node) (s : S) (i : Z) : node := ND (st_applied n) (st_log n) s i s i.

  (** wal_store.rs:490-531 recover_record, 41-67 recover, manager.rs:646-656: what is logged above [last_seq] and up to the applied
      index is applied again; the log above the applied index is dropped *)
  Definition replayed (n : node) : list entry := filter (fun x => (st_last_seq n <? fst x) && (fst x <=? st_applied n)) (st_log n).
  Definition restart_vnode (n : node) : node :=
    ND (st_applied n) (if st_applied n =? 0 then st_log n else filter (fun x => fst x <=? st_applied n) (st_log n)) (st_disk n) (st_last_seq n)
       (if st_applied n =? 0 then st_disk n else fold_left (fun s e => app s (snd e)) (replayed n) (st_disk n))
       (if st_applied n =? 0 then st_last_seq n else st_applied n).
  (** meta/src/service/server.rs:34-60: the databases are opened, nothing is applied again *)
  Definition restart_meta (n : node) : node := ND (st_applied n) (st_log n) (st_disk n) (st_last_seq n) (st_disk n) (st_last_seq n).
End ENGINE.
Arguments node_new {S C} init. Arguments append_to_log {S C} n es. Arguments delete_conflict_logs_since {S C} n i. Arguments purge_logs_upto {S C} n i.
Arguments mark_applied {S C} n i. Arguments app {S C} apply s c. Arguments engine_apply {S C} apply n e. Arguments flush {S C} n. Arguments engine_apply_durable {S C} apply n e.
Arguments install_data {S C} n s i. Arguments replayed {S C} n. Arguments restart_vnode {S C} apply n. Arguments restart_meta {S C} n.
Arguments ND {S C}. Arguments st_applied {S C}. Arguments st_log {S C}. Arguments st_disk {S C}. Arguments st_last_seq {S C}. Arguments st_mem {S C}. Arguments st_mem_idx {S C}.
