(** Model of retention (TTL): when a time bucket of a database expires, how nodes find and delete expired buckets, and
    which writes are refused because of the TTL.
    /repo/common/models/src/schema/database_schema.rs, /repo/meta/src/model/meta_tenant.rs,
    /repo/meta/src/store/storage.rs, /repo/coordinator/src/service.rs, /repo/coordinator/src/raft/manager.rs and
    /repo/replication/src/multi_raft.rs.
    Buckets, replica sets and their creation are those of BucketModel.  Clock readings are nanoseconds since 1970. *)
From Verif Require Import Prelude TimeRangeModel PrecisionModel BucketModel.

(** common/models/src/utils.rs:36-55 now_timestamp_nanos/micros/millis: the clock [t] in the precision, cast to i64 *)
Definition now_in (p : precision) (t : Z) : Z :=
  match p with
  | NS => wrap_i64 t
  | US => wrap_i64 (t / 1000)
  | MS => wrap_i64 (t / 1000000)
  end.
(** database_schema.rs:69-85 time_to_expired *)
Definition time_to_expired (p : precision) (ttl : cnos_duration) (t : Z) : Z :=
  wrap_i64 (now_in p t - to_precision ttl p).

(** meta_tenant.rs:596-613 expired_bucket, for the one database modelled *)
Definition expired_bucket (p : precision) (ttl : cnos_duration) (bs : list bucket) (t : Z) : list bucket :=
  filter (fun b => b_end b <? time_to_expired p ttl t) bs.

(** storage.rs:885-930 process_update_vnode_repl_set, called by destory_replica_group with all vnodes of replica set
    [r] to delete: the set disappears, and so does a bucket without sets.  [None]: BucketNotFound. *)
Definition drop_group (m : meta) (bid r : Z) : option meta :=
  if existsb (fun b => b_id b =? bid) (m_buckets m) then
    Some {| m_buckets :=
              flat_map (fun b =>
                if b_id b =? bid then
                  match filter (fun g => negb (r_id g =? r)) (b_group b) with
                  | [] => []
                  | _ => [{| b_id := b_id b; b_start := b_start b; b_end := b_end b;
                             b_group := filter (fun g => negb (r_id g =? r)) (b_group b) |}]
                  end
                else [b]) (m_buckets m);
            m_next := m_next m; m_dur := m_dur m; m_shards := m_shards m; m_replica := m_replica m |}
  else None.

(** The cluster: the stored metadata (options and buckets), each node's copy of it (meta_tenant.rs MetaTenant.data), the
    expired buckets each node is working through (service.rs:216-221; the replica sets of the first one that are still to
    be looked at), the vnodes whose storage exists on a node, the rows stored in each replica set, and the groups a
    node has shut down and not yet forgotten (multi_raft.rs:58-69, 148-160). *)
Record sys := {
  t_prec : precision; t_ttl : cnos_duration; t_meta : meta;
  t_cache : Z -> cnos_duration * list bucket;
  t_todo : Z -> list (bucket * list repl);
  t_disk : list (Z * Z);               (* vnode id, node *)
  t_rows : list (Z * Z);               (* replica set id, timestamp *)
  t_shut : list (Z * Z) }.             (* node, replica set id *)

Definition upd {A} (f : Z -> A) (n : Z) (x : A) : Z -> A := fun i => if i =? n then x else f i.
Definition w_meta (s : sys) m := {| t_prec := t_prec s; t_ttl := t_ttl s; t_meta := m; t_cache := t_cache s;
  t_todo := t_todo s; t_disk := t_disk s; t_rows := t_rows s; t_shut := t_shut s |}.
Definition w_cache (s : sys) c := {| t_prec := t_prec s; t_ttl := t_ttl s; t_meta := t_meta s; t_cache := c;
  t_todo := t_todo s; t_disk := t_disk s; t_rows := t_rows s; t_shut := t_shut s |}.
Definition w_todo (s : sys) n l := {| t_prec := t_prec s; t_ttl := t_ttl s; t_meta := t_meta s; t_cache := t_cache s;
  t_todo := upd (t_todo s) n l; t_disk := t_disk s; t_rows := t_rows s; t_shut := t_shut s |}.
Definition w_store (s : sys) d r h := {| t_prec := t_prec s; t_ttl := t_ttl s; t_meta := t_meta s; t_cache := t_cache s;
  t_todo := t_todo s; t_disk := d; t_rows := r; t_shut := h |}.
Definition w_ttl (s : sys) ttl := {| t_prec := t_prec s; t_ttl := ttl; t_meta := t_meta s; t_cache := t_cache s;
  t_todo := t_todo s; t_disk := t_disk s; t_rows := t_rows s; t_shut := t_shut s |}.

(** How the work of one replica set ends: it may fail after the first [k] vnodes were dropped, or after all were dropped
    but before the metadata was updated. *)
Inductive outcome := Fail (k : nat) | NoMeta | Done.

Inductive event :=
| EvWrite (n : Z) (nodes : list Z) (t hash ts : Z)  (* a row written through node n; t: clock of the meta server *)
| EvSync (n : Z)                                    (* node n's copy catches up *)
| EvScan (n t : Z)                                  (* the 60 s timer of node n, its clock being t *)
| EvWork (n : Z) (o : outcome)                      (* node n goes on with its expired buckets *)
| EvAlter (ttl : cnos_duration) (dur shards replica : Z)
| EvForget (n r : Z)                                (* node n forgets a group shut down over 60 s ago *)
| EvRestart (n : Z).
Inductive answer := Acked (r : Z) | Refusal | Broken | Nothing.

(** node n's copy becomes the stored metadata *)
Definition sync (s : sys) (n : Z) : sys := w_cache s (upd (t_cache s) n (t_ttl s, m_buckets (t_meta s))).

Definition vnode_eqb (a b : Z * Z) : bool := (fst a =? fst b) && (snd a =? snd b).
Definition is_shut (s : sys) (n r : Z) : bool := existsb (fun x => vnode_eqb x (n, r)) (t_shut s).

(** service.rs:548-563 write_replica_by_raft: the leader opens the group if it is not open (manager.rs:142-166, 215-278;
    a group just shut down is an error, multi_raft.rs:71-81) and every vnode stores the row.
    Simplification: all vnodes of the set store every row. *)
Definition put (s : sys) (b : bucket) (hash ts : Z) : sys * answer :=
  match vnode_for b hash with
  | None => (s, Broken)
  | Some g =>
      if is_shut s (r_leader_node g) (r_id g) then (s, Broken)
      else (w_store s (r_vnodes g ++ t_disk s) ((r_id g, ts) :: t_rows s) (t_shut s), Acked (r_id g))
  end.

(** meta_tenant.rs:716-729 locate_replication_set_for_write, 562-579 create_bucket *)
Definition write (s : sys) (n : Z) (nodes : list Z) (t hash ts : Z) : sys * answer :=
  match bucket_by_timestamp (snd (t_cache s n)) ts with
  | Some b => put s b hash ts
  | None =>
      match process_create_bucket (t_meta s) nodes (time_to_expired (t_prec s) (t_ttl s) t) ts with
      | Refused => (s, Refusal)
      | Panic => (s, Broken)
      | Exists_ =>
          match bucket_by_timestamp (m_buckets (t_meta s)) ts with
          | Some b => put (sync s n) b hash ts
          | None => (sync s n, Broken)
          end
      | Created m =>
          match bucket_by_timestamp (m_buckets m) ts with
          | Some b => put (sync (w_meta s m) n) b hash ts
          | None => (sync (w_meta s m) n, Broken)
          end
      end
  end.

(** replica set [r] is in node n's copy (manager.rs:416 get_replica_all_info) *)
Definition in_cache (s : sys) (n r : Z) : bool :=
  existsb (fun b => existsb (fun g => r_id g =? r) (b_group b)) (snd (t_cache s n)).
(** replica set [r] is in the metadata *)
Definition in_meta (s : sys) (r : Z) : bool :=
  existsb (fun b => existsb (fun g => r_id g =? r) (b_group b)) (m_buckets (t_meta s)).
(** the vnodes of a replica set, the ones dropped first in front (manager.rs:430-437: other nodes' before the own) *)
Definition drop_order (n : Z) (g : repl) : list (Z * Z) :=
  filter (fun v => negb (snd v =? n)) (r_vnodes g) ++ filter (fun v => snd v =? n) (r_vnodes g).
Definition undisk (d : list (Z * Z)) (vs : list (Z * Z)) : list (Z * Z) :=
  filter (fun v => negb (existsb (vnode_eqb v) vs)) d.

(** service.rs:283-305 delete_expired_bucket, one replica set or the final metadata update at a time;
    manager.rs:410-457 destory_replica_group *)
Definition work (s : sys) (n : Z) (o : outcome) : sys :=
  match t_todo s n with
  | [] => s
  | (b, []) :: rest =>
      w_todo (match o with Done => w_meta s (process_delete_bucket (t_meta s) (b_id b)) | _ => s end) n rest
  | (b, g :: gs) :: rest =>
      if r_leader_node g =? n then
        if negb (in_cache s n (r_id g)) || is_shut s n (r_id g) then w_todo s n rest
        else
          match o with
          | Fail k => w_todo (w_store s (undisk (t_disk s) (firstn k (drop_order n g))) (t_rows s) (t_shut s)) n rest
          | NoMeta =>
              w_todo (w_store s (undisk (t_disk s) (drop_order n g))
                                (filter (fun x => negb (fst x =? r_id g)) (t_rows s)) ((n, r_id g) :: t_shut s)) n rest
          | Done =>
              let s1 := w_store s (undisk (t_disk s) (drop_order n g))
                                  (filter (fun x => negb (fst x =? r_id g)) (t_rows s)) ((n, r_id g) :: t_shut s) in
              match drop_group (t_meta s) (b_id b) (r_id g) with
              | Some m => w_todo (w_meta s1 m) n ((b, gs) :: rest)
              | None => w_todo s1 n rest
              end
          end
      else w_todo s n ((b, gs) :: rest)
  end.

Definition step (s : sys) (e : event) : sys * answer :=
  match e with
  | EvWrite n nodes t hash ts => write s n nodes t hash ts
  | EvSync n => (sync s n, Nothing)
  | EvScan n t =>
      match t_todo s n with
      | [] => (w_todo s n (map (fun b => (b, b_group b))
                 (expired_bucket (t_prec s) (fst (t_cache s n)) (snd (t_cache s n)) t)), Nothing)
      | _ => (s, Nothing)                            (* the loop is still at work *)
      end
  | EvWork n o => (work s n o, Nothing)
  | EvAlter ttl d sh r => (w_ttl (w_meta s (process_alter_db (t_meta s) d sh r)) ttl, Nothing)
  | EvForget n r =>
      (* multi_raft.rs:155-165.  Simplification: a group deleted from the metadata is forgotten only after the node's own
         copy has caught up with the deletion. *)
      if in_cache s n r && negb (in_meta s r) then (s, Nothing)
      else (w_store s (t_disk s) (t_rows s) (filter (fun x => negb (vnode_eqb x (n, r))) (t_shut s)), Nothing)
  | EvRestart n =>
      (* manager.rs:86-140 start_all_raft_node opens what is stored; the metadata is read again *)
      (w_todo (sync (w_store s (t_disk s) (t_rows s) (filter (fun x => negb (fst x =? n)) (t_shut s))) n) n [], Nothing)
  end.
Fixpoint run (s : sys) (tr : list event) : sys :=
  match tr with [] => s | e :: tr' => run (fst (step s e)) tr' end.

(** CREATE DATABASE *)
Definition new_db (p : precision) (ttl : cnos_duration) (next dur shards replica : Z) : sys :=
  {| t_prec := p; t_ttl := ttl;
     t_meta := {| m_buckets := []; m_next := next; m_dur := dur; m_shards := shards; m_replica := replica |};
     t_cache := fun _ => (ttl, []); t_todo := fun _ => []; t_disk := []; t_rows := []; t_shut := [] |}.

(** service.rs:307-326 prune_shards and the scan of the replica sets found: the timestamps a query through node n over
    [a, z] returns *)
Definition query (s : sys) (n a z : Z) : list Z :=
  map snd (filter (fun x => (a <=? snd x) && (snd x <=? z) &&
                            existsb (fun g => r_id g =? fst x) (prune_shards (snd (t_cache s n)) a z)) (t_rows s)).
