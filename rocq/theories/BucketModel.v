(** Model of time buckets and write/query routing:
    /repo/common/models/src/meta_data.rs, /repo/meta/src/store/storage.rs, /repo/meta/src/model/meta_tenant.rs and
    /repo/coordinator/src/service.rs.  Timestamps and the bucket duration are in the database precision.
    Id counters are unbounded (Rust: u32); shard and replica counts are small (Rust casts u64 to u32). *)
From Verif Require Import Prelude.

Definition sat_add (a b : Z) : Z := Z.max I64_MIN (Z.min I64_MAX (a + b)).
Definition sat_sub (a b : Z) : Z := Z.max I64_MIN (Z.min I64_MAX (a - b)).

(** meta_data.rs:308-324 get_time_range *)
Definition get_time_range (ts duration : Z) : Z * Z :=
  if duration <=? 0 then (I64_MIN, I64_MAX)
  else if 0 <=? ts then
    let floor := Z.quot ts duration in
    (wrap_i64 (floor * duration), sat_add (wrap_i64 (floor * duration)) duration)
  else
    let floor := Z.quot (wrap_i64 (ts + 1)) duration in
    (sat_sub (wrap_i64 (floor * duration)) duration, wrap_i64 (floor * duration)).

(** meta_data.rs:88-94 ReplicationSet (leader fields: first vnode, 361-362) and VnodeInfo (id, node id) *)
Record repl := { r_id : Z; r_leader_node : Z; r_leader_vnode : Z; r_vnodes : list (Z * Z) }.
(** meta_data.rs:72-78 BucketInfo *)
Record bucket := { b_id : Z; b_start : Z; b_end : Z; b_group : list repl }.

(** meta_data.rs:352-360 inner loop of allocation_replication_set; [None] is the panic on an empty node list *)
Fixpoint alloc_vnodes (nodes : list Z) (n : nat) (incr index : Z) : option (list (Z * Z) * Z * Z) :=
  match n with
  | O => Some ([], incr, index)
  | S n' =>
      if Z.of_nat (length nodes) =? 0 then None
      else match nth_error nodes (Z.to_nat (index mod Z.of_nat (length nodes))) with
           | None => None
           | Some node =>
               match alloc_vnodes nodes n' (incr + 1) (index + 1) with
               | None => None
               | Some (vs, incr', index') => Some ((incr, node) :: vs, incr', index')
               end
           end
  end.

(** meta_data.rs:344-365 outer loop; the leader is [vnodes[0]] (panic when there is none) *)
Fixpoint alloc_groups (nodes : list Z) (shards replica : nat) (incr index : Z) : option (list repl * Z) :=
  match shards with
  | O => Some ([], incr)
  | S k =>
      match alloc_vnodes nodes replica (incr + 1) index with
      | Some ((v0, n0) :: vs, incr', index') =>
          match alloc_groups nodes k replica incr' index' with
          | Some (gs, fin) =>
              Some ({| r_id := incr; r_leader_node := n0; r_leader_vnode := v0; r_vnodes := (v0, n0) :: vs |} :: gs, fin)
          | None => None
          end
      | _ => None
      end
  end.

(** meta_data.rs:332-338 the replica count actually used *)
Definition eff_replica (nodes : list Z) (replica : Z) : Z :=
  let node_count := Z.of_nat (length nodes) in
  if replica =? 0 then 1 else if node_count <? replica then node_count else replica.

(** meta_data.rs:326-368 allocation_replication_set: the group and the number of ids used *)
Definition allocation_replication_set (nodes : list Z) (shards replica begin_seq : Z) : option (list repl * Z) :=
  match alloc_groups nodes (Z.to_nat shards) (Z.to_nat (eff_replica nodes replica)) begin_seq 0 with
  | Some (gs, fin) => Some (gs, fin - begin_seq)
  | None => None
  end.

(** meta_data.rs:276-288 bucket_by_timestamp *)
Definition bucket_by_timestamp (bs : list bucket) (ts : Z) : option bucket :=
  find (fun b => ((b_start b <=? ts) && (ts <? b_end b))%bool) bs.

(** meta_data.rs:290-305 mapping_bucket *)
Definition mapping_bucket (bs : list bucket) (start end_ : Z) : list bucket :=
  filter (fun b => negb ((end_ <? b_start b) || (b_end b <? start))%bool) bs.

(** meta_data.rs:81-85 vnode_for: [None] is the remainder-by-zero panic *)
Definition vnode_for (b : bucket) (hash_id : Z) : option repl :=
  if Z.of_nat (length (b_group b)) =? 0 then None
  else nth_error (b_group b) (Z.to_nat (hash_id mod Z.of_nat (length (b_group b)))).

(** coordinator/src/service.rs:307-326 prune_shards, for a query whose time ranges have hull [start, end_] *)
Definition prune_shards (bs : list bucket) (start end_ : Z) : list repl :=
  flat_map b_group (mapping_bucket bs start end_).

(** The replicated metadata of one database: stored buckets, the cluster's id counter and the database options used
    here (storage.rs keys [.../buckets/<id>], incr_id, and the DatabaseSchema). *)
Record meta := { m_buckets : list bucket; m_next : Z; m_dur : Z; m_shards : Z; m_replica : Z }.

Inductive created := Created (m : meta) | Exists_ | Refused | Panic.

(** storage.rs:1181-1244 process_create_bucket.  [nodes]: nodes that answered the ping; [min_ts]: time_to_expired() when
    the command runs. *)
Definition process_create_bucket (m : meta) (nodes : list Z) (min_ts ts : Z) : created :=
  if existsb (fun b => ((b_start b <=? ts) && (ts <? b_end b))%bool) (m_buckets m) then Exists_
  else if Z.of_nat (length nodes) <? m_replica m then Refused
  else if m_shards m =? 0 then Refused
  else if ts <? min_ts then Refused
  else
    let id := m_next m in
    let '(s, e) := get_time_range ts (m_dur m) in
    match allocation_replication_set nodes (m_shards m) (m_replica m) (id + 1) with
    | None => Panic
    | Some (group, used) =>
        Created {| m_buckets := {| b_id := id; b_start := s; b_end := e; b_group := group |} :: m_buckets m;
                   m_next := id + 1 + used; m_dur := m_dur m; m_shards := m_shards m; m_replica := m_replica m |}
    end.

(** storage.rs:1246-1255 process_delete_bucket *)
Definition process_delete_bucket (m : meta) (id : Z) : meta :=
  {| m_buckets := filter (fun b => negb (b_id b =? id)) (m_buckets m);
     m_next := m_next m; m_dur := m_dur m; m_shards := m_shards m; m_replica := m_replica m |}.

(** storage.rs:1057-1074 process_alter_db: the options are replaced, existing buckets are not looked at *)
Definition process_alter_db (m : meta) (dur shards replica : Z) : meta :=
  {| m_buckets := m_buckets m; m_next := m_next m; m_dur := dur; m_shards := shards; m_replica := replica |}.

(** Any number of clients (query/write nodes), each with a local copy of the bucket list
    (meta_tenant.rs: MetaTenant.data).  A copy is some arrangement of the stored buckets
    (storage.rs:388 to_tenant_meta_data collects HashMap values, in arbitrary order). *)
Record sys := { s_meta : meta; s_cache : nat -> list bucket }.
Definition set_cache (f : nat -> list bucket) (c : nat) (l : list bucket) : nat -> list bucket :=
  fun i => if Nat.eqb i c then l else f i.

Inductive event :=
| EWrite (c : nat) (nodes : list Z) (min_ts hash ts : Z)   (* one row written through client c *)
| ESync (c : nat)                                          (* client c receives the current metadata *)
| EDelete (id : Z)                                         (* DROP of an expired bucket *)
| EAlter (dur shards replica : Z).                         (* ALTER DATABASE *)

Inductive answer := ARouted (b : bucket) (r : repl) | AError | APanic | ANone.

(** meta_tenant.rs:562-579 create_bucket followed by vnode_for, once the client's copy is [l]. *)
Definition after_create (l : list bucket) (hash ts : Z) : answer :=
  match bucket_by_timestamp l ts with
  | Some b => match vnode_for b hash with Some r => ARouted b r | None => APanic end
  | None => AError
  end.

(** meta_tenant.rs:716-729 locate_replication_set_for_write.  [l] is the copy received from the server. *)
Inductive step : sys -> event -> answer -> sys -> Prop :=
| StepLocal s c nodes mn h t b r :
    bucket_by_timestamp (s_cache s c) t = Some b -> vnode_for b h = Some r ->
    step s (EWrite c nodes mn h t) (ARouted b r) s
| StepLocalPanic s c nodes mn h t b :
    bucket_by_timestamp (s_cache s c) t = Some b -> vnode_for b h = None ->
    step s (EWrite c nodes mn h t) APanic s
| StepExists s c nodes mn h t l :
    bucket_by_timestamp (s_cache s c) t = None -> process_create_bucket (s_meta s) nodes mn t = Exists_ ->
    Permutation l (m_buckets (s_meta s)) ->
    step s (EWrite c nodes mn h t) (after_create l h t) {| s_meta := s_meta s; s_cache := set_cache (s_cache s) c l |}
| StepCreate s c nodes mn h t m' l :
    bucket_by_timestamp (s_cache s c) t = None -> process_create_bucket (s_meta s) nodes mn t = Created m' ->
    Permutation l (m_buckets m') ->
    step s (EWrite c nodes mn h t) (after_create l h t) {| s_meta := m'; s_cache := set_cache (s_cache s) c l |}
| StepRefused s c nodes mn h t :
    bucket_by_timestamp (s_cache s c) t = None -> process_create_bucket (s_meta s) nodes mn t = Refused ->
    step s (EWrite c nodes mn h t) AError s
| StepPanic s c nodes mn h t :
    bucket_by_timestamp (s_cache s c) t = None -> process_create_bucket (s_meta s) nodes mn t = Panic ->
    step s (EWrite c nodes mn h t) APanic s
| StepSync s c l : Permutation l (m_buckets (s_meta s)) ->
    step s (ESync c) ANone {| s_meta := s_meta s; s_cache := set_cache (s_cache s) c l |}
| StepDelete s id : step s (EDelete id) ANone {| s_meta := process_delete_bucket (s_meta s) id; s_cache := s_cache s |}
| StepAlter s d n r : step s (EAlter d n r) ANone {| s_meta := process_alter_db (s_meta s) d n r; s_cache := s_cache s |}.

(** A new database: no bucket, every client's copy empty; ids start at 1 (storage.rs:217-228). *)
Definition init (next dur shards replica : Z) : sys :=
  {| s_meta := {| m_buckets := []; m_next := next; m_dur := dur; m_shards := shards; m_replica := replica |};
     s_cache := fun _ => [] |}.

Inductive run : sys -> list (event * answer) -> sys -> Prop :=
| RunNil s : run s [] s
| RunSnoc s tr s1 e a s2 : run s tr s1 -> step s1 e a s2 -> run s (tr ++ [(e, a)]) s2.
