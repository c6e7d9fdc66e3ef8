(** The metadata state machine: every write command of meta/src/store/storage.rs (lines 206-1690) over the key space of
    meta/src/store/key_path.rs.
    Simplifications: values are kept decoded (JSON encoding and decoding are assumed to be inverse; reading a value as
    another type is the decoding error); [u32]/[u64] counters are unbounded; the keys of the version and of the id
    counters are kept as separate fields; option records that no command looks into are a number; the status of a vnode
    is not kept.  Names are byte strings (lists of codes; 47 is '/'). *)
From Coq Require Import DecimalN.
From Verif Require Import Prelude.
From Verif Require BucketModel RateModel PrivilegeModel.
Open Scope Z_scope.

(** * Strings *)
Definition str : Type := list Z.
Fixpoint scmp (a b : str) : comparison :=
  match a, b with
  | [], [] => Eq
  | [], _ => Lt
  | _, [] => Gt
  | x :: a, y :: b => match x ?= y with Eq => scmp a b | o => o end
  end.
Definition seqb (a b : str) : bool := match scmp a b with Eq => true | _ => false end.
Fixpoint starts (p s : str) : bool :=
  match p, s with [], _ => true | x :: p, y :: s => (x =? y) && starts p s | _, [] => false end.
Definition strip (p s : str) : option str := if starts p s then Some (skipn (length p) s) else None.
Definition has_slash (s : str) : bool := existsb (Z.eqb 47) s.
(** Decimal notation of an unsigned number. *)
Fixpoint uint_str (u : Decimal.uint) : str :=
  match u with
  | Decimal.Nil => []
  | Decimal.D0 u => 48 :: uint_str u | Decimal.D1 u => 49 :: uint_str u | Decimal.D2 u => 50 :: uint_str u
  | Decimal.D3 u => 51 :: uint_str u | Decimal.D4 u => 52 :: uint_str u | Decimal.D5 u => 53 :: uint_str u
  | Decimal.D6 u => 54 :: uint_str u | Decimal.D7 u => 55 :: uint_str u | Decimal.D8 u => 56 :: uint_str u
  | Decimal.D9 u => 57 :: uint_str u
  end.
Definition show (n : N) : str := uint_str (N.to_uint n).

(** * Keys *)
(** "/a/b/c" from its components. *)
Definition path (cs : list str) : str := flat_map (fun c => 47 :: c) cs.
(** key_path.rs:16-28 *)
Definition s_dbs : str := [100; 98; 115].
Definition s_users : str := [117; 115; 101; 114; 115].
Definition s_roles : str := [114; 111; 108; 101; 115].
Definition s_buckets : str := [98; 117; 99; 107; 101; 116; 115].
Definition s_schemas : str := [115; 99; 104; 101; 109; 97; 115].
Definition s_tenants : str := [116; 101; 110; 97; 110; 116; 115].
Definition s_members : str := [109; 101; 109; 98; 101; 114; 115].
Definition s_limiter : str := [108; 105; 109; 105; 116; 101; 114].
Definition s_data_nodes : str := [100; 97; 116; 97; 95; 110; 111; 100; 101; 115].
Definition s_data_nodes_metrics : str := s_data_nodes ++ [95; 109; 101; 116; 114; 105; 99; 115].
Definition s_resourceinfos : str := [114; 101; 115; 111; 117; 114; 99; 101; 105; 110; 102; 111; 115].
Definition s_resourceinfosmark : str := s_resourceinfos ++ [109; 97; 114; 107].
Definition s_queries : str := [113; 117; 101; 114; 105; 101; 115].
Definition s_owner : str := [111; 119; 110; 101; 114].
Definition s_member : str := [109; 101; 109; 98; 101; 114].
(** key_path.rs:37-150 *)
Definition k_users (c : str) := path [c; s_users].
Definition k_user (c u : str) := path [c; s_users; u].
Definition k_data_nodes (c : str) := path [c; s_data_nodes].
Definition k_data_node (c : str) (id : N) := path [c; s_data_nodes; show id].
Definition k_metrics (c : str) := path [c; s_data_nodes_metrics].
Definition k_metric (c : str) (id : N) := path [c; s_data_nodes_metrics; show id].
Definition k_dbs (c t : str) := path [c; s_tenants; t; s_dbs].
Definition k_db (c t d : str) := path [c; s_tenants; t; s_dbs; d].
Definition k_buckets (c t d : str) := path [c; s_tenants; t; s_dbs; d; s_buckets].
Definition k_bucket (c t d : str) (id : N) := path [c; s_tenants; t; s_dbs; d; s_buckets; show id].
Definition k_schemas (c t d : str) := path [c; s_tenants; t; s_dbs; d; s_schemas].
Definition k_schema (c t d n : str) := path [c; s_tenants; t; s_dbs; d; s_schemas; n].
Definition k_tenants (c : str) := path [c; s_tenants] ++ [47].
Definition k_tenant (c t : str) := path [c; s_tenants; t].
Definition k_role (c t r : str) := path [c; s_tenants; t; s_roles; r].
Definition k_roles (c t : str) := path [c; s_tenants; t; s_roles].
Definition k_member (c t : str) (uid : N) := path [c; s_tenants; t; s_members; show uid].
Definition k_members (c t : str) := path [c; s_tenants; t; s_members].
Definition k_limiter (c t : str) := path [c; s_tenants; t; s_limiter].
Definition k_resource (c n : str) := path [c; s_resourceinfos; n].
Definition k_resources_mark (c : str) := path [c; s_resourceinfosmark].
Definition k_query (c : str) (id : N) := path [c; s_queries; show id].
Definition k_queries (c : str) := path [c; s_queries].

(** * Ordered maps (LMDB; also HashMaps, whose contents are kept in a canonical order) *)
Section Map.
  Context {A : Type}.
  Fixpoint get (k : str) (m : list (str * A)) : option A :=
    match m with [] => None | (k', v) :: m => if seqb k k' then Some v else get k m end.
  Fixpoint put (k : str) (v : A) (m : list (str * A)) : list (str * A) :=
    match m with
    | [] => [(k, v)]
    | (k', v') :: m' => match scmp k k' with
                        | Lt => (k, v) :: m
                        | Eq => (k, v) :: m'
                        | Gt => (k', v') :: put k v m'
                        end
    end.
  Fixpoint del (k : str) (m : list (str * A)) : list (str * A) :=
    match m with [] => [] | (k', v') :: m => if seqb k k' then m else (k', v') :: del k m end.
End Map.

(** * Values *)
Notation db_priv := PrivilegeModel.db_priv.
Notation sys_role := PrivilegeModel.sys_role.
Notation bucket := BucketModel.bucket.
(** models/src/auth/user.rs UserDesc; options: each set option with its value *)
Record user := US { u_id : N; u_name : str; u_opts : list (str * Z); u_root : bool }.
(** models/src/schema/tenant.rs Tenant, TenantOptions; request_config gives for each limited kind
    (max, initial, refill, interval) *)
Record tenant := TN { t_id : N; t_name : str; t_hidden : bool; t_limit : option (list (str * (option Z * Z * Z * Z)));
                      t_rest : Z }.
(** models/src/auth/role.rs:152-159 CustomTenantRole *)
Record role := RO { ro_id : Z; ro_name : str; ro_sys : option sys_role; ro_privs : list (str * db_priv) }.
(** role.rs:47-60 TenantRoleIdentifier *)
Inductive role_ident := RSystem (r : sys_role) | RCustom (n : str).
Definition role_ident_name (r : role_ident) : str :=
  match r with
  | RSystem PrivilegeModel.Owner => s_owner
  | RSystem PrivilegeModel.Member => s_member
  | RCustom n => n
  end.
(** models/src/schema/database_schema.rs DatabaseSchema; durations in the precision of the database *)
Record db := DB { d_name : str; d_shard : Z; d_replica : Z; d_dur : Z; d_ttl : Z; d_hidden : bool }.
(** TableSchema: [tb_tskv] is false for external and stream tables *)
Record table := TB { tb_db : str; tb_name : str; tb_tskv : bool; tb_ver : Z; tb_cols : Z }.
(** models/src/meta_data.rs:52-70 *)
Record node := ND { n_id : N; n_addr : str }.
Record metrics := ME { m_id : N; m_healthy : bool; m_free : Z; m_time : Z }.
(** QueryInfo: query id, node that runs it *)
Record query := QU { q_id : N; q_node : N; q_rest : Z }.
Inductive value :=
| VUser (u : user) | VTenant (t : tenant) | VRole (r : role) | VMember (r : role_ident)
| VLimiter (l : list (str * RateModel.rate)) | VDb (d : db) | VTable (t : table) | VBucket (b : bucket)
| VNode (n : node) | VMetrics (m : metrics) | VResource (r : Z) | VMark (node : N) (lock : bool) | VQuery (q : query).
(** serde_json::from_str at each type *)
Definition as_user v := match v with VUser x => Some x | _ => None end.
Definition as_tenant v := match v with VTenant x => Some x | _ => None end.
Definition as_role v := match v with VRole x => Some x | _ => None end.
Definition as_member v := match v with VMember x => Some x | _ => None end.
Definition as_limiter v := match v with VLimiter x => Some x | _ => None end.
Definition as_db v := match v with VDb x => Some x | _ => None end.
Definition as_table v := match v with VTable x => Some x | _ => None end.
Definition as_bucket v := match v with VBucket x => Some x | _ => None end.
Definition as_node v := match v with VNode x => Some x | _ => None end.
Definition as_metrics v := match v with VMetrics x => Some x | _ => None end.
Definition as_mark v := match v with VMark n l => Some (n, l) | _ => None end.
Definition as_query v := match v with VQuery x => Some x | _ => None end.

(** * State *)
(** The data, the version (/data_version), the id counters (/c/auto_incr_id) and the change log, newest first
    (version, deleted?, key). *)
Record st := ST { s_map : list (str * value); s_ver : Z; s_incr : list (str * Z); s_log : list (Z * bool * str) }.
Definition st0 : st := ST [] 0 [] [].
(** storage.rs:230-260 insert *)
Definition insert (s : st) (k : str) (v : value) : st :=
  ST (put k v (s_map s)) (s_ver s + 1) (s_incr s) ((s_ver s + 1, false, k) :: s_log s).
(** storage.rs:262-283 remove: the version grows even when there is nothing to delete *)
Definition remove (s : st) (k : str) : st :=
  ST (del k (s_map s)) (s_ver s + 1) (s_incr s) ((s_ver s + 1, true, k) :: s_log s).
(** storage.rs:217-228 fetch_and_add_incr_id *)
Definition incr_id (s : st) (c : str) : Z := match get c (s_incr s) with Some n => n | None => 1 end.
Definition fetch_add (s : st) (c : str) (n : Z) : Z * st :=
  let id := incr_id s c in (id, ST (s_map s) (s_ver s) (put c (id + n) (s_incr s)) (s_log s)).
Definition contains (s : st) (k : str) : bool := match get k (s_map s) with Some _ => true | None => false end.
(** storage.rs:285-296 get_struct *)
Inductive read (A : Type) := Missing | Bad | Got (a : A).
Arguments Missing {A}. Arguments Bad {A}. Arguments Got {A} a.
Definition get_as {A} (dec : value -> option A) (s : st) (k : str) : read A :=
  match get k (s_map s) with
  | None => Missing
  | Some v => match dec v with Some a => Got a | None => Bad end
  end.
(** storage.rs:298-302, 333-337: a '/' is added unless there is one *)
Definition dir (p : str) : str := match rev p with 47 :: _ => p | _ => p ++ [47] end.
(** storage.rs:303-327, 338-359: the entries whose key is the path, a '/', and a name without '/' *)
Definition child_name (p k : str) : option str :=
  match strip (dir p) k with
  | Some ([] as sub) => None
  | Some sub => if has_slash sub then None else Some sub
  | None => None
  end.
Fixpoint children_in (p : str) (m : list (str * value)) : list (str * value) :=
  match m with
  | [] => []
  | (k, v) :: m => match child_name p k with Some n => (n, v) :: children_in p m | None => children_in p m end
  end.
Definition children_fullpath (s : st) (p : str) : list str :=
  map fst (filter (fun kv => match child_name p (fst kv) with Some _ => true | None => false end) (s_map s)).

(** * What a replica sees besides the command *)
(** The clock, which nodes answer a ping, the next UUID, and the iteration order of the n-th HashMap it builds. *)
Record env := EN { e_now : Z; e_alive : N -> bool; e_uuid : Z; e_order : nat -> list (str * value) -> list (str * value) }.

Fixpoint decode {A} (dec : value -> option A) (l : list (str * value)) : option (list (str * A)) :=
  match l with
  | [] => Some []
  | (k, v) :: l => match dec v, decode dec l with Some a, Some r => Some ((k, a) :: r) | _, _ => None end
  end.
(** storage.rs:329-359 children_data, in the iteration order of the resulting HashMap *)
Definition children_data {A} (e : env) (i : nat) (dec : value -> option A) (s : st) (p : str) : option (list (str * A)) :=
  decode dec (e_order e i (children_in p (s_map s))).
Definition children_values {A} (e : env) (i : nat) (dec : value -> option A) (s : st) (p : str) : option (list A) :=
  match children_data e i dec s p with Some l => Some (map snd l) | None => None end.

(** * Reading *)
(** storage.rs:591-620 process_read_members: user name and role of each member that is a known user *)
Definition find_last {A} (f : A -> bool) (l : list A) : option A := find f (rev l).
Fixpoint name_members (us : list user) (ms : list (str * role_ident)) : list (str * role_ident) :=
  match ms with
  | [] => []
  | (id, r) :: ms => match find_last (fun u => seqb (show (u_id u)) id) us with
                     | Some u => (u_name u, r) :: name_members us ms
                     | None => name_members us ms
                     end
  end.
Definition read_members (e : env) (s : st) (c t : str) : option (list (str * role_ident)) :=
  match children_data e 0 as_member s (k_members c t), children_values e 1 as_user s (k_users c) with
  | Some ms, Some us => Some (name_members us ms)
  | _, _ => None
  end.
(** storage.rs:537-545 process_read_users, 577-589 process_read_roles *)
Definition read_users (e : env) (s : st) (c : str) : option (list user) := children_values e 2 as_user s (k_users c).
Definition read_roles (e : env) (s : st) (c t : str) : option (list role) := children_values e 3 as_role s (k_roles c t).
(** storage.rs:388-415 to_tenant_meta_data *)
Record db_info := DI { i_schema : db; i_tables : list (str * table); i_buckets : list bucket }.
Record tenant_data := TD { td_roles : list (str * role); td_members : list (str * role_ident); td_dbs : list (str * db_info) }.
Fixpoint db_infos (e : env) (s : st) (c t : str) (ds : list (str * db)) : option (list (str * db_info)) :=
  match ds with
  | [] => Some []
  | (n, d) :: ds =>
      match children_values e 7 as_bucket s (k_buckets c t n), children_data e 8 as_table s (k_schemas c t n), db_infos e s c t ds with
      | Some bs, Some ts, Some r => Some ((n, DI d ts bs) :: r)
      | _, _, _ => None
      end
  end.
Definition tenant_meta (e : env) (s : st) (c t : str) : option tenant_data :=
  match children_data e 4 as_role s (k_roles c t), children_data e 5 as_member s (k_members c t),
        children_data e 6 as_db s (k_dbs c t) with
  | Some rs, Some ms, Some ds => match db_infos e s c t ds with Some r => Some (TD rs ms r) | None => None end
  | _, _, _ => None
  end.

(** * Writing *)
(** The answer to a command: done, refused, or a number. *)
Inductive reply := Done | Refused | Number (n : Z).
(** The commands that end by returning the tenant's metadata fail when it cannot be read (the change stays). *)
Definition with_meta (e : env) (s : st) (c t : str) : st * reply :=
  (s, match tenant_meta e s c t with Some _ => Done | None => Refused end).
(** A loop that stops at the first error. *)
Fixpoint try_all {A} (f : st -> A -> st * reply) (s : st) (l : list A) : st * reply :=
  match l with
  | [] => (s, Done)
  | x :: l => match f s x with (s1, Refused) => (s1, Refused) | (s1, _) => try_all f s1 l end
  end.

(** storage.rs:815-833 process_move_queryinfo (485-500 process_read_queries) *)
Definition process_move_query (e : env) (s : st) (c : str) (src dst : N) : st * reply :=
  match children_values e 9 as_query s (k_queries c) with
  | None => (s, Refused)
  | Some qs => (fold_left (fun s q => insert s (k_query c (q_id q)) (VQuery (QU (q_id q) dst (q_rest q))))
                  (filter (fun q => (q_node q =? src)%N) qs) s, Done)
  end.

(** storage.rs:885-934 process_update_vnode_repl_set; vnodes are (id, node) *)
Definition update_group (del_ add_ : list (Z * Z)) (g : BucketModel.repl) : BucketModel.repl :=
  let vs := filter (fun v => negb (existsb (fun d => (fst v =? fst d) && (snd v =? snd d)) del_)) (BucketModel.r_vnodes g) ++ add_ in
  if existsb (fun v => fst v =? BucketModel.r_leader_vnode g) vs
  then BucketModel.Build_repl (BucketModel.r_id g) (BucketModel.r_leader_node g) (BucketModel.r_leader_vnode g) vs
  else match vs with
       | [] => BucketModel.Build_repl (BucketModel.r_id g) (BucketModel.r_leader_node g) (BucketModel.r_leader_vnode g) vs
       | (v0, n0) :: _ => BucketModel.Build_repl (BucketModel.r_id g) n0 v0 vs
       end.
Definition set_groups (b : bucket) (gs : list BucketModel.repl) : bucket :=
  BucketModel.Build_bucket (BucketModel.b_id b) (BucketModel.b_start b) (BucketModel.b_end b) gs.
Definition process_update_repl_set (s : st) (c t d : str) (bid : N) (rid : Z) (del_ add_ : list (Z * Z)) : st * reply :=
  let k := k_bucket c t d bid in
  match get_as as_bucket s k with
  | Got b =>
      let gs := filter (fun g => match BucketModel.r_vnodes g with [] => false | _ => true end)
                  (map (fun g => if BucketModel.r_id g =? rid then update_group del_ add_ g else g) (BucketModel.b_group b)) in
      (match gs with [] => remove s k | _ => insert s k (VBucket (set_groups b gs)) end, Done)
  | _ => (s, Refused)
  end.
(** storage.rs:936-961 process_change_repl_set_leader *)
Definition process_change_leader (s : st) (c t d : str) (bid : N) (rid node_ vnode : Z) : st * reply :=
  let k := k_bucket c t d bid in
  match get_as as_bucket s k with
  | Got b => (insert s k (VBucket (set_groups b (map (fun g => if BucketModel.r_id g =? rid
                then BucketModel.Build_repl (BucketModel.r_id g) node_ vnode (BucketModel.r_vnodes g) else g) (BucketModel.b_group b)))), Done)
  | _ => (s, Refused)
  end.
(** storage.rs:855-883 process_update_vnode (the status itself is not kept) *)
Definition process_update_vnode (s : st) (c t d : str) (bid : N) : st * reply :=
  let k := k_bucket c t d bid in
  match get_as as_bucket s k with Got b => (insert s k (VBucket b), Done) | _ => (s, Refused) end.

(** storage.rs:630-636, 1647-1664 the lock on background tasks *)
Definition read_mark (s : st) (c : str) : option (N * bool) :=
  match get_as as_mark s (k_resources_mark c) with Got x => Some x | Missing => Some (0%N, false) | Bad => None end.
Definition process_write_mark (s : st) (c : str) (node_ : N) (lock : bool) : st * reply :=
  match read_mark s c with
  | None => (s, Refused)
  | Some (old, old_lock) =>
      if (lock && old_lock) || (negb lock && negb (old =? node_)%N) then (s, Refused)
      else (insert s (k_resources_mark c) (VMark node_ lock), Done)
  end.
(** storage.rs:969-1000 process_add_date_node *)
Definition process_add_node (e : env) (s : st) (c : str) (n : node) : st * reply :=
  match children_values e 10 as_node s (k_data_nodes c) with
  | None => (s, Refused)
  | Some ns =>
      if existsb (fun v => negb (n_id v =? n_id n)%N && seqb (n_addr v) (n_addr n)) ns then (s, Refused)
      else (fst (process_write_mark (insert s (k_data_node c (n_id n)) (VNode n)) c (n_id n) true), Done)
  end.

(** storage.rs:1157-1179 get_valid_node_list: healthy nodes, most free space first *)
Fixpoint insert_free (x : node * metrics) (l : list (node * metrics)) : list (node * metrics) :=
  match l with
  | [] => [x]
  | y :: l' => if m_free (snd x) <? m_free (snd y) then y :: insert_free x l' else x :: l
  end.
Definition sort_free (l : list (node * metrics)) : list (node * metrics) := fold_right insert_free [] l.
Fixpoint with_metrics (ms : list metrics) (ns : list node) : list (node * metrics) :=
  match ns with
  | [] => []
  | n :: ns => match find_last (fun m => (m_id m =? n_id n)%N) ms with
               | Some m => if m_healthy m then (n, m) :: with_metrics ms ns else with_metrics ms ns
               | None => with_metrics ms ns
               end
  end.
Definition valid_nodes (e : env) (s : st) (c : str) : option (list node) :=
  match children_values e 11 as_node s (k_data_nodes c), children_values e 12 as_metrics s (k_metrics c) with
  | Some ns, Some ms => Some (map fst (sort_free (with_metrics ms ns)))
  | _, _ => None
  end.
(** storage.rs:1688-1696 check_node_enough *)
Definition node_enough (need : Z) (ns : list node) : bool := negb (Z.of_nat (length ns) <? need).
(** storage.rs:1096-1107 check_db_schema_valid *)
Definition db_schema_valid (e : env) (s : st) (c : str) (d : db) : bool :=
  match valid_nodes e s c with Some ns => node_enough (d_replica d) ns && negb (d_shard d =? 0) | None => false end.
(** storage.rs:1037-1055 process_create_db *)
Definition process_create_db (e : env) (s : st) (c t : str) (d : db) : st * reply :=
  let k := k_db c t (d_name d) in
  if contains s k then (s, Refused)
  else if db_schema_valid e s c d then with_meta e (insert s k (VDb d)) c t else (s, Refused).
(** storage.rs:1057-1074 process_alter_db *)
Definition process_alter_db (e : env) (s : st) (c t : str) (d : db) : st * reply :=
  let k := k_db c t (d_name d) in
  if negb (contains s k) then (s, Refused)
  else if db_schema_valid e s c d then with_meta e (insert s k (VDb d)) c t else (s, Refused).
(** storage.rs:1076-1094 process_db_is_hidden *)
Definition process_db_hidden (e : env) (s : st) (c t dn : str) (h : bool) : st * reply :=
  let k := k_db c t dn in
  match get_as as_db s k with
  | Got d => with_meta e (insert s k (VDb (DB (d_name d) (d_shard d) (d_replica d) (d_dur d) (d_ttl d) h))) c t
  | _ => (s, Refused)
  end.
(** storage.rs:1002-1017 process_drop_db *)
Definition process_drop_db (s : st) (c t d : str) : st * reply :=
  let s1 := remove s (k_db c t d) in
  let s2 := fold_left remove (children_fullpath s1 (k_buckets c t d)) s1 in
  let s3 := fold_left remove (children_fullpath s2 (k_schemas c t d)) s2 in
  (s3, Done).
(** storage.rs:1019-1035 process_drop_table *)
Definition process_drop_table (s : st) (c t d n : str) : st * reply :=
  let k := k_schema c t d n in if contains s k then (remove s k, Done) else (s, Refused).
(** storage.rs:1109-1129 process_create_table *)
Definition process_create_table (e : env) (s : st) (c t : str) (tb : table) : st * reply :=
  if negb (contains s (k_db c t (tb_db tb))) then (s, Refused)
  else let k := k_schema c t (tb_db tb) (tb_name tb) in
       if contains s k then (s, Refused) else with_meta e (insert s k (VTable tb)) c t.
(** storage.rs:1131-1155 process_update_table *)
Definition process_update_table (s : st) (c t : str) (tb : table) : st * reply :=
  let k := k_schema c t (tb_db tb) (tb_name tb) in
  match get_as as_table s k with
  | Bad => (s, Refused)
  | Missing => (insert s k (VTable tb), Done)
  | Got v => if tb_tskv v && tb_tskv tb
             then if tb_ver v + 1 =? tb_ver tb then (insert s k (VTable tb), Done) else (s, Refused)
             else (s, Refused)
  end.
(** storage.rs:1181-1244 process_create_bucket; [Refused] also stands for the panic of an empty allocation *)
Definition process_create_bucket (e : env) (s : st) (c t d : str) (ts : Z) : st * reply :=
  match children_values e 13 as_bucket s (k_buckets c t d) with
  | None => (s, Refused)
  | Some bs =>
      if existsb (fun b => (BucketModel.b_start b <=? ts) && (ts <? BucketModel.b_end b)) bs then with_meta e s c t
      else match get_as as_db s (k_db c t d), valid_nodes e s c with
           | Got sc, Some ns =>
               let ns := filter (fun n => e_alive e (n_id n)) ns in
               if negb (node_enough (d_replica sc) ns) then (s, Refused)
               else if d_shard sc =? 0 then (s, Refused)
               else if ts <? e_now e - d_ttl sc then (s, Refused)
               else
                 let (id, s1) := fetch_add s c 1 in
                 let (b0, e0) := BucketModel.get_time_range ts (d_dur sc) in
                 match BucketModel.allocation_replication_set (map (fun n => Z.of_N (n_id n)) ns) (d_shard sc) (d_replica sc) (id + 1) with
                 | None => (s1, Refused)
                 | Some (g, used) =>
                     let s2 := snd (fetch_add s1 c used) in
                     with_meta e (insert s2 (k_bucket c t d (Z.to_N id)) (VBucket (BucketModel.Build_bucket id b0 e0 g))) c t
                 end
           | _, _ => (s, Refused)
           end
  end.

(** storage.rs:1257-1269 process_create_user *)
Definition process_create_user (s : st) (c : str) (u : user) : st * reply :=
  let k := k_user c (u_name u) in if contains s k then (s, Refused) else (insert s k (VUser u), Done).
(** storage.rs:1271-1296 process_alter_user; UserOptions::merge keeps the old value of an option that is not given *)
Definition process_alter_user (s : st) (c n : str) (o : list (str * Z)) : st * reply :=
  let k := k_user c n in
  match get_as as_user s k with
  | Got u => (insert s k (VUser (US (u_id u) n (fold_left (fun m kv => put (fst kv) (snd kv) m) o (u_opts u)) (u_root u))), Done)
  | _ => (s, Refused)
  end.
(** storage.rs:1309-1324 process_drop_user: the member keys are built with the tenant's name in place of the cluster *)
Definition process_drop_user (e : env) (s : st) (c n : str) : st * reply :=
  match get_as as_user s (k_user c n) with
  | Got u =>
      match children_values e 14 as_tenant s (k_tenants c) with
      | Some ts => (remove (fold_left (fun s t => remove s (k_member (t_name t) (t_name t) (u_id u))) ts s) (k_user c n), Number 1)
      | None => (s, Refused)
      end
  | Missing => (s, Number 0)
  | Bad => (s, Refused)
  end.

(** meta/src/limiter/remote_request_limiter.rs:14-40, limiter_bucket RateBucketBuilder::build *)
Definition limiter_new (now : Z) (cfg : list (str * (option Z * Z * Z * Z))) : list (str * RateModel.rate) :=
  map (fun kc => match snd kc with (mx, i, r, p) => (fst kc, RateModel.build mx i r p now) end) cfg.
(** storage.rs:1326-1342 set_tenant_limiter *)
Definition set_limiter (s : st) (c t : str) (l : option (list (str * RateModel.rate))) : st :=
  match l with Some l => insert s (k_limiter c t) (VLimiter l) | None => remove s (k_limiter c t) end.
Definition limiter_of (e : env) (t : tenant) : option (list (str * RateModel.rate)) :=
  match t_limit t with Some cfg => Some (limiter_new (e_now e) cfg) | None => None end.
(** storage.rs:1344-1364 process_create_tenant *)
Definition process_create_tenant (e : env) (s : st) (c : str) (t : tenant) : st * reply :=
  let k := k_tenant c (t_name t) in
  if contains s k then (s, Refused)
  else (insert (set_limiter s c (t_name t) (limiter_of e t)) k (VTenant t), Done).
(** storage.rs:1366-1394 process_alter_tenant: [o] supplies the options *)
Definition process_alter_tenant (e : env) (s : st) (c n : str) (o : tenant) : st * reply :=
  let k := k_tenant c n in
  match get_as as_tenant s k with
  | Got t => if t_hidden t then (s, Refused)
             else let t' := TN (t_id t) n (t_hidden o) (t_limit o) (t_rest o) in
                  (set_limiter (insert s k (VTenant t')) c n (limiter_of e t'), Done)
  | _ => (s, Refused)
  end.
(** storage.rs:1396-1417 process_tenant_is_hidden *)
Definition process_tenant_hidden (e : env) (s : st) (c n : str) (h : bool) : st * reply :=
  let k := k_tenant c n in
  match get_as as_tenant s k with
  | Got t => let t' := TN (t_id t) n h (t_limit t) (t_rest t) in
             (set_limiter (insert s k (VTenant t')) c n (limiter_of e t'), Done)
  | _ => (s, Refused)
  end.
(** storage.rs:1485-1502 process_remove_member_to_tenant *)
Definition process_remove_member (s : st) (c : str) (uid : N) (t : str) : st * reply :=
  let k := k_member c t uid in if contains s k then (remove s k, Done) else (s, Refused).
(** storage.rs:1557-1574 process_drop_role *)
Definition process_drop_role (s : st) (c r t : str) : st * reply :=
  let k := k_role c t r in if contains s k then (remove s k, Done) else (s, Refused).
(** storage.rs:1430-1456 process_drop_tenant *)
Definition process_drop_tenant (e : env) (s : st) (c n : str) : st * reply :=
  match read_members e s c n, read_users e s c with
  | Some ms, Some us =>
      match try_all (fun s u => process_remove_member s c (u_id u) n) s
              (filter (fun u => existsb (fun m => seqb (u_name u) (fst m)) ms) us) with
      | (s1, Refused) => (s1, Refused)
      | (s1, _) =>
          match read_roles e s1 c n with
          | None => (s1, Refused)
          | Some rs =>
              match try_all (fun s r => process_drop_role s c (ro_name r) n) s1 rs with
              | (s2, Refused) => (s2, Refused)
              | (s2, _) => (remove (remove s2 (k_tenant c n)) (k_limiter c n), Done)
              end
          end
      end
  | _, _ => (s, Refused)
  end.
(** SystemTenantRole::try_from, role.rs:98-108 *)
Definition is_system_role (n : str) : bool := seqb n s_owner || seqb n s_member.
Definition role_known (s : st) (c t : str) (r : role_ident) : bool :=
  contains s (k_role c t (role_ident_name r)) || is_system_role (role_ident_name r).
(** storage.rs:1458-1483 process_add_member_to_tenant *)
Definition process_add_member (s : st) (c : str) (uid : N) (r : role_ident) (t : str) : st * reply :=
  let k := k_member c t uid in
  if contains s k then (s, Refused)
  else if role_known s c t r then (insert s k (VMember r), Done) else (s, Refused).
(** storage.rs:1504-1529 process_reasign_member_role *)
Definition process_reasign (s : st) (c : str) (uid : N) (r : role_ident) (t : str) : st * reply :=
  let k := k_member c t uid in
  if negb (contains s k) then (s, Refused)
  else if role_known s c t r then (insert s k (VMember r), Done) else (s, Refused).
(** storage.rs:1531-1555 process_create_role; the privileges are a HashMap *)
Definition to_map {A} (l : list (str * A)) : list (str * A) := fold_left (fun m kv => put (fst kv) (snd kv) m) l [].
Definition process_create_role (e : env) (s : st) (c r : str) (sys : option sys_role) (ps : list (str * db_priv)) (t : str) : st * reply :=
  let k := k_role c t r in
  if contains s k then (s, Refused) else (insert s k (VRole (RO (e_uuid e) r sys (to_map ps))), Done).
(** storage.rs:1576-1602 process_grant_privileges *)
Fixpoint grant_all (s : st) (c t : str) (ps : list (db_priv * str)) (m : list (str * db_priv)) : option (list (str * db_priv)) :=
  match ps with
  | [] => Some m
  | (p, d) :: ps => if contains s (k_db c t d) then grant_all s c t ps (put d p m) else None
  end.
Definition process_grant (s : st) (c : str) (ps : list (db_priv * str)) (r t : str) : st * reply :=
  let k := k_role c t r in
  match get_as as_role s k with
  | Got ro => match grant_all s c t ps (ro_privs ro) with
              | Some m => (insert s k (VRole (RO (ro_id ro) (ro_name ro) (ro_sys ro) m)), Done)
              | None => (s, Refused)
              end
  | _ => (s, Refused)
  end.
(** storage.rs:1604-1633 process_revoke_privileges, role.rs:214-239 revoke_privilege *)
Fixpoint revoke_all (ps : list (db_priv * str)) (m : list (str * db_priv)) : option (list (str * db_priv)) :=
  match ps with
  | [] => Some m
  | (p, d) :: ps => match get d m with
                    | Some q => if PrivilegeModel.db_eqb q p then revoke_all ps (del d m) else None
                    | None => None
                    end
  end.
Definition process_revoke (s : st) (c : str) (ps : list (db_priv * str)) (r t : str) : st * reply :=
  let k := k_role c t r in
  match get_as as_role s k with
  | Got ro => match revoke_all ps (ro_privs ro) with
              | Some m => (insert s k (VRole (RO (ro_id ro) (ro_name ro) (ro_sys ro) m)), Done)
              | None => (s, Refused)
              end
  | _ => (s, Refused)
  end.
(** storage.rs:1635-1668 process_limiter_request *)
Definition process_limiter (e : env) (s : st) (c t kind : str) (expected : Z) : st * reply :=
  match get_as as_limiter s (k_limiter c t) with
  | Bad => (s, Refused)
  | Missing => (s, Number expected)
  | Got l => match get kind l with
             | None => (s, Number expected)
             | Some b => let (a, b') := RateModel.acquire_closed b (e_now e) expected in
                         (set_limiter s c t (Some (put kind b' l)), Number a)
             end
  end.

(** * Commands: command.rs WriteCommand, dispatched by storage.rs:666-813 *)
Inductive cmd :=
| CSet (k : str) (v : value)
| CAddNode (c : str) (n : node) | CMetrics (c : str) (m : metrics)
| CCreateDb (c t : str) (d : db) | CAlterDb (c t : str) (d : db) | CDbHidden (c t d : str) (h : bool) | CDropDb (c t d : str)
| CDropTable (c t d n : str) | CCreateTable (c t : str) (tb : table) | CUpdateTable (c t : str) (tb : table)
| CCreateBucket (c t d : str) (ts : Z) | CDeleteBucket (c t d : str) (id : N)
| CCreateUser (c : str) (u : user) | CAlterUser (c n : str) (o : list (str * Z)) | CRenameUser (c o n : str) | CDropUser (c n : str)
| CCreateTenant (c : str) (t : tenant) | CAlterTenant (c n : str) (o : tenant) | CTenantHidden (c n : str) (h : bool)
| CRenameTenant (c o n : str) | CDropTenant (c n : str)
| CAddMember (c : str) (uid : N) (r : role_ident) (t : str) | CRemoveMember (c : str) (uid : N) (t : str)
| CReasign (c : str) (uid : N) (r : role_ident) (t : str)
| CCreateRole (c r : str) (sys : option sys_role) (ps : list (str * db_priv)) (t : str) | CDropRole (c r t : str)
| CGrant (c : str) (ps : list (db_priv * str)) (r t : str) | CRevoke (c : str) (ps : list (db_priv * str)) (r t : str)
| CRetainId (c : str) (n : Z)
| CUpdateReplSet (c t d : str) (bid : N) (rid : Z) (del_ add_ : list (Z * Z))
| CChangeLeader (c t d : str) (bid : N) (rid node_ vnode : Z) | CUpdateVnode (c t d : str) (bid : N)
| CLimiter (c t kind : str) (expected : Z)
| CResource (c n : str) (r : Z) | CMark (c : str) (n : N) (lock : bool)
| CWriteQuery (c : str) (id : N) (q : query) | CRemoveQuery (c : str) (id : N) | CMoveQuery (c : str) (src dst : N).

Definition step (e : env) (s : st) (x : cmd) : st * reply :=
  match x with
  | CSet k v => (insert s k v, Done)
  | CAddNode c n => process_add_node e s c n
  | CMetrics c m => (insert s (k_metric c (m_id m)) (VMetrics m), Done)
  | CCreateDb c t d => process_create_db e s c t d
  | CAlterDb c t d => process_alter_db e s c t d
  | CDbHidden c t d h => process_db_hidden e s c t d h
  | CDropDb c t d => process_drop_db s c t d
  | CDropTable c t d n => process_drop_table s c t d n
  | CCreateTable c t tb => process_create_table e s c t tb
  | CUpdateTable c t tb => process_update_table s c t tb
  | CCreateBucket c t d ts => process_create_bucket e s c t d ts
  | CDeleteBucket c t d id => (remove s (k_bucket c t d id), Done)
  | CCreateUser c u => process_create_user s c u
  | CAlterUser c n o => process_alter_user s c n o
  | CRenameUser _ _ _ => (s, Refused)
  | CDropUser c n => process_drop_user e s c n
  | CCreateTenant c t => process_create_tenant e s c t
  | CAlterTenant c n o => process_alter_tenant e s c n o
  | CTenantHidden c n h => process_tenant_hidden e s c n h
  | CRenameTenant _ _ _ => (s, Refused)
  | CDropTenant c n => process_drop_tenant e s c n
  | CAddMember c uid r t => process_add_member s c uid r t
  | CRemoveMember c uid t => process_remove_member s c uid t
  | CReasign c uid r t => process_reasign s c uid r t
  | CCreateRole c r sys ps t => process_create_role e s c r sys ps t
  | CDropRole c r t => process_drop_role s c r t
  | CGrant c ps r t => process_grant s c ps r t
  | CRevoke c ps r t => process_revoke s c ps r t
  | CRetainId c n => let (id, s1) := fetch_add s c n in (s1, Number id)
  | CUpdateReplSet c t d bid rid x y => process_update_repl_set s c t d bid rid x y
  | CChangeLeader c t d bid rid n v => process_change_leader s c t d bid rid n v
  | CUpdateVnode c t d bid => process_update_vnode s c t d bid
  | CLimiter c t k x => process_limiter e s c t k x
  | CResource c n r => (insert s (k_resource c n) (VResource r), Done)
  | CMark c n l => process_write_mark s c n l
  | CWriteQuery c id q => (insert s (k_query c id) (VQuery q), Done)
  | CRemoveQuery c id => (remove s (k_query c id), Done)
  | CMoveQuery c a b => process_move_query e s c a b
  end.
(** A replica applies the committed commands in order (each with what it sees at that moment). *)
Fixpoint run (s : st) (es : list (env * cmd)) : st :=
  match es with [] => s | (e, x) :: es => run (fst (step e s x)) es end.
