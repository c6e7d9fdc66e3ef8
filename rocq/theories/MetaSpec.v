(** What the metadata theorems (C36, C37) speak about. *)
From Coq Require Import Permutation.
From Verif Require Import Prelude MetaModel.
Open Scope Z_scope.

(** Names accepted by the SQL parser (query/src/sql/parser.rs:2180-2202): not empty, no '/'. *)
Definition name_ok (s : str) : Prop := s <> [] /\ ~ In 47 s.

(** What may be stored where: a key is a list of name components, its value has the matching type and carries the
    matching name or id. *)
Inductive entry_ok : list str -> value -> Prop :=
| eo_user c u : entry_ok [c; s_users; u_name u] (VUser u)
| eo_tenant c t : entry_ok [c; s_tenants; t_name t] (VTenant t)
| eo_role c t r : entry_ok [c; s_tenants; t; s_roles; ro_name r] (VRole r)
| eo_member c t id r : entry_ok [c; s_tenants; t; s_members; show id] (VMember r)
| eo_limiter c t l : entry_ok [c; s_tenants; t; s_limiter] (VLimiter l)
| eo_db c t d : entry_ok [c; s_tenants; t; s_dbs; d_name d] (VDb d)
| eo_bucket c t d id b : entry_ok [c; s_tenants; t; s_dbs; d; s_buckets; show id] (VBucket b)
| eo_table c t d tb : d = tb_db tb -> entry_ok [c; s_tenants; t; s_dbs; d; s_schemas; tb_name tb] (VTable tb)
| eo_node c n : entry_ok [c; s_data_nodes; show (n_id n)] (VNode n)
| eo_metrics c m : entry_ok [c; s_data_nodes_metrics; show (m_id m)] (VMetrics m)
| eo_resource c n r : entry_ok [c; s_resourceinfos; n] (VResource r)
| eo_mark c n l : entry_ok [c; s_resourceinfosmark] (VMark n l)
| eo_query c q : entry_ok [c; s_queries; show (q_id q)] (VQuery q).

(** Commands as the clients send them: every name that becomes part of a key is a legal name; a raw [Set]
    (used when a cluster is initialised, meta/src/service/init.rs:74-83) writes a legal entry; a query is stored under
    its own id (meta_admin.rs:905-915). *)
Definition cmd_ok (x : cmd) : Prop :=
  match x with
  | CSet k v => exists cs, k = path cs /\ Forall name_ok cs /\ entry_ok cs v
  | CAddNode c _ | CMetrics c _ | CRetainId c _ | CMark c _ _ | CRemoveQuery c _ | CMoveQuery c _ _ => name_ok c
  | CWriteQuery c id q => name_ok c /\ id = q_id q
  | CCreateDb c t d | CAlterDb c t d => name_ok c /\ name_ok t /\ name_ok (d_name d)
  | CDbHidden c t d _ | CDropDb c t d | CCreateBucket c t d _ | CDeleteBucket c t d _ | CUpdateReplSet c t d _ _ _ _
  | CChangeLeader c t d _ _ _ _ | CUpdateVnode c t d _ => name_ok c /\ name_ok t /\ name_ok d
  | CDropTable c t d n => name_ok c /\ name_ok t /\ name_ok d /\ name_ok n
  | CCreateTable c t tb | CUpdateTable c t tb => name_ok c /\ name_ok t /\ name_ok (tb_db tb) /\ name_ok (tb_name tb)
  | CCreateUser c u => name_ok c /\ name_ok (u_name u)
  | CAlterUser c n _ | CDropUser c n => name_ok c /\ name_ok n
  | CCreateTenant c t => name_ok c /\ name_ok (t_name t)
  | CAlterTenant c n _ | CTenantHidden c n _ | CDropTenant c n => name_ok c /\ name_ok n
  | CAddMember c _ _ t | CReasign c _ _ t | CRemoveMember c _ t => name_ok c /\ name_ok t
  | CCreateRole c r _ _ t | CDropRole c r t => name_ok c /\ name_ok r /\ name_ok t
  | CGrant c _ r t | CRevoke c _ r t => name_ok c /\ name_ok r /\ name_ok t
  | CLimiter c t _ _ => name_ok c /\ name_ok t
  | CResource c n _ => name_ok c /\ name_ok n
  | CRenameUser _ _ _ | CRenameTenant _ _ _ => True
  end.

(** A replica iterates a hash map in some order of its contents. *)
Definition env_ok (e : env) : Prop := forall i l, Permutation (e_order e i l) l.

(** The ids given to users when they are created (UUIDs chosen by the client, meta_admin.rs:545-551). *)
Definition created_ids (x : cmd) : list N :=
  match x with CCreateUser _ u => [u_id u] | CSet _ (VUser u) => [u_id u] | _ => [] end.

(** A history of commands: legal, with every created user given its own id. *)
Definition history (h : list (env * cmd)) : Prop :=
  Forall (fun ex => env_ok (fst ex) /\ cmd_ok (snd ex)) h /\ NoDup (flat_map (fun ex => created_ids (snd ex)) h).

(** Nothing is stored at a path or below it. *)
Definition no_trace (s : st) (p : str) : Prop :=
  forall k v, In (k, v) (s_map s) -> k <> p /\ (forall r, k <> p ++ 47 :: r).

(** The command creates the database, or is an update of one of its tables, or a raw [Set]. *)
Definition may_recreate (c t d : str) (x : cmd) : Prop :=
  match x with
  | CSet _ _ => True
  | CCreateDb c' t' d' => c' = c /\ t' = t /\ d_name d' = d
  | CUpdateTable c' t' tb => c' = c /\ t' = t /\ tb_db tb = d
  | _ => False
  end.

(** Two replicas hold the same data, version and id counters (their change logs are compared separately). *)
Definition same_data (a b : st) : Prop := s_map a = s_map b /\ s_ver a = s_ver b /\ s_incr a = s_incr b.

(** What two replicas must agree on, besides the command, for it to have the same effect: the clock and the UUID where
    they are stored; for the creation of a bucket also which nodes answer, and no two nodes with the same free space. *)
Definition limits (x : cmd) : bool :=
  match x with
  | CCreateTenant _ t => match t_limit t with Some _ => true | None => false end
  | CAlterTenant _ _ o => match t_limit o with Some _ => true | None => false end
  | CTenantHidden _ _ _ | CLimiter _ _ _ _ => true
  | _ => false
  end.
Definition no_ties (s : st) (c : str) : Prop :=
  forall i1 m1 i2 m2, In (k_metric c i1, VMetrics m1) (s_map s) -> In (k_metric c i2, VMetrics m2) (s_map s) ->
  m_free m1 = m_free m2 -> i1 = i2.
Definition agree (s : st) (x : cmd) (e1 e2 : env) : Prop :=
  match x with
  | CCreateRole _ _ _ _ _ => e_uuid e1 = e_uuid e2
  | CCreateBucket c _ _ _ => e_now e1 = e_now e2 /\ (forall n, e_alive e1 n = e_alive e2 n) /\ no_ties s c
  | _ => limits x = true -> e_now e1 = e_now e2
  end.
(** Two replicas that apply the same commands: each command with what the first and the second replica see. *)
Definition first_replica (h : list (env * env * cmd)) : list (env * cmd) := map (fun x => (fst (fst x), snd x)) h.
Definition second_replica (h : list (env * env * cmd)) : list (env * cmd) := map (fun x => (snd (fst x), snd x)) h.
Fixpoint agree_all (s : st) (h : list (env * env * cmd)) : Prop :=
  match h with
  | [] => True
  | (e1, e2, x) :: h => env_ok e2 /\ agree s x e1 e2 /\ agree_all (fst (step e1 s x)) h
  end.
(** The answers given while applying commands. *)
Fixpoint replies (s : st) (h : list (env * cmd)) : list reply :=
  match h with [] => [] | (e, x) :: h => snd (step e s x) :: replies (fst (step e s x)) h end.

(** The user ids that were ever made a member of a tenant. *)
Definition member_ids (x : cmd) (i : N) : Prop :=
  match x with
  | CAddMember _ j _ _ | CReasign _ j _ _ => j = i
  | CSet _ (VMember _) => True
  | _ => False
  end.
(** DROP TENANT as the coordinator carries it out (coordinator/src/resource_manager.rs:79-104): each database it knows of
    is dropped, then the tenant. *)
Definition sql_drop_tenant (e : env) (c t : str) (ds : list str) : list (env * cmd) :=
  map (fun d => (e, CDropDb c t d)) ds ++ [(e, CDropTenant c t)].

(** * Concrete histories, used as witnesses *)
Definition env0 : env := EN 0 (fun _ => true) 7 (fun _ l => l).
Definition env1 : env := EN 0 (fun _ => true) 7 (fun _ l => rev l).
Definition w_c : str := [99].
Definition w_t : str := [116].
Definition w_d : str := [100].
Definition w_r : str := [114].
Definition w_m : str := [109].
Definition w_alice : user := US 11 [97] [] false.
Definition w_bob : user := US 12 [98] [] false.
Definition w_tenant : tenant := TN 1 w_t false None 0.
Definition w_limited : tenant := TN 1 w_t false (Some [(w_r, (Some 100, 10, 5, 1000))]) 0.
Definition w_db : db := DB w_d 1 1 1000 100000 false.
Definition w_table : table := TB w_d w_m true 1 3.
Definition w_slash : table := TB w_d [109; 47; 109] true 1 3.
Definition w_node1 : node := ND 1 [49].
Definition w_node2 : node := ND 2 [50].
Definition seen_by (e : env) (xs : list cmd) : list (env * cmd) := map (fun x => (e, x)) xs.
(** A cluster with two nodes, two users, a tenant, a role, a database with a table and a bucket. *)
Definition w_setup : list cmd :=
  [CAddNode w_c w_node1; CMetrics w_c (ME 1 true 50 0); CAddNode w_c w_node2; CMetrics w_c (ME 2 true 60 0);
   CCreateUser w_c w_alice; CCreateUser w_c w_bob; CCreateTenant w_c w_tenant; CCreateDb w_c w_t w_db;
   CCreateTable w_c w_t w_table; CCreateBucket w_c w_t w_d 5;
   CCreateRole w_c w_r (Some PrivilegeModel.Member) [(w_d, PrivilegeModel.PRead)] w_t;
   CAddMember w_c 11 (RCustom w_r) w_t; CAddMember w_c 12 (RSystem PrivilegeModel.Owner) w_t].
Definition w_state : st := run st0 (seen_by env0 w_setup).
(** Two replicas apply the same commands, seeing [e1] and [e2]. *)
Definition two (e1 e2 : env) (xs : list cmd) : list (env * env * cmd) := map (fun x => (e1, e2, x)) xs.
