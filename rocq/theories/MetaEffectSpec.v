(** What the theorems on ids (C46), on effects of metadata commands (C47) and on concurrent changes (C48) speak about. *)
From Verif Require Import Prelude MetaModel MetaSpec.
Open Scope Z_scope.

(** * C46: ids *)
(** Every id in a bucket: its own, those of its replica sets and those of their vnodes. *)
Definition bucket_ids (b : bucket) : list Z :=
  BucketModel.b_id b :: flat_map (fun g => BucketModel.r_id g :: map fst (BucketModel.r_vnodes g)) (BucketModel.b_group b).
(** Bucket [b] of database [d] of tenant [t] is stored (under the name [i]). *)
Definition stored (s : st) (c t d : str) (i : N) (b : bucket) : Prop :=
  name_ok t /\ name_ok d /\ get (k_bucket c t d i) (s_map s) = Some (VBucket b).
(** [n] numbers from [a] on *)
Definition numbers (a n : Z) : list Z := map (fun i => a + Z.of_nat i) (seq 0 (Z.to_nat n)).
(** How clients use ids (coordinator/src/raft/manager.rs:478-520): an id is asked for, then added once as a vnode.
    [pend]: the ids answered to clients of cluster [c] and not added yet.  Buckets are not written by a raw [Set]. *)
Fixpoint ids_ok (c : str) (s : st) (pend : list Z) (h : list (env * cmd)) : Prop :=
  match h with
  | [] => True
  | (e, x) :: h =>
      let s' := fst (step e s x) in
      match x with
      | CSet _ (VBucket _) => False
      | CRetainId c' n => 0 <= n /\ ids_ok c s' (if seqb c' c then numbers (match snd (step e s x) with Number a => a | _ => 0 end) n ++ pend else pend) h
      | CUpdateReplSet c' _ _ _ _ _ add =>
          if seqb c' c then NoDup (map fst add) /\ incl (map fst add) pend /\
                            ids_ok c s' (filter (fun i => negb (existsb (Z.eqb i) (map fst add))) pend) h
          else ids_ok c s' pend h
      | _ => ids_ok c s' pend h
      end
  end.
(** The history adds vnode [i] to a replica set of cluster [c]. *)
Definition adds (c : str) (i : Z) (x : cmd) : Prop :=
  match x with CUpdateReplSet c' _ _ _ _ _ add => c' = c /\ In i (map fst add) | _ => False end.

(** * C47: effects *)
(** The objects a command names: a key is at the path or below it. *)
Definition inside (p k : str) : Prop := k = p \/ exists r, k = p ++ 47 :: r.
Definition scope (x : cmd) (k : str) : Prop :=
  match x with
  | CSet k0 _ => k = k0
  | CAddNode c n => k = k_data_node c (n_id n) \/ k = k_resources_mark c
  | CMetrics c m => k = k_metric c (m_id m)
  | CCreateDb c t d | CAlterDb c t d => k = k_db c t (d_name d)
  | CDbHidden c t d _ => k = k_db c t d
  | CDropDb c t d => inside (k_db c t d) k
  | CDropTable c t d n => k = k_schema c t d n
  | CCreateTable c t tb | CUpdateTable c t tb => k = k_schema c t (tb_db tb) (tb_name tb)
  | CCreateBucket c t d _ => inside (k_buckets c t d) k
  | CDeleteBucket c t d i | CUpdateReplSet c t d i _ _ _ | CChangeLeader c t d i _ _ _ | CUpdateVnode c t d i => k = k_bucket c t d i
  | CCreateUser c u => k = k_user c (u_name u)
  | CAlterUser c n _ => k = k_user c n
  | CRenameUser _ _ _ | CRenameTenant _ _ _ | CRetainId _ _ => False
    (* memberships in tenants of a cluster that has the tenant's name: the keys built by storage.rs:1316-1319 *)
  | CDropUser c n => k = k_user c n \/ (exists t u, k = k_member t t u)
  | CCreateTenant c t => k = k_tenant c (t_name t) \/ k = k_limiter c (t_name t)
  | CAlterTenant c n _ | CTenantHidden c n _ => k = k_tenant c n \/ k = k_limiter c n
  | CDropTenant c n => inside (k_tenant c n) k
  | CAddMember c u _ t | CRemoveMember c u t | CReasign c u _ t => k = k_member c t u
  | CCreateRole c r _ _ t | CDropRole c r t | CGrant c _ r t | CRevoke c _ r t => k = k_role c t r
  | CLimiter c t _ _ => k = k_limiter c t
  | CResource c n _ => k = k_resource c n
  | CMark c _ _ => k = k_resources_mark c
  | CWriteQuery c i _ | CRemoveQuery c i => k = k_query c i
  | CMoveQuery c _ _ => inside (k_queries c) k
  end.
(** The cluster and tenant a command is about, for the commands that name a tenant. *)
Definition about (x : cmd) : option (str * str) :=
  match x with
  | CCreateDb c t _ | CAlterDb c t _ | CDbHidden c t _ _ | CDropDb c t _ | CDropTable c t _ _ | CCreateTable c t _
  | CUpdateTable c t _ | CCreateBucket c t _ _ | CDeleteBucket c t _ _ | CUpdateReplSet c t _ _ _ _ _
  | CChangeLeader c t _ _ _ _ _ | CUpdateVnode c t _ _ | CAlterTenant c t _ | CTenantHidden c t _ | CDropTenant c t
  | CAddMember c _ _ t | CRemoveMember c _ t | CReasign c _ _ t | CCreateRole c _ _ _ t | CDropRole c _ t
  | CGrant c _ _ t | CRevoke c _ _ t | CLimiter c t _ _ => Some (c, t)
  | CCreateTenant c t => Some (c, t_name t)
  | _ => None
  end.
(** The cluster a command names. *)
Definition cluster_of (x : cmd) : option str :=
  match x with
  | CSet _ _ => None
  | CAddNode c _ | CMetrics c _ | CCreateDb c _ _ | CAlterDb c _ _ | CDbHidden c _ _ _ | CDropDb c _ _ | CDropTable c _ _ _
  | CCreateTable c _ _ | CUpdateTable c _ _ | CCreateBucket c _ _ _ | CDeleteBucket c _ _ _ | CCreateUser c _ | CAlterUser c _ _
  | CRenameUser c _ _ | CDropUser c _ | CCreateTenant c _ | CAlterTenant c _ _ | CTenantHidden c _ _ | CRenameTenant c _ _
  | CDropTenant c _ | CAddMember c _ _ _ | CRemoveMember c _ _ | CReasign c _ _ _ | CCreateRole c _ _ _ _ | CDropRole c _ _
  | CGrant c _ _ _ | CRevoke c _ _ _ | CRetainId c _ | CUpdateReplSet c _ _ _ _ _ _ | CChangeLeader c _ _ _ _ _ _
  | CUpdateVnode c _ _ _ | CLimiter c _ _ _ | CResource c _ _ | CMark c _ _ | CWriteQuery c _ _ | CRemoveQuery c _ | CMoveQuery c _ _ => Some c
  end.
(** The last entry of [d] in a list of grants. *)
Definition granted (d : str) (ps : list (db_priv * str)) : option db_priv :=
  match find (fun p => seqb (snd p) d) (rev ps) with Some (p, _) => Some p | None => None end.
Definition mentioned (d : str) (ps : list (db_priv * str)) : bool := existsb (fun p => seqb (snd p) d) ps.
(** What is stored after an acknowledged command: the key, whether there has to be nothing or something there before,
    and what is there afterwards ([old] is what was there before). *)
Definition stores (x : cmd) (k : str) (old : option value) (v : value) : Prop :=
  match x with
  | CAddNode c n => k = k_data_node c (n_id n) /\ v = VNode n
  | CMetrics c m => k = k_metric c (m_id m) /\ v = VMetrics m
  | CCreateDb c t d => k = k_db c t (d_name d) /\ old = None /\ v = VDb d
  | CAlterDb c t d => k = k_db c t (d_name d) /\ old <> None /\ v = VDb d
  | CDbHidden c t n h => k = k_db c t n /\
      exists d, old = Some (VDb d) /\ v = VDb (DB (d_name d) (d_shard d) (d_replica d) (d_dur d) (d_ttl d) h)
  | CCreateTable c t tb => k = k_schema c t (tb_db tb) (tb_name tb) /\ old = None /\ v = VTable tb
  | CUpdateTable c t tb => k = k_schema c t (tb_db tb) (tb_name tb) /\ v = VTable tb /\
      match old with None => True | Some o => exists tb0, o = VTable tb0 /\ tb_ver tb = tb_ver tb0 + 1 end
  | CCreateUser c u => k = k_user c (u_name u) /\ old = None /\ v = VUser u
  | CAlterUser c n o => k = k_user c n /\
      exists u, old = Some (VUser u) /\ exists m, v = VUser (US (u_id u) n m (u_root u)) /\
      forall q, get q m = match find (fun kv => seqb (fst kv) q) (rev o) with Some (_, z) => Some z | None => get q (u_opts u) end
  | CCreateTenant c t => k = k_tenant c (t_name t) /\ old = None /\ v = VTenant t
  | CAlterTenant c n o => k = k_tenant c n /\
      exists t, old = Some (VTenant t) /\ t_hidden t = false /\ v = VTenant (TN (t_id t) n (t_hidden o) (t_limit o) (t_rest o))
  | CTenantHidden c n h => k = k_tenant c n /\
      exists t, old = Some (VTenant t) /\ v = VTenant (TN (t_id t) n h (t_limit t) (t_rest t))
  | CAddMember c u r t => k = k_member c t u /\ old = None /\ v = VMember r
  | CReasign c u r t => k = k_member c t u /\ old <> None /\ v = VMember r
  | CCreateRole c r sys ps t => k = k_role c t r /\ old = None /\
      exists ro, v = VRole ro /\ ro_name ro = r /\ ro_sys ro = sys /\
      forall d, get d (ro_privs ro) = match find (fun p => seqb (fst p) d) (rev ps) with Some (_, q) => Some q | None => None end
  | CGrant c ps r t => k = k_role c t r /\
      exists ro m, old = Some (VRole ro) /\ v = VRole (RO (ro_id ro) (ro_name ro) (ro_sys ro) m) /\
      forall d, get d m = match granted d ps with Some q => Some q | None => get d (ro_privs ro) end
  | CRevoke c ps r t => k = k_role c t r /\
      exists ro m, old = Some (VRole ro) /\ v = VRole (RO (ro_id ro) (ro_name ro) (ro_sys ro) m) /\
      (forall d, get d m = if mentioned d ps then None else get d (ro_privs ro)) /\
      (forall p d, In (p, d) ps -> get d (ro_privs ro) = Some p)
  | CResource c n r => k = k_resource c n /\ v = VResource r
  | CMark c n l => k = k_resources_mark c /\ v = VMark n l
  | CWriteQuery c i q => k = k_query c i /\ v = VQuery q
  | _ => False
  end.
(** The privileges of a role are a map: kept sorted by name without duplicates in the model. *)
Definition has_effect (x : cmd) : bool :=
  match x with
  | CAddNode _ _ | CMetrics _ _ | CCreateDb _ _ _ | CAlterDb _ _ _ | CDbHidden _ _ _ _ | CCreateTable _ _ _ | CUpdateTable _ _ _
  | CCreateUser _ _ | CAlterUser _ _ _ | CCreateTenant _ _ | CAlterTenant _ _ _ | CTenantHidden _ _ _ | CAddMember _ _ _ _
  | CReasign _ _ _ _ | CCreateRole _ _ _ _ _ | CGrant _ _ _ _ | CRevoke _ _ _ _ | CResource _ _ _ | CMark _ _ _ | CWriteQuery _ _ _ => true
  | _ => false
  end.
(** A removing command leaves nothing at its key. *)
Definition removes (x : cmd) : option str :=
  match x with
  | CDropDb c t d => Some (k_db c t d)
  | CDropTable c t d n => Some (k_schema c t d n)
  | CDeleteBucket c t d i => Some (k_bucket c t d i)
  | CDropUser c n => Some (k_user c n)
  | CDropTenant c n => Some (k_tenant c n)
  | CRemoveMember c u t => Some (k_member c t u)
  | CDropRole c r t => Some (k_role c t r)
  | CRemoveQuery c i => Some (k_query c i)
  | _ => None
  end.

(** * C48: concurrent changes *)
(** No raw [Set] (they are used to initialise a cluster only). *)
Definition plain (x : cmd) : Prop := match x with CSet _ _ => False | _ => True end.
(** The table is stored after every step of the history. *)
Fixpoint stays (k : str) (s : st) (h : list (env * cmd)) : Prop :=
  contains s k = true /\ match h with [] => True | (e, x) :: h => stays k (fst (step e s x)) h end.
(** The node that holds the right to run background tasks. *)
Definition holder (s : st) (c : str) : option N :=
  match get (k_resources_mark c) (s_map s) with Some (VMark n true) => Some n | _ => None end.
(** Privileges are a map (a raw [Set] of a role stores one). *)
Definition maps_ok (x : cmd) : Prop := match x with CSet _ (VRole ro) => exists l, ro_privs ro = to_map l | _ => True end.
