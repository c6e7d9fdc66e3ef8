(** Ids handed out by the metadata service (C46), what its commands change (C47), concurrent changes (C48). *)
From Coq Require Import Permutation.
From Verif Require Import Prelude MetaModel MetaSpec MetaProofs MetaProofs2 MetaEffectSpec MetaEffectProofs.
From Verif Require BucketModel RateModel PrivilegeModel.
Open Scope Z_scope.

Ltac nok := split; [discriminate|cbn; intros Hin; repeat (destruct Hin as [Hin|Hin]; [discriminate Hin|]); exact Hin].
Ltac hist := split; [repeat (apply Forall_cons; [split; [intros i l; cbn; first [reflexivity|symmetry; apply Permutation_rev]|cbn;
    repeat match goal with |- _ /\ _ => split end; try nok; try exact I; try reflexivity]|]); apply Forall_nil
  |vm_compute; repeat constructor; cbn; intros Hin; repeat (destruct Hin as [Hin|Hin]; [discriminate Hin|]); exact Hin].

(** * C46 *)
(** In every history in which clients add a vnode only under an id they asked for, and once: if an id occurs in a bucket
    stored at some moment and in one stored at a later moment, they are the same bucket of the same database. *)
Theorem C46_ids_never_reused_partial : forall h1 h2 c t1 d1 i1 b1 t2 d2 i2 b2 id, name_ok c -> history (h1 ++ h2) -> ids_ok c st0 [] (h1 ++ h2) ->
  stored (run st0 h1) c t1 d1 i1 b1 -> stored (run st0 (h1 ++ h2)) c t2 d2 i2 b2 ->
  In id (bucket_ids b1) -> In id (bucket_ids b2) -> t1 = t2 /\ d1 = d2 /\ i1 = i2.
Proof. intros h1 h2 c t1 d1 i1 b1 t2 d2 i2 b2 id Oc [F _]. now apply ids_unique. Qed.
Print Assumptions C46_ids_never_reused_partial.
(** Within a bucket no id occurs twice: neither two vnodes, nor two replica sets, nor a vnode and a replica set share one. *)
Theorem C46_ids_distinct_partial : forall h c t d i b, name_ok c -> history h -> ids_ok c st0 [] h ->
  stored (run st0 h) c t d i b -> NoDup (bucket_ids b).
Proof. intros h c t d i b Oc [F _]. now apply ids_nodup. Qed.
Print Assumptions C46_ids_distinct_partial.
(** Ids answered to a client are in no bucket, and stay unused until the client adds them. *)
Theorem C46_reserved_ids_partial : forall h1 e c n h2 a id, name_ok c -> history (h1 ++ (e, CRetainId c n) :: h2) ->
  ids_ok c st0 [] (h1 ++ (e, CRetainId c n) :: h2) -> snd (step e (run st0 h1) (CRetainId c n)) = Number a -> a <= id < a + n ->
  (forall t d i b, stored (run st0 h1) c t d i b -> ~ In id (bucket_ids b)) /\
  (Forall (fun ex => ~ adds c id (snd ex)) h2 ->
   forall t d i b, stored (run st0 (h1 ++ (e, CRetainId c n) :: h2)) c t d i b -> ~ In id (bucket_ids b)).
Proof. intros h1 e c n h2 a id Oc [F _]. now apply retain_fresh. Qed.
Print Assumptions C46_reserved_ids_partial.
(** Two clients never get the same id. *)
Theorem C46_reserved_apart_partial : forall h1 e1 n1 h2 e2 n2 h3 c a1 a2, name_ok c ->
  ids_ok c st0 [] (h1 ++ (e1, CRetainId c n1) :: h2 ++ (e2, CRetainId c n2) :: h3) ->
  snd (step e1 (run st0 h1) (CRetainId c n1)) = Number a1 ->
  snd (step e2 (run st0 (h1 ++ (e1, CRetainId c n1) :: h2)) (CRetainId c n2)) = Number a2 ->
  forall i j, a1 <= i < a1 + n1 -> a2 <= j < a2 + n2 -> i <> j.
Proof. intros h1 e1 n1 h2 e2 n2 h3 c a1 a2 Oc I E1 E2 i j Hi Hj. pose proof (retain_distinct _ _ _ _ _ _ _ _ _ _ Oc I E1 E2). lia. Qed.
Print Assumptions C46_reserved_apart_partial.

(** A bucket, an id asked for and added to its replica set, a second bucket. *)
Definition c46_h1 : list (env * cmd) := seen_by env0 (w_setup ++ [CRetainId w_c 1]).
Definition c46_h2 : list (env * cmd) := seen_by env0 [CUpdateReplSet w_c w_t w_d 1 2 [] [(4, 1)]; CCreateBucket w_c w_t w_d 2005].
Example C46_case : history (c46_h1 ++ c46_h2) /\ ids_ok w_c st0 [] (c46_h1 ++ c46_h2) /\
  snd (step env0 (run st0 (seen_by env0 w_setup)) (CRetainId w_c 1)) = Number 4 /\
  exists b1 b2, stored (run st0 (c46_h1 ++ c46_h2)) w_c w_t w_d 1 b1 /\ stored (run st0 (c46_h1 ++ c46_h2)) w_c w_t w_d 5 b2 /\
    bucket_ids b1 = [1; 2; 3; 4] /\ bucket_ids b2 = [5; 6; 7].
Proof.
  split; [hist|]. split.
  - vm_compute. repeat split; try exact I; try discriminate; [|intros i Hi; exact Hi]. constructor; [intros []|constructor].
  - split; [vm_compute; reflexivity|]. eexists _, _. split; [split; [nok|split; [nok|vm_compute; reflexivity]]|].
    split; [split; [nok|split; [nok|vm_compute; reflexivity]]|]. split; vm_compute; reflexivity.
Qed.

(** * C47 *)
(** A command changes nothing outside what it names: [scope] lists, for each command, the keys it may touch. *)
Theorem C47_only_what_is_named : forall h e x k, history h -> cmd_ok x -> ~ scope x k ->
  get k (s_map (fst (step e (run st0 h) x))) = get k (s_map (run st0 h)).
Proof. intros h e x k H O N. apply scope_step; auto. now apply wf_history. Qed.
Print Assumptions C47_only_what_is_named.
(** In particular a command about one tenant changes nothing at or below another tenant of the cluster. *)
Theorem C47_tenants_apart : forall h e x c t t' k, history h -> cmd_ok x -> about x = Some (c, t) -> name_ok t' -> t <> t' ->
  inside (k_tenant c t') k -> get k (s_map (fst (step e (run st0 h) x))) = get k (s_map (run st0 h)).
Proof. intros h e x c t t' k H O A Ot N I. apply (tenants_apart e _ x c t t'); auto. now apply wf_history. Qed.
Print Assumptions C47_tenants_apart.
(** A command that names one cluster changes nothing of another.  Missing: DROP USER (refuted below). *)
Theorem C47_clusters_apart_partial : forall h e x c c' k, history h -> cmd_ok x -> cluster_of x = Some c -> (forall n, x <> CDropUser c n) ->
  name_ok c -> name_ok c' -> c <> c' -> inside (path [c']) k -> get k (s_map (fst (step e (run st0 h) x))) = get k (s_map (run st0 h)).
Proof. intros h e x c c' k H O A D Oc Oc' N I. apply (clusters_apart e _ x c c'); auto. now apply wf_history. Qed.
Print Assumptions C47_clusters_apart_partial.
(** Dropping a user of one cluster removes a membership of another cluster, one named like a tenant of the first
    (storage.rs:1316-1319 builds the key from the tenant's name twice). *)
Theorem C47_drop_user_other_cluster_refuted : exists h e (c c' : str) t n uid r, history (h ++ [(e, CDropUser c n)]) /\ c <> c' /\
  get (k_member c' t uid) (s_map (run st0 h)) = Some (VMember r) /\ get (k_member c' t uid) (s_map (run st0 (h ++ [(e, CDropUser c n)]))) = None.
Proof.
  exists (seen_by env0 (w_setup ++ [CCreateTenant w_t w_tenant; CAddMember w_t 11 (RSystem PrivilegeModel.Owner) w_t])), env0, w_c, w_t, w_t, (u_name w_alice), 11%N.
  eexists. split; [hist|]. split; [discriminate|]. vm_compute. auto.
Qed.
Print Assumptions C47_drop_user_other_cluster_refuted.
(** All or nothing: a command that is refused leaves every stored object as it was. *)
Theorem C47_refused_changes_nothing : forall h e x, history h -> env_ok e -> cmd_ok x ->
  snd (step e (run st0 h) x) = Refused -> s_map (fst (step e (run st0 h) x)) = s_map (run st0 h).
Proof. intros h e x H E O R. apply refused_same; auto; [now apply wf_history|now apply uniq_history]. Qed.
Print Assumptions C47_refused_changes_nothing.
(** What an acknowledged command asked for is there afterwards: [stores] says, for each command, what was there before and
    what is there now. *)
Theorem C47_acknowledged_is_stored : forall h e x, history h -> Forall (fun ex => maps_ok (snd ex)) h -> cmd_ok x -> has_effect x = true ->
  snd (step e (run st0 h) x) = Done ->
  exists k v, stores x k (get k (s_map (run st0 h))) v /\ get k (s_map (fst (step e (run st0 h) x))) = Some v.
Proof. intros h e x H M O E D. apply stores_step; auto; [now apply wf_history|]. apply role_maps_run; [exact M|]. intros k ro []. Qed.
Print Assumptions C47_acknowledged_is_stored.
(** What an acknowledged command removes is gone afterwards. *)
Theorem C47_acknowledged_is_removed : forall h e x k, history h -> env_ok e -> cmd_ok x -> removes x = Some k ->
  snd (step e (run st0 h) x) <> Refused -> get k (s_map (fst (step e (run st0 h) x))) = None.
Proof. intros h e x k H E O R D. apply removes_step; auto; [now apply wf_history|now apply uniq_history]. Qed.
Print Assumptions C47_acknowledged_is_removed.

(** Two tenants; a refused, a storing and a removing command, each on a state with something to lose. *)
Definition w_t2 : str := [117].
Definition c47_h : list (env * cmd) := seen_by env0 (w_setup ++ [CCreateTenant w_c (TN 2 w_t2 false None 0); CCreateDb w_c w_t2 w_db]).
Example C47_case : history c47_h /\ Forall (fun ex => maps_ok (snd ex)) c47_h /\
  get (k_db w_c w_t2 w_d) (s_map (run st0 c47_h)) = Some (VDb w_db) /\ inside (k_tenant w_c w_t2) (k_db w_c w_t2 w_d) /\
  about (CDropDb w_c w_t w_d) = Some (w_c, w_t) /\ snd (step env0 (run st0 c47_h) (CDropDb w_c w_t w_d)) <> Refused /\
  snd (step env0 (run st0 c47_h) (CCreateDb w_c w_t w_db)) = Refused /\
  snd (step env0 (run st0 c47_h) (CGrant w_c [(PrivilegeModel.PWrite, w_d)] w_r w_t)) = Done /\
  snd (step env0 (run st0 c47_h) (CRevoke w_c [(PrivilegeModel.PRead, w_d)] w_r w_t)) = Done /\
  snd (step env0 (run st0 c47_h) (CUpdateTable w_c w_t (TB w_d w_m true 2 4))) = Done.
Proof.
  split; [hist|]. split; [unfold c47_h, w_setup; cbn [seen_by map app]; repeat (apply Forall_cons; [exact I|]); apply Forall_nil|].
  split; [vm_compute; reflexivity|]. split; [exact (inside_path [w_c; s_tenants; w_t2] [s_dbs; w_d])|]. split; [reflexivity|].
  split; [vm_compute; discriminate|]. repeat split; vm_compute; reflexivity.
Qed.

(** * C48 *)
(** Two table updates made from the same version are not both accepted while the table exists: of two acknowledged updates
    the later one has a higher version, whatever happens in between (raw [Set]s excepted). *)
Theorem C48_no_lost_update_partial : forall h e1 c t tb1 h2 e2 tb2, history h -> cmd_ok (CUpdateTable c t tb1) ->
  Forall (fun ex => cmd_ok (snd ex) /\ plain (snd ex)) h2 -> tb_db tb2 = tb_db tb1 -> tb_name tb2 = tb_name tb1 ->
  snd (step e1 (run st0 h) (CUpdateTable c t tb1)) = Done -> let s1 := fst (step e1 (run st0 h) (CUpdateTable c t tb1)) in
  stays (k_schema c t (tb_db tb1) (tb_name tb1)) s1 h2 ->
  snd (step e2 (run s1 h2) (CUpdateTable c t tb2)) = Done -> tb_ver tb1 < tb_ver tb2.
Proof. intros h e1 c t tb1 h2 e2 tb2 H O F E1 E2 D1 s1 St D2. apply (no_lost_update e1 e2 c t tb1 tb2 h2 (run st0 h)); auto. now apply wf_history. Qed.
Print Assumptions C48_no_lost_update_partial.
(** Without that condition it fails: after DROP TABLE an update from the old version is accepted and brings the table back,
    and two updates from the same version have then both been acknowledged. *)
Theorem C48_update_after_drop_refuted : exists h e c t tb1 tb2, history (h ++ [(e, CUpdateTable c t tb1); (e, CDropTable c t (tb_db tb1) (tb_name tb1)); (e, CUpdateTable c t tb2)]) /\
  let s1 := fst (step e (run st0 h) (CUpdateTable c t tb1)) in let s2 := fst (step e s1 (CDropTable c t (tb_db tb1) (tb_name tb1))) in
  tb_db tb2 = tb_db tb1 /\ tb_name tb2 = tb_name tb1 /\ tb_ver tb2 = tb_ver tb1 /\ tb1 <> tb2 /\
  snd (step e (run st0 h) (CUpdateTable c t tb1)) = Done /\ snd (step e s1 (CDropTable c t (tb_db tb1) (tb_name tb1))) = Done /\
  snd (step e s2 (CUpdateTable c t tb2)) = Done.
Proof.
  exists (seen_by env0 w_setup), env0, w_c, w_t, (TB w_d w_m true 2 4), (TB w_d w_m true 2 5). split; [hist|]. cbv zeta.
  split; [reflexivity|]. split; [reflexivity|]. split; [reflexivity|]. split; [discriminate|]. repeat split; vm_compute; reflexivity.
Qed.
Print Assumptions C48_update_after_drop_refuted.
(** The node that holds the right to run background tasks keeps it until it is released in that node's name. *)
Theorem C48_lock_kept : forall h c a h2, history h -> Forall (fun ex => cmd_ok (snd ex) /\ plain (snd ex) /\ snd ex <> CMark c a false) h2 ->
  name_ok c -> holder (run st0 h) c = Some a -> holder (run st0 (h ++ h2)) c = Some a.
Proof. intros h c a h2 H F Oc HH. rewrite run_app. apply holder_run; auto. now apply wf_history. Qed.
Print Assumptions C48_lock_kept.
(** A node that is told it got the right has it and nobody had it before; if nobody has it, a request for it succeeds. *)
Theorem C48_lock_acquired : forall h e c n, history h -> name_ok c ->
  (snd (step e (run st0 h) (CMark c n true)) = Done <-> holder (run st0 h) c = None) /\
  (snd (step e (run st0 h) (CMark c n true)) = Done -> holder (fst (step e (run st0 h) (CMark c n true))) c = Some n).
Proof.
  intros h e c n H Oc. pose proof (wf_history h H) as W. split; [split|].
  - intro D. apply (mark_step e _ c n true W Oc D).
  - now apply mark_free.
  - intro D. apply (mark_step e _ c n true W Oc D).
Qed.
Print Assumptions C48_lock_acquired.
(** Nobody gets it otherwise than by asking for it or by registering as a node, and only when it is free; a release is
    accepted only in the holder's name. *)
Theorem C48_lock_only_when_free : forall h e x c n, history h -> cmd_ok x -> plain x -> name_ok c ->
  holder (run st0 h) c <> Some n -> holder (fst (step e (run st0 h) x)) c = Some n ->
  holder (run st0 h) c = None /\ (x = CMark c n true \/ exists nd, x = CAddNode c nd /\ n_id nd = n).
Proof. intros h e x c n H O P Oc N G. apply (holder_from e _ x c n); auto. now apply wf_history. Qed.
Print Assumptions C48_lock_only_when_free.
Theorem C48_release_by_holder : forall h e c n, history h -> name_ok c -> snd (step e (run st0 h) (CMark c n false)) = Done ->
  (holder (run st0 h) c = None \/ holder (run st0 h) c = Some n) /\ holder (fst (step e (run st0 h) (CMark c n false))) c = None.
Proof. intros h e c n H Oc D. apply (mark_step e _ c n false (wf_history h H) Oc D). Qed.
Print Assumptions C48_release_by_holder.

Example C48_case : let s1 := fst (step env0 w_state (CUpdateTable w_c w_t (TB w_d w_m true 2 4))) in
  let h2 := seen_by env0 [CAddNode w_c w_node1; CCreateTable w_c w_t w_table] in
  snd (step env0 w_state (CUpdateTable w_c w_t (TB w_d w_m true 2 4))) = Done /\ stays (k_schema w_c w_t w_d w_m) s1 h2 /\
  snd (step env0 (run s1 h2) (CUpdateTable w_c w_t (TB w_d w_m true 3 4))) = Done /\
  snd (step env0 (run s1 h2) (CUpdateTable w_c w_t (TB w_d w_m true 2 5))) = Refused.
Proof. cbv zeta. split; [vm_compute; reflexivity|]. split; [vm_compute; repeat split|]. split; vm_compute; reflexivity. Qed.
Example C48_lock_case : holder w_state w_c = Some 1%N /\ snd (step env0 w_state (CMark w_c 2 true)) = Refused /\
  snd (step env0 w_state (CMark w_c 2 false)) = Refused /\
  let s := fst (step env0 w_state (CMark w_c 1 false)) in holder s w_c = None /\ snd (step env0 s (CMark w_c 2 true)) = Done.
Proof. vm_compute. auto 10. Qed.
