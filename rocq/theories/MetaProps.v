(** Dropping users, roles, databases and tenants (C36); replicas of the metadata (C37). *)
From Coq Require Import Permutation.
From Verif Require Import Prelude MetaModel MetaSpec MetaProofs MetaProofs2 MetaProofs3.
From Verif Require BucketModel RateModel PrivilegeModel.
Open Scope Z_scope.

(** * C36 *)
(** C36, databases: after every history, dropping a database leaves no key of it, of its buckets or of its tables.
    Missing: privileges on it stay in the roles (refuted below); tables whose name contains '/' stay (refuted below). *)
Theorem C36_drop_database_partial : forall h e c t d, history h -> name_ok c -> name_ok t -> name_ok d ->
  let s := fst (step e (run st0 h) (CDropDb c t d)) in no_trace s (k_db c t d).
Proof. intros h e c t d H Oc Ot Od. apply drop_db_trace; auto. now apply wf_history. Qed.
Print Assumptions C36_drop_database_partial.

(** After the drop and any further commands that do not create the database, write it directly or update a table of it,
    a database created under the same name has neither tables nor buckets.  Missing: as above; table updates that arrive
    after the drop (refuted below). *)
Theorem C36_recreated_database_partial : forall h1 e h2 e1 e2 c t d, history (h1 ++ (e, CDropDb c t (d_name d)) :: h2) ->
  name_ok c -> name_ok t -> name_ok (d_name d) -> Forall (fun ex => ~ may_recreate c t (d_name d) (snd ex)) h2 -> env_ok e1 -> env_ok e2 ->
  let s := run st0 (h1 ++ (e, CDropDb c t (d_name d)) :: h2) in
  snd (step e1 s (CCreateDb c t d)) = Done -> exists td i,
  tenant_meta e2 (fst (step e1 s (CCreateDb c t d))) c t = Some td /\ In (d_name d, i) (td_dbs td) /\
  (forall i', In (d_name d, i') (td_dbs td) -> i_schema i' = d /\ i_tables i' = [] /\ i_buckets i' = []).
Proof.
  intros h1 e h2 e1 e2 c t d H Oc Ot Od F E1 E2 s D. pose proof (wf_history _ H) as W. fold s in W.
  apply create_db_clean; auto. unfold s. rewrite run_app. cbn [run]. destruct H as [H _]. apply Forall_app in H. destruct H as [H1 H2].
  inversion H2 as [|? ? [Ee Ox] H2']; subst. assert (W1 : wf (run st0 h1)) by (apply run_wf; [apply wf0|exact H1]).
  apply no_trace_run; auto; [now apply step_wf|]. now apply drop_db_trace.
Qed.
Print Assumptions C36_recreated_database_partial.

(** C36, roles: after dropping a role it is not found, and a role created under the same name has exactly the inherited
    system role and (at most) the privileges it was created with.  Missing: members that had the role keep it (refuted below). *)
Theorem C36_drop_role_partial : forall h e c r t, history h ->
  get_as as_role (fst (step e (run st0 h) (CDropRole c r t))) (k_role c t r) = Missing.
Proof. intros h e c r t H. unfold get_as. rewrite role_gone; [reflexivity|]. now apply wf_history. Qed.
Print Assumptions C36_drop_role_partial.
Theorem C36_recreated_role_partial : forall h e c r sys ps t, history h ->
  snd (step e (run st0 h) (CCreateRole c r sys ps t)) = Done ->
  exists ro, get_as as_role (fst (step e (run st0 h) (CCreateRole c r sys ps t))) (k_role c t r) = Got ro /\
    ro_name ro = r /\ ro_sys ro = sys /\ forall d p, get d (ro_privs ro) = Some p -> In (d, p) ps.
Proof. intros h e c r sys ps t H. apply create_role_privs. now apply wf_history. Qed.
Print Assumptions C36_recreated_role_partial.

(** C36, users: after dropping a user no record of the user is left and no tenant lists them as a member.
    Missing: the membership entries themselves stay (refuted below). *)
Theorem C36_drop_user_partial : forall h e c n, history h -> env_ok e -> name_ok c -> name_ok n ->
  let s := fst (step e (run st0 h) (CDropUser c n)) in
  get_as as_user s (k_user c n) = Missing /\
  forall e' t, env_ok e' -> name_ok t -> exists ms, read_members e' s c t = Some ms /\ ~ In n (map fst ms).
Proof.
  intros h e c n H E Oc On s. pose proof (drop_user_gone e (run st0 h) c n (wf_history h H) E Oc On) as G. fold s in G. split.
  - unfold get_as. now rewrite G.
  - intros e' t E' Ot. assert (W : wf s) by (apply step_wf; [now apply wf_history|split; assumption]).
    destruct (members_spec e' s c t W E' Oc Ot) as (ms & R & _). exists ms. split; [exact R|]. exact (not_listed e' s c t n ms W E' Oc Ot R G).
Qed.
Print Assumptions C36_drop_user_partial.
(** A user created (again) with an id that was never made a member belongs to no tenant. *)
Theorem C36_recreated_user : forall h e0 c u, history h -> name_ok c -> name_ok (u_name u) ->
  (forall ex, In ex h -> ~ member_ids (snd ex) (u_id u)) ->
  let s := fst (step e0 (run st0 h) (CCreateUser c u)) in
  snd (step e0 (run st0 h) (CCreateUser c u)) = Done -> forall t, name_ok t ->
  get_as as_member s (k_member c t (u_id u)) = Missing /\
  forall e, env_ok e -> exists ms, read_members e s c t = Some ms /\ ~ In (u_name u) (map fst ms).
Proof.
  intros h e0 c u H Oc Ou M s D t Ot. assert (N : no_member (run st0 h) (u_id u)).
  { apply no_member_run; [intros k r []|apply H|exact M]. }
  destruct (create_user_fresh e0 (run st0 h) c u (wf_history h H) Oc Ou N D t Ot) as [G L]. split; [|exact L]. unfold get_as, s. now rewrite G.
Qed.
Print Assumptions C36_recreated_user.

(** C36, tenants: DROP TENANT as the coordinator carries it out never fails, and what it leaves below the tenant belongs
    to databases it did not know of, or is a membership of somebody who is no longer a user. *)
Theorem C36_drop_tenant_partial : forall h e c t ds, history h -> env_ok e -> name_ok c -> name_ok t -> Forall name_ok ds ->
  let s := run st0 (h ++ sql_drop_tenant e c t ds) in
  Forall (fun r => r = Done) (replies (run st0 h) (sql_drop_tenant e c t ds)) /\
  get_as as_tenant s (k_tenant c t) = Missing /\
  forall k v rest, In (k, v) (s_map s) -> k = k_tenant c t ++ 47 :: rest ->
    (exists d, ~ In d ds /\ (k = k_db c t d \/ exists r, k = k_db c t d ++ 47 :: r)) \/
    (exists i r, k = k_member c t i /\ v = VMember r /\ forall n u, name_ok n -> In (k_user c n, VUser u) (s_map s) -> u_id u <> i).
Proof.
  intros h e c t ds H E Oc Ot F s. pose proof (wf_history h H) as W. pose proof (uniq_history h H) as U.
  destruct (sql_drop_left e (run st0 h) c t ds W U E Oc Ot F) as [W' L]. unfold s. rewrite run_app in *. fold (run st0 h) in *.
  destruct (drop_dbs_holds e c t ds Oc Ot F (run st0 h) W) as [W1 H1]. split; [|split].
  - clear L. clear W'. unfold sql_drop_tenant. set (a := run st0 h) in *.
    assert (U1 : uniq (run a (map (fun d => (e, CDropDb c t d)) ds))) by (eapply uniq_sub; [exact U|]; intros k v K; now apply H1).
    assert (T : snd (step e (run a (map (fun d => (e, CDropDb c t d)) ds)) (CDropTenant c t)) = Done).
    { destruct (drop_tenant_holds e _ c t W1 U1 E Oc Ot) as [T _]. exact T. }
    clear - T. clearbody a. revert a T. induction ds as [|d ds IH]; cbn [map app replies run]; intros a T.
    + constructor; [exact T|constructor].
    + constructor; [reflexivity|]. now apply IH.
  - unfold get_as. destruct (get _ _) as [v|] eqn:G; [|reflexivity]. exfalso. apply get_in in G. apply L in G. destruct G as [_ G].
    destruct (G (or_introl eq_refl)) as [(d & Od & _ & X)|(i & r & X & _)].
    + apply (under_path [c; s_tenants; t; s_dbs; d] [c; s_tenants; t]) in X; [|auto 10 with nm..]. destruct X as (rest & X). discriminate.
    + revert X. apply (distinct_keys c t [] [s_members; show i]); auto 10 with nm. discriminate.
  - intros k v rest K Q. apply L in K. destruct K as [_ K]. destruct (K (or_intror (ex_intro _ rest Q))) as [(d & _ & N & X)|X]; [left; eauto|right; exact X].
Qed.
Print Assumptions C36_drop_tenant_partial.
(** If every database below the tenant was dropped, a tenant created under the same name has no roles, no databases and
    no members. *)
Theorem C36_recreated_tenant_partial : forall h e c tn ds e0 e1, history h -> env_ok e -> env_ok e1 -> name_ok c -> name_ok (t_name tn) -> Forall name_ok ds ->
  (forall d rest v, name_ok d -> In (k_db c (t_name tn) d ++ rest, v) (s_map (run st0 h)) -> rest = [] \/ (exists r, rest = 47 :: r) -> In d ds) ->
  let s := fst (step e0 (run st0 (h ++ sql_drop_tenant e c (t_name tn) ds)) (CCreateTenant c tn)) in
  exists td, tenant_meta e1 s c (t_name tn) = Some td /\ td_roles td = [] /\ td_dbs td = [] /\ read_members e1 s c (t_name tn) = Some [].
Proof.
  intros h e c tn ds e0 e1 H E E1 Oc Ot F A s. pose proof (wf_history h H) as W. pose proof (uniq_history h H) as U.
  destruct (sql_drop_left e (run st0 h) c (t_name tn) ds W U E Oc Ot F) as [W' L]. unfold s. rewrite run_app in *.
  apply create_tenant_clean; auto. intros k v K X. destruct (L _ _ K) as [K0 Y]. destruct (Y X) as [(d & Od & N & Z)|Z]; [|exact Z].
  exfalso. apply N. destruct Z as [->|(r & ->)].
  - apply (A d [] v Od); [now rewrite app_nil_r|now left].
  - apply (A d (47 :: r) v Od K0). right. eauto.
Qed.
Print Assumptions C36_recreated_tenant_partial.

(** * C36: what is not removed *)
Ltac nok := split; [discriminate|cbn; intros Hin; repeat (destruct Hin as [Hin|Hin]; [discriminate Hin|]); exact Hin].
Ltac hist := split; [repeat (apply Forall_cons; [split; [intros i l; cbn; first [reflexivity|symmetry; apply Permutation_rev]|cbn;
    repeat match goal with |- _ /\ _ => split end; try nok; try exact I; try reflexivity]|]); apply Forall_nil
  |vm_compute; repeat constructor; cbn; intros Hin; repeat (destruct Hin as [Hin|Hin]; [discriminate Hin|]); exact Hin].

(** Dropping a user leaves their membership (process_drop_user builds the key with the tenant's name as the cluster). *)
Theorem C36_drop_user_members_refuted : exists h e c t u r, history (h ++ [(e, CDropUser c (u_name u))]) /\
  get_as as_user (run st0 h) (k_user c (u_name u)) = Got u /\
  snd (step e (run st0 h) (CDropUser c (u_name u))) = Number 1 /\
  get_as as_member (run st0 (h ++ [(e, CDropUser c (u_name u))])) (k_member c t (u_id u)) = Got r.
Proof.
  exists (seen_by env0 w_setup), env0, w_c, w_t, w_alice, (RCustom w_r). split; [hist|]. vm_compute. auto.
Qed.
Print Assumptions C36_drop_user_members_refuted.

(** ... and DROP TENANT afterwards does not remove it either. *)
Theorem C36_drop_tenant_members_refuted : exists h e c t i r, history (h ++ sql_drop_tenant e c t [w_d]) /\
  get_as as_member (run st0 (h ++ sql_drop_tenant e c t [w_d])) (k_member c t i) = Got r.
Proof.
  exists (seen_by env0 (w_setup ++ [CDropUser w_c (u_name w_alice)])), env0, w_c, w_t, 11%N, (RCustom w_r). split; [hist|]. vm_compute. auto.
Qed.
Print Assumptions C36_drop_tenant_members_refuted.

(** Dropping a role leaves its members; a role created under the same name, with more privileges, is theirs. *)
Theorem C36_recreated_role_members_refuted : exists h e c r t ps u ro, let x := CCreateRole c r None ps t in
  let h' := h ++ [(e, CDropRole c r t); (e, x)] in
  history h' /\ replies (run st0 h) [(e, CDropRole c r t); (e, x)] = [Done; Done] /\
  (exists ms, read_members e (run st0 h') c t = Some ms /\ In (u, RCustom r) ms) /\
  get_as as_role (run st0 h) (k_role c t r) = Got ro /\ get w_d (ro_privs ro) = Some PrivilegeModel.PRead /\ In (w_d, PrivilegeModel.PFull) ps.
Proof.
  exists (seen_by env0 w_setup), env0, w_c, w_r, w_t, [(w_d, PrivilegeModel.PFull)], (u_name w_alice), (RO 7 w_r (Some PrivilegeModel.Member) [(w_d, PrivilegeModel.PRead)]).
  cbv zeta. split; [hist|]. split; [vm_compute; reflexivity|]. split; [eexists; split; [vm_compute; reflexivity|now left]|].
  split; [vm_compute; reflexivity|]. split; [vm_compute; reflexivity|now left].
Qed.
Print Assumptions C36_recreated_role_members_refuted.

(** Dropping a database leaves the privileges on it; they hold for a database created under the same name. *)
Theorem C36_recreated_database_privileges_refuted : exists h e c t d r ro p, let h' := h ++ [(e, CDropDb c t (d_name d)); (e, CCreateDb c t d)] in
  history h' /\ replies (run st0 h) [(e, CDropDb c t (d_name d)); (e, CCreateDb c t d)] = [Done; Done] /\
  get_as as_role (run st0 h') (k_role c t r) = Got ro /\ get (d_name d) (ro_privs ro) = Some p.
Proof.
  exists (seen_by env0 w_setup), env0, w_c, w_t, w_db, w_r, (RO 7 w_r (Some PrivilegeModel.Member) [(w_d, PrivilegeModel.PRead)]), PrivilegeModel.PRead.
  cbv zeta. split; [hist|]. vm_compute. auto.
Qed.
Print Assumptions C36_recreated_database_privileges_refuted.

(** The metadata command alone leaves the databases of a dropped tenant; they belong to the tenant created next. *)
Theorem C36_drop_tenant_databases_refuted : exists h e c tn, let h' := h ++ [(e, CDropTenant c (t_name tn)); (e, CCreateTenant c tn)] in
  history h' /\ replies (run st0 h) [(e, CDropTenant c (t_name tn)); (e, CCreateTenant c tn)] = [Done; Done] /\
  exists td, tenant_meta e (run st0 h') c (t_name tn) = Some td /\ td_dbs td <> [].
Proof.
  exists (seen_by env0 w_setup), env0, w_c, w_tenant. cbv zeta. split; [hist|]. split; [vm_compute; reflexivity|].
  eexists. split; [vm_compute; reflexivity|discriminate].
Qed.
Print Assumptions C36_drop_tenant_databases_refuted.

(** A table update that arrives after DROP DATABASE stores the table again, and the database created next has it. *)
Theorem C36_late_update_refuted : exists h e c t d tb, let x := [(e, CDropDb c t (d_name d)); (e, CUpdateTable c t tb); (e, CCreateDb c t d)] in
  history (h ++ x) /\ replies (run st0 h) x = [Done; Done; Done] /\
  exists td i, tenant_meta e (run st0 (h ++ x)) c t = Some td /\ In (d_name d, i) (td_dbs td) /\ In (tb_name tb, tb) (i_tables i).
Proof.
  exists (seen_by env0 w_setup), env0, w_c, w_t, w_db, (TB w_d w_m true 2 4). cbv zeta. split; [hist|]. split; [vm_compute; reflexivity|].
  eexists _, _. split; [vm_compute; reflexivity|]. split; [left; reflexivity|]. cbn. auto.
Qed.
Print Assumptions C36_late_update_refuted.

(** A table whose name contains '/' (the SQL parser refuses it, a line protocol write does not) outlives its database:
    in the database created next it is not listed, yet cannot be created. *)
Theorem C36_slash_table_refuted : exists h e c t d tb, In 47 (tb_name tb) /\ env_ok e /\
  let x := [(e, CCreateTable c t tb); (e, CDropDb c t (d_name d)); (e, CCreateDb c t d); (e, CCreateTable c t tb)] in
  history h /\ replies (run st0 h) x = [Done; Done; Done; Refused] /\
  exists td i, tenant_meta e (run st0 (h ++ x)) c t = Some td /\ In (d_name d, i) (td_dbs td) /\ i_tables i = [].
Proof.
  exists (seen_by env0 w_setup), env0, w_c, w_t, w_db, w_slash. split; [cbn; auto|]. split; [intros i l; reflexivity|]. cbv zeta. split; [hist|].
  split; [vm_compute; reflexivity|]. eexists _, _. split; [vm_compute; reflexivity|]. split; [left; reflexivity|]. cbn. auto.
Qed.
Print Assumptions C36_slash_table_refuted.

(** * C37 *)
(** C37: two replicas that apply the same commands, in whatever order they iterate their hash maps, hold the same data,
    version and id counters and give the same answers, provided they agree on the clock for the commands that set or use a
    rate limiter, on the UUID of a created role, and, for the creation of a bucket, on the clock, on the reachable nodes
    and on the order of the nodes by free space.  Missing: those conditions are not enforced (refuted below). *)
Theorem C37_replicas_agree_partial : forall h, history (first_replica h) -> agree_all st0 h ->
  same_data (run st0 (first_replica h)) (run st0 (second_replica h)) /\
  replies st0 (first_replica h) = replies st0 (second_replica h).
Proof.
  intros h [F D] A. apply (replicas_same h st0 st0 []); auto.
  - apply same_refl. - apply wf0. - intros ? ? ? ? []. - intros ? ? [].
Qed.
Print Assumptions C37_replicas_agree_partial.
(** A replica that starts from a snapshot, without the change log, continues in the same way. *)
Theorem C37_snapshot_continues : forall h s s', same_data s s' -> same_data (run s h) (run s' h) /\ replies s h = replies s' h.
Proof.
  induction h as [|(e, x) h IH]; intros s s' S; cbn [run replies]; [auto|]. destruct (step_forget e s s' x S) as [A B].
  destruct (IH _ _ A) as [C D]. split; [exact C|]. now rewrite B, D.
Qed.
Print Assumptions C37_snapshot_continues.

(** * C37: where replicas diverge *)
Definition diverges (h : list (env * env * cmd)) : Prop :=
  history (first_replica h) /\ history (second_replica h) /\ s_map (run st0 (first_replica h)) <> s_map (run st0 (second_replica h)).
(** CREATE ROLE: each replica draws the role's id. *)
Theorem C37_role_id_refuted : exists e1 e2 xs, e_now e1 = e_now e2 /\ e_alive e1 = e_alive e2 /\ e_order e1 = e_order e2 /\ diverges (two e1 e2 xs).
Proof.
  exists env0, (EN 0 (fun _ => true) 8 (fun _ l => l)), w_setup. do 3 (split; [reflexivity|]). split; [hist|split; [hist|vm_compute; discriminate]].
Qed.
Print Assumptions C37_role_id_refuted.
(** CREATE TENANT with a request limit: each replica reads its own clock into the stored rate limiter. *)
Theorem C37_tenant_limiter_refuted : exists e1 e2 c t, e_uuid e1 = e_uuid e2 /\ e_alive e1 = e_alive e2 /\ e_order e1 = e_order e2 /\
  diverges (two e1 e2 [CCreateTenant c t]).
Proof.
  exists env0, (EN 1 (fun _ => true) 7 (fun _ l => l)), w_c, w_limited. do 3 (split; [reflexivity|]). split; [hist|split; [hist|vm_compute; discriminate]].
Qed.
Print Assumptions C37_tenant_limiter_refuted.
(** A limiter request: with clocks apart, the replicas also keep different balances. *)
Theorem C37_limiter_request_refuted : exists e e' c t k n, let h := [(e, e, CCreateTenant c t); (e, e', CLimiter c (t_name t) k n)] in
  diverges h /\ replies st0 (first_replica h) <> replies st0 (second_replica h).
Proof.
  exists env0, (EN 2500000000 (fun _ => true) 7 (fun _ l => l)), w_c, w_limited, w_r, 100. cbv zeta.
  split; [split; [hist|split; [hist|vm_compute; discriminate]]|vm_compute; discriminate].
Qed.
Print Assumptions C37_limiter_request_refuted.
(** CREATE of a bucket: a node one replica cannot reach makes that replica refuse what the others do. *)
Theorem C37_bucket_reachability_refuted : exists e1 e2 xs, e_now e1 = e_now e2 /\ e_uuid e1 = e_uuid e2 /\ e_order e1 = e_order e2 /\
  diverges (two e1 e2 xs) /\ replies st0 (first_replica (two e1 e2 xs)) <> replies st0 (second_replica (two e1 e2 xs)).
Proof.
  exists env0, (EN 0 (fun n => (n =? 9)%N) 7 (fun _ l => l)), w_setup. do 3 (split; [reflexivity|]).
  split; [split; [hist|split; [hist|vm_compute; discriminate]]|vm_compute; discriminate].
Qed.
Print Assumptions C37_bucket_reachability_refuted.
(** ... and two nodes with equal free space are taken in the order of a hash map. *)
Theorem C37_bucket_ties_refuted : exists e1 e2 xs, e_now e1 = e_now e2 /\ e_uuid e1 = e_uuid e2 /\ e_alive e1 = e_alive e2 /\ diverges (two e1 e2 xs).
Proof.
  exists env0, env1, (CAddNode w_c w_node1 :: CMetrics w_c (ME 1 true 60 0) :: skipn 2 w_setup). do 3 (split; [reflexivity|]).
  split; [hist|split; [hist|vm_compute; discriminate]].
Qed.
Print Assumptions C37_bucket_ties_refuted.
(** Even with equal data, the change logs differ: the same version stands for different changes, so a watcher that moves to
    another server by version number can miss one. *)
Theorem C37_change_log_refuted : exists e1 e2 xs v k1 k2, let h := two e1 e2 xs in
  history (first_replica h) /\ agree_all st0 h /\ k1 <> k2 /\
  In (v, true, k1) (s_log (run st0 (first_replica h))) /\ In (v, true, k2) (s_log (run st0 (second_replica h))) /\
  ~ In (v, true, k1) (s_log (run st0 (second_replica h))).
Proof.
  exists env0, env1, [CCreateUser w_c w_alice; CCreateUser w_c w_bob; CCreateTenant w_c w_tenant;
    CAddMember w_c 11 (RSystem PrivilegeModel.Owner) w_t; CAddMember w_c 12 (RSystem PrivilegeModel.Owner) w_t; CDropTenant w_c w_t],
    7, (k_member w_c w_t 11), (k_member w_c w_t 12).
  cbv zeta. split; [hist|]. split.
  - repeat (split; [intros i l; cbn; symmetry; apply Permutation_rev|split; [cbn; intros _; reflexivity|]]). exact I.
  - split; [vm_compute; discriminate|]. split; [vm_compute; auto 10|]. split; [vm_compute; auto 10|].
    vm_compute. intros Hin. repeat (destruct Hin as [Hin|Hin]; [discriminate Hin|]). exact Hin.
Qed.
Print Assumptions C37_change_log_refuted.

(** * The hypotheses are met *)
Example meta_history : history (seen_by env0 w_setup).
Proof. hist. Qed.
Example meta_setup_done : Forall (fun r => r = Done) (replies st0 (seen_by env0 w_setup)).
Proof. vm_compute. repeat constructor. Qed.
(** A database with a table and a bucket is there before the drop. *)
Example C36_database_present : ~ no_trace w_state (k_db w_c w_t w_d).
Proof. intro N. unfold no_trace in N. destruct (N (k_db w_c w_t w_d) (VDb w_db)) as [A _]; [vm_compute; auto 20|]. now apply A. Qed.
Example C36_recreated_database_case : let h := seen_by env0 w_setup ++ (env0, CDropDb w_c w_t (d_name w_db)) :: [(env0, CAddNode w_c w_node1)] in
  history h /\ snd (step env0 (run st0 h) (CCreateDb w_c w_t w_db)) = Done.
Proof. cbv zeta. split; [hist|vm_compute; reflexivity]. Qed.
Example C36_recreated_user_case : let h := seen_by env0 (w_setup ++ [CDropUser w_c (u_name w_alice)]) in let u := US 13 (u_name w_alice) [] false in
  history h /\ (forall ex, In ex h -> ~ member_ids (snd ex) (u_id u)) /\ snd (step env0 (run st0 h) (CCreateUser w_c u)) = Done.
Proof.
  cbv zeta. split; [hist|]. split; [|vm_compute; reflexivity]. intros ex I. cbn in I. repeat (destruct I as [<-|I]; [cbn; try tauto; discriminate|]). destruct I.
Qed.
Example C36_recreated_tenant_case : exists td, tenant_meta env0 (fst (step env0 (run st0 (seen_by env0 w_setup ++ sql_drop_tenant env0 w_c w_t [w_d])) (CCreateTenant w_c w_tenant))) w_c w_t = Some td /\ td_dbs td = [].
Proof. eexists. split; vm_compute; reflexivity. Qed.
(** Replicas that iterate in opposite orders, with the whole set-up and a dropped tenant. *)
Example C37_replicas_case : let h := two env0 env1 (w_setup ++ [CDropUser w_c (u_name w_alice); CMoveQuery w_c 1 2; CDropTenant w_c w_t]) in
  history (first_replica h) /\ agree_all st0 h.
Proof.
  cbv zeta. split; [hist|].
  assert (E : env_ok env1) by (intros i l; cbn; symmetry; apply Permutation_rev).
  assert (T : forall s, s_map s = s_map (run st0 (seen_by env0 (firstn 9 w_setup))) -> no_ties s w_c).
  { intros s Hs i1 m1 i2 m2 I1 I2 F. rewrite Hs in I1, I2. enough (K : k_metric w_c i1 = k_metric w_c i2).
    { apply path_inj in K; [injection K as K; now apply show_inj|..]; repeat (apply Forall_cons; [first [apply show_ok|nok]|]); apply Forall_nil. }
    remember (k_metric w_c i1) as k1 eqn:X1. remember (k_metric w_c i2) as k2 eqn:X2. clear X1 X2. vm_compute in I1, I2.
    repeat (destruct I1 as [I1|I1]; [try discriminate I1|]); try contradiction;
    repeat (destruct I2 as [I2|I2]; [try discriminate I2|]); try contradiction;
    injection I1 as <- <-; injection I2 as <- <-; try discriminate F; reflexivity. }
  cbn [two w_setup map app agree_all].
  do 9 (split; [exact E|split; [cbn; auto|]]).
  split; [exact E|split; [cbn; split; [reflexivity|split; [reflexivity|apply T; vm_compute; reflexivity]]|]].
  do 6 (split; [exact E|split; [cbn; auto|]]). exact I.
Qed.
