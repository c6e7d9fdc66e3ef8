(** C35: privileges.  Model: PrivilegeModel.v; specification: PrivilegeSpec.v (privileges as sets of elementary actions). *)
From Verif Require Import Prelude PrivilegeModel PrivilegeSpec PrivilegeProofs.

(** A privilege passes the check for another exactly when it allows everything the other allows. *)
Theorem C35_check_exact : forall p q, check p q = true <-> (forall a, allows q a -> allows p a).
Proof. exact check_spec. Qed.
Print Assumptions C35_check_exact.

(** Hence the check is an order: reflexive, transitive, antisymmetric. *)
Theorem C35_order : (forall p, check p p = true) /\
  (forall p q r, check p q = true -> check q r = true -> check p r = true) /\
  (forall p q, check p q = true -> check q p = true -> p = q).
Proof.
  split; [|split].
  - intros p. apply check_spec; auto.
  - intros p q r H G. rewrite check_spec in *. auto.
  - intros p q. destruct p as [[|[]|[]]|[| | |[] []] []], q as [[|[]|[]]|[| | |[] []] []]; cbn; intros H G;
      repeat match goal with
      | X : _ && _ = true |- _ => apply andb_true_iff in X; destruct X
      | X : (_ =? _) = true |- _ => apply Z.eqb_eq in X; subst
      end; try discriminate; auto.
Qed.
Print Assumptions C35_order.

(** A user who passes the check for a privilege passes it for every weaker one, and so does every user holding at least as
    much; more privileges never cost access. *)
Theorem C35_stronger_authorises : forall u p q, user_check u p = true -> check p q = true -> user_check u q = true.
Proof.
  unfold user_check. intros u p q H G. rewrite existsb_exists in *. destruct H as (e&I&C). exists e. split; auto.
  destruct C35_order as (_&T&_). eauto.
Qed.
Print Assumptions C35_stronger_authorises.

Theorem C35_more_privileges : forall id ps ps' q, (forall p, In p ps -> exists p', In p' ps' /\ check p' p = true) ->
  user_check (new_user id ps) q = true -> user_check (new_user id ps') q = true.
Proof.
  unfold user_check. cbn [new_user u_privs]. intros id ps ps' q H G. rewrite existsb_exists in *. destruct G as (e&[<-|I]&C).
  - exists (Global (GUser (Some id))). split; cbn; auto.
  - destruct (H e I) as (p'&I'&C'). exists p'. split; [cbn; auto|]. destruct C35_order as (_&T&_). eauto.
Qed.
Print Assumptions C35_more_privileges.

(** For every elementary action some privilege is the test for it: the check on it succeeds exactly for the users who may
    perform the action. *)
Theorem C35_action_test : forall a, exists p, forall u, user_check u p = true <-> may u a.
Proof. intros a. exists (needed a). intros u. apply user_needed. Qed.
Print Assumptions C35_action_test.

(** A statement is let through exactly when the user may do, for each required privilege, all it stands for with a single
    privilege held. *)
Theorem C35_statement : forall u ps, plan_check u ps = true <->
  (forall q, In q ps -> exists p, In p (u_privs u) /\ forall a, allows q a -> allows p a).
Proof.
  intros u ps. unfold plan_check, user_check. rewrite forallb_forall. split; intros H q I; specialize (H q I).
  - apply existsb_exists in H. destruct H as (p&I'&C). exists p. split; auto. apply check_spec; auto.
  - destruct H as (p&I'&C). apply existsb_exists. exists p. split; auto. apply check_spec; auto.
Qed.
Print Assumptions C35_statement.

(** An administrator passes every check. *)
Theorem C35_dba_all : forall id q, user_check (new_user id (user_role_privileges Dba)) q = true.
Proof. intros id [[|[]|[]]|[| | |[] []] []]; auto; cbn; rewrite !orb_true_r; auto. Qed.
Print Assumptions C35_dba_all.

(** A role in one tenant gives no access to another tenant, to other users or to the instance. *)
Theorem C35_tenant_isolation : forall id t r a, may (new_user id (tenant_role_privileges r t)) a ->
  about_tenant a = Some t \/ a = ManageUser id.
Proof.
  intros id t r a (p&[<-|I]&A).
  - destruct a; cbn in A; try contradiction. subst. auto.
  - left. destruct r as [[]|c]; cbn in I.
    + repeat destruct I as [<-|I]; try contradiction; destruct a; cbn in A; try contradiction; subst; auto.
      destruct A as (_&_&->); auto.
    + repeat destruct I as [<-|I]; try contradiction; destruct a; cbn in A; try contradiction; subst; auto.
      destruct A as (_&_&->); auto.
    + unfold custom_privileges in I. apply in_app_or in I. destruct I as [I|I].
      * destruct (c_sys c) as [[]|]; cbn in I; try contradiction;
        repeat destruct I as [<-|I]; try contradiction; destruct a; cbn in A; try contradiction; subst; auto;
        destruct A as (_&_&->); auto.
      * apply in_map_iff in I. destruct I as (e&<-&_). destruct a; cbn in A; try contradiction. destruct A as (_&_&->); auto.
Qed.
Print Assumptions C35_tenant_isolation.

(** Granting gives what was granted: after a successful GRANT whose list names each database once, every listed access is
    there. *)
Theorem C35_grant_gives : forall dbs l r r' t p db lv, NoDup (map fst (c_add r)) -> NoDup (map snd l) ->
  process_grant dbs l r = Some r' -> In (p, db) l -> db_allows p lv -> role_may r' t (OnDatabase lv t db).
Proof.
  intros dbs l r r' t p db lv W ND E I A. apply role_may_split; [eapply wf_process_grant; eauto|]. right. exists lv, db.
  split; auto. exists p. split; auto. rewrite (process_grant_get _ _ _ _ E).
  destruct (find _ (rev l)) as [[q d]|] eqn:F.
  - apply find_some in F. destruct F as (F1&F2). cbn in F2. apply Z.eqb_eq in F2. subst d. apply in_rev in F1. cbn.
    clear - ND F1 I. induction l as [|[q' d'] l IH]; [contradiction|]. inversion ND as [|? ? NI ND']; subst.
    destruct I as [I|I], F1 as [F1|F1]; auto.
    + congruence.
    + exfalso. apply NI. injection I as -> ->. apply in_map_iff. exists (q, db); auto.
    + exfalso. apply NI. injection F1 as -> ->. apply in_map_iff. exists (p, db); auto.
  - exfalso. apply in_rev in I. pose proof (find_none _ _ F _ I) as X. cbn in X. rewrite Z.eqb_refl in X. discriminate.
Qed.
Print Assumptions C35_grant_gives.

(** Full property: a GRANT never removes access.  Proved when every listed privilege is at least the one the role already
    holds on that database by earlier grants (a GRANT replaces that privilege). *)
Theorem C35_grant_monotone_partial : forall dbs l r t a, NoDup (map fst (c_add r)) ->
  (forall p db q, In (p, db) l -> m_get (c_add r) db = Some q -> forall lv, db_allows q lv -> db_allows p lv) ->
  role_may r t a -> role_may (run r (Grant dbs l)) t a.
Proof.
  intros dbs l r t a W HL H. unfold run. destruct (process_grant dbs l r) as [r'|] eqn:E; auto.
  apply role_may_split; [eapply wf_process_grant; eauto|]. rewrite (grant_sys _ _ _ _ E). apply role_may_split in H; auto.
  destruct H as [H|(lv&db&->&q&G&A)]; auto. right. exists lv, db. split; auto. rewrite (process_grant_get _ _ _ _ E).
  destruct (find _ (rev l)) as [[p d]|] eqn:F; [|exists q; auto]. apply find_some in F. destruct F as (F1&F2). cbn in *.
  apply Z.eqb_eq in F2; subst d. exists p. split; auto. eapply HL; eauto. apply in_rev; auto.
Qed.
Print Assumptions C35_grant_monotone_partial.

(** Without that: GRANT READ after GRANT ALL takes the write access away. *)
Theorem C35_grant_monotone_refuted : exists r l a t, NoDup (map fst (c_add r)) /\ role_may r t a /\
  ~ role_may (run r (Grant (fun _ => true) l)) t a.
Proof.
  exists (run (Custom None []) (Grant (fun _ => true) [(PFull, 7)])), [(PRead, 7)], (OnDatabase WriteData 1 7), 1.
  split; [cbn; repeat constructor; intros []|]. split.
  - exists (TenantObject (TDatabase PFull (Some 7)) (Some 1)). cbn; auto.
  - intros (p&I&A). cbn in I. destruct I as [<-|[]]. cbn in A. tauto.
Qed.
Print Assumptions C35_grant_monotone_refuted.

(** A REVOKE, successful or refused, never adds access, and a successful one removes what the role held by grants on the
    listed databases. *)
Theorem C35_revoke_never_adds : forall l r t a, NoDup (map fst (c_add r)) -> role_may (run r (Revoke l)) t a -> role_may r t a.
Proof.
  intros l r t a W H. destruct (run_grant_upper r t (Revoke l) a W H) as [X|(?&?&?&?&?&X&_)]; auto. discriminate.
Qed.
Print Assumptions C35_revoke_never_adds.

Theorem C35_revoke_removes : forall l r r' t lv p db, NoDup (map fst (c_add r)) -> c_sys r = None ->
  process_revoke l r = Some r' -> In (p, db) l -> ~ role_may r' t (OnDatabase lv t db).
Proof.
  intros l r r' t lv p db W S E I H. apply role_may_split in H; [|eapply wf_process_revoke; eauto].
  rewrite (revoke_sys _ _ _ E), S in H. destruct H as [[]|(lv'&db'&[= <- <-]&q&G&A)].
  rewrite (process_revoke_get _ _ _ E) in G. replace (existsb _ l) with true in G; [discriminate|].
  symmetry. apply existsb_exists. exists (p, db). cbn. rewrite Z.eqb_refl. auto.
Qed.
Print Assumptions C35_revoke_removes.

(** Over any history of GRANTs and REVOKEs, the role gives nothing beyond what it gave at creation and what some GRANT of
    the history listed. *)
Theorem C35_history_upper : forall h r t a, NoDup (map fst (c_add r)) -> role_may (fold_left run h r) t a ->
  role_may r t a \/
  exists dbs l p db lv, In (Grant dbs l) h /\ In (p, db) l /\ a = OnDatabase lv t db /\ db_allows p lv.
Proof.
  induction h as [|s h IH]; cbn [fold_left]; intros r t a W H; auto.
  apply IH in H; [|apply wf_run; auto]. destruct H as [H|(dbs&l&p&db&lv&I&R)].
  - apply run_grant_upper in H; auto. destruct H as [H|(dbs&l&p&db&lv&->&R)]; auto. right. exists dbs, l, p, db, lv. cbn. tauto.
  - right. exists dbs, l, p, db, lv. cbn. tauto.
Qed.
Print Assumptions C35_history_upper.

(** The privileges of a member are those of the role assigned, when no role of the tenant is named like the user's id. *)
Theorem C35_member_role_partial : forall show cache remote t uid name r, cache (show uid) = None -> remote name = Some r ->
  member_privileges show cache remote t uid name = custom_privileges r t.
Proof. intros * H G. unfold member_privileges. rewrite H, G. auto. Qed.
Print Assumptions C35_member_role_partial.

(** A role whose name is the decimal user id replaces the assigned role: a member given a read-only role obtains the
    privileges of that other role. *)
Theorem C35_member_role_refuted : exists show cache remote t uid name r, remote name = Some r /\ cache name = Some r /\
  ~ role_may r t (OnDatabase WriteData t 7) /\
  may (new_user uid (member_privileges show cache remote t uid name)) (OnDatabase WriteData t 7).
Proof.
  set (tab := fun n => if n =? 55 then Some (Custom (Some Owner) []) else if n =? 1 then Some (Custom (Some Member) []) else None).
  exists (fun u => u), tab, tab, 3, 55, 1, (Custom (Some Member) []).
  split; auto. split; auto. split.
  - intros (p&I&A). cbn in I. destruct I as [<-|[]]. cbn in A. tauto.
  - exists (TenantObject (TDatabase PFull None) (Some 3)). cbn. tauto.
Qed.
Print Assumptions C35_member_role_refuted.

(** Non-vacuity: a role with grants on two databases, one revoked, one refused revoke; owner and member checks. *)
Example C35_case :
  let r := fold_left run [Grant (fun d => d <? 10) [(PWrite, 1); (PRead, 2)]; Grant (fun d => d <? 10) [(PFull, 3); (PFull, 11)];
                          Revoke [(PFull, 1)]; Revoke [(PRead, 2)]] (Custom (Some Member) []) in
  let u := new_user 9 (custom_privileges r 4) in
  (c_add r, map (user_check u) [TenantObject (TDatabase PWrite (Some 1)) (Some 4); TenantObject (TDatabase PFull (Some 1)) (Some 4);
     TenantObject (TDatabase PRead (Some 2)) (Some 4); TenantObject (TDatabase PWrite (Some 2)) (Some 4);
     TenantObject (TDatabase PWrite (Some 1)) (Some 5); Global (GUser (Some 9)); Global (GUser None)])
  = ([(1, PWrite)], [true; false; true; false; false; true; false]).
Proof. vm_compute. reflexivity. Qed.
