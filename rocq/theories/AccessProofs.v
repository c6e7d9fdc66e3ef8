From Verif Require Import Prelude PrivilegeModel PrivilegeSpec PrivilegeProofs AccessModel AccessSpec.

Lemma user_check_may : forall u q a, user_check u q = true -> allows q a -> may u a.
Proof.
  intros u q a H A. unfold user_check in H. apply existsb_exists in H. destruct H as (p&I&C). exists p. split; auto.
  exact (proj1 (check_spec p q) C a A).
Qed.
Lemma read_may : forall s t d, user_check (s_user s) (TenantObject (TDatabase PRead (Some d)) (Some t)) = true <-> may (s_user s) (OnDatabase ReadData t d).
Proof. intros. exact (user_needed (s_user s) (OnDatabase ReadData t d)). Qed.
Lemma write_may : forall s t d, user_check (s_user s) (TenantObject (TDatabase PWrite (Some d)) (Some t)) = true <-> may (s_user s) (OnDatabase WriteData t d).
Proof. intros. exact (user_needed (s_user s) (OnDatabase WriteData t d)). Qed.
Lemma full_may : forall s t d, user_check (s_user s) (TenantObject (TDatabase PFull (Some d)) (Some t)) = true <-> may (s_user s) (OnDatabase AdminData t d).
Proof. intros. exact (user_needed (s_user s) (OnDatabase AdminData t d)). Qed.

Lemma dba_check : forall id p, user_check (new_user id (user_role_privileges Dba)) p = true.
Proof.
  intros id p. unfold user_check. apply existsb_exists.
  assert (exists e, In e (user_role_privileges Dba) /\ check e p = true) as (e&I&C).
  { destruct p as [[|u|t]|[| | |q d] t]; cbn [user_role_privileges].
    - exists (Global GSystem). split; [left; auto|auto].
    - exists (Global (GUser None)). split; [do 2 right; left; auto|auto].
    - exists (Global (GTenant None)). split; [right; left; auto|auto].
    - exists (TenantObject TSystem None). split; [do 3 right; left; auto|auto].
    - exists (TenantObject TMember None). split; [do 4 right; left; auto|auto].
    - exists (TenantObject TRole None). split; [do 5 right; left; auto|auto].
    - exists (TenantObject (TDatabase PFull None) None). split; [do 6 right; left; auto|destruct q; auto]. }
  exists e. split; auto. unfold new_user. cbn [u_privs]. right. auto.
Qed.

Lemma admin_check : forall c s p, session_ok c s -> s_admin s = true -> user_check (s_user s) p = true.
Proof. intros c s p (_&id&r&E) A. rewrite E, A. apply dba_check. Qed.

Lemma role_no_user : forall r t u, existsb (fun e => check e (Global (GUser u))) (tenant_role_privileges r t) = false.
Proof.
  assert (S : forall x t u, existsb (fun e => check e (Global (GUser u))) (sys_privileges x t) = false).
  { intros [] t u; auto. }
  intros [x|x] t u; cbn [tenant_role_privileges]; auto.
  unfold custom_privileges. rewrite existsb_app, (proj2 (orb_false_iff _ _)); auto. split.
  - destruct (c_sys x); auto.
  - induction (c_add x) as [|e m IH]; auto.
Qed.
Lemma all_users_admin : forall c s, session_ok c s -> user_check (s_user s) (Global (GUser None)) = true -> may (s_user s) MaintainInstance.
Proof.
  intros c s (T&id&r&E) H. rewrite E in *. destruct (s_admin s).
  - eapply (user_check_may _ (Global GSystem)); [apply dba_check|cbn; auto].
  - unfold user_check, new_user in H. cbn [u_privs existsb] in H. rewrite role_no_user in H. cbn in H. discriminate.
Qed.

(** * Tables of a query *)
Lemma push_in : forall acc d x, In x (push_db acc d) <-> x = d \/ In x acc.
Proof.
  intros acc d x. unfold push_db. destruct (existsb (Z.eqb d) acc) eqn:E; cbn; [|intuition].
  apply existsb_exists in E. destruct E as (y&I&E). apply Z.eqb_eq in E. subst. intuition. subst. auto.
Qed.
Lemma source_spec : forall s n acc r acc', get_table_source s n acc = Some (r, acc') ->
  resolve_object s n = Some r /\ t_tenant r = s_tenant s /\ acc' = push_db acc (t_db r).
Proof.
  unfold get_table_source. intros s n acc r acc' H. destruct (resolve_object s n); try discriminate.
  destruct (Z.eqb_spec (s_tenant s) (t_tenant r0)); try discriminate. injection H as <- <-. auto.
Qed.
Lemma plan_query_spec : forall s q acc ts acc', plan_query s q acc = Some (ts, acc') ->
  (forall t, In t ts -> t_tenant t = s_tenant s /\ exists n, In n q /\ resolve_object s n = Some t) /\
  (forall d, In d acc' <-> In d acc \/ exists t, In t ts /\ t_db t = d).
Proof.
  induction q as [|n q IH]; cbn [plan_query]; intros acc ts acc' H.
  - injection H as <- <-. split; [intros t []|]. intros d. split; auto. intros [|(t&[]&_)]; auto.
  - destruct (get_table_source s n acc) as [[r a]|] eqn:E; try discriminate.
    destruct (plan_query s q a) as [[rs a']|] eqn:E2; try discriminate. injection H as <- <-.
    apply source_spec in E. destruct E as (R&T&->). apply IH in E2. destruct E2 as (A&B). split.
    + intros t [<-|I]; [split; auto; exists n; split; [left; auto|auto]|].
      destruct (A t I) as (X&m&Y&W). split; auto. exists m. split; [right; auto|auto].
    + intros d. rewrite B, push_in. split.
      * intros [[->|I]|(t&I&<-)]; auto; right; [exists r|exists t]; split; cbn; auto.
      * intros [I|(t&[<-|I]&<-)]; auto. right. exists t; auto.
Qed.

Lemma check_dbs : forall s p acc, plan_check (s_user s) (databases_privileges p (s_tid s) acc) = true <->
  forall d, In d acc -> user_check (s_user s) (TenantObject (TDatabase p (Some d)) (Some (s_tid s))) = true.
Proof.
  intros. unfold plan_check, databases_privileges. rewrite forallb_forall. split.
  - intros H d I. apply H. apply in_map_iff. exists d; auto.
  - intros H x I. apply in_map_iff in I. destruct I as (d&<-&I). auto.
Qed.
Lemma check_app : forall u a b, plan_check u (a ++ b) = plan_check u a && plan_check u b.
Proof. intros. apply forallb_app. Qed.
Lemma check_one : forall u p, plan_check u [p] = user_check u p.
Proof. intros. cbn. apply andb_true_r. Qed.
Lemma may_write_read : forall u t d, may u (OnDatabase WriteData t d) -> may u (OnDatabase ReadData t d).
Proof.
  intros u t d (p&I&A). exists p. split; auto. destruct p as [[]|[| | |[]] ]; cbn in *; tauto.
Qed.
Lemma may_full_read : forall u t d, may u (OnDatabase AdminData t d) -> may u (OnDatabase ReadData t d).
Proof.
  intros u t d (p&I&A). exists p. split; auto. destruct p as [[]|[| | |[]] ]; cbn in *; tauto.
Qed.

(** * Views *)
Lemma view_permitted : forall c s v, session_ok c s -> Forall (permitted s) (view_effects c s v).
Proof.
  intros c s v K. unfold view_effects. destruct (_ || _).
  - apply Forall_forall. intros e H. apply in_map_iff in H. destruct H as (d&<-&I). apply filter_In in I. destruct I as (_&I).
    cbn. apply read_may. auto.
  - destruct (v =? V_QUERIES).
    + apply Forall_forall. intros e H. apply in_map_iff in H. destruct H as (q&<-&I). unfold visible_queries in I. cbn.
      destruct (s_admin s) eqn:A.
      * right. eapply (user_check_may _ (TenantObject TSystem None)); [eapply admin_check; eauto|cbn; auto].
      * cbv zeta in I. destruct (can_system s (s_tid s)) eqn:S.
        -- apply filter_In in I. destruct I as (_&I). apply Z.eqb_eq in I. right. rewrite I.
           eapply user_check_may; [exact S|cbn; auto].
        -- apply filter_In in I. destruct I as (_&I). apply Z.eqb_eq in I. auto.
    + destruct (v =? V_MEMBERS); [constructor; cbn; auto|].
      assert (R : can_role s (s_tid s) = true -> may (s_user s) (TenantRoles (s_tid s))).
      { intros H. eapply user_check_may; [exact H|cbn; auto]. }
      destruct (v =? V_ROLES); [destruct (can_role s (s_tid s)); constructor; cbn; auto|].
      destruct (v =? V_PRIVILEGES); [destruct (can_role s (s_tid s)); constructor; cbn; auto|].
      destruct (v =? V_ENABLED); [constructor; cbn; auto|].
      destruct (v =? V_RESOURCES); [|constructor].
      apply Forall_forall. intros e H. apply in_flat_map in H. destruct H as ((t&[d|])&_&I); cbn [fst snd] in I.
      * destruct (can_read s t d) eqn:C; [|destruct I]. destruct I as [<-|[]]. cbn. apply read_may. auto.
      * destruct (s_admin s) eqn:A; [|destruct I]. destruct I as [<-|[]]. cbn.
        eapply (user_check_may _ (Global GSystem)); [eapply admin_check; eauto|cbn; auto].
Qed.

Lemma scan_permitted : forall c s t, session_ok c s -> t_tenant t = s_tenant s -> may (s_user s) (OnDatabase ReadData (s_tid s) (t_db t)) ->
  Forall (permitted s) (scan_effects c s t).
Proof.
  intros c s t K E M. unfold scan_effects. destruct (t_db t =? INFO); [apply view_permitted; auto|].
  destruct (_ && _).
  - destruct (s_admin s) eqn:A; constructor; auto. cbn.
    eapply (user_check_may _ (Global GSystem)); [eapply admin_check; eauto|cbn; auto].
  - rewrite E, (proj1 K). constructor; auto.
Qed.
Lemma info_permitted : forall c s v, session_ok c s -> Forall (permitted s) (scan_effects c s (Rtable (s_tenant s) INFO v)).
Proof. intros. unfold scan_effects. cbn [t_db]. rewrite Z.eqb_refl. apply view_permitted; auto. Qed.

Lemma flat_permitted : forall c s ts, (forall t, In t ts -> Forall (permitted s) (scan_effects c s t)) ->
  Forall (permitted s) (flat_map (scan_effects c s) ts).
Proof.
  intros c s ts H. apply Forall_forall. intros e I. apply in_flat_map in I. destruct I as (t&I&J).
  exact (proj1 (Forall_forall _ _) (H t I) e J).
Qed.

Lemma query_permitted : forall c s q acc ts acc', session_ok c s -> plan_query s q acc = Some (ts, acc') ->
  (forall d, In d acc' -> may (s_user s) (OnDatabase ReadData (s_tid s) d)) ->
  Forall (permitted s) (flat_map (scan_effects c s) ts).
Proof.
  intros c s q acc ts acc' K E H. apply plan_query_spec in E. destruct E as (A&B). apply flat_permitted. intros t I.
  apply scan_permitted; auto; [apply A; auto|]. apply H, B. right. exists t; auto.
Qed.
Lemma table_permitted : forall c s e t, session_ok c s -> t_tenant t = s_tenant s -> permitted s (e (s_tid s) (t_db t)) ->
  Forall (permitted s) (table_effect c e t).
Proof. intros c s e t K E P. unfold table_effect. rewrite E, (proj1 K). auto. Qed.
Lemma resolve_tenant : forall s n t, resolve_object s n = Some t -> t_tenant t = s_tenant s.
Proof. intros s [x|d x|k d x] t H; cbn in H; try discriminate; injection H as <-; auto. Qed.

Section Bcrypt.
Context (verify : Z -> Z -> bool) (empty : Z).
Notation alter := (alter_user_plan verify empty).
Notation to_plan := (statement_to_plan verify empty).
Notation create := (create_logical_plan verify empty).

Lemma alter_permitted : forall c s u op b p req, alter c s u op b = Some (p, req) -> plan_check (s_user s) req = true ->
  Forall (permitted s) (effects c s p).
Proof.
  unfold alter_user_plan. intros c s u op b p req H C. destruct (c_user c u) as [d|] eqn:E; try discriminate.
  destruct op as [n|o].
  - injection H as <- <-. constructor.
  - cbv zeta in H. destruct (_ && negb _); try discriminate. destruct (match d_hash d with Some _ => _ | None => _ end); try discriminate.
    destruct (_ && negb _); try discriminate.
    assert (forall p' req', Some (p', req') = Some (p, req) -> p' = p /\ req' = req) as J by (intros ? ? [= -> ->]; auto).
    destruct o; try (apply J in H; destruct H as (<-&<-)); try (destruct (d_root d); [discriminate|]; apply J in H; destruct H as (<-&<-));
      cbn [effects]; unfold user_id; rewrite E; constructor; auto; rewrite check_one in C; cbn; (eapply user_check_may; [exact C|cbn; auto]).
Qed.

Lemma to_plan_permitted : forall c s st auth p req, session_ok c s -> regular s st -> to_plan c s st auth = Some (p, req) ->
  plan_check (s_user s) req = true -> Forall (permitted s) (effects c s p).
Proof.
  intros c s st. induction st; intros auth p req K R H C; cbn [statement_to_plan] in H;
    (destruct (auth && s_must s); [try discriminate H; eapply alter_permitted; eauto|]).
  - destruct (plan_query s q []) as [[ts acc]|] eqn:E; try discriminate. injection H as <- <-.
    cbn [effects]. eapply query_permitted; eauto. intros d I. apply read_may. apply (proj1 (check_dbs s PRead acc) C). auto.
  - destruct (plan_query s source []) as [[ts acc]|] eqn:E; try discriminate.
    destruct (get_table_source s target []) as [[t a]|] eqn:E2; try discriminate. injection H as <- <-.
    rewrite check_app in C. apply andb_true_iff in C. destruct C as (C1&C2). apply source_spec in E2. destruct E2 as (_&T&->).
    cbn [effects]. apply Forall_app. split.
    + apply table_permitted; auto. cbn. apply write_may. apply (proj1 (check_dbs s PWrite _) C1). apply push_in; auto.
    + eapply query_permitted; eauto. intros d I. apply read_may. apply (proj1 (check_dbs s PRead acc) C2). auto.
  - destruct (get_table_source s _ []) as [[t a]|] eqn:E2; try discriminate.
    destruct (plan_query s subqueries a) as [[ts acc]|] eqn:E; try discriminate. injection H as <- <-.
    apply source_spec in E2. destruct E2 as (_&T&->). pose proof (proj1 (check_dbs s PWrite acc) C) as W.
    cbn [effects]. apply Forall_app. split.
    + apply table_permitted; auto. cbn. apply write_may, W. apply plan_query_spec in E. apply (proj2 E). left. apply push_in; auto.
    + eapply query_permitted; eauto. intros d I. apply may_write_read, write_may, W. auto.
  - destruct (get_table_source s table []) as [[t a]|] eqn:E2; try discriminate.
    destruct (resolve_object s table) as [r|] eqn:E; try discriminate. injection H as <- <-.
    cbn [effects]. apply table_permitted; auto; [eapply resolve_tenant; eauto|]. cbn. apply write_may. unfold on_db in C. rewrite check_one in C. auto.
  - destruct R.
  - destruct (to_plan c s st false) as [[[] req']|] eqn:E; try discriminate; injection H as <- <-; eapply (IHst false); eauto.
  - destruct (get_table_source s target []) as [[t a]|] eqn:E2; try discriminate. injection H as <- <-.
    apply source_spec in E2. destruct E2 as (_&T&->). cbn [effects flat_map]. rewrite app_nil_r.
    apply table_permitted; auto. cbn. apply write_may. unfold on_db in C. rewrite check_one in C. auto.
  - destruct (plan_query s source []) as [[ts acc]|] eqn:E; try discriminate. injection H as <- <-.
    cbn [effects]. eapply query_permitted; eauto. intros d I. apply read_may. apply (proj1 (check_dbs s PRead acc) C). auto.
  - cbv zeta in H. injection H as <- <-. cbn [effects]. unfold on_db in C. rewrite check_one in C. apply full_may in C.
    destruct n as [x|d x|k d x]; cbn in R; try contradiction; apply table_permitted; auto.
  - destruct (resolve_object s n) as [r|] eqn:E; try discriminate. injection H as <- <-.
    cbn [effects]. apply table_permitted; auto; [eapply resolve_tenant; eauto|]. cbn. apply full_may. unfold on_db in C. rewrite check_one in C. auto.
  - destruct (resolve_object s n) as [r|] eqn:E; try discriminate. injection H as <- <-.
    cbn [effects]. apply table_permitted; auto; [eapply resolve_tenant; eauto|]. cbn. apply full_may. unfold on_db in C. rewrite check_one in C. auto.
  - destruct (resolve_object s n) as [r|] eqn:E; try discriminate. injection H as <- <-.
    cbn [effects]. apply table_permitted; auto; [eapply resolve_tenant; eauto|]. cbn. apply full_may. unfold on_db in C. rewrite check_one in C. auto.
  - destruct (get_table_source s n []) as [[t a]|] eqn:E2; try discriminate. injection H as <- <-.
    apply source_spec in E2. destruct E2 as (_&T&->). cbn [effects]. apply table_permitted; auto. cbn. apply full_may.
    unfold on_db in C. rewrite check_one in C. auto.
  - destruct (resolve_object s n) as [r|] eqn:E; try discriminate. injection H as <- <-.
    cbn [effects flat_map]. rewrite app_nil_r. apply info_permitted; auto.
  - destruct (get_table_source s n []) as [[t a]|] eqn:E2; try discriminate.
    destruct (plan_query s subqueries a) as [[ts acc]|] eqn:E; try discriminate. injection H as <- <-.
    apply source_spec in E2. destruct E2 as (Q&T&->). unfold on_db in C. rewrite check_one in C. apply read_may in C.
    cbn [effects flat_map]. apply Forall_app. split; [apply scan_permitted; auto|].
    apply plan_query_spec in E. destruct E as (A&B). apply flat_permitted. intros x I. destruct (A x I) as (Tx&m&Im&Rm).
    apply scan_permitted; auto. destruct (R m Im) as (t'&r&X&Y&W). rewrite Q in X. injection X as <-. rewrite Rm in Y. injection Y as <-.
    rewrite W. auto.
  - injection H as <- <-. cbn [effects]. constructor; auto. cbn. intros x. rewrite check_one in C. eapply user_check_may; [exact C|cbn; auto].
  - injection H as <- <-. cbn [effects]. constructor; auto. cbn. apply full_may. unfold on_db in C. rewrite check_one in C. auto.
  - destruct (system_db _ _); try discriminate. injection H as <- <-. cbn [effects]. constructor; auto. cbn. apply full_may. unfold on_db in C. rewrite check_one in C. auto.
  - injection H as <- <-. cbn [effects]. constructor; auto. cbn. apply full_may. unfold on_db in C. rewrite check_one in C. auto.
  - injection H as <- <-. cbn [effects flat_map]. rewrite app_nil_r. apply info_permitted; auto.
  - injection H as <- <-. cbn [effects flat_map]. rewrite app_nil_r. apply info_permitted; auto.
  - injection H as <- <-. cbn [effects flat_map]. rewrite app_nil_r. apply info_permitted; auto.
  - injection H as <- <-. cbn [effects flat_map]. rewrite app_nil_r. apply info_permitted; auto.
  - injection H as <- <-. cbn [effects]. constructor; auto. cbn. intros x. rewrite check_one in C. eapply user_check_may; [exact C|cbn; auto].
  - destruct (t =? CNOSDB); try discriminate. injection H as <- <-. cbn [effects]. constructor; auto. cbn. intros x. rewrite check_one in C. eapply user_check_may; [exact C|cbn; auto].
  - injection H as <- <-. cbn [effects]. constructor; auto. cbn. intros x. rewrite check_one in C. eapply user_check_may; [exact C|cbn; auto].
  - destruct (c_tenant c t) as [tid|] eqn:E; try discriminate.
    destruct op; try (destruct (t =? CNOSDB); [discriminate|]); injection H as <- <-; cbn [effects]; rewrite E; constructor; auto; cbn;
      rewrite check_one in C; (eapply user_check_may; [exact C|cbn; auto]).
  - injection H as <- <-. rewrite check_one in C. cbn [effects]. constructor.
    + cbn. intros x. eapply user_check_may; [exact C|cbn; auto].
    + destruct admin; constructor; auto. cbn. eapply all_users_admin; eauto.
  - injection H as <- <-. cbn [effects]. destruct (u =? ROOT); constructor; auto. cbn. intros x. rewrite check_one in C. eapply user_check_may; [exact C|cbn; auto].
  - eapply alter_permitted; eauto.
  - destruct (system_role r); try discriminate. injection H as <- <-. cbn [effects]. constructor; auto. cbn. rewrite check_one in C. eapply user_check_may; [exact C|cbn; auto].
  - destruct (system_role r); try discriminate. injection H as <- <-. cbn [effects]. constructor; auto. cbn. rewrite check_one in C. eapply user_check_may; [exact C|cbn; auto].
  - destruct (system_role r); try discriminate. injection H as <- <-. cbn [effects]. constructor; auto. cbn. rewrite check_one in C. eapply user_check_may; [exact C|cbn; auto].
  - injection H as <- <-. cbn [effects]. constructor; auto. cbn. rewrite check_one in C. eapply user_check_may; [exact C|cbn; auto].
Qed.

Lemma serve_permitted : forall c s r es, session_ok c s -> regular_request s r -> serve verify empty c s r = Some es ->
  Forall (permitted s) es.
Proof.
  intros c s r es K R H. destruct r as [st|d|d|t]; cbn in R; try contradiction; cbn [serve] in H.
  - unfold create_logical_plan in H. destruct (to_plan c s st (s_auth s)) as [[p req]|] eqn:E; try discriminate.
    destruct (plan_check (s_user s) req) eqn:C; try discriminate. injection H as <-. eapply to_plan_permitted; eauto.
  - destruct (_ && _); try discriminate. destruct (user_check _ _) eqn:C; try discriminate. injection H as <-.
    constructor; auto. cbn. apply write_may. auto.
Qed.
End Bcrypt.

(** * A member stays in the tenant *)
Lemma role_tenant : forall r t id a, may (new_user id (tenant_role_privileges r t)) a ->
  a = ManageUser id \/ about_tenant a = Some t.
Proof.
  assert (S : forall x t p a, In p (sys_privileges x t) -> allows p a -> about_tenant a = Some t).
  { intros [] t p a I A; cbn in I; repeat (destruct I as [<-|I]; [destruct a; cbn in *; try contradiction; intuition (subst; auto)|]); contradiction. }
  intros r t id a (p&I&A). unfold new_user in I. cbn [u_privs] in I. destruct I as [<-|I].
  - destruct a; cbn in A; try contradiction. subst. auto.
  - right. destruct r as [x|x]; cbn [tenant_role_privileges] in I; [eapply S; eauto|].
    unfold custom_privileges in I. apply in_app_iff in I. destruct I as [I|I].
    + destruct (c_sys x); [eapply S; eauto|destruct I].
    + apply in_map_iff in I. destruct I as (e&<-&_). destruct a; cbn in A; try contradiction. destruct A as (_&_&->). auto.
Qed.
Lemma member_effects : forall c s e, session_ok c s -> s_admin s = false -> permitted s e ->
  (forall t, touches e = Some t -> t = s_tid s) /\ ~ global_effect s e.
Proof.
  intros c s e (_&id&r&E) A P. rewrite A in E.
  assert (M : forall a, may (s_user s) a -> a = ManageUser id \/ about_tenant a = Some (s_tid s)).
  { intros a H. rewrite E in H. apply (role_tenant r); auto. }
  assert (U : u_id (s_user s) = id) by (rewrite E; auto).
  destruct e; cbn [permitted] in P; cbv zeta in P; cbn [touches global_effect];
    try (split; [intros x [= <-]|tauto]); try (split; [discriminate|]); try tauto;
    try (apply M in P; destruct P as [P|P]; [discriminate P|injection P; auto; fail]);
    try (apply M in P; destruct P as [P|P]; [discriminate P|discriminate P]); auto.
  - specialize (P 0). apply M in P. destruct P as [P|P]; [discriminate|injection P; auto].
  - intros N. rewrite U in N. apply M in P. destruct P as [P|P]; [injection P; auto|discriminate].
  - intros _. pose proof (P (id + 1)) as Q. apply M in Q. destruct Q as [Q|Q]; [injection Q; lia|discriminate].
  - intros _. pose proof (P (id + 1)) as Q. apply M in Q. destruct Q as [Q|Q]; [injection Q; lia|discriminate].
  - intros _. pose proof (P (s_tid s + 1)) as Q. apply M in Q. destruct Q as [Q|Q]; [discriminate|cbn in Q; injection Q; lia].
  - intros _. pose proof (P (s_tid s + 1)) as Q. apply M in Q. destruct Q as [Q|Q]; [discriminate|cbn in Q; injection Q; lia].
Qed.

(** * Nothing permitted is refused *)
Lemma admin_query : forall s q acc, plan_query (as_admin s) q acc = plan_query s q acc.
Proof.
  intros s. induction q as [|n q IH]; intros acc; cbn [plan_query]; auto.
  change (get_table_source (as_admin s) n acc) with (get_table_source s n acc). destruct (get_table_source s n acc) as [[]|]; auto.
  rewrite IH. auto.
Qed.
Section Exact.
Context (verify : Z -> Z -> bool) (empty : Z).
Lemma admin_plan : forall c s st auth, statement_to_plan verify empty c (as_admin s) st auth = statement_to_plan verify empty c s st auth.
Proof.
  intros c s. induction st; intros auth; cbn [statement_to_plan]; change (s_must (as_admin s)) with (s_must s);
    destruct (auth && s_must s); auto; rewrite ?admin_query; auto.
  - match goal with |- context [get_table_source (as_admin s) ?x []] => change (get_table_source (as_admin s) x []) with (get_table_source s x []) end.
    destruct (get_table_source s _ []) as [[]|]; auto. rewrite admin_query. auto.
  - rewrite IHst. auto.
  - match goal with |- context [get_table_source (as_admin s) ?x []] => change (get_table_source (as_admin s) x []) with (get_table_source s x []) end.
    destruct (get_table_source s _ []) as [[]|]; auto. rewrite admin_query. auto.
Qed.
Lemma admin_create : forall c s st p, create_logical_plan verify empty c (as_admin s) st = Some p <->
  exists req, statement_to_plan verify empty c s st (s_auth s) = Some (p, req).
Proof.
  intros c s st p. unfold create_logical_plan. change (s_auth (as_admin s)) with (s_auth s). rewrite admin_plan.
  destruct (statement_to_plan verify empty c s st (s_auth s)) as [[q req]|].
  - assert (plan_check (s_user (as_admin s)) req = true) as ->.
    { apply forallb_forall. intros x _. apply dba_check. }
    split; [intros [= ->]; eauto|intros (r&[= -> ->]); auto].
  - split; [discriminate|intros (r&H); discriminate].
Qed.

Lemma direct_regular : forall c s st, direct c s st -> regular s st.
Proof. intros c s [] H; cbn in *; auto; try contradiction. destruct subqueries; [|contradiction]. intros m []. Qed.

Lemma ordinary_resolve : forall s n, ordinary s n -> exists t, resolve_object s n = Some t /\ t_tenant t = s_tenant s /\ t_db t <> INFO /\ t_db t <> CLUSTER.
Proof. intros s [t|d t|c d t] H; cbn in H; try contradiction; eexists; (split; [reflexivity|]); cbn; tauto. Qed.
Lemma ordinary_scan : forall c s n t, session_ok c s -> ordinary s n -> resolve_object s n = Some t ->
  scan_effects c s t = [Reads (s_tid s) (t_db t)].
Proof.
  intros c s n t K O R. destruct (ordinary_resolve s n O) as (t'&R'&T&D1&D2). rewrite R in R'. injection R' as <-.
  unfold scan_effects. rewrite (proj2 (Z.eqb_neq _ _) D1), (proj2 (Z.eqb_neq _ _) D2), andb_false_r. cbn [andb]. rewrite T, (proj1 K). auto.
Qed.
Lemma query_needs : forall c s q ts acc, session_ok c s -> Forall (ordinary s) q -> plan_query s q [] = Some (ts, acc) ->
  Forall (permitted s) (flat_map (scan_effects c s) ts) -> plan_check (s_user s) (databases_privileges PRead (s_tid s) acc) = true.
Proof.
  intros c s q ts acc K O E F. apply check_dbs. intros d I. apply plan_query_spec in E. destruct E as (A&B).
  apply B in I. destruct I as [[]|(t&I&<-)]. destruct (A t I) as (_&n&J&R).
  pose proof (ordinary_scan c s n t K (proj1 (Forall_forall _ _) O n J) R) as X.
  pose proof (proj1 (Forall_forall _ _) F (Reads (s_tid s) (t_db t))) as Y. apply read_may. apply Y.
  apply in_flat_map. exists t. split; auto. rewrite X. left; auto.
Qed.
Lemma table_needs : forall c s e t, session_ok c s -> t_tenant t = s_tenant s -> Forall (permitted s) (table_effect c e t) ->
  permitted s (e (s_tid s) (t_db t)).
Proof. intros c s e t K T F. unfold table_effect in F. rewrite T, (proj1 K) in F. inversion F; auto. Qed.
Lemma source_ordinary : forall s n acc, ordinary s n -> exists t, get_table_source s n acc = Some (t, push_db acc (t_db t)) /\
  resolve_object s n = Some t /\ t_tenant t = s_tenant s.
Proof.
  intros s n acc O. destruct (ordinary_resolve s n O) as (t&R&T&_). exists t. split; auto. unfold get_table_source. rewrite R, T, Z.eqb_refl. auto.
Qed.
Lemma one_db : forall s p d, plan_check (s_user s) (databases_privileges p (s_tid s) (push_db [] d)) = user_check (s_user s) (TenantObject (TDatabase p (Some d)) (Some (s_tid s))).
Proof. intros. cbn. apply andb_true_r. Qed.

Lemma alter_needs : forall c s u o b p req, alter_user_plan verify empty c s u (SetOption o) b = Some (p, req) ->
  Forall (permitted s) (effects c s p) -> plan_check (s_user s) req = true.
Proof.
  unfold alter_user_plan. intros c s u o b p req H F. destruct (c_user c u) as [d|] eqn:E; try discriminate.
  cbv zeta in H. destruct (_ && negb _); try discriminate. destruct (match d_hash d with Some _ => _ | None => _ end); try discriminate.
  destruct (_ && negb _); try discriminate.
  assert (forall p' req', Some (p', req') = Some (p, req) -> p' = p /\ req' = req) as J by (intros ? ? [= -> ->]; auto).
  destruct o; try (apply J in H; destruct H as (<-&<-)); try (destruct (d_root d); [discriminate|]; apply J in H; destruct H as (<-&<-));
    cbn [effects] in F; unfold user_id in F; rewrite E in F; inversion F as [|? ? P _]; subst; cbn in P; rewrite check_one;
    try exact (proj2 (user_needed (s_user s) (ManageUser (d_id d))) P); exact (proj2 (user_needed (s_user s) MaintainInstance) P).
Qed.

Lemma some_pair : forall A B (a a' : A) (b b' : B), Some (a, b) = Some (a', b') -> a = a' /\ b = b'.
Proof. intros A B a a' b b' [= -> ->]. auto. Qed.
Lemma direct_needs : forall c s st auth p req, session_ok c s -> direct c s st -> statement_to_plan verify empty c s st auth = Some (p, req) ->
  Forall (permitted s) (effects c s p) -> plan_check (s_user s) req = true.
Proof.
  intros c s st auth p req K D H F. destruct st; cbn [statement_to_plan] in H; cbn [direct] in D; try contradiction;
    (destruct (auth && s_must s); [try discriminate H|]).
  - destruct (plan_query s q []) as [[ts acc]|] eqn:E; try discriminate. apply some_pair in H; destruct H as (<-&<-). eapply query_needs; eauto.
  - destruct D as (O&D). destruct (source_ordinary s target [] O) as (t&E2&R&T).
    destruct (plan_query s source []) as [[ts acc]|] eqn:E; try discriminate. rewrite E2 in H. apply some_pair in H; destruct H as (<-&<-).
    cbn [effects] in F. apply Forall_app in F. destruct F as (F1&F2). rewrite check_app, one_db. apply andb_true_iff. split.
    + apply write_may. exact (table_needs c s Writes t K T F1).
    + eapply query_needs; eauto.
  - destruct from; [contradiction|]. destruct subqueries; [|contradiction]. destruct (source_ordinary s table [] D) as (t&E2&R&T).
    rewrite E2 in H. cbn [plan_query] in H. apply some_pair in H; destruct H as (<-&<-). cbn [effects flat_map] in F. rewrite app_nil_r in F.
    rewrite one_db. apply write_may. exact (table_needs c s Writes t K T F).
  - destruct (source_ordinary s table [] D) as (t&E2&R&T). rewrite E2, R in H. apply some_pair in H; destruct H as (<-&<-). cbn [effects] in F.
    unfold on_db. rewrite check_one. apply write_may. exact (table_needs c s Writes t K T F).
  - destruct (source_ordinary s target [] D) as (t&E2&R&T). rewrite E2 in H. apply some_pair in H; destruct H as (<-&<-). cbn [effects flat_map] in F. rewrite app_nil_r in F.
    unfold on_db. rewrite check_one. apply write_may. exact (table_needs c s Writes t K T F).
  - destruct (plan_query s source []) as [[ts acc]|] eqn:E; try discriminate. apply some_pair in H; destruct H as (<-&<-). eapply query_needs; eauto.
  - destruct (source_ordinary s n [] D) as (t&E2&R&T). rewrite R in H. apply some_pair in H; destruct H as (<-&<-). cbn [effects] in F.
    unfold on_db. rewrite check_one. apply full_may. exact (table_needs c s Administers t K T F).
  - destruct (source_ordinary s n [] D) as (t&E2&R&T). rewrite R in H. apply some_pair in H; destruct H as (<-&<-). cbn [effects] in F.
    unfold on_db. rewrite check_one. apply full_may. exact (table_needs c s Administers t K T F).
  - destruct (source_ordinary s n [] D) as (t&E2&R&T). rewrite R in H. apply some_pair in H; destruct H as (<-&<-). cbn [effects] in F.
    unfold on_db. rewrite check_one. apply full_may. exact (table_needs c s Administers t K T F).
  - destruct (source_ordinary s n [] D) as (t&E2&R&T). rewrite E2 in H. apply some_pair in H; destruct H as (<-&<-). cbn [effects] in F.
    unfold on_db. rewrite check_one. apply full_may. exact (table_needs c s Administers t K T F).
  - destruct subqueries; [|contradiction]. destruct (source_ordinary s n [] D) as (t&E2&R&T). rewrite E2 in H. cbn [plan_query] in H. apply some_pair in H; destruct H as (<-&<-).
    cbn [effects flat_map] in F. rewrite app_nil_r, (ordinary_scan c s n t K D R) in F. inversion F as [|? ? P _]; subst.
    unfold on_db. rewrite check_one. apply read_may. exact P.
  - apply some_pair in H; destruct H as (<-&<-). inversion F as [|? ? P _]; subst. unfold on_db. rewrite check_one. apply full_may. exact P.
  - destruct (system_db _ _); try discriminate. apply some_pair in H; destruct H as (<-&<-). inversion F as [|? ? P _]; subst. unfold on_db. rewrite check_one. apply full_may. exact P.
  - apply some_pair in H; destruct H as (<-&<-). inversion F as [|? ? P _]; subst. unfold on_db. rewrite check_one. apply full_may. exact P.
  - destruct (c_tenant c t) as [tid|] eqn:E; try discriminate.
    destruct op; try (destruct (t =? CNOSDB); [discriminate|]); apply some_pair in H; destruct H as (<-&<-); cbn [effects] in F; rewrite E in F;
      inversion F as [|? ? P _]; subst; cbn in P; rewrite check_one.
    + exact (proj2 (user_needed (s_user s) (TenantMembers tid)) P).
    + exact (proj2 (user_needed (s_user s) (TenantMembers tid)) P).
    + exact (proj2 (user_needed (s_user s) (TenantMembers tid)) P).
    + exact (proj2 (user_needed (s_user s) (ManageTenant tid)) P).
    + exact (proj2 (user_needed (s_user s) MaintainInstance) P).
    + exact (proj2 (user_needed (s_user s) (ManageTenant tid)) P).
    + exact (proj2 (user_needed (s_user s) (ManageTenant tid)) P).
  - destruct op; [contradiction|]. eapply alter_needs; eauto.
  - destruct op; [contradiction|]. eapply alter_needs; eauto.
  - destruct (system_role r); try discriminate. apply some_pair in H; destruct H as (<-&<-). inversion F as [|? ? P _]; subst. rewrite check_one.
    exact (proj2 (user_needed (s_user s) (TenantRoles (s_tid s))) P).
  - destruct (system_role r); try discriminate. apply some_pair in H; destruct H as (<-&<-). inversion F as [|? ? P _]; subst. rewrite check_one.
    exact (proj2 (user_needed (s_user s) (TenantRoles (s_tid s))) P).
  - destruct (system_role r); try discriminate. apply some_pair in H; destruct H as (<-&<-). inversion F as [|? ? P _]; subst. rewrite check_one.
    exact (proj2 (user_needed (s_user s) (TenantRoles (s_tid s))) P).
  - apply some_pair in H; destruct H as (<-&<-). inversion F as [|? ? P _]; subst. rewrite check_one. exact (proj2 (user_needed (s_user s) MaintainInstance) P).
Qed.

Lemma exact : forall c s st p, session_ok c s -> direct c s st ->
  (create_logical_plan verify empty c s st = Some p <->
   create_logical_plan verify empty c (as_admin s) st = Some p /\ Forall (permitted s) (effects c s p)).
Proof.
  intros c s st p K D. rewrite admin_create. unfold create_logical_plan. split.
  - intros H. destruct (statement_to_plan verify empty c s st (s_auth s)) as [[q req]|] eqn:E; try discriminate.
    destruct (plan_check (s_user s) req) eqn:C; try discriminate. injection H as ->. split; eauto.
    eapply to_plan_permitted; eauto. eapply direct_regular; eauto.
  - intros ((req&E)&F). rewrite E, (direct_needs c s st (s_auth s) p req K D E F). auto.
Qed.

(** * An account that must change its password *)
Lemma must_change : forall c s r es, s_auth s = true -> s_must s = true -> regular_request s r -> serve verify empty c s r = Some es ->
  exists u op, r = Sql (AlterUser u op) /\ forall e, In e es -> e = ChangesUser (u_id (s_user s)).
Proof.
  intros c s r es A M R H. destruct r as [st|d|d|t]; cbn in R; try contradiction; cbn [serve] in H; [|rewrite A, M in H; discriminate].
  unfold create_logical_plan in H. rewrite A in H. destruct st; cbn [statement_to_plan] in H; rewrite M in H; cbn [andb] in H; try discriminate.
  exists u, op. split; auto. destruct (alter_user_plan _ _ _ _ _ _ _) as [[p req]|] eqn:E; try discriminate.
  destruct (plan_check _ _); try discriminate. injection H as <-. unfold alter_user_plan in E.
  destruct (c_user c u) as [d|] eqn:U; try discriminate. destruct op as [n|o].
  - injection E as <- <-. intros e [].
  - cbv zeta in E. cbn [andb] in E. destruct (Z.eqb_spec (u_id (s_user s)) (d_id d)) as [Q|Q]; [|discriminate].
    destruct (match d_hash d with Some _ => _ | None => _ end); [destruct o; discriminate|].
    destruct (d_root d && negb (s_root s)); [destruct o; discriminate|].
    destruct o; try discriminate; injection E as <- <-; cbn [effects]; unfold user_id; rewrite U; intros e [<-|[]]; rewrite Q; auto.
Qed.
Lemma root_protected : forall c s u d o, c_user c u = Some d -> d_root d = true -> s_root s = false ->
  serve verify empty c s (Sql (AlterUser u (SetOption o))) = None.
Proof.
  intros c s u d o U D R. cbn [serve]. unfold create_logical_plan. cbn [statement_to_plan].
  assert (X : forall b, alter_user_plan verify empty c s u (SetOption o) b = None).
  { intros b. unfold alter_user_plan. rewrite U, D, R. cbv zeta. cbn [andb negb].
    destruct (_ && negb _); auto. destruct (match d_hash d with Some _ => _ | None => _ end); auto. }
  destruct (_ && _); rewrite X; auto.
Qed.
End Exact.

(** ** The server's own names *)
Lemma own_db_eq s d : system_db (s_tenant s) d = true <-> own_database s d.
Proof. unfold system_db, own_database. rewrite !orb_true_iff, andb_true_iff, orb_true_iff, !Z.eqb_eq. tauto. Qed.
Lemma own_role_eq r : system_role r = true <-> own_role r.
Proof. unfold system_role, own_role. rewrite orb_true_iff, !Z.eqb_eq. tauto. Qed.
Lemma own_names verify empty c s d r : s_must s = false ->
  (create_logical_plan verify empty c (as_admin s) (DropDatabase d) = None <-> own_database s d) /\
  (create_logical_plan verify empty c (as_admin s) (CreateRole r) = None <-> own_role r) /\
  (create_logical_plan verify empty c (as_admin s) (DropRole r) = None <-> own_role r) /\
  (create_logical_plan verify empty c (as_admin s) (GrantRevoke r) = None <-> own_role r) /\
  (own_database s d -> create_logical_plan verify empty c s (DropDatabase d) = None) /\
  (own_role r -> create_logical_plan verify empty c s (CreateRole r) = None /\
     create_logical_plan verify empty c s (DropRole r) = None /\ create_logical_plan verify empty c s (GrantRevoke r) = None).
Proof.
  intros M. rewrite <- own_db_eq, <- own_role_eq. unfold create_logical_plan.
  cbn [statement_to_plan as_admin s_tenant s_tid s_auth s_user s_must]. rewrite M, andb_false_r.
  assert (X : forall p, plan_check (new_user (u_id (s_user s)) (user_role_privileges Dba)) [p] = true)
    by (intros p; unfold plan_check; cbn [forallb]; rewrite dba_check; reflexivity).
  unfold on_db. change (new_user (u_id (s_user s)) (user_role_privileges Dba)) with (s_user (as_admin s)) in X.
  destruct (system_db (s_tenant s) d), (system_role r); cbn beta iota; change (new_user (u_id (s_user s)) (user_role_privileges Dba)) with (s_user (as_admin s)); try rewrite !X;
    (split; [split; (reflexivity || discriminate || intros; discriminate)|]);
    (split; [split; (reflexivity || discriminate)|]); (split; [split; (reflexivity || discriminate)|]); (split; [split; (reflexivity || discriminate)|]);
    (split; [intros Q; try discriminate Q; reflexivity|]); intros Q; try discriminate Q; auto.
Qed.
