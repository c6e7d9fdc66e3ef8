From Verif Require Import Prelude PrivilegeModel PrivilegeSpec.

Lemma db_check_spec : forall p q, db_check p q = true <-> (forall l, db_allows q l -> db_allows p l).
Proof.
  intros p q; split.
  - intros H l; destruct p, q, l; cbn in *; auto; discriminate.
  - intros H; destruct p, q; cbn; auto.
    + destruct (H WriteData I).
    + destruct (H AdminData I).
    + destruct (H AdminData I).
Qed.

Lemma covers_spec : forall a b, (match a, b with None, _ => true | Some x, Some y => x =? y | Some _, None => false end) = true
  <-> (forall x, covers b x -> covers a x).
Proof.
  intros [a|] [b|]; cbn; split; intros H; auto; try discriminate.
  - intros x E. apply Z.eqb_eq in H. lia.
  - apply Z.eqb_eq. symmetry. apply H. auto.
  - exfalso. pose proof (H (a + 1) I). lia.
Qed.

Lemma db_inhabited : forall p, db_allows p ReadData.
Proof. destruct p; cbn; auto. Qed.
Lemma covers_inhabited : forall o, exists x, covers o x.
Proof. intros [x|]; [exists x|exists 0]; cbn; auto. Qed.


Lemma glob_check_user : forall a b, glob_check (GUser a) (GUser b) = (match a, b with None, _ => true | Some x, Some y => x =? y | Some _, None => false end).
Proof. intros [a|] [b|]; auto. Qed.
Lemma glob_check_tenant : forall a b, glob_check (GTenant a) (GTenant b) = (match a, b with None, _ => true | Some x, Some y => x =? y | Some _, None => false end).
Proof. intros [a|] [b|]; auto. Qed.
Lemma obj_check_db : forall p q a b, obj_check (TDatabase p a) (TDatabase q b) =
  (match a, b with None, _ => true | Some x, Some y => x =? y | Some _, None => false end) && db_check p q.
Proof. intros p q [a|] [b|]; cbn; auto. rewrite andb_false_r. auto. Qed.
Lemma check_obj : forall p q a b, check (TenantObject p a) (TenantObject q b) =
  (match a, b with None, _ => true | Some x, Some y => x =? y | Some _, None => false end) && obj_check p q.
Proof. intros p q [a|] [b|]; cbn; auto. Qed.

(** An action the privilege allows. *)
Lemma allows_inhabited : forall p, exists a, allows p a.
Proof.
  intros [[|u|t]|[| | |p d] o].
  - exists MaintainInstance; cbn; auto.
  - destruct (covers_inhabited u) as (x&H). exists (ManageUser x); auto.
  - destruct (covers_inhabited t) as (x&H). exists (ManageTenant x); auto.
  - destruct (covers_inhabited o) as (x&H). exists (TenantSystem x); auto.
  - destruct (covers_inhabited o) as (x&H). exists (TenantMembers x); auto.
  - destruct (covers_inhabited o) as (x&H). exists (TenantRoles x); auto.
  - destruct (covers_inhabited o) as (x&H). destruct (covers_inhabited d) as (y&G). exists (OnDatabase ReadData x y).
    cbn. auto using db_inhabited.
Qed.

Ltac kinds := intros H; exfalso;
  match type of H with forall a, allows ?q a -> _ => destruct (allows_inhabited q) as (a&A); specialize (H a A); destruct a; cbn in *; tauto end.

Lemma check_spec : forall p q, check p q = true <-> (forall a, allows q a -> allows p a).
Proof.
  intros p q. destruct p as [g|o t], q as [g'|o' t'].
  - cbn [check]. destruct g as [|u|t], g' as [|u'|t']; try (split; [intros H; try destruct u; try destruct t; try discriminate H|kinds]).
    + cbn. split; auto.
    + rewrite glob_check_user, covers_spec. split.
      * intros H [] A; cbn in *; auto.
      * intros H x C. apply (H (ManageUser x)); auto.
    + rewrite glob_check_tenant, covers_spec. split.
      * intros H [] A; cbn in *; auto.
      * intros H x C. apply (H (ManageTenant x)); auto.
  - split; [intros H; discriminate H|]. destruct g, o'; kinds.
  - split; [intros H; destruct t; discriminate H|]. destruct g', o; kinds.
  - rewrite check_obj, andb_true_iff, covers_spec.
    destruct o as [| | |p d], o' as [| | |q d'];
      try (split; [intros (_&H); cbn in H; try (destruct d; discriminate H); discriminate H|kinds]).
    + cbn [obj_check]. split.
      * intros (H&_) [] A; cbn in *; auto.
      * intros H. split; auto. intros x C. apply (H (TenantSystem x)); auto.
    + cbn [obj_check]. split.
      * intros (H&_) [] A; cbn in *; auto.
      * intros H. split; auto. intros x C. apply (H (TenantMembers x)); auto.
    + cbn [obj_check]. split.
      * intros (H&_) [] A; cbn in *; auto.
      * intros H. split; auto. intros x C. apply (H (TenantRoles x)); auto.
    + rewrite obj_check_db, andb_true_iff, covers_spec, db_check_spec. split.
      * intros (H1&H2&H3) [] A; cbn in *; try tauto. destruct A as (A1&A2&A3). auto.
      * intros H. destruct (covers_inhabited t') as (x&X). destruct (covers_inhabited d') as (y&Y).
        split; [|split].
        -- intros z C. apply (H (OnDatabase ReadData z y)). cbn; auto using db_inhabited.
        -- intros z C. apply (H (OnDatabase ReadData x z)). cbn; auto using db_inhabited.
        -- intros l C. apply (H (OnDatabase l x y)). cbn; auto.
Qed.

(** The weakest privilege that allows an action. *)
Definition needed (a : action) : priv :=
  match a with
  | MaintainInstance => Global GSystem
  | ManageUser u => Global (GUser (Some u))
  | ManageTenant t => Global (GTenant (Some t))
  | TenantSystem t => TenantObject TSystem (Some t)
  | TenantMembers t => TenantObject TMember (Some t)
  | TenantRoles t => TenantObject TRole (Some t)
  | OnDatabase l t db =>
      TenantObject (TDatabase (match l with ReadData => PRead | WriteData => PWrite | AdminData => PFull end) (Some db)) (Some t)
  end.

Lemma needed_spec : forall a p, check p (needed a) = true <-> allows p a.
Proof.
  intros a p. rewrite check_spec. split.
  - intros H. apply H. destruct a as [| | | | | |[]]; cbn; auto.
  - intros H b B. destruct a as [| | | | | |l t db], b as [| | | | | |l' t' db']; cbn in B; try contradiction; subst; auto;
    try (destruct l; contradiction).
    destruct B as (B1&->&->). destruct p as [[]|[| | |p d] o]; cbn in H; try contradiction.
    destruct H as (H1&H2&H3). cbn. split; [|auto]. destruct l, l', p; cbn in *; auto.
Qed.

Lemma user_needed : forall u a, user_check u (needed a) = true <-> may u a.
Proof.
  intros u a. unfold user_check, may. rewrite existsb_exists. split; intros (p&I&H); exists p; split; auto; apply needed_spec; auto.
Qed.

(** role access *)
Definition add_may (m : list (Z * db_priv)) (t : Z) (a : action) : Prop :=
  exists l db, a = OnDatabase l t db /\ exists p, m_get m db = Some p /\ db_allows p l.

Definition wf (r : custom) : Prop := NoDup (map fst (c_add r)).

Lemma m_get_in : forall m k v, NoDup (map fst m) -> (m_get m k = Some v <-> In (k, v) m).
Proof.
  induction m as [|[k' v'] m IH]; cbn [m_get map fst In]; intros k v ND.
  - split; [discriminate|tauto].
  - inversion ND as [|? ? NI ND']; subst. destruct (Z.eqb_spec k k') as [->|N].
    + split.
      * intros [= ->]. auto.
      * intros [[= ->]|H]; auto. exfalso. apply NI. apply in_map_iff. exists (k', v). auto.
    + rewrite (IH k v ND'). split; auto. intros [[= -> ->]|H]; auto. congruence.
Qed.

Lemma remove_keys : forall m k k', In k' (map fst (m_remove m k)) <-> In k' (map fst m) /\ k' <> k.
Proof.
  intros. unfold m_remove. rewrite !in_map_iff. split.
  - intros (e&<-&H). apply filter_In in H. destruct H as (H&N). apply negb_true_iff, Z.eqb_neq in N. split; auto. exists e; auto.
  - intros ((e&<-&H)&N). exists e. split; auto. apply filter_In. split; auto. apply negb_true_iff, Z.eqb_neq; auto.
Qed.

Lemma NoDup_remove_key : forall m k, NoDup (map fst m) -> NoDup (map fst (m_remove m k)).
Proof.
  intros m k. unfold m_remove. induction m as [|e m IH]; intros ND; auto. inversion ND as [|? ? NI ND']; subst. cbn.
  destruct (negb (fst e =? k)); cbn; auto. constructor; auto. intros X. apply remove_keys in X. tauto.
Qed.

Lemma get_remove : forall m k k', m_get (m_remove m k) k' = if k' =? k then None else m_get m k'.
Proof.
  intros m k k'. unfold m_remove. induction m as [|[j v] m IH]; cbn.
  - destruct (_ =? _); auto.
  - destruct (Z.eqb_spec j k) as [->|N]; cbn; rewrite IH.
    + destruct (Z.eqb_spec k' k); auto.
    + destruct (Z.eqb_spec k' j) as [->|N']; auto. destruct (Z.eqb_spec j k); try lia. auto.
Qed.

Lemma get_insert : forall m k v k', m_get (m_insert m k v) k' = if k' =? k then Some v else m_get m k'.
Proof. intros. unfold m_insert. cbn. rewrite get_remove. destruct (_ =? _); auto. Qed.

Lemma wf_grant : forall r db p, wf r -> wf (grant_privilege r db p).
Proof.
  intros r db p H. unfold wf, grant_privilege, m_insert. cbn. constructor.
  - intros X. apply remove_keys in X. tauto.
  - apply NoDup_remove_key; auto.
Qed.
Lemma wf_revoke : forall r db p r', wf r -> revoke_privilege r db p = Some r' -> wf r'.
Proof.
  unfold revoke_privilege. intros r db p r' H E. destruct (m_get _ _); try discriminate. destruct (db_eqb _ _); try discriminate.
  injection E as <-. apply NoDup_remove_key; auto.
Qed.
Lemma wf_process_grant : forall dbs l r r', wf r -> process_grant dbs l r = Some r' -> wf r'.
Proof.
  induction l as [|[p db] l IH]; cbn; intros r r' W E.
  - injection E as <-; auto.
  - destruct (dbs db); try discriminate. eapply IH; [|exact E]. apply wf_grant; auto.
Qed.
Lemma wf_process_revoke : forall l r r', wf r -> process_revoke l r = Some r' -> wf r'.
Proof.
  induction l as [|[p db] l IH]; cbn; intros r r' W E.
  - injection E as <-; auto.
  - destruct (revoke_privilege r db p) eqn:R; try discriminate. eapply IH; [|exact E]. eapply wf_revoke; eauto.
Qed.
Lemma wf_run : forall r s, wf r -> wf (run r s).
Proof.
  intros r [dbs l|l] W; unfold run.
  - destruct (process_grant dbs l r) eqn:E; auto. eapply wf_process_grant; eauto.
  - destruct (process_revoke l r) eqn:E; auto. eapply wf_process_revoke; eauto.
Qed.

Definition sys_may (s : option sys_role) (t : Z) (a : action) : Prop :=
  match s with Some s => exists p, In p (sys_privileges s t) /\ allows p a | None => False end.

Lemma role_may_split : forall r t a, wf r -> role_may r t a <-> sys_may (c_sys r) t a \/ add_may (c_add r) t a.
Proof.
  intros r t a W. unfold role_may, custom_privileges. split.
  - intros (p&I&A). apply in_app_or in I. destruct I as [I|I].
    + left. unfold sys_may. destruct (c_sys r); [exists p; auto|contradiction].
    + right. apply in_map_iff in I. destruct I as ((db&q)&<-&I). cbn [fst snd] in *.
      destruct a as [| | | | | |l t' db']; cbn in A; try contradiction. destruct A as (A&->&->).
      exists l, db. split; auto. exists q. split; auto. apply m_get_in; auto.
  - intros [H|(l&db&->&q&G&A)].
    + unfold sys_may in H. destruct (c_sys r); [|contradiction]. destruct H as (p&I&A). exists p. split; auto. apply in_or_app; auto.
    + exists (TenantObject (TDatabase q (Some db)) (Some t)). split; [|cbn; auto]. apply in_or_app. right.
      apply in_map_iff. exists (db, q). split; auto. apply m_get_in; auto.
Qed.

Lemma grant_sys : forall dbs l r r', process_grant dbs l r = Some r' -> c_sys r' = c_sys r.
Proof.
  induction l as [|[p db] l IH]; cbn; intros r r' E.
  - injection E as <-; auto.
  - destruct (dbs db); try discriminate. apply IH in E. auto.
Qed.
Lemma revoke_sys : forall l r r', process_revoke l r = Some r' -> c_sys r' = c_sys r.
Proof.
  induction l as [|[p db] l IH]; cbn; intros r r' E.
  - injection E as <-; auto.
  - unfold revoke_privilege in E. destruct (m_get _ _); try discriminate. destruct (db_eqb _ _); try discriminate. apply IH in E. auto.
Qed.

Lemma db_eqb_eq : forall a b, db_eqb a b = true <-> a = b.
Proof. intros [] []; cbn; split; auto; discriminate. Qed.

Lemma process_grant_get : forall dbs l r r', process_grant dbs l r = Some r' -> forall db,
  m_get (c_add r') db = match find (fun e => snd e =? db) (rev l) with Some e => Some (fst e) | None => m_get (c_add r) db end.
Proof.
  induction l as [|[p d] l IH]; cbn; intros r r' E db.
  - injection E as <-; auto.
  - destruct (dbs d); try discriminate. rewrite (IH _ _ E db). cbn [grant_privilege c_add].
    rewrite get_insert. assert (FA : forall (l1 l2 : list (db_priv * Z)) f, find f (l1 ++ l2) = match find f l1 with Some e => Some e | None => find f l2 end).
    { induction l1; cbn; intros; auto. destruct (f a); auto. }
    rewrite FA. destruct (find _ (rev l)) eqn:F; auto. cbn. rewrite (Z.eqb_sym d db). destruct (db =? d); auto.
Qed.

Lemma process_revoke_get : forall l r r', process_revoke l r = Some r' -> forall db,
  m_get (c_add r') db = if existsb (fun e => snd e =? db) l then None else m_get (c_add r) db.
Proof.
  induction l as [|[p d] l IH]; cbn; intros r r' E db.
  - injection E as <-; auto.
  - unfold revoke_privilege in E. destruct (m_get _ _); try discriminate. destruct (db_eqb _ _); try discriminate.
    rewrite (IH _ _ E db). cbn [c_add]. rewrite get_remove, (Z.eqb_sym d db). destruct (db =? d); cbn; auto.
    destruct (existsb _ _); auto.
Qed.

Lemma run_grant_upper : forall r t s a, wf r -> role_may (run r s) t a ->
  role_may r t a \/
  (exists dbs l p db lv, s = Grant dbs l /\ In (p, db) l /\ a = OnDatabase lv t db /\ db_allows p lv).
Proof.
  intros r t s a W H. unfold run in H. destruct s as [dbs l|l].
  - destruct (process_grant dbs l r) as [r'|] eqn:E; [|auto].
    apply role_may_split in H; [|eapply wf_process_grant; eauto]. rewrite (grant_sys _ _ _ _ E) in H.
    destruct H as [H|(lv&db&->&q&G&A)]; [left; apply role_may_split; auto|].
    rewrite (process_grant_get _ _ _ _ E) in G. destruct (find _ (rev l)) as [[p d]|] eqn:F.
    + right. apply find_some in F. destruct F as (F1&F2). cbn in *. apply Z.eqb_eq in F2; subst d. injection G as ->.
      exists dbs, l, q, db, lv. rewrite in_rev. auto.
    + left. apply role_may_split; auto. right. exists lv, db. split; auto. exists q. auto.
  - left. destruct (process_revoke l r) as [r'|] eqn:E; auto.
    apply role_may_split in H; [|eapply wf_process_revoke; eauto]. rewrite (revoke_sys _ _ _ E) in H.
    apply role_may_split; auto. destruct H as [H|(lv&db&->&q&G&A)]; auto. right.
    rewrite (process_revoke_get _ _ _ E) in G. destruct (existsb _ _); try discriminate. exists lv, db. split; auto. exists q; auto.
Qed.
