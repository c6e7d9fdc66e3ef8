(** C66: a request does only what the user may do. *)
From Verif Require Import Prelude PrivilegeModel PrivilegeSpec PrivilegeProofs AccessModel AccessSpec AccessProofs.

(** Every effect of an accepted request is one the privileges of the user allow.  Missing from the full property: KILL, external
    tables with a three-part name, SHOW SERIES / SHOW TAG VALUES with a subquery on another database, the trace reads and the
    DDL dump, for which it is false (below). *)
Theorem C66_only_permitted_partial : forall verify empty c s r es,
  session_ok c s -> regular_request s r -> serve verify empty c s r = Some es -> Forall (permitted s) es.
Proof. exact serve_permitted. Qed.
Print Assumptions C66_only_permitted_partial.

(** A user who is no administrator touches no other tenant, and neither the instance, nor other users, nor tenants as such. *)
Theorem C66_stays_in_tenant : forall verify empty c s r es,
  session_ok c s -> s_admin s = false -> regular_request s r -> serve verify empty c s r = Some es ->
  forall e, In e es -> (forall t, touches e = Some t -> t = s_tid s) /\ ~ global_effect s e.
Proof.
  intros verify empty c s r es K A R H e I. apply (member_effects c); auto.
  exact (proj1 (Forall_forall _ _) (serve_permitted verify empty c s r es K R H) e I).
Qed.
Print Assumptions C66_stays_in_tenant.

(** Nothing more is asked: the statement is accepted exactly when an administrator's would be and all it does is permitted. *)
Theorem C66_exact : forall verify empty c s st p, session_ok c s -> direct c s st ->
  (create_logical_plan verify empty c s st = Some p <->
   create_logical_plan verify empty c (as_admin s) st = Some p /\ Forall (permitted s) (effects c s p)).
Proof. exact exact. Qed.
Print Assumptions C66_exact.

(** An account that must change its password can do nothing but alter itself. *)
Theorem C66_must_change : forall verify empty c s r es,
  s_auth s = true -> s_must s = true -> regular_request s r -> serve verify empty c s r = Some es ->
  exists u op, r = Sql (AlterUser u op) /\ forall e, In e es -> e = ChangesUser (u_id (s_user s)).
Proof. exact must_change. Qed.
Print Assumptions C66_must_change.

(** Only root changes the options of root. *)
Theorem C66_root_protected : forall verify empty c s u d o, c_user c u = Some d -> d_root d = true -> s_root s = false ->
  serve verify empty c s (Sql (AlterUser u (SetOption o))) = None.
Proof. exact root_protected. Qed.
Print Assumptions C66_root_protected.

(** The server's own databases cannot be dropped, its own roles neither created, dropped nor changed, by anybody; all others
    can, by an administrator. *)
Theorem C66_own_names : forall verify empty c s d r, s_must s = false ->
  (create_logical_plan verify empty c (as_admin s) (DropDatabase d) = None <-> own_database s d) /\
  (create_logical_plan verify empty c (as_admin s) (CreateRole r) = None <-> own_role r) /\
  (create_logical_plan verify empty c (as_admin s) (DropRole r) = None <-> own_role r) /\
  (create_logical_plan verify empty c (as_admin s) (GrantRevoke r) = None <-> own_role r) /\
  (own_database s d -> create_logical_plan verify empty c s (DropDatabase d) = None) /\
  (own_role r -> create_logical_plan verify empty c s (CreateRole r) = None /\
     create_logical_plan verify empty c s (DropRole r) = None /\ create_logical_plan verify empty c s (GrantRevoke r) = None).
Proof. exact own_names. Qed.
Print Assumptions C66_own_names.

(** * Cases *)
Lemma not_may : forall u a, user_check u (needed a) = false -> ~ may u a.
Proof. intros u a H M. apply user_needed in M. congruence. Qed.

(** Two tenants; databases 10 and 11 in tenant 100, database 10 also in tenant 101; user 7 may write database 10 of tenant 100
    and read no other; user 8 of tenant 101 runs a query. *)
Definition ex_cat : catalog := Catalog (fun n => if n =? 50 then Some 100 else if n =? 51 then Some 101 else None)
  (fun u => if u =? ROOT then Some (Udesc 1 true (Some 10)) else if u =? 70 then Some (Udesc 7 false (Some 420)) else None)
  (fun t => if t =? 100 then [10; 11] else [10]) [Running 900 8 101; Running 901 7 100] [(100, Some 11); (101, None)].
Definition ex_verify (p h : Z) : bool := p =? h / 10.
Definition ex_role : tenant_role := RCustom (Custom None [(10, PFull)]).
Definition ex_s : session := Session 50 100 10 (new_user 7 (tenant_role_privileges ex_role 100)) false false false true.
Definition ex_reader : session := Session 50 100 10 (new_user 9 (tenant_role_privileges (RSys Member) 100)) false false false true.
Lemma ex_ok : session_ok ex_cat ex_s.
Proof. split; auto. exists 7, ex_role. auto. Qed.
Lemma ex_reader_ok : session_ok ex_cat ex_reader.
Proof. split; auto. exists 9, (RSys Member). auto. Qed.

Example C66_ex_insert : serve ex_verify 0 ex_cat ex_s (Sql (Insert (Bare 20) [Partial 10 21; Bare 22])) =
  Some [Writes 100 10; Reads 100 10; Reads 100 10].
Proof. reflexivity. Qed.
Example C66_ex_refused : serve ex_verify 0 ex_cat ex_s (Sql (Insert (Bare 20) [Partial 11 21])) = None
  /\ serve ex_verify 0 ex_cat ex_s (Sql (Query [Full 51 10 21])) = None
  /\ serve ex_verify 0 ex_cat ex_s (Sql (CreateUser 77 true)) = None
  /\ serve ex_verify 0 ex_cat ex_s (WriteTo 11) = None.
Proof. repeat split. Qed.
Example C66_ex_reader : serve ex_verify 0 ex_cat ex_reader (Sql ShowDatabases) = Some [Describes 100 10; Describes 100 11]
  /\ serve ex_verify 0 ex_cat ex_reader (Sql ShowQueries) = Some []
  /\ serve ex_verify 0 ex_cat ex_s (Sql (ShowTables None)) = Some [Describes 100 10].
Proof. repeat split. Qed.
Example C66_ex_direct : direct ex_cat ex_s (Insert (Bare 20) [Partial 11 21]) /\
  create_logical_plan ex_verify 0 ex_cat (as_admin ex_s) (Insert (Bare 20) [Partial 11 21]) = Some (DoWrite (Rtable 50 10 20) [Rtable 50 11 21]) /\
  create_logical_plan ex_verify 0 ex_cat ex_s (Insert (Bare 20) [Partial 11 21]) = None.
Proof. split; [|split; reflexivity]. cbn. unfold INFO, CLUSTER. split; [lia|]. constructor; [cbn; unfold INFO, CLUSTER; lia|constructor]. Qed.
Example C66_ex_must : serve ex_verify 0 ex_cat (Session 50 100 10 (new_user 7 []) false false true true) (Sql (AlterUser 70 (SetOption (OPassword 5)))) =
  Some [ChangesUser 7]
  /\ serve ex_verify 0 ex_cat (Session 50 100 10 (new_user 7 []) false false true true) (Sql (AlterUser 70 (SetOption (OPassword 42)))) = None
  /\ serve ex_verify 0 ex_cat (Session 50 100 10 (new_user 7 []) false false true true) (Sql (Query [Bare 20])) = None.
Proof. repeat split. Qed.
Example C66_ex_root : c_user ex_cat ROOT = Some (Udesc 1 true (Some 10)) /\
  serve ex_verify 0 ex_cat (as_admin ex_s) (Sql (AlterUser 70 (SetOption (OGrantedAdmin true)))) = Some [MakesAdmin 7].
Proof. split; reflexivity. Qed.

(** * Where it fails *)

(** KILL asks for no privilege: a member without any right in the other tenant cancels another user's query there. *)
Theorem C66_kill_refuted : exists c s qid owner t,
  session_ok c s /\ s_admin s = false /\ t <> s_tid s /\
  (forall verify empty, serve verify empty c s (Sql (Kill qid)) = Some [CancelsQuery owner t]) /\ ~ permitted s (CancelsQuery owner t).
Proof.
  exists ex_cat, ex_reader, 900, 8, 101. split; [apply ex_reader_ok|]. split; auto. split; [cbn; lia|]. split; [reflexivity|].
  cbn. intros [H|H]; [lia|]. revert H. apply not_may. reflexivity.
Qed.
Print Assumptions C66_kill_refuted.

(** CREATE EXTERNAL TABLE other.db.t is checked against the user's own tenant and creates the table in the other one. *)
Theorem C66_external_table_refuted : exists c s n t d,
  session_ok c s /\ s_admin s = false /\ t <> s_tid s /\
  (forall verify empty, serve verify empty c s (Sql (CreateExternalTable n)) = Some [Administers t d]) /\ ~ permitted s (Administers t d).
Proof.
  exists ex_cat, ex_s, (Full 51 10 20), 101, 10. split; [apply ex_ok|]. split; auto. split; [cbn; lia|]. split; [reflexivity|].
  cbn. apply not_may. reflexivity.
Qed.
Print Assumptions C66_external_table_refuted.

(** SHOW SERIES FROM t WHERE tag IN (SELECT .. FROM db2.u) reads db2 with the privilege on the database of t alone. *)
Theorem C66_show_subquery_refuted : exists c s n sub d,
  session_ok c s /\ s_admin s = false /\
  (forall verify empty es, serve verify empty c s (Sql (ShowTags n sub)) = Some es -> In (Reads (s_tid s) d) es) /\
  (forall verify empty, serve verify empty c s (Sql (ShowTags n sub)) <> None) /\
  (forall verify empty, serve verify empty c s (Sql (Query (n :: sub))) = None) /\ ~ permitted s (Reads (s_tid s) d).
Proof.
  exists ex_cat, ex_s, (Bare 20), [Partial 11 21], 11. split; [apply ex_ok|]. split; auto.
  assert (E : forall verify empty, serve verify empty ex_cat ex_s (Sql (ShowTags (Bare 20) [Partial 11 21])) = Some [Reads 100 10; Reads 100 11]) by reflexivity.
  split; [intros v e es H; rewrite E in H; injection H as <-; right; left; reflexivity|].
  split; [intros v e; rewrite E; discriminate|]. split; [reflexivity|]. cbn. apply not_may. reflexivity.
Qed.
Print Assumptions C66_show_subquery_refuted.

(** The trace endpoints read any database of the tenant for any member. *)
Theorem C66_traces_refuted : exists c s d,
  session_ok c s /\ s_admin s = false /\ (forall verify empty, serve verify empty c s (ReadTraces d) = Some [Reads (s_tid s) d]) /\
  ~ permitted s (Reads (s_tid s) d).
Proof.
  exists ex_cat, ex_s, 11. split; [apply ex_ok|]. split; auto. split; [reflexivity|]. cbn. apply not_may. reflexivity.
Qed.
Print Assumptions C66_traces_refuted.

(** The DDL dump serves anyone: whatever the session, it shows the users of the instance and all databases of the tenant. *)
Theorem C66_dump_refuted : exists c t tid,
  (forall verify empty s, exists es, serve verify empty c s (DumpDdl t) = Some es /\ In SeesCluster es /\ In (SeesRoles tid) es) /\
  exists s, session_ok c s /\ ~ permitted s SeesCluster /\ ~ permitted s (SeesRoles tid).
Proof.
  exists ex_cat, 51, 101. split.
  - intros v e s. eexists. split; [reflexivity|]. split; [left; auto|right; left; auto].
  - exists ex_reader. split; [apply ex_reader_ok|]. split; cbn; apply not_may; reflexivity.
Qed.
Print Assumptions C66_dump_refuted.

(** "Must change the password" is met by storing a hash of the same password: the flag is cleared and the old password still
    opens the account. *)
Theorem C66_same_password_refuted : exists verify empty c s u d old h0 h hash_of,
  s_auth s = true /\ s_must s = true /\ c_user c u = Some d /\ d_hash d = Some h0 /\ verify old h0 = true /\
  serve verify empty c s (Sql (AlterUser u (SetOption (OPassword old)))) = None /\
  serve verify empty c s (Sql (AlterUser u (SetOption (OHash h)))) = Some [ChangesUser (u_id (s_user s))] /\
  (let a := set_account hash_of (OHash h) true (Account (d_hash d) true) in
   a_must a = false /\ exists h', a_hash a = Some h' /\ verify old h' = true).
Proof.
  exists ex_verify, 0, ex_cat, (Session 50 100 10 (new_user 7 []) false false true true), 70, (Udesc 7 false (Some 420)), 42, 420, 421, (fun p => p * 10).
  repeat split. exists 421. split; reflexivity.
Qed.
Print Assumptions C66_same_password_refuted.
