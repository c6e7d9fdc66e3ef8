(** Running the script of [DumpModel.dump]: each line does what its object asks for, and in that order nothing is missing. *)
From Coq Require Import Ascii String.
From Coq Require Import List.
From Verif Require Import Prelude DumpModel DumpSpec DumpProofs.
Open Scope list_scope.
Open Scope Z_scope.
Local Notation length := Datatypes.length.

(** * Newlines *)
Definition nonl (s : str) : bool := forallb (fun c => negb (c =? 10)) s.
Lemma nonl_iff s : nonl s = true <-> ~ In 10 s.
Proof.
  unfold nonl. rewrite forallb_forall. split.
  - intros H J. specialize (H 10 J). discriminate H.
  - intros H x J. apply negb_true_iff, Z.eqb_neq. intros ->. auto.
Qed.
Lemma nonl_app a b : nonl (a ++ b) = nonl a && nonl b. Proof. apply forallb_app. Qed.
Lemma nonl_esc s : nonl s = true -> nonl (esc s) = true.
Proof. intros H. apply nonl_iff. apply nonl_iff in H. intros J. apply H. unfold esc in J. apply in_flat_map in J. destruct J as (c & J & K). destruct (c =? 39) eqn:Q.
  - cbn [In] in K. destruct K as [K|[K|K]]; try discriminate K; contradiction.
  - destruct K as [K|[]]. subst. auto. Qed.
Lemma nonl_literal s : nonl s = true -> nonl (literal s) = true.
Proof. intros H. change (literal s) with ([39] ++ esc s ++ [39]). rewrite !nonl_app, nonl_esc by auto. reflexivity. Qed.
Lemma nonl_quoted s : nonl s = true -> nonl (quoted s) = true.
Proof. intros H. change (quoted s) with ([34] ++ s ++ [34]). rewrite !nonl_app, H. reflexivity. Qed.
Lemma nonl_dec z : u64 z -> nonl (dec z) = true.
Proof.
  intros H. unfold dec. apply nonl_iff. intros J. assert (0 <= z) as K by apply H. pose proof (digits_ok 20 z K) as D. rewrite Forall_forall in D. specialize (D 10 J). discriminate D.
Qed.
Lemma nonl_join sp l : nonl sp = true -> Forall (fun s => nonl s = true) l -> nonl (join sp l) = true.
Proof.
  intros S. induction l as [|a l IH]; intros H; auto. inversion H as [|? ? H1 H2]; subst. destruct l as [|b l]; auto.
  change (join sp (a :: b :: l)) with (a ++ sp ++ join sp (b :: l)). rewrite !nonl_app, H1, S, IH; auto.
Qed.
Lemma nonl_trim_start s : nonl s = true -> nonl (trim_start s) = true.
Proof. induction s as [|c s IH]; intros H; auto. cbn [trim_start]. destruct (is_ws c); auto. apply IH. cbn [nonl forallb] in H. apply andb_true_iff in H. apply H. Qed.
Lemma nonl_rev s : nonl s = true -> nonl (rev s) = true.
Proof. rewrite !nonl_iff. intros H J. apply H. apply in_rev. auto. Qed.
Lemma nonl_trim s : nonl s = true -> nonl (trim s) = true.
Proof. intros H. unfold trim, trim_end. apply nonl_rev, nonl_trim_start, nonl_rev, nonl_trim_start; auto. Qed.

(** * Objects *)
Inductive ent :=
| ETenant (n : str) (o : topts) | EUser (n : str) (o : uopts) | EDb (t n : str) (o : dopts) | ERole (t n : str) (h : option sysrole)
| EGrant (t r d : str) (p : priv) | EMember (t u r : str) | ETable (t d n : str) (x : list column).
Definition inS (e : ent) (s : cat) : Prop :=
  match e with
  | ETenant n o => In (n, o) (tenants s) | EUser n o => In (n, o) (users s) | EDb t n o => In (t, n, o) (dbs s)
  | ERole t n h => In (t, n, h) (roles s) | EGrant t r d p => In (t, r, d, p) (grants s) | EMember t u r => In (t, u, r) (members s)
  | ETable t d n x => In (t, d, n, x) (tables s)
  end.
Definition same_key (e e' : ent) : Prop :=
  match e, e' with
  | ETenant n _, ETenant n' _ => n = n' | EUser n _, EUser n' _ => n = n' | EDb t n _, EDb t' n' _ => t = t' /\ n = n'
  | ERole t n _, ERole t' n' _ => t = t' /\ n = n' | EGrant t r d _, EGrant t' r' d' _ => t = t' /\ r = r' /\ d = d'
  | EMember t u _, EMember t' u' _ => t = t' /\ u = u' | ETable t d n _, ETable t' d' n' _ => t = t' /\ d = d' /\ n = n'
  | _, _ => False
  end.
(** What must be there before it. *)
Definition nd (D : ent -> Prop) (e : ent) : Prop :=
  match e with
  | ETenant _ _ | EUser _ _ => True
  | EDb t _ _ | ERole t _ _ => exists o, D (ETenant t o)
  | EGrant t r d _ => (exists h, D (ERole t r h)) /\ (exists o, D (EDb t d o))
  | EMember t u r => (exists o, D (ETenant t o)) /\ (exists o, D (EUser u o)) /\ (system_role r \/ exists h, D (ERole t r h))
  | ETable t d _ _ => exists o, D (EDb t d o)
  end.
Definition in_session (t : str) (e : ent) : Prop :=
  match e with EDb t' _ _ | ERole t' _ _ | EGrant t' _ _ _ | ETable t' _ _ _ => t' = t | _ => True end.
Lemma nd_mono (D D' : ent -> Prop) e : (forall x, D x -> D' x) -> nd D e -> nd D' e.
Proof.
  intros H. destruct e; cbn [nd]; auto.
  - intros (z & K). exists z. apply H, K.
  - intros (z & K). exists z. apply H, K.
  - intros ((z & K) & (z' & K')). split; [exists z; apply H, K|exists z'; apply H, K'].
  - intros ((z & K) & (z' & K') & K2). split; [exists z; apply H, K|]. split; [exists z'; apply H, K'|]. destruct K2 as [K2|(z2 & K2)]; [left; auto|right; exists z2; apply H, K2].
  - intros (z & K). exists z. apply H, K.
Qed.

Lemma has_str k {V} (l : list (str * V)) : has str_eqb k l = true <-> exists v, In (k, v) l.
Proof. apply has_iff. apply str_eqb_eq. Qed.
Lemma has_2 k {V} (l : list (str * str * V)) : has eqb2 k l = true <-> exists v, In (k, v) l.
Proof. apply has_iff. apply eqb2_eq. Qed.
Lemma has_3 k {V} (l : list (str * str * str * V)) : has eqb3 k l = true <-> exists v, In (k, v) l.
Proof. apply has_iff. apply eqb3_eq. Qed.

Section Run.
Variables (dur_text size_text : Z -> str) (dur_read size_read : str -> option Z).
Notation exec := (exec dur_read size_read).
Notation line := (line dur_read size_read).
Definition ok_ent (e : ent) : Prop :=
  match e with
  | ETenant n o => tenant_ok dur_text dur_read n o
  | EUser n o => user_ok n o
  | EDb _ n o => db_ok dur_text size_text dur_read size_read n o
  | ERole _ n _ => plain_name n /\ ~ system_role n
  | EGrant _ r d _ => plain r /\ plain d
  | EMember t u r => plain t /\ plain u /\ plain r
  | ETable _ d n x => plain_name d /\ plain_name n /\ table_ok x
  end.
Definition ent_text (i : bool) (e : ent) : str :=
  match e with
  | ETenant n o => tenant_text dur_text i n o
  | EUser n o => user_text i n o
  | EDb _ n o => db_text dur_text size_text i n o
  | ERole _ n h => role_text n h
  | EGrant _ r d p => grant_text d r p
  | EMember t u r => member_text t u r
  | ETable _ d n x => table_text i d n x
  end.
Lemma one_line_nonl o : one_line o -> forall s, o = Some s -> nonl s = true.
Proof. intros H s ->. apply nonl_iff. auto. Qed.
Lemma plain_nonl s : plain s -> nonl s = true. Proof. intros (_ & H). apply nonl_iff; auto. Qed.
Lemma opt_nonl {A} k (show : A -> str) o : nonl k = true -> (forall v, o = Some v -> nonl (show v) = true) -> Forall (fun s => nonl s = true) (opt_text k show o).
Proof.
  intros K H. unfold opt_text. destruct o as [v|]; [|apply Forall_nil]. apply Forall_cons; [|apply Forall_nil]. rewrite !nonl_app, K, (H v eq_refl). reflexivity.
Qed.
Lemma with_nonl os : Forall (fun s => nonl s = true) os -> nonl (with_text os) = true.
Proof. intros H. unfold with_text. destruct os; auto. rewrite nonl_app, nonl_join; auto. Qed.
Lemma readback_nonl text read z : readback text read z -> nonl (text z) = true.
Proof. intros (_ & _ & H). apply nonl_iff; auto. Qed.
Lemma bool_nonl b : nonl (bool_text b) = true. Proof. destruct b; reflexivity. Qed.
Lemma fields_nonl cols : Forall (fun c => plain (c_name c)) cols -> nonl (flat_map field_text cols) = true.
Proof.
  induction cols as [|c cols IH]; intros H; auto. inversion H as [|? ? H1 H2]; subst. cbn [flat_map]. rewrite nonl_app, IH by auto. rewrite andb_true_r.
  unfold field_text. destruct (c_type c) as [| |v]; auto. rewrite !nonl_app, nonl_quoted by (apply plain_nonl; auto). destruct v, (c_codec c); reflexivity.
Qed.
Lemma text_nonl i e : ok_ent e -> nonl (ent_text i e) = true.
Proof.
  destruct e; cbn [ok_ent ent_text].
  - intros ((P & _) & _ & C & R & L). unfold tenant_text. rewrite nonl_app, nonl_trim; [reflexivity|]. rewrite !nonl_app, nonl_quoted by (apply plain_nonl; auto).
    rewrite with_nonl; [destruct i; reflexivity|]. unfold tenant_opts.
    apply Forall_app. split; [|apply Forall_app; split].
    + apply opt_nonl; [reflexivity|]. intros v E. apply nonl_literal. eapply one_line_nonl; [|exact E]; assumption.
    + apply opt_nonl; [reflexivity|]. intros v E. rewrite E in R. apply nonl_literal. eapply readback_nonl; eauto.
    + apply opt_nonl; [reflexivity|]. intros v E. destruct L as (L & _). congruence.
  - intros ((P & _) & H1 & H2 & H3). unfold user_text. rewrite !nonl_app, nonl_quoted by (apply plain_nonl; auto). rewrite with_nonl; [destruct i; reflexivity|].
    unfold user_opts. repeat (apply Forall_app; split); apply opt_nonl; try reflexivity; intros v E; try apply bool_nonl; apply nonl_literal; (eapply one_line_nonl; [|exact E]; assumption).
  - intros ((P & _) & M1 & M2 & R1 & R2 & U1 & U2 & U3 & U4 & _). unfold db_text. rewrite nonl_app, nonl_trim; [reflexivity|].
    rewrite !nonl_app, nonl_quoted by (apply plain_nonl; auto). rewrite !nonl_dec by auto. rewrite !bool_nonl.
    rewrite (readback_nonl _ _ _ M1), (readback_nonl _ _ _ M2), (readback_nonl _ _ _ R1), (readback_nonl _ _ _ R2). destruct i, (d_prec o); reflexivity.
  - intros ((P & _) & _). unfold role_text. rewrite !nonl_app, nonl_quoted by (apply plain_nonl; auto). destruct h as [[]|]; reflexivity.
  - intros (P & Q). unfold grant_text. rewrite !nonl_app, !nonl_quoted by (apply plain_nonl; auto). destruct p; reflexivity.
  - intros (P & Q & R). unfold member_text. rewrite !nonl_app, !nonl_quoted by (apply plain_nonl; auto). reflexivity.
  - intros ((P & _) & (Q & _) & (tags & fs & -> & _ & _ & _ & H)). unfold table_text. rewrite !nonl_app, !nonl_quoted by (apply plain_nonl; auto). rewrite fields_nonl by auto.
    rewrite nonl_join; [destruct i; reflexivity|reflexivity|]. apply Forall_forall. intros y J. apply in_map_iff in J. destruct J as (c & <- & J). apply filter_In in J.
    rewrite Forall_forall in H. apply nonl_quoted, plain_nonl, H. apply J.
Qed.
Lemma sysrole_none n : ~ system_role n -> sysrole_of n = None.
Proof.
  intros H. unfold sysrole_of. destruct (str_eqb n (txt "owner")) eqn:Q1; [apply str_eqb_eq in Q1; exfalso; apply H; left; auto|].
  destruct (str_eqb n (txt "member")) eqn:Q2; [apply str_eqb_eq in Q2; exfalso; apply H; right; auto|]. auto.
Qed.
Lemma cols_planned tags fs : Forall (fun x => codec_ok (snd (fst x)) (snd x)) fs ->
  cols_plan (map t_opt tags ++ map f_opt fs) = Some (map t_col tags ++ map f_col fs).
Proof.
  intros H. induction tags as [|n tags IH].
  - cbn [map app]. induction fs as [|[[n v] k] fs IH]; auto. inversion H as [|? ? H1 H2]; subst. cbn [map cols_plan]. rewrite IH by auto.
    replace (col_plan (f_opt (n, v, k))) with (Some (f_col (n, v, k))); auto. cbn [fst snd] in H1.
    destruct v; cbn [codec_ok] in H1; try contradiction; cbn [In] in H1; repeat (destruct H1 as [<-|H1]; [reflexivity|]); contradiction.
  - cbn [map app cols_plan]. rewrite IH. reflexivity.
Qed.
Lemma distinct_ok l : NoDup l -> distinct l = true.
Proof.
  induction 1 as [|x l N _ IH]; auto. cbn [distinct]. rewrite IH, andb_true_r. apply negb_true_iff, not_true_is_false. rewrite existsb_exists. intros (y & J & E). apply str_eqb_eq in E. subst. auto.
Qed.
Lemma planned tags fs cols : cols = Col (txt "time") CTime Default :: map t_col tags ++ map f_col fs -> Forall (fun x => codec_ok (snd (fst x)) (snd x)) fs ->
  NoDup (map c_name cols) -> table_plan (map t_opt tags ++ map f_opt fs) = Some cols.
Proof. intros -> H N. unfold table_plan. rewrite cols_planned by auto. cbv zeta. rewrite distinct_ok; auto. Qed.

Lemma unless_made {K V} (eqb : K -> K -> bool) (E : forall a b, eqb a b = true <-> a = b) i k (l : list (K * V)) c m :
  (forall v, ~ In (k, v) l) -> unless eqb i k l c (Some m) = Some m.
Proof. intros H. unfold unless. destruct (has eqb k l) eqn:Q; auto. apply (has_iff eqb E) in Q. destruct Q as (v & Q). exfalso; eapply H; eauto. Qed.
Lemma unless_there {K V} (eqb : K -> K -> bool) (E : forall a b, eqb a b = true <-> a = b) k (l : list (K * V)) c m v :
  In (k, v) l -> unless eqb true k l c m = Some c.
Proof. intros H. unfold unless. replace (has eqb k l) with true; auto. symmetry. apply (has_iff eqb E). eauto. Qed.

Lemma in_end {A} (x y : A) l : In x (l ++ [y]) <-> In x l \/ x = y.
Proof. rewrite in_app_iff. cbn [In]. intuition auto. Qed.

Lemma filter_all {A} (p : A -> bool) l : (forall x, In x l -> p x = true) -> filter p l = l.
Proof. induction l as [|a l IH]; intros H; auto. cbn [filter]. rewrite (H a (or_introl eq_refl)), IH; auto. intros x J. apply H. right; auto. Qed.
Lemma exec_ent i e : ok_ent e -> exists st, stmt_text (ent_text i e) st /\
  forall f t s, in_session t e -> nd (fun x => inS x s) e -> (forall e', same_key e e' -> inS e' s -> i = true /\ e' = e) ->
  (match e with ERole _ _ _ | EGrant _ _ _ _ | EMember _ _ _ => i = false | _ => True end) ->
  exists s', exec f t st s = Some s' /\ forall x, inS x s' <-> inS x s \/ x = e.
Proof.
  destruct e; cbn [ok_ent ent_text]; intros K.
  - destruct (tenant_stmt dur_text dur_read i n o K) as (T & P). eexists; split; [exact T|]. intros f t s _ _ A _. cbn [DumpModel.exec]. rewrite P.
    destruct (has str_eqb n (tenants s)) eqn:Q.
    + apply has_str in Q. destruct Q as (o' & Q). destruct (A (ETenant n o') eq_refl Q) as (-> & E). injection E as ->.
      exists s. split; [apply (unless_there str_eqb str_eqb_eq) with o; auto|]. intros x. split; auto. intros [J| ->]; auto.
    + exists (add_tenant (n, o) s). split; [apply (unless_made str_eqb str_eqb_eq); intros v J; assert (C : has str_eqb n (tenants s) = true) by (apply has_str; eauto); congruence|].
      intros x. destruct x; cbn [inS add_tenant tenants users dbs roles grants members tables]; try rewrite in_end; intuition congruence.
  - pose proof (user_stmt dur_read size_read i n o K) as T. eexists; split; [exact T|]. intros f t s _ _ A _. cbn [DumpModel.exec]. rewrite u_stmt_plan.
    destruct (has str_eqb n (users s)) eqn:Q.
    + apply has_str in Q. destruct Q as (o' & Q). destruct (A (EUser n o') eq_refl Q) as (-> & E). injection E as ->.
      exists s. split; [apply (unless_there str_eqb str_eqb_eq) with o; auto|]. intros x. split; auto. intros [J| ->]; auto.
    + exists (add_user (n, o) s). split; [apply (unless_made str_eqb str_eqb_eq); intros v J; assert (C : has str_eqb n (users s) = true) by (apply has_str; eauto); congruence|].
      intros x. destruct x; cbn [inS add_user tenants users dbs roles grants members tables]; try rewrite in_end; intuition congruence.
  - pose proof (db_stmt dur_text size_text dur_read size_read i n o K) as T. eexists; split; [exact T|]. intros f t' s S N A _. cbn [in_session] in S. subst t'. cbn [nd inS] in N. cbn [DumpModel.exec].
    rewrite (d_stmt_plan dur_text size_text dur_read size_read f n o K). apply has_str in N. rewrite N.
    destruct (has eqb2 (t, n) (dbs s)) eqn:Q.
    + apply has_2 in Q. destruct Q as (o' & Q). destruct (A (EDb t n o') (conj eq_refl eq_refl) Q) as (-> & E). injection E as ->.
      exists s. split; [apply (unless_there eqb2 eqb2_eq) with o; auto|]. intros x. split; auto. intros [J| ->]; auto.
    + exists (add_db (t, n, o) s). split; [apply (unless_made eqb2 eqb2_eq); intros v J; assert (C : has eqb2 (t, n) (dbs s) = true) by (apply has_2; eauto); congruence|].
      intros x. destruct x; cbn [inS add_db tenants users dbs roles grants members tables]; try rewrite in_end; intuition congruence.
  - destruct K as (K & K2). pose proof (role_stmt n h K) as T. eexists; split; [exact T|]. intros f t' s S N A I. subst i. cbn [in_session] in S. subst t'. cbn [nd inS] in N. cbn [DumpModel.exec].
    rewrite sysrole_none by auto. apply has_str in N. rewrite N.
    assert (U : forall m, unless eqb2 false (t, n) (roles s) s (Some m) = Some m).
    { intros m. apply (unless_made eqb2 eqb2_eq). intros v J. destruct (A (ERole t n v) (conj eq_refl eq_refl) J) as (C & _). discriminate C. }
    exists (add_role (t, n, h) s). split.
    + destruct h as [[]|]; cbn [option_map sysrole_text]; [change (sysrole_of (txt "owner")) with (Some Owner)|change (sysrole_of (txt "member")) with (Some Member)|]; cbv iota; apply U.
    + intros x. destruct x; cbn [inS add_role tenants users dbs roles grants members tables]; try rewrite in_end; intuition congruence.
  - destruct K as ((K1 & _) & (K2 & _)). pose proof (grant_stmt d r p K2 K1) as T. eexists; split; [exact T|]. intros f t' s S N A I. subst i. cbn [in_session] in S. subst t'. cbn [nd inS] in N. cbn [DumpModel.exec].
    destruct N as (N1 & N2). apply has_2 in N1, N2. rewrite N1, N2. cbn [andb]. eexists; split; [reflexivity|].
    assert (F : filter (fun x => negb (eqb3 (fst x) (t, r, d))) (grants s) = grants s).
    { apply filter_all. intros [[[t1 r1] d1] p1] J. apply negb_true_iff, not_true_is_false. cbn [fst]. rewrite eqb3_eq. intros E. injection E as -> -> ->.
      destruct (A (EGrant t r d p1) (conj eq_refl (conj eq_refl eq_refl)) J) as (C & _). discriminate C. }
    intros x. destruct x; cbn [inS set_grant tenants users dbs roles grants members tables fst]; try rewrite F; try rewrite in_end; intuition congruence.
  - destruct K as ((K1 & _) & (K2 & _) & (K3 & _)). pose proof (member_stmt t u r K1 K2 K3) as T. eexists; split; [exact T|]. intros f t' s S N A I. subst i. cbn [nd inS] in N. cbn [DumpModel.exec].
    destruct N as (N1 & N2 & N3). apply has_str in N1, N2. rewrite N1, N2. cbn [andb].
    replace (match sysrole_of r with Some _ => true | None => has eqb2 (t, r) (roles s) end) with true.
    + replace (has eqb2 (t, u) (members s)) with false; [|symmetry; apply not_true_is_false; intros C; apply has_2 in C; destruct C as (v & C); destruct (A (EMember t u v) (conj eq_refl eq_refl) C) as (C' & _); discriminate C'].
      cbn [negb andb]. eexists; split; [reflexivity|]. intros x. destruct x; cbn [inS add_member tenants users dbs roles grants members tables]; try rewrite in_end; intuition congruence.
    + symmetry. destruct N3 as [[-> | ->]|N3]; [reflexivity|reflexivity|]. apply has_2 in N3. rewrite N3. destruct (sysrole_of r); auto.
  - destruct K as (((K1 & _) & K2 & _) & K3 & (tags & fs & E & NE & C & ND & P)).
    assert (PT : Forall (fun n => ~ In 34 n) tags). { apply Forall_forall. intros y J. rewrite Forall_forall in P. refine (proj1 (P (t_col y) _)). rewrite E. right. apply in_app_iff. left. exact (in_map t_col tags y J). }
    assert (PF : Forall (fun x => ~ In 34 (fst (fst x))) fs). { apply Forall_forall. intros y J. rewrite Forall_forall in P. refine (proj1 (P (f_col y) _)). rewrite E. right. apply in_app_iff. right. exact (in_map f_col fs y J). }
    pose proof (table_stmt dur_read size_read i d n tags fs K1 K2 K3 NE C PT PF) as T. change (Col (txt "time") CTime Default :: map t_col tags ++ map f_col fs) with (Col (txt "time") CTime Default :: map (fun n => Col n CTag Default) tags ++ map (fun x => Col (fst (fst x)) (CField (snd (fst x))) (snd x)) fs) in T. rewrite <- E in T.
    eexists; split; [exact T|]. intros f t' s S N A _. cbn [in_session] in S. subst t'. cbn [nd inS] in N. cbn [DumpModel.exec]. apply has_2 in N. rewrite N. rewrite (planned tags fs x E C ND).
    destruct (has eqb3 (t, d, n) (tables s)) eqn:Q.
    + apply has_3 in Q. destruct Q as (o' & Q). destruct (A (ETable t d n o') (conj eq_refl (conj eq_refl eq_refl)) Q) as (-> & E'). injection E' as ->.
      exists s. split; [apply (unless_there eqb3 eqb3_eq) with x; auto|]. intros y. split; auto. intros [J| ->]; auto.
    + exists (add_table (t, d, n, x) s). split; [apply (unless_made eqb3 eqb3_eq); intros v J; assert (C' : has eqb3 (t, d, n) (tables s) = true) by (apply has_3; eauto); congruence|].
      intros y. destruct y; cbn [inS add_table tenants users dbs roles grants members tables]; try rewrite in_end; intuition congruence.
Qed.

(** * Lines *)
Inductive act := Note (s : str) | Sess (t : str) | Mk (i : bool) (e : ent).
Definition act_text (a : act) : str :=
  match a with Note s => txt "--" ++ s | Sess t => txt "\change_tenant " ++ t | Mk i e => ent_text i e end.
Definition ents (l : list act) : list ent := flat_map (fun a => match a with Mk _ e => [e] | _ => [] end) l.
Definition mk_ok (i : bool) (e : ent) : Prop := match e with ERole _ _ _ | EGrant _ _ _ _ | EMember _ _ _ => i = false | _ => True end.
Definition act_ok (a : act) : Prop :=
  match a with
  | Note s => ~ In 10 s /\ exists r c, s = r ++ [c] /\ c <> 13
  | Sess t => plain_name t /\ tight t
  | Mk i e => ok_ent e /\ mk_ok i e
  end.
Fixpoint good (ses : str) (D : ent -> Prop) (l : list act) : Prop :=
  match l with
  | [] => True
  | Note _ :: l => good ses D l
  | Sess t :: l => good t D l
  | Mk i e :: l => in_session ses e /\ nd D e /\ (forall e', same_key e e' -> D e' -> i = true /\ e' = e) /\ good ses (fun x => D x \/ x = e) l
  end.
Lemma tight_ends t : plain_name t -> tight t -> exists c r r' c', t = c :: r /\ t = r' ++ [c'] /\ is_ws c = false /\ is_ws c' = false.
Proof.
  intros (_ & _ & (z & J & _)) (H1 & H2). destruct t as [|c r]; [destruct J|]. destruct (exists_last (l := c :: r) ltac:(congruence)) as (r' & c' & E).
  exists c, r, r', c'. split; [auto|]. split; [auto|]. split; apply not_ws; eauto.
Qed.
Lemma strip_once k p s : (0 < length p)%nat -> starts_with p s = false -> starts_with p (p ++ s) = true -> strip (S (S k)) p (p ++ s) = s.
Proof.
  intros L N Y. cbn [strip]. rewrite Y. rewrite skipn_app, Nat.sub_diag, skipn_all. cbn [app skipn]. rewrite N. auto.
Qed.
Lemma line_sess stop f ses c t : plain_name t -> tight t -> line stop f (Client ses [] c true) (txt "\change_tenant " ++ t) = Client t [] c true.
Proof.
  intros P T. destruct (tight_ends t P T) as (x & r & r' & x' & E1 & E2 & W1 & W2).
  unfold DumpModel.line. cbn [cl_ok cl_tenant cl_query cl_cat negb]. rewrite andb_false_r.
  replace (starts_with (txt "--") (txt "\change_tenant " ++ t)) with false by reflexivity.
  assert (TT : trim (txt "\change_tenant " ++ t) = txt "\change_tenant " ++ t).
  { unfold trim. change (txt "\change_tenant " ++ t) with (92 :: (tl (txt "\change_tenant ") ++ t)). rewrite trim_start_head by reflexivity.
    rewrite E2 at 1 2. change (92 :: tl (txt "\change_tenant ") ++ r' ++ [x']) with ((92 :: tl (txt "\change_tenant ")) ++ r' ++ [x']). rewrite app_assoc. apply trim_end_last; auto. }
  rewrite TT. replace (starts_with CHANGE (txt "\change_tenant " ++ t)) with true by reflexivity. f_equal.
  change (txt "\change_tenant " ++ t) with (CHANGE ++ 32 :: t). replace (length (CHANGE ++ 32 :: t)) with (S (S (13 + length t))) by (rewrite app_length; cbn [length]; change (length CHANGE) with 14%nat; lia).
  rewrite strip_once; [|vm_compute; lia|reflexivity|reflexivity].
  unfold trim. change (trim_start (32 :: t)) with (trim_start t). rewrite E1 at 1. rewrite trim_start_head by auto. rewrite <- E1. rewrite E2 at 1. rewrite trim_end_last by auto. auto.
Qed.
Definition last_ses (ses : str) (l : list act) : str := fold_left (fun s a => match a with Sess t => t | _ => s end) l ses.
Lemma run_acts stop f : forall l ses s (D : ent -> Prop), Forall act_ok l -> (forall x, inS x s <-> D x) -> good ses D l ->
  exists s', fold_left (line stop f) (map act_text l) (Client ses [] s true) = Client (last_ses ses l) [] s' true /\ forall x, inS x s' <-> D x \/ In x (ents l).
Proof.
  induction l as [|a l IH]; intros ses s D K E G; [exists s; split; [auto|]; intros x; cbn; rewrite E; intuition auto|].
  inversion K as [|? ? K1 K2]; subst. cbn [map fold_left]. destruct a as [n|t|i e].
  - replace (line stop f (Client ses [] s true) (act_text (Note n))) with (Client ses [] s true); [exact (IH ses s D K2 E G)|].
    unfold DumpModel.line. cbn [cl_ok negb]. rewrite andb_false_r. reflexivity.
  - cbn [act_text]. destruct K1 as (K1 & K1'). rewrite line_sess by auto. exact (IH t s D K2 E G).
  - destruct K1 as (K1 & K1'). cbn [good] in G. destruct G as (G1 & G2 & G3 & G4). destruct (exec_ent i e K1) as (st & T & X).
    destruct (X f ses s G1) as (s' & X1 & X2); auto.
    { eapply nd_mono; [|exact G2]. intros y Y. apply E; auto. }
    { intros e' J J'. apply G3; auto. apply E; auto. }
    cbn [act_text]. rewrite (line_stmt dur_read size_read _ st stop f ses s s' T X1).
    destruct (IH ses s' (fun x => D x \/ x = e) K2) as (s2 & R1 & R2); [intros x; rewrite X2, E; tauto|exact G4|].
    exists s2. split; [exact R1|]. intros x. rewrite R2. cbn [ents flat_map app In]. intuition auto.
Qed.
Lemma split_line l r cur : ~ In 10 l -> split_lines cur (l ++ 10 :: r) = (match rev (cur ++ l) with 13 :: r => rev r | _ => cur ++ l end) :: split_lines [] r.
Proof.
  revert cur. induction l as [|c l IH]; intros cur H.
  - cbn [app split_lines]. change (10 =? 10) with true. rewrite app_nil_r. auto.
  - cbn [app split_lines]. replace (c =? 10) with false by (symmetry; apply Z.eqb_neq; intros ->; apply H; left; auto). rewrite IH by (intros J; apply H; right; auto).
    rewrite <- app_assoc. reflexivity.
Qed.
Definition clean (l : str) : Prop := ~ In 10 l /\ exists r c, l = r ++ [c] /\ c <> 13.
Lemma not13 {A} c (X : list Z -> A) (Y : A) r : c <> 13 -> match c :: r with 13 :: r => X r | _ => Y end = Y.
Proof.
  intros N. destruct c as [|p|p]; auto. do 4 (destruct p; auto). exfalso; apply N; auto.
Qed.
Lemma split_joined ls : Forall clean ls -> ls <> [] -> split_lines [] (join [10] ls ++ [10]) = ls.
Proof.
  induction ls as [|l ls IH]; intros C NE; [congruence|]. inversion C as [|? ? (C1 & (r & c & E & N)) C2]; subst.
  assert (B : forall rest, split_lines [] ((r ++ [c]) ++ 10 :: rest) = (r ++ [c]) :: split_lines [] rest).
  { intros rest. rewrite split_line by auto. cbn [app]. f_equal. rewrite rev_app_distr. cbn [rev app]. apply not13; auto. }
  destruct ls as [|b ls].
  - cbn [join]. rewrite B. auto.
  - change (join [10] ((r ++ [c]) :: b :: ls)) with ((r ++ [c]) ++ [10] ++ join [10] (b :: ls)). rewrite <- !app_assoc. cbn [app]. 
    replace (r ++ c :: 10 :: join [10] (b :: ls) ++ [10]) with ((r ++ [c]) ++ 10 :: (join [10] (b :: ls) ++ [10])) by (rewrite <- app_assoc; auto).
    rewrite B, IH; auto. congruence.
Qed.
Lemma act_clean a : act_ok a -> clean (act_text a).
Proof.
  destruct a as [s|t|i e]; cbn [act_ok act_text].
  - intros (H & (r & c & -> & N)). split.
    + rewrite in_app_iff. intros [J|J]; auto. apply (proj1 (nonl_iff (txt "--")) eq_refl); auto.
    + exists (txt "--" ++ r), c. rewrite app_assoc. auto.
  - intros (P & T). destruct (tight_ends t P T) as (x & r & r' & x' & E1 & E2 & W1 & W2). split.
    + rewrite in_app_iff. intros [J|J]; [apply (proj1 (nonl_iff (txt "\change_tenant ")) eq_refl); auto|]. destruct P as ((_ & P) & _). auto.
    + exists (txt "\change_tenant " ++ r'), x'. rewrite <- app_assoc, E2. split; auto. intros ->. discriminate W2.
  - intros (K & _). split; [apply nonl_iff, text_nonl; auto|]. destruct (exec_ent i e K) as (st & (w & l & E & _) & _). rewrite E.
    change (PW w :: l ++ [PC 59]) with ((PW w :: l) ++ [PC 59]). rewrite text_app. exists (text (PW w :: l)), 59. split; auto. congruence.
Qed.
Lemma restore_acts stop f ses l s (D : ent -> Prop) : l <> [] -> Forall act_ok l -> (forall x, inS x s <-> D x) -> good ses D l ->
  exists s', restore dur_read size_read stop f ses (join [10] (map act_text l) ++ [10]) s = (s', true) /\ forall x, inS x s' <-> D x \/ In x (ents l).
Proof.
  intros NE K E G. unfold restore. rewrite split_joined.
  - destruct (run_acts stop f l ses s D K E G) as (s' & R1 & R2). exists s'. rewrite R1. cbn [cl_ok negb cl_query cl_cat]. rewrite andb_false_r. auto.
  - apply Forall_forall. intros y J. apply in_map_iff in J. destruct J as (a & <- & J). rewrite Forall_forall in K. apply act_clean; auto.
  - destruct l; [congruence|discriminate].
Qed.
End Run.
