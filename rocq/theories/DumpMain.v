(** The script of a catalog as a list of objects, and the result of running it. *)
From Coq Require Import Ascii String.
From Coq Require Import List.
From Verif Require Import Prelude DumpModel DumpSpec DumpProofs DumpRun.
Open Scope list_scope.
Open Scope Z_scope.
Local Notation length := Datatypes.length.

(** * Order *)
Fixpoint rq (D : ent -> Prop) (l : list ent) : Prop :=
  match l with [] => True | e :: l => nd D e /\ rq (fun x => D x \/ x = e) l end.
Lemma rq_mono l : forall (D D' : ent -> Prop), (forall x, D x -> D' x) -> rq D l -> rq D' l.
Proof.
  induction l as [|e l IH]; intros D D' H; auto. cbn [rq]. intros (N & R). split; [eapply nd_mono; eauto|]. eapply IH; [|exact R]. cbv beta. intros x [J|J]; auto.
Qed.
Lemma rq_app a : forall b (D : ent -> Prop), rq D a -> rq (fun x => D x \/ In x a) b -> rq D (a ++ b).
Proof.
  induction a as [|e a IH]; intros b D A B.
  - cbn [app]. eapply rq_mono; [|exact B]. cbv beta. intros x [J|[]]; auto.
  - cbn [app rq] in *. destruct A as (N & A). split; auto. apply IH; auto. eapply rq_mono; [|exact B]. cbv beta. cbn [In]. intros x [J|[J|J]]; auto.
Qed.
Lemma rq_all l : forall D : ent -> Prop, (forall e, In e l -> nd D e) -> rq D l.
Proof.
  induction l as [|e l IH]; intros D H; [exact I|]. cbn [rq]. split; [apply H; left; auto|]. apply IH. intros x J. eapply nd_mono; [|apply H; right; exact J]. auto.
Qed.
Lemma rq_flat_map {A} (g : A -> list ent) l : forall D : ent -> Prop, (forall x, In x l -> rq D (g x)) -> rq D (flat_map g l).
Proof.
  induction l as [|a l IH]; intros D H; [exact I|]. cbn [flat_map]. apply rq_app; [apply H; left; auto|]. apply IH. intros x J. eapply rq_mono; [|apply H; right; exact J]. auto.
Qed.
Fixpoint sess_ok (ses : str) (l : list act) : Prop :=
  match l with [] => True | Note _ :: l => sess_ok ses l | Sess t :: l => sess_ok t l | Mk _ e :: l => in_session ses e /\ sess_ok ses l end.
Lemma ents_app a b : ents (a ++ b) = ents a ++ ents b. Proof. apply flat_map_app. Qed.
Lemma good_from l : forall ses D, sess_ok ses l -> rq D (ents l) -> NoDup (ents l) ->
  (forall e e', In e (ents l) -> In e' (ents l) -> same_key e e' -> e' = e) ->
  (forall i e e', In (Mk i e) l -> D e' -> same_key e e' -> i = true /\ e' = e) -> good ses D l.
Proof.
  induction l as [|a l IH]; intros ses D S R N U X; [exact I|]. destruct a as [n|t|i e].
  - apply IH; auto. intros i e e' J. apply X. right; auto.
  - apply IH; auto. intros i e e' J. apply X. right; auto.
  - cbn [good]. cbn [sess_ok] in S. cbn [ents flat_map app rq] in R. fold (ents l) in R. cbn [ents flat_map app] in N, U. fold (ents l) in N, U. inversion N as [|? ? N1 N2]; subst.
    split; [apply S|]. split; [apply R|]. split; [intros e' K J; eapply X; eauto; left; auto|]. apply IH; [apply S|apply R|auto| |].
    + intros x y J1 J2. apply U; right; auto.
    + intros j x y J [K|K] SK; [apply (X j x y); auto; right; auto|]. subst y. exfalso. apply N1.
      assert (In x (ents l)) as L by (unfold ents; apply in_flat_map; exists (Mk j x); split; [auto|left; auto]).
      rewrite (U x e (or_intror L) (or_introl eq_refl) SK). auto.
Qed.

(** * Without repetition *)
Lemma nodup_flat {A B} (g : A -> list B) l : NoDup l -> (forall x, In x l -> NoDup (g x)) ->
  (forall x y z, In x l -> In y l -> In z (g x) -> In z (g y) -> x = y) -> NoDup (flat_map g l).
Proof.
  induction 1 as [|a l N M IH]; intros H1 H2; [apply NoDup_nil|]. cbn [flat_map].
  assert (Q : forall p q : list B, NoDup p -> NoDup q -> (forall z, In z p -> ~ In z q) -> NoDup (p ++ q)).
  { clear. induction p as [|z p IH]; intros q P Q D; auto. cbn [app]. inversion P; subst. constructor.
    - rewrite in_app_iff. intros [J|J]; auto. eapply D; [left; reflexivity|auto].
    - apply IH; auto. intros y J. apply D. right; auto. }
  apply Q; [apply H1; left; auto|apply IH; [intros x J; apply H1; right; auto|intros x y z J1 J2; apply H2; right; auto]|].
  intros z J J'. apply in_flat_map in J'. destruct J' as (y & J1 & J2). assert (a = y) by (eapply H2; [left; reflexivity|right; exact J1|exact J|exact J2]). subst y. auto.
Qed.
Lemma nodup_app {B} (p q : list B) : NoDup p -> NoDup q -> (forall z, In z p -> ~ In z q) -> NoDup (p ++ q).
Proof.
  induction p as [|z p IH]; intros P Q D; auto. cbn [app]. inversion P; subst. constructor.
  - rewrite in_app_iff. intros [J|J]; auto. eapply D; [left; reflexivity|auto].
  - apply IH; auto. intros y J. apply D. right; auto.
Qed.
Lemma nodup_fst {A B} (l : list (A * B)) : NoDup (map fst l) -> NoDup l. Proof. apply NoDup_map_inv. Qed.
Lemma fst_unique {A B} (l : list (A * B)) k v v' : NoDup (map fst l) -> In (k, v) l -> In (k, v') l -> v = v'.
Proof.
  induction l as [|[a b] l IH]; intros N J J'; [destruct J|]. cbn [map fst] in N. inversion N as [|? ? N1 N2]; subst. destruct J as [J|J], J' as [J'|J'].
  - congruence.
  - injection J as -> ->. exfalso. apply N1. apply (in_map fst) in J'. exact J'.
  - injection J' as -> ->. exfalso. apply N1. apply (in_map fst) in J. exact J.
  - auto.
Qed.

Lemma in_dbs_of c t d o : In (d, o) (dbs_of c t) <-> In (t, d, o) (dbs c).
Proof.
  unfold dbs_of. rewrite in_flat_map. split.
  - intros ([[t' d'] o'] & J & K). destruct (str_eqb t' t) eqn:Q; [|destruct K]. apply str_eqb_eq in Q. destruct K as [K|[]]. injection K as -> ->. subst; auto.
  - intros J. exists (t, d, o). split; auto. rewrite str_eqb_refl. left; auto.
Qed.
Lemma in_roles_of c t r h : In (r, h) (roles_of c t) <-> In (t, r, h) (roles c).
Proof.
  unfold roles_of. rewrite in_flat_map. split.
  - intros ([[t' d'] o'] & J & K). destruct (str_eqb t' t) eqn:Q; [|destruct K]. apply str_eqb_eq in Q. destruct K as [K|[]]. injection K as -> ->. subst; auto.
  - intros J. exists (t, r, h). split; auto. rewrite str_eqb_refl. left; auto.
Qed.
Lemma in_grants_of c t r d p : In (d, p) (grants_of c t r) <-> In (t, r, d, p) (grants c).
Proof.
  unfold grants_of. rewrite in_flat_map. split.
  - intros ([[[t' r'] d'] p'] & J & K). destruct (str_eqb t' t && str_eqb r' r) eqn:Q; [|destruct K]. apply andb_true_iff in Q. destruct Q as (Q1 & Q2). apply str_eqb_eq in Q1, Q2.
    destruct K as [K|[]]. injection K as -> ->. subst; auto.
  - intros J. exists (t, r, d, p). split; auto. rewrite !str_eqb_refl. left; auto.
Qed.
Lemma in_tables_of c t d n x : In (n, x) (tables_of c t d) <-> In (t, d, n, x) (tables c).
Proof.
  unfold tables_of. rewrite in_flat_map. split.
  - intros ([[[t' r'] d'] p'] & J & K). destruct (str_eqb t' t && str_eqb r' d) eqn:Q; [|destruct K]. apply andb_true_iff in Q. destruct Q as (Q1 & Q2). apply str_eqb_eq in Q1, Q2.
    destruct K as [K|[]]. injection K as -> ->. subst; auto.
  - intros J. exists (t, d, n, x). split; auto. rewrite !str_eqb_refl. left; auto.
Qed.
Lemma in_members_of c t u r : closed c -> In (u, r) (members_of c t) <-> In (t, u, r) (members c).
Proof.
  intros C. unfold members_of. rewrite in_flat_map. split.
  - intros ([[t' r'] d'] & J & K). destruct (str_eqb t' t && has str_eqb r' (users c)) eqn:Q; [|destruct K]. apply andb_true_iff in Q. destruct Q as (Q1 & _). apply str_eqb_eq in Q1.
    destruct K as [K|[]]. injection K as -> ->. subst; auto.
  - intros J. exists (t, u, r). split; auto. rewrite str_eqb_refl. destruct C as (_ & _ & _ & C & _). destruct (C t u r J) as (_ & U & _). apply has_str in U. rewrite U. left; auto.
Qed.
Lemma nodup_dbs_of c t : NoDup (map fst (dbs c)) -> NoDup (dbs_of c t).
Proof.
  intros N. apply nodup_flat; [apply nodup_fst; auto| |].
  - intros [[a b] o] _. destruct (str_eqb a t); repeat constructor; auto.
  - intros [[a b] o] [[a' b'] o'] z _ _ J J'. destruct (str_eqb a t) eqn:Q; [|destruct J]. destruct (str_eqb a' t) eqn:Q'; [|destruct J']. apply str_eqb_eq in Q, Q'. destruct J as [J|[]], J' as [J'|[]]. congruence.
Qed.
Lemma nodup_roles_of c t : NoDup (map fst (roles c)) -> NoDup (roles_of c t).
Proof.
  intros N. apply nodup_flat; [apply nodup_fst; auto| |].
  - intros [[a b] o] _. destruct (str_eqb a t); repeat constructor; auto.
  - intros [[a b] o] [[a' b'] o'] z _ _ J J'. destruct (str_eqb a t) eqn:Q; [|destruct J]. destruct (str_eqb a' t) eqn:Q'; [|destruct J']. apply str_eqb_eq in Q, Q'. destruct J as [J|[]], J' as [J'|[]]. congruence.
Qed.
Lemma nodup_members_of c t : NoDup (map fst (members c)) -> NoDup (members_of c t).
Proof.
  intros N. apply nodup_flat; [apply nodup_fst; auto| |].
  - intros [[a b] o] _. destruct (str_eqb a t && has str_eqb b (users c)); repeat constructor; auto.
  - intros [[a b] o] [[a' b'] o'] z _ _ J J'. destruct (str_eqb a t && has str_eqb b (users c)) eqn:Q; [|destruct J]. destruct (str_eqb a' t && has str_eqb b' (users c)) eqn:Q'; [|destruct J'].
    apply andb_true_iff in Q, Q'. destruct Q as (Q & _), Q' as (Q' & _). apply str_eqb_eq in Q, Q'. destruct J as [J|[]], J' as [J'|[]]. congruence.
Qed.
Lemma nodup_grants_of c t r : NoDup (map fst (grants c)) -> NoDup (grants_of c t r).
Proof.
  intros N. apply nodup_flat; [apply nodup_fst; auto| |].
  - intros [[[a b] d] o] _. destruct (str_eqb a t && str_eqb b r); repeat constructor; auto.
  - intros [[[a b] d] o] [[[a' b'] d'] o'] z _ _ J J'. destruct (str_eqb a t && str_eqb b r) eqn:Q; [|destruct J]. destruct (str_eqb a' t && str_eqb b' r) eqn:Q'; [|destruct J'].
    apply andb_true_iff in Q, Q'. destruct Q as (Q & Q2), Q' as (Q' & Q2'). apply str_eqb_eq in Q, Q', Q2, Q2'. destruct J as [J|[]], J' as [J'|[]]. congruence.
Qed.
Lemma nodup_tables_of c t r : NoDup (map fst (tables c)) -> NoDup (tables_of c t r).
Proof.
  intros N. apply nodup_flat; [apply nodup_fst; auto| |].
  - intros [[[a b] d] o] _. destruct (str_eqb a t && str_eqb b r); repeat constructor; auto.
  - intros [[[a b] d] o] [[[a' b'] d'] o'] z _ _ J J'. destruct (str_eqb a t && str_eqb b r) eqn:Q; [|destruct J]. destruct (str_eqb a' t && str_eqb b' r) eqn:Q'; [|destruct J'].
    apply andb_true_iff in Q, Q'. destruct Q as (Q & Q2), Q' as (Q' & Q2'). apply str_eqb_eq in Q, Q', Q2, Q2'. destruct J as [J|[]], J' as [J'|[]]. congruence.
Qed.

(** * The script *)
Definition db_acts (c : cat) (t : str) : list act :=
  flat_map (fun e => if ci_eqb t CNOSDB && ci_eqb (fst e) PUBLIC then [] else [Mk true (EDb t (fst e) (snd e))]) (dbs_of c t).
Definition role_acts (c : cat) (t : str) : list act :=
  flat_map (fun e => Mk false (ERole t (fst e) (snd e)) :: map (fun g => Mk false (EGrant t (fst e) (fst g) (snd g))) (grants_of c t (fst e))) (roles_of c t).
Definition member_acts (c : cat) (t : str) : list act :=
  flat_map (fun e => if ci_eqb (fst e) ROOT && ci_eqb t CNOSDB then [] else [Mk false (EMember t (fst e) (snd e))]) (members_of c t).
Definition table_acts (c : cat) (t : str) : list act :=
  flat_map (fun e => map (fun x => Mk (ci_eqb (fst e) USAGE) (ETable t (fst e) (fst x) (snd x))) (tables_of c t (fst e))) (dbs_of c t).
Definition tenant_acts (c : cat) (t : str) : list act := Sess t :: db_acts c t ++ role_acts c t ++ member_acts c t ++ table_acts c t.
Definition picked (f : option str) (c : cat) : list (str * topts) := filter (fun e => chosen f (fst e)) (tenants c).
Definition used (f : option str) (c : cat) : list str := flat_map (fun e => map fst (members_of c (fst e))) (picked f c).
Definition t_acts (f : option str) (c : cat) : list act :=
  flat_map (fun e => if ci_eqb (fst e) CNOSDB then [] else [Mk true (ETenant (fst e) (snd e))]) (picked f c).
Definition u_acts (f : option str) (c : cat) : list act :=
  flat_map (fun e => if ci_eqb (fst e) ROOT then []
                     else match f with
                          | None => [Mk false (EUser (fst e) (snd e))]
                          | Some _ => if existsb (str_eqb (fst e)) (used f c) then [Mk true (EUser (fst e) (snd e))] else []
                          end) (users c).
Definition acts (f : option str) (c : cat) : list act :=
  Note (txt " Dump Global Object") :: t_acts f c ++ u_acts f c ++
  flat_map (fun e => Note (txt " Dump Tenant " ++ fst e ++ txt " Object") :: tenant_acts c (fst e)) (picked f c).

Lemma map_flat {A B C} (g : B -> C) (h : A -> list B) l : map g (flat_map h l) = flat_map (fun x => map g (h x)) l.
Proof. induction l as [|a l IH]; auto. cbn [flat_map]. rewrite map_app, IH. auto. Qed.
Section Main.
Variables (dur_text size_text : Z -> str) (dur_read size_read : str -> option Z).
Lemma lines_acts f c : dump_lines dur_text size_text f c = map (act_text dur_text size_text) (acts f c).
Proof.
  unfold dump_lines, acts. cbn [map]. f_equal. rewrite !map_app. f_equal; [|f_equal].
  - unfold t_acts. rewrite map_flat. apply flat_map_ext. intros [n o]. cbn [fst snd]. destruct (ci_eqb n CNOSDB); auto.
  - unfold u_acts. rewrite map_flat. apply flat_map_ext. intros [n o]. cbn [fst snd]. destruct (ci_eqb n ROOT); auto. destruct f; auto.
    change (flat_map (fun e : str * topts => map fst (members_of c (fst e))) (filter (fun e : str * topts => chosen (Some s) (fst e)) (tenants c))) with (used (Some s) c).
    destruct (existsb (str_eqb n) (used (Some s) c)); auto.
  - rewrite map_flat. apply flat_map_ext. intros [n o]. cbn [fst snd map]. f_equal. unfold tenant_acts, dump_tenant. cbn [map]. f_equal. rewrite !map_app. f_equal; [|f_equal; [|f_equal]].
    + unfold db_acts. rewrite map_flat. apply flat_map_ext. intros [d o']. cbn [fst snd]. destruct (ci_eqb n CNOSDB && ci_eqb d PUBLIC); auto.
    + unfold role_acts. rewrite map_flat. apply flat_map_ext. intros [d o']. cbn [fst snd map]. f_equal. rewrite map_map. auto.
    + unfold member_acts. rewrite map_flat. apply flat_map_ext. intros [d o']. cbn [fst snd]. destruct (ci_eqb d ROOT && ci_eqb n CNOSDB); auto.
    + unfold table_acts. rewrite map_flat. apply flat_map_ext. intros [d o']. cbn [fst snd]. rewrite map_map. auto.
Qed.

(** ** What is in the script *)
Lemma in_ents e l : In e (ents l) <-> exists i, In (Mk i e) l.
Proof.
  unfold ents. rewrite in_flat_map. split.
  - intros ([n|t|i e'] & J & K); try destruct K as [K|[]]; [destruct K|destruct K|]. subst. eauto.
  - intros (i & J). exists (Mk i e). split; [auto|left; auto].
Qed.
Lemma in_db_acts c t i e : In (Mk i e) (db_acts c t) <-> exists d o, i = true /\ e = EDb t d o /\ In (t, d, o) (dbs c) /\ ci_eqb t CNOSDB && ci_eqb d PUBLIC = false.
Proof.
  unfold db_acts. rewrite in_flat_map. split.
  - intros ([d o] & J & K). apply in_dbs_of in J. cbn [fst snd] in K. destruct (ci_eqb t CNOSDB && ci_eqb d PUBLIC) eqn:Q; [destruct K|]. destruct K as [K|[]]. injection K as <- <-. exists d, o. auto.
  - intros (d & o & -> & -> & J & Q). exists (d, o). split; [apply in_dbs_of; auto|]. cbn [fst snd]. rewrite Q. left; auto.
Qed.
Lemma in_role_acts c t i e : In (Mk i e) (role_acts c t) <-> i = false /\
  ((exists r h, e = ERole t r h /\ In (t, r, h) (roles c)) \/ (exists r h d p, e = EGrant t r d p /\ In (t, r, h) (roles c) /\ In (t, r, d, p) (grants c))).
Proof.
  unfold role_acts. rewrite in_flat_map. split.
  - intros ([r h] & J & K). apply in_roles_of in J. cbn [fst snd] in K. destruct K as [K|K].
    + injection K as <- <-. split; auto. left. eauto.
    + apply in_map_iff in K. destruct K as ([d p] & E & K). injection E as <- <-. apply in_grants_of in K. split; auto. right. exists r, h, d, p. auto.
  - intros (-> & [(r & h & -> & J)|(r & h & d & p & -> & J & K)]); exists (r, h); (split; [apply in_roles_of; auto|]); cbn [fst snd].
    + left; auto.
    + right. apply in_map_iff. exists (d, p). split; auto. apply in_grants_of; auto.
Qed.
Lemma in_member_acts c t i e : closed c -> In (Mk i e) (member_acts c t) <-> exists u r, i = false /\ e = EMember t u r /\ In (t, u, r) (members c) /\ ci_eqb u ROOT && ci_eqb t CNOSDB = false.
Proof.
  intros C. unfold member_acts. rewrite in_flat_map. split.
  - intros ([u r] & J & K). apply in_members_of in J; auto. cbn [fst snd] in K. destruct (ci_eqb u ROOT && ci_eqb t CNOSDB) eqn:Q; [destruct K|]. destruct K as [K|[]]. injection K as <- <-. exists u, r. auto.
  - intros (u & r & -> & -> & J & Q). exists (u, r). split; [apply in_members_of; auto|]. cbn [fst snd]. rewrite Q. left; auto.
Qed.
Lemma in_table_acts c t i e : In (Mk i e) (table_acts c t) <->
  exists d o n x, i = ci_eqb d USAGE /\ e = ETable t d n x /\ In (t, d, o) (dbs c) /\ In (t, d, n, x) (tables c).
Proof.
  unfold table_acts. rewrite in_flat_map. split.
  - intros ([d o] & J & K). apply in_dbs_of in J. cbn [fst snd] in K. apply in_map_iff in K. destruct K as ([n x] & E & K). injection E as <- <-. apply in_tables_of in K. exists d, o, n, x. auto.
  - intros (d & o & n & x & -> & -> & J & K). exists (d, o). split; [apply in_dbs_of; auto|]. cbn [fst snd]. apply in_map_iff. exists (n, x). split; auto. apply in_tables_of; auto.
Qed.
Lemma chosen_sel f t : chosen f t = true <-> sel f t.
Proof. destruct f as [g|]; cbn [chosen sel]; [apply str_eqb_eq|tauto]. Qed.
Lemma in_picked f c t o : In (t, o) (picked f c) <-> In (t, o) (tenants c) /\ sel f t.
Proof. unfold picked. rewrite filter_In. cbn [fst]. rewrite chosen_sel. tauto. Qed.
Lemma in_used f c u : closed c -> In u (used f c) <-> exists t r, sel f t /\ In (t, u, r) (members c).
Proof.
  intros C. unfold used. rewrite in_flat_map. split.
  - intros ([t o] & J & K). apply in_picked in J. cbn [fst] in K. apply in_map_iff in K. destruct K as ([u' r] & E & K). cbn [fst] in E. subst u'. apply in_members_of in K; auto. exists t, r. tauto.
  - intros (t & r & S & J). pose proof C as (C1 & C2 & C3 & C4 & C5). destruct (C4 t u r J) as ((o & O) & _). exists (t, o). split; [apply in_picked; auto|]. cbn [fst]. apply in_map_iff. exists (u, r). split; auto.
    apply in_members_of; auto.
Qed.
Lemma in_t_acts f c i e : In (Mk i e) (t_acts f c) <-> exists n o, i = true /\ e = ETenant n o /\ In (n, o) (tenants c) /\ sel f n /\ ci_eqb n CNOSDB = false.
Proof.
  unfold t_acts. rewrite in_flat_map. split.
  - intros ([n o] & J & K). apply in_picked in J. cbn [fst snd] in K. destruct (ci_eqb n CNOSDB) eqn:Q; [destruct K|]. destruct K as [K|[]]. injection K as <- <-. exists n, o. tauto.
  - intros (n & o & -> & -> & J & S & Q). exists (n, o). split; [apply in_picked; auto|]. cbn [fst snd]. rewrite Q. left; auto.
Qed.
Lemma in_u_acts f c i e : closed c -> In (Mk i e) (u_acts f c) <->
  exists n o, i = match f with None => false | Some _ => true end /\ e = EUser n o /\ In (n, o) (users c) /\ sel_user f c n /\ ci_eqb n ROOT = false.
Proof.
  intros C. unfold u_acts. rewrite in_flat_map. split.
  - intros ([n o] & J & K). cbn [fst snd] in K. destruct (ci_eqb n ROOT) eqn:Q; [destruct K|]. exists n, o. destruct f as [g|].
    + destruct (existsb (str_eqb n) (used (Some g) c)) eqn:X; [|destruct K]. destruct K as [K|[]]. injection K as <- <-. apply existsb_exists in X. destruct X as (y & X & E). apply str_eqb_eq in E. subst y.
      apply in_used in X; auto. destruct X as (t & r & -> & X). cbn [sel_user]. eauto 8.
    + destruct K as [K|[]]. injection K as <- <-. cbn [sel_user]. auto.
  - intros (n & o & -> & -> & J & S & Q). exists (n, o). split; [auto|]. cbn [fst snd]. rewrite Q. destruct f as [g|]; [|left; auto].
    replace (existsb (str_eqb n) (used (Some g) c)) with true; [left; auto|]. symmetry. apply existsb_exists. exists n. split; [|apply str_eqb_refl]. apply in_used; auto. destruct S as (r & S). exists g, r. split; [reflexivity|auto].
Qed.
Lemma in_acts f c i e : In (Mk i e) (acts f c) <->
  In (Mk i e) (t_acts f c) \/ In (Mk i e) (u_acts f c) \/ exists t o, In (t, o) (tenants c) /\ sel f t /\
    (In (Mk i e) (db_acts c t) \/ In (Mk i e) (role_acts c t) \/ In (Mk i e) (member_acts c t) \/ In (Mk i e) (table_acts c t)).
Proof.
  unfold acts. cbn [In]. rewrite !in_app_iff, in_flat_map. split.
  - intros [J|[J|[J|([t o] & J & K)]]]; [discriminate J|auto|auto|]. right; right. apply in_picked in J. exists t, o. cbn [fst] in K. destruct K as [K|K]; [discriminate K|]. destruct K as [K|K]; [discriminate K|].
    rewrite !in_app_iff in K. tauto.
  - intros [J|[J|(t & o & J & S & K)]]; [auto|auto|]. right; right; right. exists (t, o). split; [apply in_picked; auto|]. cbn [fst]. right. right. rewrite !in_app_iff. tauto.
Qed.
Definition SEL (f : option str) (c : cat) (e : ent) : Prop :=
  inS e c /\ match e with ETenant n _ => sel f n | EUser n _ => sel_user f c n | EDb t _ _ | ERole t _ _ | EGrant t _ _ _ | EMember t _ _ | ETable t _ _ _ => sel f t end.
Lemma acts_sel f c i e : closed c -> In (Mk i e) (acts f c) -> SEL f c e.
Proof.
  intros C. rewrite in_acts. intros [J|[J|(t & o & J & S & K)]].
  - apply in_t_acts in J. destruct J as (n & o & -> & -> & J & S & _). split; auto.
  - apply in_u_acts in J; auto. destruct J as (n & o & -> & -> & J & S & _). split; auto.
  - destruct K as [K|[K|[K|K]]].
    + apply in_db_acts in K. destruct K as (d & o' & _ & -> & K & _). split; auto.
    + apply in_role_acts in K. destruct K as (_ & [(r & h & -> & K)|(r & h & d & p & -> & _ & K)]); split; auto.
    + apply in_member_acts in K; auto. destruct K as (u & r & _ & -> & K & _). split; auto.
    + apply in_table_acts in K. destruct K as (d & o' & n & x & _ & -> & _ & K). split; auto.
Qed.
Lemma ci_of (a b : str) : (same_word a b -> a = b) -> ci_eqb a b = true -> a = b.
Proof. intros H Q. apply H, ci_same, Q. Qed.

Notation expressible := (expressible dur_text size_text dur_read size_read).
Section Selected.
Variables (f : option str) (c s : cat).
Hypotheses (KC : keyed c) (CC : closed c) (XC : expressible c) (RC : receives f c s).
Lemma sel_tenant t o : In (t, o) (tenants c) -> sel f t -> inS (ETenant t o) s \/ In (ETenant t o) (ents (t_acts f c)).
Proof.
  intros J S. destruct (ci_eqb t CNOSDB) eqn:Q.
  - left. destruct XC as (X & _). apply ci_of in Q; [|apply (X t o J)]. subst t. destruct RC as (_ & _ & _ & _ & _ & _ & _ & _ & R & _). apply R; auto.
  - right. apply in_ents. exists true. apply in_t_acts. eauto 8.
Qed.
Lemma sel_users u o : In (u, o) (users c) -> sel_user f c u -> inS (EUser u o) s \/ In (EUser u o) (ents (u_acts f c)).
Proof.
  intros J S. destruct (ci_eqb u ROOT) eqn:Q.
  - left. destruct XC as (_ & X & _). apply ci_of in Q; [|apply (X u o J)]. subst u. destruct RC as (_ & _ & _ & _ & _ & _ & _ & _ & _ & R & _). apply R; auto.
  - right. apply in_ents. eexists. apply in_u_acts; auto. eauto 8.
Qed.
Lemma sel_db t d o : In (t, d, o) (dbs c) -> sel f t -> inS (EDb t d o) s \/ In (EDb t d o) (ents (db_acts c t)).
Proof.
  intros J S. destruct (ci_eqb t CNOSDB && ci_eqb d PUBLIC) eqn:Q.
  - left. apply andb_true_iff in Q. destruct Q as (Q1 & Q2). destruct XC as (X1 & _ & X3 & _). destruct CC as (C1 & _). destruct (C1 t d o J) as (o' & O). apply ci_of in Q1; [|apply (X1 t o' O)].
    apply ci_of in Q2; [|apply (X3 t d o J); auto]. subst t d. destruct RC as (_ & _ & _ & _ & _ & _ & _ & _ & _ & _ & R & _). apply R; auto.
  - right. apply in_ents. exists true. apply in_db_acts. eauto 8.
Qed.
Lemma sel_all e : SEL f c e -> inS e s \/ In e (ents (acts f c)).
Proof.
  intros (J & S). assert (G : forall l, (forall i, In (Mk i e) l -> In (Mk i e) (acts f c)) -> In e (ents l) -> In e (ents (acts f c))).
  { intros l H L. apply in_ents in L. destruct L as (i & L). apply in_ents. eauto. }
  destruct e as [n o|n o|t n o|t n h|t r d p|t u r|t d n x]; cbn [inS] in J.
  - destruct (sel_tenant n o J S) as [H|H]; [left; auto|right]. apply (G (t_acts f c)); auto. intros i K. apply in_acts. auto.
  - destruct (sel_users n o J S) as [H|H]; [left; auto|right]. apply (G (u_acts f c)); auto. intros i K. apply in_acts. auto.
  - destruct (sel_db t n o J S) as [H|H]; [left; auto|right]. apply (G (db_acts c t)); auto. intros i K. apply in_acts. right; right. destruct CC as (C1 & _). destruct (C1 _ _ _ J) as (o' & O). exists t, o'. auto.
  - right. destruct CC as (_ & C2 & _). destruct (C2 _ _ _ J) as (o' & O). apply in_ents. exists false. apply in_acts. right; right. exists t, o'. split; [auto|]. split; [auto|]. right; left. apply in_role_acts. split; auto. left; eauto.
  - right. destruct CC as (_ & C2 & C3 & _). destruct (C3 _ _ _ _ J) as ((h & H) & _). destruct (C2 _ _ _ H) as (o' & O). apply in_ents. exists false. apply in_acts. right; right. exists t, o'. split; [auto|]. split; [auto|].
    right; left. apply in_role_acts. split; auto. right. exists r, h, d, p. auto.
  - right. destruct CC as (_ & _ & _ & C4 & _). destruct (C4 _ _ _ J) as ((o' & O) & (o2 & O2) & _). apply in_ents. exists false. apply in_acts. right; right. exists t, o'. split; [auto|]. split; [auto|].
    right; right; left. apply in_member_acts; auto. exists u, r. split; auto. split; auto. split; auto. apply not_true_is_false. intros Q. apply andb_true_iff in Q. destruct Q as (Q1 & Q2).
    destruct XC as (X1 & X2 & _). apply ci_of in Q1; [|apply (X2 _ _ O2)]. apply ci_of in Q2; [|apply (X1 _ _ O)]. subst. destruct RC as (_ & _ & _ & _ & _ & _ & _ & _ & _ & _ & _ & R). apply (R r S J).
  - right. destruct CC as (C1 & _ & _ & _ & C5). destruct (C5 _ _ _ _ J) as (o2 & O2). destruct (C1 _ _ _ O2) as (o' & O). apply in_ents. eexists. apply in_acts. right; right. exists t, o'. split; [exact O|]. split; [auto|].
    right; right; right. apply in_table_acts. exists d, o2, n, x. split; [reflexivity|]. auto.
Qed.

(** ** The conditions under which it runs *)
Definition only_mk (l : list act) : Prop := forall a, In a l -> exists i e, a = Mk i e.
Lemma mk_db t : only_mk (db_acts c t).
Proof. intros a J. apply in_flat_map in J. destruct J as (y & _ & J). destruct (_ && _) in J; [destruct J|destruct J as [<-|[]]; eauto]. Qed.
Lemma mk_role t : only_mk (role_acts c t).
Proof. intros a J. apply in_flat_map in J. destruct J as (y & _ & J). destruct J as [<-|J]; [eauto|]. apply in_map_iff in J. destruct J as (z & <- & _). eauto. Qed.
Lemma mk_member t : only_mk (member_acts c t).
Proof. intros a J. apply in_flat_map in J. destruct J as (y & _ & J). destruct (_ && _) in J; [destruct J|destruct J as [<-|[]]; eauto]. Qed.
Lemma mk_table t : only_mk (table_acts c t).
Proof. intros a J. apply in_flat_map in J. destruct J as (y & _ & J). apply in_map_iff in J. destruct J as (z & <- & _). eauto. Qed.
Lemma mk_t : only_mk (t_acts f c).
Proof. intros a J. apply in_flat_map in J. destruct J as (y & _ & J). destruct (ci_eqb _ _) in J; [destruct J|destruct J as [<-|[]]; eauto]. Qed.
Lemma mk_u : only_mk (u_acts f c).
Proof.
  intros a J. apply in_flat_map in J. destruct J as (y & _ & J). destruct (ci_eqb _ _) in J; [destruct J|]. destruct f as [g|]; [|destruct J as [<-|[]]; eauto].
  destruct (existsb _ _) in J; [destruct J as [<-|[]]; eauto|destruct J].
Qed.
Definition group (t : str) : list act := db_acts c t ++ role_acts c t ++ member_acts c t ++ table_acts c t.
Lemma mk_group t : only_mk (group t).
Proof. intros a J. unfold group in J. rewrite !in_app_iff in J. destruct J as [J|[J|[J|J]]]; [eapply mk_db|eapply mk_role|eapply mk_member|eapply mk_table]; eauto. Qed.

Lemma sys_plain r : system_role r -> plain r.
Proof. intros [-> | ->]; split; intros J; cbn in J; repeat (destruct J as [J|J]; [discriminate J|]); contradiction. Qed.
Lemma ent_ok e : inS e c -> ok_ent dur_text size_text dur_read size_read e.
Proof.
  destruct XC as (X1 & X2 & X3 & X4 & X5). destruct CC as (C1 & C2 & C3 & C4 & C5).
  destruct e as [n o|n o|t n o|t n h|t r d p|t u r|t d n x]; cbn [inS ok_ent]; intros J.
  - apply (X1 _ _ J).
  - apply (X2 _ _ J).
  - apply (X3 _ _ _ J).
  - apply (X4 _ _ _ J).
  - destruct (C3 _ _ _ _ J) as ((h & H) & (o & O)). split; [apply (X4 _ _ _ H)|apply (X3 _ _ _ O)].
  - destruct (C4 _ _ _ J) as ((o & O) & (o2 & O2) & R). split; [apply (X1 _ _ O)|]. split; [apply (X2 _ _ O2)|]. destruct R as [R|(h & R)]; [apply sys_plain; auto|apply (X4 _ _ _ R)].
  - destruct (C5 _ _ _ _ J) as (o & O). split; [apply (X3 _ _ _ O)|apply (X5 _ _ _ _ J)].
Qed.
Lemma acts_mk i e : In (Mk i e) (acts f c) -> mk_ok i e.
Proof.
  rewrite in_acts. intros [J|[J|(t & o & J & S & K)]].
  - apply in_t_acts in J. destruct J as (n & o & -> & -> & _). exact I.
  - apply in_u_acts in J; auto. destruct J as (n & o & _ & -> & _). exact I.
  - destruct K as [K|[K|[K|K]]].
    + apply in_db_acts in K. destruct K as (d & o' & _ & -> & _). exact I.
    + apply in_role_acts in K. destruct K as (-> & [(r & h & -> & K)|(r & h & d & p & -> & _ & K)]); reflexivity.
    + apply in_member_acts in K; auto. destruct K as (u & r & -> & -> & K & _). reflexivity.
    + apply in_table_acts in K. destruct K as (d & o' & n & x & _ & -> & _ & K). exact I.
Qed.
Lemma acts_ok : Forall (act_ok dur_text size_text dur_read size_read) (acts f c).
Proof.
  assert (M : forall i e, In (Mk i e) (acts f c) -> act_ok dur_text size_text dur_read size_read (Mk i e)).
  { intros i e J. split; [apply ent_ok; apply (acts_sel f c i e CC J)|apply acts_mk; auto]. }
  assert (MM : forall l, only_mk l -> (forall a, In a l -> In a (acts f c)) -> Forall (act_ok dur_text size_text dur_read size_read) l).
  { intros l O H. apply Forall_forall. intros a J. destruct (O a J) as (i & e & ->). apply M. auto. }
  assert (SUB : forall a, In a (t_acts f c) \/ In a (u_acts f c) \/ (exists t o, In (t, o) (picked f c) /\ In a (group t)) -> In a (acts f c)).
  { intros a H. unfold acts. right. rewrite !in_app_iff, in_flat_map. destruct H as [H|[H|(t & o & J & H)]]; auto. right; right. exists (t, o). split; auto. cbn [fst]. right. right. exact H. }
  unfold acts. apply Forall_cons; [|apply Forall_app; split; [|apply Forall_app; split]].
  - cbn [act_ok]. split; [intros K; cbn in K; repeat (destruct K as [K|K]; [discriminate K|]); contradiction|]. exists (txt " Dump Global Objec"), 116. split; [reflexivity|congruence].
  - apply MM; [apply mk_t|auto].
  - apply MM; [apply mk_u|auto].
  - apply Forall_forall. intros a J. apply in_flat_map in J. destruct J as ([t o] & J & K). cbn [fst] in K. pose proof J as J0. apply in_picked in J. destruct J as (J & _). destruct XC as (X1 & _). destruct (X1 t o J) as ((P & T & _) & _).
    destruct K as [<-|[<-|K]].
    + cbn [act_ok]. split.
      * rewrite !in_app_iff. destruct P as ((_ & P) & _). intros [K|[K|K]]; auto; cbn in K; repeat (destruct K as [K|K]; [discriminate K|]); contradiction.
      * exists (txt " Dump Tenant " ++ t ++ txt " Objec"), 116. split; [rewrite <- !app_assoc; auto|congruence].
    + split; auto.
    + destruct (mk_group t a K) as (i & e & ->). apply M, SUB. right; right. eauto.
Qed.
Lemma sess_rest t l r : (forall i e, In (Mk i e) l -> in_session t e) -> only_mk l -> sess_ok t r -> sess_ok t (l ++ r).
Proof.
  induction l as [|a l IH]; intros H O R; auto. destruct (O a (or_introl eq_refl)) as (i & e & ->). cbn [app sess_ok]. split; [eapply H; left; reflexivity|]. apply IH; auto.
  - intros j y J. eapply H; right; eauto.
  - intros y J. apply O; right; auto.
Qed.
Lemma group_session t i e : In (Mk i e) (group t) -> in_session t e.
Proof.
  unfold group. rewrite !in_app_iff. intros [K|[K|[K|K]]].
  - apply in_db_acts in K. destruct K as (d & o' & _ & -> & _). reflexivity.
  - apply in_role_acts in K. destruct K as (-> & [(r & h & -> & K)|(r & h & d & p & -> & _ & K)]); reflexivity.
  - apply in_member_acts in K; auto. destruct K as (u & r & -> & -> & K & _). exact I.
  - apply in_table_acts in K. destruct K as (d & o' & n & x & _ & -> & _ & K). reflexivity.
Qed.
Lemma acts_session ses : sess_ok ses (acts f c).
Proof.
  unfold acts. cbn [sess_ok]. apply sess_rest; [|apply mk_t|].
  { intros i e J. apply in_t_acts in J. destruct J as (n & o & -> & -> & _). exact I. }
  apply sess_rest; [|apply mk_u|].
  { intros i e J. apply in_u_acts in J; auto. destruct J as (n & o & _ & -> & _). exact I. }
  generalize (picked f c). intros l. revert ses. induction l as [|[t o] l IH]; intros ses; [exact I|]. cbn [flat_map app fst]. cbn [sess_ok]. unfold tenant_acts. cbn [app sess_ok].
  apply sess_rest; [apply group_session|apply mk_group|apply IH].
Qed.
Lemma ents_flat {A} (g : A -> list act) l : ents (flat_map g l) = flat_map (fun x => ents (g x)) l.
Proof. induction l as [|a l IH]; auto. cbn [flat_map]. rewrite ents_app, IH. auto. Qed.
Lemma acts_ents : ents (acts f c) = ents (t_acts f c) ++ ents (u_acts f c) ++ flat_map (fun e => ents (group (fst e))) (picked f c).
Proof.
  unfold acts. change (ents (Note (txt " Dump Global Object") :: ?x)) with (ents x). 
  transitivity (ents (t_acts f c ++ u_acts f c ++ flat_map (fun e => Note (txt " Dump Tenant " ++ fst e ++ txt " Object") :: tenant_acts c (fst e)) (picked f c))); [reflexivity|].
  rewrite !ents_app. do 2 f_equal. rewrite ents_flat. apply flat_map_ext. intros [t o]. reflexivity.
Qed.
Lemma acts_rq : rq (fun x => inS x s) (ents (acts f c)).
Proof.
  rewrite acts_ents. destruct CC as (C1 & C2 & C3 & C4 & C5).
  apply rq_app. { apply rq_all. intros e J. apply in_ents in J. destruct J as (i & J). apply in_t_acts in J. destruct J as (n & o & -> & -> & _). exact I. }
  apply rq_app. { apply rq_all. intros e J. apply in_ents in J. destruct J as (i & J). apply in_u_acts in J; auto. destruct J as (n & o & _ & -> & _). exact I. }
  set (D := fun x => _). assert (DT : forall t o, In (t, o) (tenants c) -> sel f t -> D (ETenant t o)). { intros t o J S. unfold D. destruct (sel_tenant t o J S); auto. }
  assert (DU : forall t u r, In (t, u, r) (members c) -> sel f t -> exists o, D (EUser u o)).
  { intros t u r J S. destruct (C4 t u r J) as (_ & (o & O) & _). exists o. unfold D. destruct (sel_users u o O); auto. destruct f as [g|]; cbn [sel_user sel] in *; auto. subst. eauto. }
  assert (DS : forall e, inS e s -> D e) by (intros e J; unfold D; auto). clearbody D.
  apply rq_flat_map. intros [t o] J. apply in_picked in J. destruct J as (J & S). cbn [fst]. unfold group. rewrite !ents_app.
  apply rq_app. { apply rq_all. intros e K. apply in_ents in K. destruct K as (i & K). apply in_db_acts in K. destruct K as (d & o' & _ & -> & _). cbn [nd]. eauto. }
  set (D2 := fun x => _). assert (DB : forall d o, In (t, d, o) (dbs c) -> D2 (EDb t d o)). { intros d o' K. unfold D2. destruct (sel_db t d o' K S); auto. }
  assert (D12 : forall e, D e -> D2 e) by (unfold D2; auto). clearbody D2.
  apply rq_app.
  { unfold role_acts. rewrite ents_flat. apply rq_flat_map. intros [r h] K. apply in_roles_of in K. cbn [fst snd ents flat_map app rq]. split; [cbn [nd]; eauto|]. apply rq_all. intros e L. apply in_ents in L. destruct L as (i & L).
    apply in_map_iff in L. destruct L as ([d p] & E & L). injection E as _ <-. apply in_grants_of in L. cbn [nd]. destruct (C3 _ _ _ _ L) as (_ & (o' & O)). split; [exists h; auto|exists o'; auto]. }
  set (D3 := fun x => _). assert (DR : forall r h, In (t, r, h) (roles c) -> D3 (ERole t r h)).
  { intros r h K. right. apply in_ents. exists false. apply in_role_acts. split; auto. left; eauto. }
  assert (D23 : forall e, D2 e -> D3 e) by (unfold D3; auto). clearbody D3.
  apply rq_app.
  { apply rq_all. intros e K. apply in_ents in K. destruct K as (i & K). apply in_member_acts in K; [|exact CC]. destruct K as (u & r & -> & -> & K & _). cbn [nd]. destruct (C4 _ _ _ K) as (_ & _ & R). split; [exists o; apply D23, D12, DT; auto|].
    destruct (DU _ _ _ K S) as (o2 & O2). split; [exists o2; apply D23, D12, O2|]. destruct R as [R|(h & R)]; [left; exact R|right; exists h; apply DR, R]. }
  apply rq_all. intros e K. apply in_ents in K. destruct K as (i & K). apply in_table_acts in K. destruct K as (d & o' & n & x & _ & -> & O & _). cbn [nd]. exists o'. left. auto.
Qed.
Lemma acts_nodup : NoDup (ents (acts f c)).
Proof.
  destruct KC as (K1 & K2 & K3 & K4 & K5 & K6 & K7). rewrite acts_ents.
  assert (PN : NoDup (picked f c)) by (unfold picked; apply NoDup_filter, nodup_fst; auto).
  apply nodup_app; [|apply nodup_app|].
  - unfold t_acts. rewrite ents_flat. apply nodup_flat; auto.
    + intros [n o] _. cbn [fst snd]. destruct (ci_eqb n CNOSDB); cbn; [apply NoDup_nil|apply NoDup_cons; [intros []|apply NoDup_nil]].
    + intros [n o] [n' o'] z _ _. cbn [fst snd]. destruct (ci_eqb n CNOSDB), (ci_eqb n' CNOSDB); cbn; try tauto. intros [J|[]] [J'|[]]. congruence.
  - unfold u_acts. rewrite ents_flat. apply nodup_flat; [apply nodup_fst; auto| |].
    + intros [n o] _. cbn [fst snd]. destruct (ci_eqb n ROOT); cbn; [apply NoDup_nil|]. destruct f; [destruct (existsb (str_eqb n) (used (Some s0) c))|]; cbn; try apply NoDup_nil; apply NoDup_cons; try (intros []); apply NoDup_nil.
    + intros [n o] [n' o'] z _ _ J J'. apply in_ents in J, J'. destruct J as (i & J), J' as (i' & J'). cbn [fst snd] in *. destruct (ci_eqb n ROOT); [destruct J|]. destruct (ci_eqb n' ROOT); [destruct J'|].
      destruct f; [destruct (existsb (str_eqb n) (used (Some s0) c)); [|destruct J]; destruct (existsb (str_eqb n') (used (Some s0) c)); [|destruct J']|]; destruct J as [J|[]], J' as [J'|[]]; congruence.
  - apply nodup_flat; auto.
    + intros [t o] _. cbn [fst]. unfold group. rewrite !ents_app. apply nodup_app; [|apply nodup_app; [|apply nodup_app|]|].
      * unfold db_acts. rewrite ents_flat. apply nodup_flat; [apply nodup_dbs_of; auto| |].
        -- intros [d o'] _. cbn [fst snd]. destruct (_ && _); cbn; [apply NoDup_nil|apply NoDup_cons; [intros []|apply NoDup_nil]].
        -- intros [d1 o1] [d2 o2] z _ _. cbn [fst snd]. destruct (ci_eqb t CNOSDB && ci_eqb d1 PUBLIC), (ci_eqb t CNOSDB && ci_eqb d2 PUBLIC); cbn; try tauto. intros [J|[]] [J'|[]]. congruence.
      * unfold role_acts. rewrite ents_flat. apply nodup_flat; [apply nodup_roles_of; auto| |].
        -- intros [r h] _. cbn [fst snd ents flat_map app]. apply NoDup_cons.
           ++ intros J. apply in_ents in J. destruct J as (i & J). apply in_map_iff in J. destruct J as (y & E & _). discriminate E.
           ++ fold (ents (map (fun g => Mk false (EGrant t r (fst g) (snd g))) (grants_of c t r))). generalize (nodup_grants_of c t r K5). generalize (grants_of c t r). induction 1 as [|[d p] l N _ IH]; [apply NoDup_nil|].
              cbn [map ents flat_map app fst snd]. apply NoDup_cons; auto. intros J. apply in_ents in J. destruct J as (i & J). apply in_map_iff in J. destruct J as ([d' p'] & E & J). cbn [fst snd] in E. injection E as _ -> ->. auto.
        -- intros [r h] [r' h'] z Y Y' J J'. apply in_roles_of in Y, Y'. assert (r = r').
           { apply in_ents in J, J'. destruct J as (i & J), J' as (i' & J'). cbn [fst snd] in *. destruct J as [J|J], J' as [J'|J'].
             - congruence.
             - apply in_map_iff in J'. destruct J' as (y & E & _). congruence.
             - apply in_map_iff in J. destruct J as (y & E & _). congruence.
             - apply in_map_iff in J, J'. destruct J as (y & E & _), J' as (y' & E' & _). congruence. }
           subst r'. f_equal. eapply (fst_unique (roles c)); eauto.
      * unfold member_acts. rewrite ents_flat. apply nodup_flat; [apply nodup_members_of; auto| |].
        -- intros [d o'] _. cbn [fst snd]. destruct (_ && _); cbn; [apply NoDup_nil|apply NoDup_cons; [intros []|apply NoDup_nil]].
        -- intros [d1 o1] [d2 o2] z _ _. cbn [fst snd]. destruct (ci_eqb d1 ROOT && ci_eqb t CNOSDB), (ci_eqb d2 ROOT && ci_eqb t CNOSDB); cbn; try tauto. intros [J|[]] [J'|[]]. congruence.
      * unfold table_acts. rewrite ents_flat. apply nodup_flat; [apply nodup_dbs_of; auto| |].
        -- intros [d o'] _. cbn [fst snd]. generalize (nodup_tables_of c t d K7). generalize (tables_of c t d). induction 1 as [|[n x] l N _ IH]; [apply NoDup_nil|].
           cbn [map ents flat_map app fst snd]. apply NoDup_cons; auto. intros J. apply in_ents in J. destruct J as (i & J). apply in_map_iff in J. destruct J as ([d' p'] & E & J). cbn [fst snd] in E. injection E as _ -> ->. auto.
        -- intros [d o1] [d' o2] z Y Y' J J'. apply in_dbs_of in Y, Y'. assert (d = d').
           { apply in_ents in J, J'. destruct J as (i & J), J' as (i' & J'). cbn [fst snd] in *. apply in_map_iff in J, J'. destruct J as (y & E & _), J' as (y' & E' & _). congruence. }
           subst d'. f_equal. eapply (fst_unique (dbs c)); eauto.
      * intros z J J'. apply in_ents in J, J'. destruct J as (i & J), J' as (i' & J'). apply in_member_acts in J; auto. apply in_table_acts in J'. destruct J as (? & ? & _ & -> & _), J' as (? & ? & ? & ? & _ & E & _). discriminate E.
      * intros z J J'. apply in_ents in J. destruct J as (i & J). apply in_role_acts in J. rewrite in_app_iff in J'. destruct J' as [J'|J']; apply in_ents in J'; destruct J' as (i' & J').
        -- apply in_member_acts in J'; auto. destruct J' as (? & ? & _ & -> & _). destruct J as (_ & [(? & ? & E & _)|(? & ? & ? & ? & E & _)]); discriminate E.
        -- apply in_table_acts in J'. destruct J' as (? & ? & ? & ? & _ & -> & _). destruct J as (_ & [(? & ? & E & _)|(? & ? & ? & ? & E & _)]); discriminate E.
      * intros z J J'. apply in_ents in J. destruct J as (i & J). apply in_db_acts in J. destruct J as (? & ? & _ & -> & _). rewrite !in_app_iff in J'. destruct J' as [J'|[J'|J']]; apply in_ents in J'; destruct J' as (i' & J').
        -- apply in_role_acts in J'. destruct J' as (_ & [(? & ? & E & _)|(? & ? & ? & ? & E & _)]); discriminate E.
        -- apply in_member_acts in J'; auto. destruct J' as (? & ? & _ & E & _). discriminate E.
        -- apply in_table_acts in J'. destruct J' as (? & ? & ? & ? & _ & E & _). discriminate E.
    + assert (TE : forall t z, In z (ents (group t)) -> match z with EDb t' _ _ | ERole t' _ _ | EGrant t' _ _ _ | EMember t' _ _ | ETable t' _ _ _ => t' = t | _ => False end).
      { intros t z J. apply in_ents in J. destruct J as (i & J). unfold group in J. rewrite !in_app_iff in J. destruct J as [J|[J|[J|J]]].
        - apply in_db_acts in J. destruct J as (? & ? & _ & -> & _). auto.
        - apply in_role_acts in J. destruct J as (_ & [(? & ? & -> & _)|(? & ? & ? & ? & -> & _)]); auto.
        - apply in_member_acts in J; auto. destruct J as (? & ? & _ & -> & _). auto.
        - apply in_table_acts in J. destruct J as (? & ? & ? & ? & _ & -> & _). auto. }
      intros [t o] [t' o'] z J J' L L'. cbn [fst] in *. apply TE in L, L'. assert (t = t') by (destruct z; congruence || contradiction). subst t'. f_equal. apply in_picked in J, J'. eapply (fst_unique (tenants c)); [auto|apply J|apply J'].
  - intros z J J'. apply in_ents in J. destruct J as (i & J). apply in_u_acts in J; auto. destruct J as (? & ? & _ & -> & _). apply in_flat_map in J'. destruct J' as ([t o] & _ & J'). apply in_ents in J'. destruct J' as (i' & J').
    cbn [fst] in J'. unfold group in J'. rewrite !in_app_iff in J'. destruct J' as [J'|[J'|[J'|J']]].
    + apply in_db_acts in J'. destruct J' as (? & ? & _ & E & _). discriminate E.
    + apply in_role_acts in J'. destruct J' as (_ & [(? & ? & E & _)|(? & ? & ? & ? & E & _)]); discriminate E.
    + apply in_member_acts in J'; auto. destruct J' as (? & ? & _ & E & _). discriminate E.
    + apply in_table_acts in J'. destruct J' as (? & ? & ? & ? & _ & E & _). discriminate E.
  - intros z J J'. apply in_ents in J. destruct J as (i & J). apply in_t_acts in J; auto. destruct J as (? & ? & _ & -> & _). apply in_app_iff in J'. destruct J' as [J'|J'].
    + apply in_ents in J'. destruct J' as (i' & J'). apply in_u_acts in J'; auto. destruct J' as (? & ? & _ & E & _). discriminate E.
    + apply in_flat_map in J'. destruct J' as ([t o] & _ & J'). apply in_ents in J'. destruct J' as (i' & J').
      cbn [fst] in J'. unfold group in J'. rewrite !in_app_iff in J'. destruct J' as [J'|[J'|[J'|J']]].
      * apply in_db_acts in J'. destruct J' as (? & ? & _ & E & _). discriminate E.
      * apply in_role_acts in J'. destruct J' as (_ & [(? & ? & E & _)|(? & ? & ? & ? & E & _)]); discriminate E.
      * apply in_member_acts in J'; auto. destruct J' as (? & ? & _ & E & _). discriminate E.
      * apply in_table_acts in J'. destruct J' as (? & ? & ? & ? & _ & E & _). discriminate E.
Qed.
Lemma key_unique z e e' : keyed z -> inS e z -> inS e' z -> same_key e e' -> e' = e.
Proof.
  intros (K1 & K2 & K3 & K4 & K5 & K6 & K7) J J' K. destruct e, e'; cbn [same_key inS] in *; try contradiction.
  - subst. f_equal. eapply (fst_unique (tenants z)); eauto.
  - subst. f_equal. eapply (fst_unique (users z)); eauto.
  - destruct K; subst. f_equal. eapply (fst_unique (dbs z)); eauto.
  - destruct K; subst. f_equal. eapply (fst_unique (roles z)); eauto.
  - destruct K as (? & ? & ?); subst. f_equal. eapply (fst_unique (grants z)); eauto.
  - destruct K; subst. f_equal. eapply (fst_unique (members z)); eauto.
  - destruct K as (? & ? & ?); subst. f_equal. eapply (fst_unique (tables z)); eauto.
Qed.
Lemma acts_there i e e' : In (Mk i e) (acts f c) -> inS e' s -> same_key e e' -> i = true /\ e' = e.
Proof.
  intros J J' K. pose proof (acts_sel f c i e CC J) as (S1 & S2). destruct RC as (_ & R1 & R2 & R3 & R4 & R5 & R6 & R7 & _). rewrite in_acts in J.
  destruct e as [n o|n o|t n o|t n h|t r d p|t u r|t d n x], e' as [n' o'|n' o'|t' n' o'|t' n' h'|t' r' d' p'|t' u' r'|t' d' n' x']; cbn [same_key inS] in *; try contradiction.
  - subst n'. split; [|f_equal; eapply R1; eauto]. destruct J as [J|[J|(t & o2 & _ & _ & J)]].
    + apply in_t_acts in J. destruct J as (? & ? & E & _). exact E.
    + apply in_u_acts in J; auto. destruct J as (? & ? & _ & E & _). discriminate E.
    + exfalso. destruct J as [J|[J|[J|J]]]; [apply in_db_acts in J; destruct J as (? & ? & _ & E & _)|apply in_role_acts in J; destruct J as (_ & [(? & ? & E & _)|(? & ? & ? & ? & E & _)])|apply in_member_acts in J; auto; destruct J as (? & ? & _ & E & _)|apply in_table_acts in J; destruct J as (? & ? & ? & ? & _ & E & _)]; discriminate E.
  - subst n'. destruct (R2 n o o' S1 S2 J') as (-> & Q). split; auto. destruct J as [J|[J|(t & o2 & _ & _ & J)]].
    + apply in_t_acts in J. destruct J as (? & ? & _ & E & _). discriminate E.
    + apply in_u_acts in J; auto. destruct J as (n2 & o2 & -> & E & _ & _ & CI). destruct f; auto. destruct Q as [Q|Q]; [congruence|]. injection E as <- <-. subst n. discriminate CI.
    + exfalso. destruct J as [J|[J|[J|J]]]; [apply in_db_acts in J; destruct J as (? & ? & _ & E & _)|apply in_role_acts in J; destruct J as (_ & [(? & ? & E & _)|(? & ? & ? & ? & E & _)])|apply in_member_acts in J; auto; destruct J as (? & ? & _ & E & _)|apply in_table_acts in J; destruct J as (? & ? & ? & ? & _ & E & _)]; discriminate E.
  - destruct K as (<- & <-). split; [|f_equal; eapply R3; eauto]. destruct J as [J|[J|(t2 & o2 & _ & _ & J)]].
    + apply in_t_acts in J. destruct J as (? & ? & _ & E & _). discriminate E.
    + apply in_u_acts in J; auto. destruct J as (? & ? & _ & E & _). discriminate E.
    + destruct J as [J|[J|[J|J]]]; [apply in_db_acts in J; destruct J as (? & ? & E & _); exact E|apply in_role_acts in J; destruct J as (_ & [(? & ? & E & _)|(? & ? & ? & ? & E & _)])|apply in_member_acts in J; auto; destruct J as (? & ? & _ & E & _)|apply in_table_acts in J; destruct J as (? & ? & ? & ? & _ & E & _)]; discriminate E.
  - destruct K as (<- & <-). exfalso. eapply R4; eauto.
  - destruct K as (<- & <- & <-). exfalso. eapply R5; eauto.
  - destruct K as (<- & <-). exfalso. eapply R6; eauto.
  - destruct K as (<- & <- & <-). destruct (R7 _ _ _ _ _ S1 S2 J') as (-> & ->). split; auto. destruct J as [J|[J|(t2 & o2 & _ & _ & J)]].
    + apply in_t_acts in J. destruct J as (? & ? & _ & E & _). discriminate E.
    + apply in_u_acts in J; auto. destruct J as (? & ? & _ & E & _). discriminate E.
    + destruct J as [J|[J|[J|J]]]; [apply in_db_acts in J; destruct J as (? & ? & _ & E & _); discriminate E|apply in_role_acts in J; destruct J as (_ & [(? & ? & E & _)|(? & ? & ? & ? & E & _)]); discriminate E|apply in_member_acts in J; auto; destruct J as (? & ? & _ & E & _); discriminate E|].
      apply in_table_acts in J. destruct J as (d2 & ? & ? & ? & -> & E & _). injection E as _ <- _ _. reflexivity.
Qed.
Theorem restore_dump stop fresh ses : exists r, restore dur_read size_read stop fresh ses (dump dur_text size_text f c) s = (r, true) /\ restored f c s r.
Proof.
  destruct (restore_acts dur_text size_text dur_read size_read stop fresh ses (acts f c) s (fun x => inS x s)) as (r & R1 & R2).
  - discriminate.
  - apply acts_ok.
  - tauto.
  - apply good_from; [apply acts_session|apply acts_rq|apply acts_nodup| |intros i e e' J J' K; eapply acts_there; eauto].
    intros e e' J J'. apply in_ents in J, J'. destruct J as (i & J), J' as (i' & J'). apply key_unique with c; auto; [apply (acts_sel f c i e CC J)|apply (acts_sel f c i' e' CC J')].
  - exists r. split.
    + unfold dump. rewrite lines_acts. exact R1.
    + assert (E : forall x, inS x r <-> inS x s \/ SEL f c x).
      { intros x. rewrite R2. split.
        - intros [J|J]; auto. right. apply in_ents in J. destruct J as (i & J). eapply acts_sel; eauto.
        - intros [J|J]; auto. apply sel_all; auto. }
      repeat split; intros; try (apply (E (ETenant _ _)); auto); try (apply (E (EUser _ _)); auto); try (apply (E (EDb _ _ _)); auto); try (apply (E (ERole _ _ _)); auto);
        try (apply (E (EGrant _ _ _ _)); auto); try (apply (E (EMember _ _ _)); auto); try (apply (E (ETable _ _ _ _)); auto).
Qed.
End Selected.
End Main.
