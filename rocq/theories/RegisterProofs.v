(** Proofs about the register of metrics. *)
From Verif Require Import Prelude RegisterModel RegisterSpec.
From Coq Require Import Lia Sorted.
Open Scope Z_scope.

Section Map.
Context {A : Type}.
Definition lt_key (a b : Z * A) : Prop := fst a < fst b.
Fixpoint lookup (k : Z) (l : list (Z * A)) : option A :=
  match l with [] => None | (q, v) :: r => if k =? q then Some v else lookup k r end.
Lemma upd_in k f (l : list (Z * A)) e : In e (upd k f l) -> fst e = k \/ In e l.
Proof.
  induction l as [|[q v] r IH]; cbn [upd]; [intros [<- |[]]; auto|]. destruct (k =? q); [intros [<- |I]; cbn; auto|].
  destruct (k <? q); [intros [<- |I]; auto|]. intros [<- |I]; [right; left; reflexivity|]. destruct (IH I); auto. right. right. assumption.
Qed.
Lemma upd_sorted k f (l : list (Z * A)) : StronglySorted lt_key l -> StronglySorted lt_key (upd k f l).
Proof.
  induction l as [|[q v] r IH]; intros H; cbn [upd]; [repeat constructor|]. inversion H as [|? ? S0 F]; subst.
  destruct (k =? q) eqn:E; [apply Z.eqb_eq in E; subst q; constructor; assumption|]. apply Z.eqb_neq in E.
  destruct (k <? q) eqn:L.
  - apply Z.ltb_lt in L. constructor; [exact H|]. constructor; [exact L|]. eapply Forall_impl; [|exact F]. unfold lt_key. cbn. intros; lia.
  - apply Z.ltb_ge in L. constructor; [apply IH; exact S0|]. apply Forall_forall. intros e I. apply upd_in in I. unfold lt_key. cbn.
    destruct I as [<- |I]; [lia|]. rewrite Forall_forall in F. apply (F e I).
Qed.
Lemma lookup_low k q (v : A) r : Forall (lt_key (q, v)) r -> k <= q -> lookup k r = None.
Proof.
  intros F L. induction r as [|[x w] r IH]; [reflexivity|]. inversion F as [|? ? F1 F2]; subst. unfold lt_key in F1. cbn in F1. cbn [lookup].
  replace (k =? x) with false by (symmetry; apply Z.eqb_neq; lia). apply IH. exact F2.
Qed.
Lemma lookup_upd k f (l : list (Z * A)) q : StronglySorted lt_key l -> lookup q (upd k f l) = if q =? k then Some (f (lookup k l)) else lookup q l.
Proof.
  induction l as [|[x v] r IH]; intros H; cbn [upd lookup]; [destruct (q =? k); reflexivity|]. inversion H as [|? ? S0 F]; subst.
  destruct (k =? x) eqn:E.
  - apply Z.eqb_eq in E. subst x. cbn [lookup]. destruct (q =? k); reflexivity.
  - destruct (k <? x) eqn:L; cbn [lookup].
    + apply Z.ltb_lt in L. rewrite (lookup_low k x v r F) by lia. destruct (q =? k); reflexivity.
    + rewrite (IH S0). destruct (q =? x) eqn:X; [|reflexivity]. apply Z.eqb_eq in X. subst x.
      replace (q =? k) with false; [reflexivity|]. symmetry. apply Z.eqb_neq. apply Z.eqb_neq in E. congruence.
Qed.
Lemma in_lookup (l : list (Z * A)) k v : StronglySorted lt_key l -> (In (k, v) l <-> lookup k l = Some v).
Proof.
  induction l as [|[q w] r IH]; intros H; cbn [lookup]; [split; [intros [] | discriminate]|]. inversion H as [|? ? S0 F]; subst.
  rewrite Forall_forall in F. destruct (k =? q) eqn:E.
  - apply Z.eqb_eq in E. subst q. split; [intros [X|X]; [injection X as ->; reflexivity | apply F in X; unfold lt_key in X; cbn in X; lia]|].
    intros X. injection X as ->. left. reflexivity.
  - apply Z.eqb_neq in E. split; [intros [X|X]; [congruence | apply IH; auto]|]. intros X. right. apply IH; auto.
Qed.
Lemma sorted_nodup (l : list (Z * A)) : StronglySorted lt_key l -> NoDup (map fst l).
Proof.
  induction l as [|e r IH]; intros H; cbn [map]; [constructor|]. inversion H as [|? ? S0 F]; subst. constructor; [|auto].
  intros I. apply in_map_iff in I. destruct I as (x & E & I). rewrite Forall_forall in F. apply F in I. unfold lt_key in I. lia.
Qed.
End Map.

Definition value (name lab : Z) (ms : list family) : option Z := lookup lab (old [] (lookup name ms)).
Definition sorted_rows (ms : list family) : Prop := StronglySorted lt_key ms /\ forall name rows, In (name, rows) ms -> StronglySorted lt_key rows.
Lemma rows_sorted ms name : sorted_rows ms -> StronglySorted lt_key (old [] (lookup name ms)).
Proof. intros (S0 & R). destruct (lookup name ms) as [rows|] eqn:E; [|constructor]. cbn. apply (R name). apply in_lookup; assumption. Qed.
Lemma inc_sorted a b n ms : sorted_rows ms -> sorted_rows (inc a b n ms).
Proof.
  intros H. assert (S1 : StronglySorted lt_key (inc a b n ms)) by (apply upd_sorted, H). split; [exact S1|].
  intros name rows I. apply in_lookup in I; [|exact S1]. unfold inc in I. rewrite lookup_upd in I by apply H. destruct (name =? a).
  - injection I as <-. apply upd_sorted. apply rows_sorted. exact H.
  - apply (proj2 H name). apply in_lookup; [apply H | exact I].
Qed.
Lemma inc_value a b n ms name lab : sorted_rows ms ->
  value name lab (inc a b n ms) = if (a =? name) && (b =? lab) then Some ((old 0 (value name lab ms) + n) mod 2 ^ 64) else value name lab ms.
Proof.
  intros H. unfold value, inc. rewrite lookup_upd by apply H. rewrite (Z.eqb_sym a name). destruct (name =? a) eqn:E; [|reflexivity].
  apply Z.eqb_eq in E. subst a. cbn [old andb]. rewrite lookup_upd by (apply rows_sorted; exact H). rewrite (Z.eqb_sym b lab).
  destruct (lab =? b) eqn:F; [|reflexivity]. apply Z.eqb_eq in F. subst b. reflexivity.
Qed.

(** the value of a counter after a history *)
Fixpoint final (s : register) (h : list event) : register := match h with [] => s | e :: r => final (fst (step s e)) r end.
Lemma final_app a s b : final s (a ++ b) = final (final s a) b.
Proof. revert s. induction a as [|e a IH]; intros s; [reflexivity|]. cbn [app final]. apply IH. Qed.
Lemma pages_app a s b : pages s (a ++ b) = pages s a ++ pages (final s a) b.
Proof. revert s. induction a as [|e a IH]; intros s; [reflexivity|]. cbn [app pages final]. rewrite IH. apply app_assoc. Qed.
Lemma final_sorted h : forall s, sorted_rows (g_measures s) -> sorted_rows (g_measures (final s h)).
Proof. induction h as [|e r IH]; intros s H; [exact H|]. cbn [final]. apply IH. destruct e; cbn [step fst g_measures]; auto. apply inc_sorted. exact H. Qed.
Lemma added_app name lab a b : added name lab (a ++ b) = added name lab a + added name lab b.
Proof. induction a as [|e a IH]; [reflexivity|]. destruct e; cbn [app added]; rewrite IH; lia. Qed.
Lemma final_value name lab h :
  (value name lab (g_measures (final empty_register h)) = Some (added name lab h mod 2 ^ 64) /\ touched name lab h) \/
  (value name lab (g_measures (final empty_register h)) = None /\ ~ touched name lab h /\ added name lab h = 0).
Proof.
  induction h as [|e h IH] using rev_ind.
  - right. split; [reflexivity|]. split; [intros (n & []) | reflexivity].
  - rewrite final_app, added_app. cbn [final].
    assert (S0 : sorted_rows (g_measures (final empty_register h))) by (apply final_sorted; split; [constructor | intros ? ? []]).
    assert (OTHER : value name lab (g_measures (fst (step (final empty_register h) e))) = value name lab (g_measures (final empty_register h)) ->
      (forall n, e <> EInc name lab n) -> added name lab [e] = 0 ->
      (value name lab (g_measures (fst (step (final empty_register h) e))) = Some ((added name lab h + added name lab [e]) mod 2 ^ 64) /\ touched name lab (h ++ [e])) \/
      (value name lab (g_measures (fst (step (final empty_register h) e))) = None /\ ~ touched name lab (h ++ [e]) /\ added name lab h + added name lab [e] = 0)).
    { intros V D Z0. rewrite V, Z0, Z.add_0_r. destruct IH as [(X & (n & T))|(X & T & Y)]; [left | right].
      - split; [exact X|]. exists n. apply in_or_app. left. exact T.
      - split; [exact X|]. split; [|exact Y]. intros (n & I). apply in_app_or in I. destruct I as [I|[I|[]]]; [apply T; exists n; exact I | apply (D n I)]. }
    destruct e as [a b n | fs | t]; try (apply OTHER; [reflexivity | discriminate | reflexivity]).
    cbn [step fst g_measures] in *. rewrite (inc_value a b n _ name lab S0) in *. destruct ((a =? name) && (b =? lab)) eqn:E.
    + apply andb_prop in E. destruct E as (E1 & E2). pose proof E1 as E1'. pose proof E2 as E2'. apply Z.eqb_eq in E1, E2. subst a b. left.
      cbn [added]. rewrite E1', E2'. cbn [andb]. split; [|exists n; apply in_or_app; right; left; reflexivity]. f_equal.
      destruct IH as [(X & _)|(X & _ & Y)]; rewrite X; cbn [old].
      * rewrite Zplus_mod_idemp_l. f_equal. lia.
      * rewrite Y. f_equal. lia.
    + apply OTHER; [reflexivity | | cbn [added]; rewrite E; reflexivity]. intros m Q. injection Q as -> -> _. rewrite !Z.eqb_refl in E. discriminate.
Qed.

(** metrics shown once *)
Lemma once_pages h : forall s, flat_map p_once (pages s h) ++ g_once (final s h) = g_once s ++ handed_in h.
Proof.
  induction h as [|e r IH]; intros s; cbn [pages final handed_in flat_map]; [rewrite app_nil_r; reflexivity|].
  destruct e as [a b n | fs | t]; cbn [step fst snd app flat_map] in *; rewrite ?IH; cbn [g_once].
  - reflexivity.
  - rewrite app_assoc. reflexivity.
  - rewrite <- app_assoc, IH. reflexivity.
Qed.
