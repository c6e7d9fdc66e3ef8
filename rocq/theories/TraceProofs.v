From Coq Require Import Ascii String.
From Coq Require Import List Sorted.
From Verif Require Import Prelude LogModel LogSpec LogProofs TraceModel TraceSpec.
Open Scope list_scope.
Open Scope Z_scope.

(** * Prefixes *)
Lemma starts_app p s : starts p (p ++ s) = true.
Proof. induction p as [|x p IH]; cbn [starts app]; auto. rewrite Z.eqb_refl. exact IH. Qed.
Lemma starts_ex p : forall s, starts p s = true -> exists r, s = p ++ r.
Proof.
  induction p as [|x p IH]; intros s E; [exists s; reflexivity|]. destruct s as [|y s]; [discriminate|]. cbn [starts] in E.
  apply andb_true_iff in E. destruct E as [E1 E2]. apply Z.eqb_eq in E1. destruct (IH _ E2) as (r & ->). exists r. subst. reflexivity.
Qed.
Lemma starts_both p : forall q s, starts p s = true -> starts q s = true -> starts p q = true \/ starts q p = true.
Proof.
  induction p as [|x p IH]; intros q s A1 A2; [left; reflexivity|]. destruct q as [|y q]; [right; reflexivity|]. destruct s as [|z s]; [discriminate|].
  cbn [starts] in *. apply andb_true_iff in A1, A2. destruct A1 as [A1 B1], A2 as [A2 B2]. apply Z.eqb_eq in A1, A2. subst. rewrite Z.eqb_refl.
  destruct (IH q s B1 B2) as [H|H]; rewrite H; auto.
Qed.
Lemma starts_apart p q s : starts p s = true -> starts p q = false -> starts q p = false -> starts q s = false.
Proof. intros A1 B C. destruct (starts q s) eqn:E; auto. destruct (starts_both p q s A1 E); congruence. Qed.
Lemma starts_common p a b : starts (p ++ a) (p ++ b) = starts a b.
Proof. induction p as [|x p IH]; cbn [starts app]; auto. rewrite Z.eqb_refl. exact IH. Qed.
Lemma starts_trans p q s : starts p q = true -> starts q s = true -> starts p s = true.
Proof. intros A1 B. apply starts_ex in A1, B. destruct A1 as (r & ->), B as (t & ->). rewrite <- app_assoc. apply starts_app. Qed.
Lemma eqb_refl s : str_eqb s s = true.
Proof. destruct (str_eqb_spec s s); congruence. Qed.
Lemma eqb_false a b : a <> b -> str_eqb a b = false.
Proof. intros H. destruct (str_eqb_spec a b); congruence. Qed.

(** * The last value put *)
Fixpoint last_of (k : str) (l : fields) : option json :=
  match l with [] => None | e :: r => match last_of k r with Some v => Some v | None => if str_eqb k (fst e) then Some (snd e) else None end end.
Lemma last_of_app k a b : last_of k (a ++ b) = match last_of k b with Some v => Some v | None => last_of k a end.
Proof. induction a as [|e a IH]; cbn [app last_of]; [destruct (last_of k b); auto|]. rewrite IH. destruct (last_of k b); auto. Qed.
Lemma find_puts k : forall l m, find k (puts l m) = match last_of k l with Some v => Some v | None => find k m end.
Proof.
  induction l as [|e l IH]; intros m; cbn [puts fold_left last_of]; auto.
  change (fold_left (fun m e => put (fst e) (snd e) m) l (put (fst e) (snd e) m)) with (puts l (put (fst e) (snd e) m)).
  rewrite IH, find_put. destruct (last_of k l); auto. destruct (str_eqb k (fst e)); auto.
Qed.
Lemma last_of_none k l : ~ In k (map fst l) -> last_of k l = None.
Proof.
  induction l as [|e l IH]; intros H; cbn [last_of]; auto. rewrite IH by (intros I; apply H; right; auto). rewrite eqb_false; auto. intros ->. apply H. left. auto.
Qed.
Lemma last_of_in k v l : last_of k l = Some v -> In (k, v) l.
Proof.
  induction l as [|[a w] l IH]; cbn [last_of]; [discriminate|]. destruct (last_of k l) as [u|]; intros E; [right; apply IH; auto|].
  cbn [fst snd] in E. destruct (str_eqb_spec k a); [|discriminate]. injection E as <-. subst. left. reflexivity.
Qed.
Lemma last_of_some k l : In k (map fst l) -> exists v, last_of k l = Some v.
Proof.
  induction l as [|e l IH]; intros H; [destruct H|]. cbn [last_of]. destruct (last_of k l) as [u|] eqn:E; [eauto|]. destruct H as [H|H].
  - rewrite H, eqb_refl. eauto.
  - destruct (IH H); congruence.
Qed.
Lemma last_of_nodup k v l : NoDup (map fst l) -> In (k, v) l -> last_of k l = Some v.
Proof.
  intros ND I. destruct (last_of_some k l) as (w & E); [exact (in_map fst _ _ I)|]. rewrite E. apply last_of_in in E. f_equal.
  pose proof (in_find _ _ _ ND I). pose proof (in_find _ _ _ ND E). congruence.
Qed.
Definition all_start (p : str) (l : fields) : Prop := Forall (fun e => starts p (fst e) = true) l.
Lemma all_start_app p a b : all_start p (a ++ b) <-> all_start p a /\ all_start p b.
Proof. apply Forall_app. Qed.
Lemma all_start_trans p q l : starts p q = true -> all_start q l -> all_start p l.
Proof. intros S F. eapply Forall_impl; [|exact F]. cbn beta. intros e H. eapply starts_trans; eauto. Qed.
Lemma last_of_prefix k p l : all_start p l -> starts p k = false -> last_of k l = None.
Proof.
  intros F E. apply last_of_none. intros I. apply in_map_iff in I. destruct I as (e & <- & I). unfold all_start in F. rewrite Forall_forall in F. apply F in I. congruence.
Qed.
Lemma attrs_start pre l : all_start (pre ++ txt "attributes/") (attr_puts pre l).
Proof.
  unfold attr_puts, all_start. apply Forall_flat_map. apply Forall_forall. intros a _. destruct (a_value a); constructor; [|constructor].
  cbn [fst]. rewrite app_assoc. apply starts_app.
Qed.
Lemma event_start i e : all_start (event_prefix i) (event_puts i e).
Proof.
  unfold event_puts. rewrite !all_start_app. split; [|split].
  - repeat constructor; apply starts_app.
  - eapply all_start_trans; [|apply attrs_start]. apply starts_app.
  - repeat constructor; apply starts_app.
Qed.
Lemma link_start i e : all_start (link_prefix i) (link_puts i e).
Proof.
  unfold link_puts. rewrite !all_start_app. split; [|split].
  - repeat constructor; apply starts_app.
  - eapply all_start_trans; [|apply attrs_start]. apply starts_app.
  - repeat constructor; apply starts_app.
Qed.
Definition EVENT : str := SPAN ++ txt "Event_".
Definition LINK : str := SPAN ++ txt "Link_".
Lemma events_start : forall l i, all_start EVENT (events_puts i l).
Proof.
  induction l as [|e l IH]; intros i; cbn [events_puts]; [constructor|]. apply all_start_app. split; [|apply IH].
  eapply all_start_trans; [|apply event_start]. unfold event_prefix, EVENT. rewrite app_assoc. apply starts_app.
Qed.
Lemma links_start : forall l i, all_start LINK (links_puts i l).
Proof.
  induction l as [|e l IH]; intros i; cbn [links_puts]; [constructor|]. apply all_start_app. split; [|apply IH].
  eapply all_start_trans; [|apply link_start]. unfold link_prefix, LINK. rewrite app_assoc. apply starts_app.
Qed.
Definition SCOPE : str := txt "ResourceSpans/ScopeSpans/".
Lemma span_start sp : all_start SPAN (span_puts sp).
Proof.
  unfold span_puts. rewrite !all_start_app. repeat split.
  - repeat constructor; apply starts_app.
  - eapply all_start_trans; [|apply attrs_start]. apply starts_app.
  - repeat constructor; apply starts_app.
  - eapply all_start_trans; [|apply events_start]. apply starts_app.
  - repeat constructor; apply starts_app.
  - eapply all_start_trans; [|apply links_start]. apply starts_app.
  - repeat constructor; apply starts_app.
  - destruct (sp_status sp) as [[c m]|]; repeat constructor; apply starts_app.
  - repeat constructor; apply starts_app.
Qed.
Lemma scope_start s : all_start SCOPE (scope_puts s).
Proof.
  unfold scope_puts. rewrite !all_start_app. split; [|repeat constructor].
  destruct (ss_scope s) as [c|]; [|constructor]. rewrite !all_start_app. split; [|split].
  - repeat constructor.
  - eapply all_start_trans; [|apply attrs_start]. reflexivity.
  - repeat constructor.
Qed.

(** the values of a span, by their keys *)
Ltac prefixed :=
  repeat rewrite last_of_app;
  repeat first
    [ rewrite (last_of_prefix _ _ _ (links_start _ _)) by (vm_compute; reflexivity)
    | rewrite (last_of_prefix _ _ _ (events_start _ _)) by (vm_compute; reflexivity)
    | rewrite (last_of_prefix _ _ _ (attrs_start _ _)) by (vm_compute; reflexivity) ].
Lemma span_values sp :
  let f k := last_of k (span_puts sp) in
  f TRACE_ID = Some (JStr (hex (sp_trace sp))) /\ f SPAN_ID = Some (JStr (hex (sp_id sp))) /\ f TRACE_STATE = Some (JStr (sp_state sp)) /\
  f PARENT = Some (JStr (hex (sp_parent sp))) /\ f FLAGS = Some (int (sp_flags sp)) /\ f NAME = Some (JStr (sp_name sp)) /\
  f KIND = Some (JStr (kind_name (sp_kind sp))) /\ f TIME_COLUMN = Some (int (sp_start sp)) /\
  f DURATION = Some (int (wrap_u64 (sp_end sp - sp_start sp))) /\
  match sp_status sp with Some (code, msg) => f STATUS_CODE = Some (JStr (status_name code)) /\ f STATUS_MESSAGE = Some (JStr msg) | None => True end.
Proof.
  cbv zeta. unfold span_puts. repeat split; [prefixed; destruct (sp_status sp) as [[c m]|]; reflexivity ..|].
  destruct (sp_status sp) as [[c m]|]; [|exact I]. split; prefixed; reflexivity.
Qed.
Lemma app_inj (p a b : str) : p ++ a = p ++ b -> a = b.
Proof. apply app_inv_head. Qed.
Lemma attr_keys pre l : forall k, In k (map fst (attr_puts pre l)) -> exists a, In a l /\ k = pre ++ txt "attributes/" ++ a_key a.
Proof.
  induction l as [|a l IH]; intros k I; [destruct I|]. unfold attr_puts in I. cbn [flat_map] in I. rewrite map_app in I. apply in_app_iff in I. destruct I as [I|I].
  - destruct (a_value a); [|destruct I]. destruct I as [<-|[]]. exists a. split; [left|]; auto.
  - apply IH in I. destruct I as (b & I & E). exists b. split; [right|]; auto.
Qed.
Lemma attr_nodup pre : forall l, NoDup (map a_key l) -> NoDup (map fst (attr_puts pre l)).
Proof.
  induction l as [|a l IH]; intros ND; [constructor|]. inversion ND as [|? ? NI ND']; subst. unfold attr_puts. cbn [flat_map].
  change (flat_map _ l) with (attr_puts pre l). destruct (a_value a) as [v|]; [|apply IH; auto]. cbn [app map fst]. constructor; [|apply IH; auto].
  intros I. apply attr_keys in I. destruct I as (b & I & E). apply app_inj, app_inj in E. apply NI. rewrite E. apply in_map. exact I.
Qed.
Lemma attr_in pre l k v : In (Attr k (Some v)) l -> In (pre ++ txt "attributes/" ++ k, JStr (attr_text v)) (attr_puts pre l).
Proof. intros I. unfold attr_puts. apply in_flat_map. exists (Attr k (Some v)). split; [exact I|]. left. reflexivity. Qed.
Lemma span_attr sp k v : NoDup (map a_key (sp_attrs sp)) -> In (Attr k (Some v)) (sp_attrs sp) ->
  last_of (SPAN ++ txt "attributes/" ++ k) (span_puts sp) = Some (JStr (attr_text v)).
Proof.
  intros ND I. unfold span_puts. assert (last_of (SPAN ++ txt "attributes/" ++ k) (attr_puts SPAN (sp_attrs sp)) = Some (JStr (attr_text v))) as E.
  { apply last_of_nodup; [apply attr_nodup; auto|apply attr_in; auto]. }
  assert (starts (SPAN ++ txt "attributes/") (SPAN ++ txt "attributes/" ++ k) = true) as S by (rewrite app_assoc; apply starts_app).
  revert E S. generalize (SPAN ++ txt "attributes/" ++ k). intros c E S.
  assert (forall x, starts (SPAN ++ txt "attributes/") x = false -> str_eqb c x = false) as NE.
  { intros x H. apply eqb_false. intros ->. congruence. }
  repeat rewrite last_of_app.
  rewrite (last_of_prefix _ _ _ (links_start _ _)) by (eapply starts_apart; [exact S|reflexivity|reflexivity]).
  rewrite (last_of_prefix _ _ _ (events_start _ _)) by (eapply starts_apart; [exact S|reflexivity|reflexivity]). rewrite E.
  destruct (sp_status sp) as [[a b]|]; cbn [last_of fst snd]; rewrite !NE by (vm_compute; reflexivity); reflexivity.
Qed.

(** * The rows *)
Definition scalar (v : json) : Prop := match v with JStr _ | JNum (NInt _) => True | _ => False end.
Definition scalars (l : fields) : Prop := Forall (fun e => scalar (snd e)) l.
Lemma put_scalars k v m : scalar v -> scalars m -> scalars (put k v m).
Proof. intros S F. apply Forall_forall. intros e I. apply put_in in I. destruct I as [->|I]; auto. unfold scalars in F. rewrite Forall_forall in F. auto. Qed.
Lemma puts_scalars : forall l m, scalars l -> scalars m -> scalars (puts l m).
Proof. induction l as [|e l IH]; intros m S F; cbn [puts fold_left]; auto. inversion S; subst. apply IH; auto. apply put_scalars; auto. Qed.
Lemma attr_scalars pre l : scalars (attr_puts pre l).
Proof. apply Forall_flat_map, Forall_forall. intros a _. destruct (a_value a); repeat constructor. Qed.
Lemma events_scalars : forall l i, scalars (events_puts i l).
Proof.
  induction l as [|e l IH]; intros i; cbn [events_puts]; [constructor|]. apply Forall_app. split; [|apply IH]. unfold event_puts.
  apply Forall_app. split; [repeat constructor|]. apply Forall_app. split; [apply attr_scalars|repeat constructor].
Qed.
Lemma links_scalars : forall l i, scalars (links_puts i l).
Proof.
  induction l as [|e l IH]; intros i; cbn [links_puts]; [constructor|]. apply Forall_app. split; [|apply IH]. unfold link_puts.
  apply Forall_app. split; [repeat constructor|]. apply Forall_app. split; [apply attr_scalars|repeat constructor].
Qed.
Lemma span_scalars sp : scalars (span_puts sp).
Proof.
  unfold span_puts. repeat (apply Forall_app; split); try (repeat constructor; fail).
  - apply attr_scalars.
  - apply events_scalars.
  - apply links_scalars.
  - destruct (sp_status sp) as [[a b]|]; repeat constructor.
Qed.
Lemma scope_scalars s : scalars (scope_puts s).
Proof.
  unfold scope_puts. apply Forall_app. split; [|repeat constructor]. destruct (ss_scope s); [|constructor].
  apply Forall_app. split; [repeat constructor|]. apply Forall_app. split; [apply attr_scalars|repeat constructor].
Qed.
Lemma res_scalars r : scalars (res_puts r).
Proof.
  unfold res_puts. apply Forall_app. split; [|repeat constructor]. destruct (rs_resource r) as [[attrs d]|]; [|constructor].
  apply Forall_app. split; [|repeat constructor]. apply Forall_flat_map, Forall_forall. intros a _. destruct (str_eqb _ _); [|apply attr_scalars].
  destruct (a_value a) as [[]|]; repeat constructor.
Qed.
(** events and links have all their columns *)
Definition closed (l : fields) : Prop := forall e c, In c (map fst l) ->
  (starts (event_prefix e) c = true -> In (event_prefix e ++ txt "time_unix_nano") (map fst l)) /\
  (starts (link_prefix e) c = true -> In (link_prefix e ++ txt "trace_id") (map fst l) /\ In (link_prefix e ++ txt "span_id") (map fst l)).
Lemma event_event e : starts EVENT (event_prefix e) = true.
Proof. unfold event_prefix, EVENT. rewrite app_assoc. apply starts_app. Qed.
Lemma link_link e : starts LINK (link_prefix e) = true.
Proof. unfold link_prefix, LINK. rewrite app_assoc. apply starts_app. Qed.
Lemma closed_none l : (forall c, In c (map fst l) -> starts EVENT c = false /\ starts LINK c = false) -> closed l.
Proof.
  intros H e c I. apply H in I. destruct I as [H1 H2]. split; intros S.
  - rewrite (starts_trans _ _ _ (event_event e) S) in H1. discriminate.
  - rewrite (starts_trans _ _ _ (link_link e) S) in H2. discriminate.
Qed.
Lemma closed_app a b : closed a -> closed b -> closed (a ++ b).
Proof.
  intros A1 B1 e c I. rewrite map_app in *. apply in_app_iff in I. rewrite !in_app_iff. destruct I as [I|I].
  - destruct (A1 e c I) as [P Q]. split; intros S; [left; apply P; auto|]. destruct (Q S). auto.
  - destruct (B1 e c I) as [P Q]. split; intros S; [right; apply P; auto|]. destruct (Q S). auto.
Qed.
Lemma digits_noslash : forall k z, ~ In 47 (digits k z) \/ z < 0.
Proof.
  intros k z. destruct (Z_lt_le_dec z 0) as [L|L]; [auto|]. left. pose proof (digits_ok k z L) as D. rewrite Forall_forall in D. intros I. apply D in I. lia.
Qed.
Lemma dec_noslash z : ~ In 47 (dec z).
Proof.
  unfold dec. destruct (Z.ltb_spec z 0).
  - intros [I|I]; [discriminate|]. destruct (digits_noslash 20 (- z)); [auto|lia].
  - destruct (digits_noslash 20 z); [auto|lia].
Qed.
Lemma split_slash : forall a b r s : str, ~ In 47 a -> ~ In 47 b -> a ++ 47 :: r = b ++ 47 :: s -> a = b.
Proof.
  induction a as [|x a IH]; intros [|y b] r s A1 B1 E; cbn [app] in E; auto.
  - injection E as E1 E2. exfalso. apply B1. left. auto.
  - injection E as E1 E2. exfalso. apply A1. left. auto.
  - injection E as -> E. f_equal. eapply IH; eauto; intros I; [apply A1|apply B1]; right; auto.
Qed.
Lemma event_same i j c : starts (event_prefix i) c = true -> starts (event_prefix j) c = true -> dec i = dec j.
Proof.
  intros A1 B1. apply starts_ex in A1, B1. destruct A1 as (x & ->), B1 as (y & E). unfold event_prefix in E. rewrite <- !app_assoc in E. apply app_inj, app_inj in E.
  eapply split_slash; [apply dec_noslash|apply dec_noslash|exact E].
Qed.
Lemma link_same i j c : starts (link_prefix i) c = true -> starts (link_prefix j) c = true -> dec i = dec j.
Proof.
  intros A1 B1. apply starts_ex in A1, B1. destruct A1 as (x & ->), B1 as (y & E). unfold link_prefix in E. rewrite <- !app_assoc in E. apply app_inj, app_inj in E.
  eapply split_slash; [apply dec_noslash|apply dec_noslash|exact E].
Qed.
Lemma all_in p l c : all_start p l -> In c (map fst l) -> starts p c = true.
Proof. intros F I. apply in_map_iff in I. destruct I as (e & <- & I). unfold all_start in F. rewrite Forall_forall in F. auto. Qed.
Lemma closed_prefix p l : all_start p l -> starts EVENT p = false -> starts p EVENT = false -> starts LINK p = false -> starts p LINK = false -> closed l.
Proof. intros F A1 A2 A3 A4. apply closed_none. intros c I. pose proof (all_in _ _ _ F I) as S. split; [exact (starts_apart p EVENT c S A2 A1)|exact (starts_apart p LINK c S A4 A3)]. Qed.
Lemma closed_event i e : closed (event_puts i e).
Proof.
  intros n c I. pose proof (all_in _ _ _ (event_start i e) I) as S. split; intros T.
  - assert (event_prefix n = event_prefix i) as -> by (unfold event_prefix; rewrite (event_same _ _ _ S T); reflexivity). left. reflexivity.
  - exfalso. pose proof (starts_trans _ _ _ (event_event i) S) as S1. pose proof (starts_trans _ _ _ (link_link n) T) as T1.
    destruct (starts_both _ _ _ S1 T1) as [H|H]; discriminate H.
Qed.
Lemma closed_link i e : closed (link_puts i e).
Proof.
  intros n c I. pose proof (all_in _ _ _ (link_start i e) I) as S. split; intros T.
  - exfalso. pose proof (starts_trans _ _ _ (link_link i) S) as S1. pose proof (starts_trans _ _ _ (event_event n) T) as T1.
    destruct (starts_both _ _ _ S1 T1) as [H|H]; discriminate H.
  - assert (link_prefix n = link_prefix i) as -> by (unfold link_prefix; rewrite (link_same _ _ _ S T); reflexivity). split; [left; reflexivity|right; left; reflexivity].
Qed.
Lemma closed_events : forall l i, closed (events_puts i l).
Proof. induction l as [|e l IH]; intros i; cbn [events_puts]; [intros ? ? []|]. apply closed_app; [apply closed_event|apply IH]. Qed.
Lemma closed_links : forall l i, closed (links_puts i l).
Proof. induction l as [|e l IH]; intros i; cbn [links_puts]; [intros ? ? []|]. apply closed_app; [apply closed_link|apply IH]. Qed.
Lemma closed_const l : forallb (fun e => negb (starts EVENT (fst e)) && negb (starts LINK (fst e))) l = true -> closed l.
Proof.
  intros F. apply closed_none. intros c I. apply in_map_iff in I. destruct I as (e & <- & I). rewrite forallb_forall in F. apply F in I.
  apply andb_true_iff in I. destruct I as [A1 B1]. apply negb_true_iff in A1, B1. auto.
Qed.
Ltac const := apply closed_const; vm_compute; reflexivity.
Lemma closed_attrs pre l : starts EVENT (pre ++ txt "attributes/") = false -> starts (pre ++ txt "attributes/") EVENT = false ->
  starts LINK (pre ++ txt "attributes/") = false -> starts (pre ++ txt "attributes/") LINK = false -> closed (attr_puts pre l).
Proof. intros A1 A2 A3 A4. exact (closed_prefix _ _ (attrs_start pre l) A1 A2 A3 A4). Qed.
Lemma closed_span sp : closed (span_puts sp).
Proof.
  unfold span_puts. apply closed_app; [const|]. apply closed_app; [apply closed_attrs; reflexivity|]. apply closed_app; [const|].
  apply closed_app; [apply closed_events|]. apply closed_app; [const|]. apply closed_app; [apply closed_links|]. apply closed_app; [const|].
  apply closed_app; [destruct (sp_status sp) as [[a b]|]; const|const].
Qed.
Lemma closed_scope s : closed (scope_puts s).
Proof.
  unfold scope_puts. apply closed_app; [|const]. destruct (ss_scope s) as [c|]; [|intros ? ? []].
  apply closed_app; [const|]. apply closed_app; [apply closed_attrs; reflexivity|const].
Qed.
Lemma res_start r : all_start (txt "ResourceSpans/") (res_puts r) /\ forall c, In c (map fst (res_puts r)) -> starts SCOPE c = false.
Proof.
  assert (Forall (fun e => starts (txt "ResourceSpans/Resource/") (fst e) = true \/ fst e = txt "ResourceSpans/schema_url") (res_puts r)) as F.
  { unfold res_puts. apply Forall_app. split; [|repeat constructor; right; reflexivity]. destruct (rs_resource r) as [[attrs d]|]; [|constructor].
    apply Forall_app. split; [|repeat constructor]. apply Forall_flat_map, Forall_forall. intros a _. destruct (str_eqb _ _).
    - destruct (a_value a) as [[]|]; repeat constructor.
    - eapply Forall_impl; [|apply attrs_start]. intros e H. left. eapply starts_trans; [|exact H]. reflexivity. }
  rewrite Forall_forall in F. split.
  - apply Forall_forall. intros e I. destruct (F e I) as [H|H]; [eapply starts_trans; [|exact H]; reflexivity|rewrite H; reflexivity].
  - intros c I. apply in_map_iff in I. destruct I as (e & <- & I). destruct (F e I) as [H|H]; [eapply starts_apart; [exact H|reflexivity|reflexivity]|rewrite H; reflexivity].
Qed.
Lemma closed_res r : closed (res_puts r).
Proof.
  destruct (res_start r) as [_ H]. apply closed_none. intros c I. specialize (H c I). split.
  - destruct (starts EVENT c) eqn:E; auto. rewrite (starts_trans SCOPE EVENT c eq_refl E) in H. discriminate.
  - destruct (starts LINK c) eqn:E; auto. rewrite (starts_trans SCOPE LINK c eq_refl E) in H. discriminate.
Qed.
Lemma find_key k m : In k (map fst m) <-> find k m <> None.
Proof.
  induction m as [|[a v] m IH]; cbn [find map fst In]; [split; [intros []|congruence]|]. destruct (str_eqb_spec k a); [split; [discriminate|auto]|].
  rewrite <- IH. split; [intros [H|H]; [congruence|auto]|auto].
Qed.
Lemma last_key k m : In k (map fst m) <-> last_of k m <> None.
Proof. split; intros H; [destruct (last_of_some k m H); congruence|]. destruct (last_of k m) as [v|] eqn:E; [|congruence]. apply last_of_in in E. exact (in_map fst _ _ E). Qed.
Lemma puts_key k l m : In k (map fst (puts l m)) <-> In k (map fst l) \/ In k (map fst m).
Proof. rewrite (find_key k (puts l m)), (last_key k l), (find_key k m), find_puts. destruct (last_of k l) as [v|]; [split; [intros _; left; discriminate|intros _; discriminate]|tauto]. Qed.
Lemma closed_puts l m : closed l -> closed m -> closed (puts l m).
Proof.
  intros A1 B1 e c I. apply puts_key in I. rewrite !puts_key. destruct I as [I|I].
  - destruct (A1 e c I) as [P Q]. split; intros S; [left; apply P; auto|]. destruct (Q S). auto.
  - destruct (B1 e c I) as [P Q]. split; intros S; [right; apply P; auto|]. destruct (Q S). auto.
Qed.
(** what holds of the map while the spans of a resource are read *)
Definition inv (r : resource_spans) (fs : fields) : Prop :=
  ordered fs /\ scalars fs /\ find SERVICE fs = last_of SERVICE (res_puts r) /\ closed fs.
Lemma inv_res r : inv r (puts (res_puts r) []).
Proof.
  split; [apply puts_ordered; constructor|]. split; [apply puts_scalars; [apply res_scalars|constructor]|]. split; [rewrite find_puts; destruct (last_of SERVICE (res_puts r)); reflexivity|].
  apply closed_puts; [apply closed_res|intros ? ? []].
Qed.
Lemma inv_puts r l fs : inv r fs -> scalars l -> all_start SCOPE l -> closed l -> inv r (puts l fs).
Proof.
  intros (A1 & A2 & A3 & A4) S F K. split; [apply puts_ordered; auto|]. split; [apply puts_scalars; auto|].
  split; [rewrite find_puts, (last_of_prefix _ _ _ F); [exact A3|reflexivity]|]. apply closed_puts; auto.
Qed.
Lemma inv_span r sp fs : inv r fs -> inv r (puts (span_puts sp) fs).
Proof. intros H. apply inv_puts; auto; [apply span_scalars| |apply closed_span]. eapply all_start_trans; [|apply span_start]. reflexivity. Qed.
Lemma inv_scope r s fs : inv r fs -> inv r (puts (scope_puts s) fs).
Proof. intros H. apply inv_puts; auto; [apply scope_scalars|apply scope_start|apply closed_scope]. Qed.
Definition row_ok (x : resource_spans * scope_spans * span) (fs : fields) : Prop :=
  let '(r, s, sp) := x in exists fs0, inv r fs0 /\ fs = puts (span_puts sp) fs0.
Lemma spans_rows_ok r s : forall l fs, inv r fs -> let (rows, fs') := spans_rows fs l in
  Forall2 row_ok (map (fun sp => (r, s, sp)) l) rows /\ inv r fs'.
Proof.
  induction l as [|sp l IH]; intros fs H; cbn [spans_rows]; [split; [constructor|auto]|]. cbv zeta.
  pose proof (IH _ (inv_span r sp fs H)) as Q. destruct (spans_rows (puts (span_puts sp) fs) l) as [rows fs']. destruct Q as [Q1 Q2].
  split; auto. cbn [map]. constructor; auto. exists fs. auto.
Qed.
Lemma scopes_rows_ok r : forall l fs, inv r fs -> let (rows, fs') := scopes_rows fs l in
  Forall2 row_ok (flat_map (fun s => map (fun sp => (r, s, sp)) (ss_spans s)) l) rows /\ inv r fs'.
Proof.
  induction l as [|s l IH]; intros fs H; cbn [scopes_rows]; [split; [constructor|auto]|].
  pose proof (spans_rows_ok r s (ss_spans s) _ (inv_scope r s fs H)) as Q. destruct (spans_rows _ (ss_spans s)) as [rows fs1]. destruct Q as [Q1 Q2].
  pose proof (IH _ Q2) as Q. destruct (scopes_rows fs1 l) as [rows2 fs2]. destruct Q as [Q3 Q4]. split; auto. cbn [flat_map]. apply Forall2_app; auto.
Qed.
Theorem rows_ok req : Forall2 row_ok (spans_of req) (otlp req).
Proof.
  induction req as [|r req IH]; [constructor|]. unfold spans_of, otlp. cbn [flat_map]. apply Forall2_app; [|exact IH].
  pose proof (scopes_rows_ok r (rs_scopes r) _ (inv_res r)) as Q. destruct (scopes_rows _ (rs_scopes r)) as [rows fs]. destruct Q as [Q _]. exact Q.
Qed.

(** * The lines *)
Definition TAGS : list str := [LIB_NAME; LIB_VERSION; STATUS_CODE; SPAN_ID; NAME; PARENT; SPAN_ID; TRACE_ID; TRACE_STATE; SERVICE].
Lemma tags_eq : tag_list TAG_COLUMNS = TAGS.
Proof. vm_compute. reflexivity. Qed.
Lemma time_not_tag : ~ In TIME_COLUMN TAGS.
Proof. intros I. destruct (mem_spec TIME_COLUMN TAGS) as [H|H]; [|auto]. assert (mem TIME_COLUMN TAGS = false) as E by (vm_compute; reflexivity). destruct (mem_spec TIME_COLUMN TAGS); congruence. Qed.
Lemma line_some table fs t : ordered fs -> scalars fs -> find TIME_COLUMN fs = Some (int t) -> - 2 ^ 63 <= t < 2 ^ 63 -> exists ln, export_line table fs = Some ln.
Proof.
  intros O SC F B. unfold export_line, to_line. rewrite tags_eq. destruct (to_line_loop _ _ _ _ _) as [ln|] eqn:E; [eauto|]. exfalso.
  apply loop_none in E. destruct E as ([k v] & I & NT & H). cbn [fst snd] in *. pose proof (in_find _ _ _ (ordered_nodup _ O) I) as G.
  destruct H as [[-> H]|[_ H]].
  - rewrite F in G. injection G as <-. cbn [time_of int num_i64] in H. destruct (Z.leb_spec I64_MIN t), (Z.leb_spec t I64_MAX); try discriminate; unfold I64_MIN, I64_MAX in *; lia.
  - unfold scalars in SC. rewrite Forall_forall in SC. apply SC in I. cbn [snd] in I. destruct v as [|b|[z|? ?]|s|l|m]; try destruct I; discriminate.
Qed.
Lemma assoc_in {A : Type} k (v : A) l : assoc k l = Some v -> In (k, v) l.
Proof. induction l as [|[a w] l IH]; cbn [assoc]; [discriminate|]. destruct (str_eqb_spec k a); [intros E; injection E as <-; subst; left; auto|right; auto]. Qed.
Lemma assoc_none {A : Type} k (l : list (str * A)) : assoc k l = None <-> ~ In k (map fst l).
Proof.
  induction l as [|[a w] l IH]; cbn [assoc map fst In]; [split; auto|]. destruct (str_eqb_spec k a).
  - split; [discriminate|]. intros H. exfalso. apply H. left. auto.
  - rewrite IH. split; [intros H [Q|Q]; auto|intros H Q; apply H; right; auto].
Qed.
Lemma assoc_uniq {A : Type} k (v : A) l : In (k, v) l -> (forall w, In (k, w) l -> w = v) -> assoc k l = Some v.
Proof.
  intros I U. destruct (assoc k l) as [w|] eqn:E; [apply assoc_in in E; f_equal; auto|]. apply assoc_none in E. exfalso. apply E. exact (in_map fst _ _ I).
Qed.
Section LineOf.
Variables (table : str) (fs : fields) (ln : line).
Hypothesis O : ordered fs.
Hypothesis E : export_line table fs = Some ln.
Lemma line_facts : l_table ln = table /\
  (forall k t, In (k, t) (l_tags ln) <-> exists v, In (k, v) fs /\ In k TAGS /\ t = tag_text v) /\
  (forall k f, In (k, f) (l_fields ln) <-> exists v, In (k, v) fs /\ ~ In k TAGS /\ k <> TIME_COLUMN /\ field_of v = Some f) /\
  (forall v, In (TIME_COLUMN, v) fs -> time_of (fun _ => None) v = Some (l_time ln)).
Proof.
  unfold export_line, to_line in E. rewrite tags_eq in E. apply loop_some in E. destruct E as (A1 & _ & _ & A2 & A3 & A4 & _). split; [exact A1|].
  split; [|split].
  - intros k t. rewrite A2. cbn [l_tags In]. intuition.
  - intros k t. rewrite A3. cbn [l_fields In]. intuition.
  - intros v I. apply A4; auto; [apply ordered_nodup; auto|apply time_not_tag].
Qed.
Lemma cell_tag k v : find k fs = Some v -> In k TAGS -> r_cell (row_of_line ln) k = Some (CStr (tag_text v)).
Proof.
  intros F T. destruct line_facts as (_ & A2 & _). apply find_in in F. cbn [r_cell row_of_line]. rewrite (assoc_uniq k (tag_text v)); auto.
  - apply A2. eauto.
  - intros w I. apply A2 in I. destruct I as (u & I & _ & ->). pose proof (in_find _ _ _ (ordered_nodup _ O) I). pose proof (in_find _ _ _ (ordered_nodup _ O) F). congruence.
Qed.
Lemma cell_field k v f : find k fs = Some v -> ~ In k TAGS -> k <> TIME_COLUMN -> field_of v = Some f -> r_cell (row_of_line ln) k = Some (cell_of f).
Proof.
  intros F T N1 Q. destruct line_facts as (_ & A2 & A3 & _). apply find_in in F. cbn [r_cell row_of_line].
  assert (assoc k (l_tags ln) = None) as ->. { apply assoc_none. intros I. apply in_map_iff in I. destruct I as ([k2 t] & <- & I). apply A2 in I. destruct I as (? & _ & I & _). auto. }
  rewrite (assoc_uniq k f); auto.
  - apply A3. eauto.
  - intros w I. apply A3 in I. destruct I as (u & I & _ & _ & W). pose proof (in_find _ _ _ (ordered_nodup _ O) I). pose proof (in_find _ _ _ (ordered_nodup _ O) F). congruence.
Qed.
Lemma line_time t : find TIME_COLUMN fs = Some (int t) -> l_time ln = t.
Proof.
  intros F. apply find_in in F. destruct line_facts as (_ & _ & _ & A4). apply A4 in F. cbn [time_of int num_i64] in F. destruct (_ && _); congruence.
Qed.
Lemma column_in k v : scalars fs -> find k fs = Some v -> k <> TIME_COLUMN -> In k (line_columns ln).
Proof.
  intros SC F N1. destruct line_facts as (_ & A2 & A3 & _). apply find_in in F. unfold line_columns. apply in_app_iff.
  destruct (in_dec (list_eq_dec Z.eq_dec) k TAGS) as [T|T].
  - left. assert (In (k, tag_text v) (l_tags ln)) as I by (apply A2; eauto). exact (in_map fst _ _ I).
  - right. unfold scalars in SC. rewrite Forall_forall in SC. specialize (SC _ F). cbn [snd] in SC.
    assert (exists f, field_of v = Some f) as (f & Q) by (destruct v as [|b|[z|? ?]|s|l|m]; try destruct SC; cbn [field_of]; eauto).
    assert (In (k, f) (l_fields ln)) as I by (apply A3; eauto 6). exact (in_map fst _ _ I).
Qed.
Lemma column_find k : In k (line_columns ln) -> k <> TIME_COLUMN /\ exists v, find k fs = Some v.
Proof.
  destruct line_facts as (_ & A2 & A3 & _). unfold line_columns. rewrite in_app_iff. intros [I|I]; apply in_map_iff in I; destruct I as ([k2 t] & <- & I); cbn [fst].
  - apply A2 in I. destruct I as (v & I & T & _). split; [intros ->; apply time_not_tag; auto|]. exists v. apply in_find; auto. apply ordered_nodup; auto.
  - apply A3 in I. destruct I as (v & I & _ & T & _). split; [exact T|]. exists v. apply in_find; auto. apply ordered_nodup; auto.
Qed.
End LineOf.

(** * Texts *)
Lemma hex_digit_value d : 0 <= d < 16 -> hex_value (hex_digit d) d.
Proof. intros B. unfold hex_value, hex_digit. destruct (Z.ltb_spec d 10); lia. Qed.
Lemma hex_ok l : bytes l -> hex_text l (hex l).
Proof.
  induction 1 as [|b l B _ IH]; [constructor|]. unfold hex. cbn [flat_map app].
  pose proof (Z.div_mod b 16 ltac:(lia)) as D. pose proof (Z.mod_pos_bound b 16 ltac:(lia)) as M.
  assert (0 <= b / 16 < 16) as Q by (split; [apply Z.div_pos; lia|apply Z.div_lt_upper_bound; lia]).
  eapply hex_cons; [apply hex_digit_value; exact Q|apply hex_digit_value; exact M|exact D|exact IH].
Qed.
Lemma hex_plain l : bytes l -> plain_text (hex l).
Proof.
  induction 1 as [|b l B _ IH]; [constructor|]. unfold hex. cbn [flat_map app].
  pose proof (Z.mod_pos_bound b 16 ltac:(lia)) as M.
  assert (0 <= b / 16 < 16) as Q by (split; [apply Z.div_pos; lia|apply Z.div_lt_upper_bound; lia]).
  constructor; [|constructor; [|exact IH]]; [revert Q; generalize (b / 16)|revert M; generalize (b mod 16)]; intros d Q2; unfold hex_digit; destruct (Z.ltb_spec d 10); lia.
Qed.
Lemma tag_plain s : plain_text s -> tag_text (JStr s) = s.
Proof. intros P. symmetry. apply tag_text_iff; auto. constructor. Qed.
Lemma status_plain k : plain_text (status_name k).
Proof. unfold status_name. destruct (k =? 1); [|destruct (k =? 2)]; repeat constructor; discriminate. Qed.
Lemma attr_shown v : v <> ANone -> (forall z, v = AInt z -> - 2 ^ 63 <= z < 2 ^ 63) -> value_shown v (attr_text v).
Proof.
  intros NN B. destruct v as [s|[]|z|s|]; cbn [attr_text]; try constructor; [|congruence]. specialize (B z eq_refl).
  apply tag_text_iff; [reflexivity|cbn [tag_fit]; lia|]. unfold tag_text. cbn [to_text]. rewrite trim_notin; auto. apply dec_noquote. lia.
Qed.

(** * The columns *)
Lemma mem_true k l : In k l -> mem k l = true.
Proof. intros I. destruct (mem_spec k l); congruence. Qed.
Definition grows (a b : acc) : Prop :=
  (exists x, ac_tags b = ac_tags a ++ x) /\ (exists x, ac_ptags b = ac_ptags a ++ x /\ forall k f, ~ In (k, TBool f) x) /\
  (exists x, ac_logs b = ac_logs a ++ x) /\ (exists x, ac_refs b = ac_refs a ++ x).
Lemma grows_refl a : grows a a.
Proof. repeat split; exists []; rewrite app_nil_r; auto. Qed.
Lemma grows_trans a b c : grows a b -> grows b c -> grows a c.
Proof.
  intros ((t1 & T1) & (p1 & P1 & Q1) & (l1 & L1) & (r1 & R1)) ((t2 & T2) & (p2 & P2 & Q2) & (l2 & L2) & (r2 & R2)).
  split; [|split; [|split]].
  - exists (t1 ++ t2). rewrite T2, T1, app_assoc. reflexivity.
  - exists (p1 ++ p2). split; [rewrite P2, P1, app_assoc; reflexivity|]. intros k f I. apply in_app_iff in I. destruct I as [I|I]; [eapply Q1|eapply Q2]; eauto.
  - exists (l1 ++ l2). rewrite L2, L1, app_assoc. reflexivity.
  - exists (r1 ++ r2). rewrite R2, R1, app_assoc. reflexivity.
Qed.
Lemma event_ptags_str cols r i k f : ~ In (k, TBool f) (event_ptags cols r i).
Proof. unfold event_ptags. intros I. apply in_flat_map in I. destruct I as (c & _ & I). destruct (starts _ c); [destruct I as [I|[]]; discriminate|destruct I]. Qed.
Ltac grow x1 x2 x3 x4 := split; [exists x1|split; [exists x2|split; [exists x3|exists x4]]]; cbn [ac_tags ac_ptags ac_logs ac_refs]; rewrite ?app_nil_r; auto.
Lemma step_grows cols r a c b : column_step cols r a c = Some b -> grows a b.
Proof.
  destruct a as [e l tags ptags logs refs]. unfold column_step.
  destruct (_ && _). { intros E. injection E as <-. grow (@nil (str * tagv)) [(c, TStr (str_at r c))] (@nil (Z * list (str * tagv))) (@nil (str * str)). split; auto. intros k f [I|[]]. discriminate. }
  destruct (str_eqb c RES_DROPPED). { intros E. injection E as <-. grow (@nil (str * tagv)) [(txt "dropped_attributes_count", TInt (clamp I64_MIN I64_MAX (num_at r c)))] (@nil (Z * list (str * tagv))) (@nil (str * str)). split; auto. intros k f [I|[]]. discriminate. }
  destruct (starts (SPAN ++ txt "attributes/") c). { intros E. injection E as <-. grow (@nil (str * tagv)) [(c, TStr (str_at r c))] (@nil (Z * list (str * tagv))) (@nil (str * str)). split; auto. intros k f [I|[]]. discriminate. }
  destruct (_ || _). { intros E. injection E as <-. grow [(after_slash c c, TInt (clamp I64_MIN I64_MAX (num_at r c)))] (@nil (str * tagv)) (@nil (Z * list (str * tagv))) (@nil (str * str)). }
  destruct (str_eqb c TRACE_STATE). { intros E. injection E as <-. grow [(after_slash c c, TStr (str_at r c))] (@nil (str * tagv)) (@nil (Z * list (str * tagv))) (@nil (str * str)). }
  destruct (starts (event_prefix e) c). { destruct (mem _ cols); [|discriminate]. intros E. injection E as <-. grow (@nil (str * tagv)) (event_ptags cols r e) [event_log cols r e] (@nil (str * str)).
    split; auto. intros k f. apply event_ptags_str. }
  destruct (starts (link_prefix l) c). { destruct (_ && _); [|discriminate]. intros E. injection E as <-. grow (@nil (str * tagv)) (@nil (str * tagv)) (@nil (Z * list (str * tagv))) [(str_at r (link_prefix l ++ txt "trace_id"), str_at r (link_prefix l ++ txt "span_id"))]. }
  intros E. injection E as <-. apply grows_refl.
Qed.
Lemma loop_grows cols r : forall l a b, columns_loop cols r a l = Some b -> grows a b.
Proof.
  induction l as [|c l IH]; intros a b E; cbn [columns_loop] in E; [injection E as <-; apply grows_refl|].
  destruct (column_step cols r a c) as [a'|] eqn:Q; [|discriminate]. eapply grows_trans; [eapply step_grows; eauto|eauto].
Qed.
Lemma loop_at cols r c : forall l a b, columns_loop cols r a l = Some b -> In c l -> exists a1 a2, column_step cols r a1 c = Some a2 /\ grows a2 b.
Proof.
  induction l as [|d l IH]; intros a b E I; [destruct I|]. cbn [columns_loop] in E. destruct (column_step cols r a d) as [a'|] eqn:Q; [|discriminate].
  destruct I as [->|I]; [exists a, a'; split; auto; eapply loop_grows; eauto|eapply IH; eauto].
Qed.
Lemma loop_attr cols r c a b l : columns_loop cols r a l = Some b -> In c l -> starts (SPAN ++ txt "attributes/") c = true -> In (c, TStr (str_at r c)) (ac_ptags b).
Proof.
  intros E I S. destruct (loop_at _ _ _ _ _ _ E I) as ([e k tags ptags logs refs] & a2 & Q & G). unfold column_step in Q.
  rewrite (starts_apart _ (txt "ResourceSpans/Resource/attributes") _ S eq_refl eq_refl) in Q. cbn [andb] in Q.
  rewrite (eqb_false c RES_DROPPED) in Q by (intros ->; discriminate S). rewrite S in Q. injection Q as <-.
  destruct G as (_ & (x & P & _) & _). cbn [ac_ptags] in P. rewrite P. apply in_app_iff. left. apply in_app_iff. right. left. reflexivity.
Qed.
Lemma loop_state cols r a b l : columns_loop cols r a l = Some b -> In TRACE_STATE l -> In (txt "trace_state", TStr (str_at r TRACE_STATE)) (ac_tags b).
Proof.
  intros E I. destruct (loop_at _ _ _ _ _ _ E I) as ([e k tags ptags logs refs] & a2 & Q & G). unfold column_step in Q.
  change (starts (txt "ResourceSpans/Resource/attributes") TRACE_STATE) with false in Q. change (str_eqb TRACE_STATE RES_DROPPED) with false in Q.
  change (starts (SPAN ++ txt "attributes/") TRACE_STATE) with false in Q. change (str_eqb TRACE_STATE DROPPED || str_eqb TRACE_STATE DROPPED_EVENTS || str_eqb TRACE_STATE DROPPED_LINKS) with false in Q.
  change (str_eqb TRACE_STATE TRACE_STATE) with true in Q. cbn [andb] in Q. injection Q as <-.
  destruct G as ((x & P) & _). cbn [ac_tags] in P. rewrite P. apply in_app_iff. left. apply in_app_iff. right. left. reflexivity.
Qed.
Definition res_attr (a : attr) : fields :=
  if str_eqb (a_key a) (txt "service.name")
  then match a_value a with Some (AStr s) => [(txt "ResourceSpans/Resource/attributes/service.name", JStr s)] | _ => [] end
  else attr_puts (txt "ResourceSpans/Resource/") [a].
Lemma res_attr_key a : Forall (fun e => fst e = txt "ResourceSpans/Resource/attributes/" ++ a_key a) (res_attr a).
Proof.
  unfold res_attr. destruct (str_eqb_spec (a_key a) (txt "service.name")) as [E|E].
  - destruct (a_value a) as [[]|]; constructor; [|constructor]. cbn [fst]. rewrite E. reflexivity.
  - unfold attr_puts. cbn [flat_map]. rewrite app_nil_r. destruct (a_value a); repeat constructor. 
Qed.
Lemma res_attr_nodup : forall l, NoDup (map a_key l) -> NoDup (map fst (flat_map res_attr l)).
Proof.
  induction l as [|a l IH]; intros ND; [constructor|]. inversion ND as [|? ? NI ND']; subst. cbn [flat_map]. rewrite map_app.
  assert (res_attr a = [] \/ exists e, res_attr a = [e]) as [H|(e & H)].
  { unfold res_attr. destruct (str_eqb _ _); [destruct (a_value a) as [[]|]; eauto|]. unfold attr_puts. cbn [flat_map]. rewrite app_nil_r. destruct (a_value a); eauto. }
  - rewrite H. apply IH; auto.
  - pose proof (res_attr_key a) as K. rewrite H in *. inversion K as [|? ? K1 _]; subst. cbn [map app]. constructor; [|apply IH; auto]. intros I.
    apply in_map_iff in I. destruct I as (f & E & I). apply in_flat_map in I. destruct I as (b & IB & I). pose proof (res_attr_key b) as KB. rewrite Forall_forall in KB. specialize (KB _ I).
    assert (a_key b = a_key a) as E2 by (eapply app_inj; rewrite <- KB, <- K1; exact E). apply NI. rewrite <- E2. apply in_map. exact IB.
Qed.
Lemma service_value r s : service r s -> last_of SERVICE (res_puts r) = Some (JStr s).
Proof.
  intros (attrs & d & E & ND & I). unfold res_puts. rewrite E. change (flat_map _ attrs) with (flat_map res_attr attrs). rewrite !last_of_app.
  change (last_of SERVICE [(txt "ResourceSpans/schema_url", JStr (rs_url r))]) with (@None json).
  change (last_of SERVICE [(txt "ResourceSpans/Resource/dropped_attributes_count", int d)]) with (@None json). cbv iota.
  apply last_of_nodup; [apply res_attr_nodup; auto|]. apply in_flat_map. exists (Attr (txt "service.name") (Some (AStr s))). split; [exact I|]. left. reflexivity.
Qed.

Lemma time_tag_cases k : str_eqb TIME_COLUMN k = false -> k <> TIME_COLUMN.
Proof. intros E ->. rewrite eqb_refl in E. discriminate. Qed.
Lemma not_tag k : mem k TAGS = false -> ~ In k TAGS.
Proof. intros E I. apply mem_true in I. congruence. Qed.
Lemma is_tag_in k : mem k TAGS = true -> In k TAGS.
Proof. intros E. destruct (mem_spec k TAGS); congruence. Qed.
Lemma wrap_small z : 0 <= z < 2 ^ 64 -> wrap_u64 z = z.
Proof. intros B. unfold wrap_u64. rewrite Z.mod_small; lia. Qed.

Section Shown.
Variables (table : str) (r : resource_spans) (sp : span) (fs0 : fields) (ln : line) (cols : list str).
Let fs := puts (span_puts sp) fs0.
Hypothesis IV : inv r fs0.
Hypothesis E : export_line table fs = Some ln.
Hypothesis C : incl (line_columns ln) cols.
Let w := row_of_line ln.
Lemma fs_ordered : ordered fs. Proof. apply inv_span with (sp := sp) in IV. apply IV. Qed.
Lemma fs_scalars : scalars fs. Proof. apply inv_span with (sp := sp) in IV. apply IV. Qed.
Lemma own k v : last_of k (span_puts sp) = Some v -> find k fs = Some v.
Proof. intros L. unfold fs. rewrite find_puts, L. reflexivity. Qed.
Lemma in_cols k v : find k fs = Some v -> str_eqb TIME_COLUMN k = false -> In k cols.
Proof. intros F T. apply C. eapply column_in; eauto using fs_ordered, fs_scalars. apply time_tag_cases; auto. Qed.
Lemma tag_at k s : find k fs = Some (JStr s) -> mem k TAGS = true -> plain_text s -> str_at w k = s.
Proof. intros F T P. unfold str_at, w. rewrite (cell_tag table fs ln fs_ordered E k _ F (is_tag_in _ T)). apply tag_plain. exact P. Qed.
Lemma field_at k s : find k fs = Some (JStr s) -> mem k TAGS = false -> str_eqb TIME_COLUMN k = false -> str_at w k = s.
Proof. intros F T Q. unfold str_at, w. rewrite (cell_field table fs ln fs_ordered E k _ (VStr s) F (not_tag _ T) (time_tag_cases _ Q) eq_refl). reflexivity. Qed.
Lemma number_at k z : find k fs = Some (int z) -> mem k TAGS = false -> str_eqb TIME_COLUMN k = false -> num_at w k = FInt (f64_of_int z).
Proof. intros F T Q. unfold num_at, w. rewrite (cell_field table fs ln fs_ordered E k _ (VF64 (FInt (f64_of_int z))) F (not_tag _ T) (time_tag_cases _ Q) eq_refl). reflexivity. Qed.

Theorem shown_ok j : good_span sp -> to_jspan cols w = Some j -> span_shown r sp j.
Proof.
  intros G T. destruct (span_values sp) as (V1 & V2 & V3 & V4 & V5 & V6 & V7 & V8 & V9 & V10). cbv beta in *.
  pose proof (own _ _ V1) as F1. pose proof (own _ _ V2) as F2. pose proof (own _ _ V3) as F3. pose proof (own _ _ V4) as F4. pose proof (own _ _ V5) as F5.
  pose proof (own _ _ V6) as F6. pose proof (own _ _ V7) as F7. pose proof (own _ _ V8) as F8. pose proof (own _ _ V9) as F9.
  unfold to_jspan in T.
  rewrite (mem_true KIND cols), (mem_true TRACE_ID cols), (mem_true SPAN_ID cols), (mem_true PARENT cols), (mem_true FLAGS cols), (mem_true NAME cols), (mem_true DURATION cols) in T
    by (eapply in_cols; [eassumption|vm_compute; reflexivity]).
  cbv zeta in T. destruct (columns_loop _ _ _ _) as [a|] eqn:L; [|discriminate]. injection T as <-.
  destruct G as [GT GI GP GF GK GS GE GN GST GA GIN GSTA].
  pose proof (loop_grows _ _ _ _ _ L) as ((xt & XT) & (xp & XP & XB) & _). cbn [ac_tags ac_ptags] in XT, XP.
  constructor; cbn [j_trace j_id j_parent j_flags j_name j_start j_duration j_tags j_process p_service p_tags].
  - rewrite (tag_at TRACE_ID _ F1 eq_refl (hex_plain _ GT)). apply hex_ok. exact GT.
  - rewrite (tag_at SPAN_ID _ F2 eq_refl (hex_plain _ GI)). apply hex_ok. exact GI.
  - eexists. split; [reflexivity|]. rewrite (tag_at PARENT _ F4 eq_refl (hex_plain _ GP)). apply hex_ok. exact GP.
  - rewrite (number_at FLAGS _ F5 eq_refl eq_refl). rewrite f64_exact by lia. cbn [clamp]. f_equal. lia.
  - apply (tag_at NAME _ F6 eq_refl GN).
  - unfold w. cbn [r_time row_of_line]. rewrite (line_time table fs ln fs_ordered E _ F8). rewrite Z.quot_div_nonneg by lia. apply wrap_small.
    split; [apply Z.div_pos; lia|]. apply Z.div_lt_upper_bound; lia.
  - rewrite (number_at DURATION _ F9 eq_refl eq_refl). rewrite wrap_small by lia. rewrite f64_exact by lia. cbn [clamp]. f_equal. unfold U64_MAX. lia.
  - exists (jaeger_kind (kind_name (sp_kind sp))). split.
    + assert (sp_kind sp = 0 \/ sp_kind sp = 1 \/ sp_kind sp = 2 \/ sp_kind sp = 3 \/ sp_kind sp = 4 \/ sp_kind sp = 5) as Q by lia.
      destruct Q as [->|[->|[->|[->|[->| ->]]]]]; constructor.
    + rewrite XT. rewrite (field_at KIND _ F7 eq_refl eq_refl). left. reflexivity.
  - pose proof (loop_state _ _ _ _ _ L (in_cols _ _ F3 eq_refl)) as Q. rewrite (tag_at TRACE_STATE _ F3 eq_refl GST) in Q. exact Q.
  - intros s SV P. assert (find SERVICE fs = Some (JStr s)) as F.
    { unfold fs. rewrite find_puts, (last_of_prefix _ _ _ (span_start sp)) by reflexivity. destruct IV as (_ & _ & -> & _). apply service_value. exact SV. }
    rewrite (mem_true SERVICE cols) by (eapply in_cols; [exact F|reflexivity]). apply (tag_at SERVICE _ F eq_refl P).
  - intros code msg ST. rewrite ST in V10. destruct V10 as [V10 V11]. pose proof (own _ _ V10) as F10. pose proof (own _ _ V11) as F11.
    assert (mem STATUS_CODE cols = true) as M1 by (apply mem_true; eapply in_cols; [exact F10|reflexivity]).
    assert (mem STATUS_MESSAGE cols = true) as M2 by (apply mem_true; eapply in_cols; [exact F11|reflexivity]).
    rewrite M1, M2, (tag_at STATUS_CODE _ F10 eq_refl (status_plain code)), (field_at STATUS_MESSAGE _ F11 eq_refl eq_refl) in XP. rewrite XP.
    specialize (GSTA _ _ ST). split; [|split].
    + exists (status_name code). split; [|left; reflexivity]. assert (code = 0 \/ code = 1 \/ code = 2) as Q by lia. destruct Q as [->|[->| ->]]; constructor.
    + apply in_app_iff. left. right. rewrite !in_app_iff. right. left. left. reflexivity.
    + assert (code = 0 \/ code = 1 \/ code = 2) as Q by lia. split.
      * intros I. apply in_app_iff in I. destruct I as [I|I]; [|exfalso; eapply XB; eauto].
        destruct Q as [->|[->| ->]]; auto; exfalso; revert I; destruct (mem LIB_NAME cols), (mem LIB_VERSION cols); intros I;
        vm_compute in I; intuition discriminate.
      * intros ->. apply in_app_iff. left. right. apply in_app_iff. left. left. reflexivity.
  - intros k v I NN. assert (find (SPAN ++ txt "attributes/" ++ k) fs = Some (JStr (attr_text v))) as F by (apply own, span_attr; auto).
    exists (attr_text v). split; [apply attr_shown; auto; intros z ->; eapply GIN; eauto|].
    assert (starts (SPAN ++ txt "attributes/") (SPAN ++ txt "attributes/" ++ k) = true) as S by (rewrite app_assoc; apply starts_app).
    assert (str_eqb TIME_COLUMN (SPAN ++ txt "attributes/" ++ k) = false) as NT by (apply eqb_false; intros Q; rewrite <- Q in S; discriminate S).
    assert (mem (SPAN ++ txt "attributes/" ++ k) TAGS = false) as NM.
    { destruct (mem_spec (SPAN ++ txt "attributes/" ++ k) TAGS) as [Q|]; auto. exfalso. unfold TAGS in Q.
      repeat (destruct Q as [Q|Q]; [rewrite <- Q in S; discriminate S|]). destruct Q. }
    pose proof (loop_attr _ _ _ _ _ _ L (in_cols _ _ F NT) S) as Q. rewrite (field_at _ _ F NM NT) in Q. exact Q.
Qed.
End Shown.
