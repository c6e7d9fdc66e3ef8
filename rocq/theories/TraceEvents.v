From Coq Require Import Ascii String.
From Coq Require Import List Sorted.
From Verif Require Import Prelude LogModel LogSpec LogProofs TraceModel TraceSpec TraceProofs.
Open Scope list_scope.
Open Scope Z_scope.

(** * Every row can be read *)
Lemma row_closed req fs : In fs (otlp req) -> ordered fs /\ scalars fs /\ closed fs.
Proof.
  intros I. pose proof (rows_ok req) as F. apply In_nth_error in I. destruct I as (n & I).
  assert (forall l1 l2, Forall2 row_ok l1 l2 -> forall n fs, nth_error l2 n = Some fs -> exists x, row_ok x fs) as W.
  { induction 1 as [|x y l1 l2 R _ IH]; intros m g Q; [destruct m; discriminate|]. destruct m as [|m]; [injection Q as <-; eauto|eauto]. }
  destruct (W _ _ F _ _ I) as ([[r s] sp] & fs0 & IV & ->). apply (inv_span r sp) in IV. destruct IV as (A1 & A2 & _ & A4). auto.
Qed.
Lemma exported_closed cols e c : exported_columns cols -> In c cols ->
  (starts (event_prefix e) c = true -> In (event_prefix e ++ txt "time_unix_nano") cols) /\
  (starts (link_prefix e) c = true -> In (link_prefix e ++ txt "trace_id") cols /\ In (link_prefix e ++ txt "span_id") cols).
Proof.
  intros X I. destruct (X c I) as [->|(table & req & fs & ln & IF & E & IC & INC)].
  - split; intros S; [pose proof (starts_trans _ _ _ (event_event e) S) as T|pose proof (starts_trans _ _ _ (link_link e) S) as T]; discriminate T.
  - destruct (row_closed req fs IF) as (O & SC & CL). destruct (column_find table fs ln O E c IC) as (_ & v & F). apply find_in in F.
    pose proof (in_map fst _ _ F) as K. destruct (CL e c K) as [C1 C2].
    assert (forall k, In k (map fst fs) -> k <> TIME_COLUMN -> In k cols) as W.
    { intros k IK NT. apply INC. apply find_key in IK. destruct (find k fs) as [u|] eqn:Q; [|congruence]. exact (column_in table fs ln O E k u SC Q NT). }
    split; intros S.
    + apply W; auto. intros Q. pose proof (starts_trans _ _ _ (event_event e) (starts_app (event_prefix e) (txt "time_unix_nano"))) as T. rewrite Q in T. discriminate T.
    + destruct (C2 S) as [D1 D2]. split; apply W; auto; intros Q.
      * pose proof (starts_trans _ _ _ (link_link e) (starts_app (link_prefix e) (txt "trace_id"))) as T. rewrite Q in T. discriminate T.
      * pose proof (starts_trans _ _ _ (link_link e) (starts_app (link_prefix e) (txt "span_id"))) as T. rewrite Q in T. discriminate T.
Qed.
Lemma loop_total cols r : exported_columns cols -> forall l a, incl l cols -> exists b, columns_loop cols r a l = Some b.
Proof.
  intros X. induction l as [|c l IH]; intros a IN; cbn [columns_loop]; [eauto|].
  assert (exists b, column_step cols r a c = Some b) as (b & ->); [|apply IH; intros d I; apply IN; right; auto].
  destruct a as [e k tags ptags logs refs]. unfold column_step.
  destruct (exported_closed cols e c X) as [C1 _]; [apply IN; left; auto|]. destruct (exported_closed cols k c X) as [_ C2]; [apply IN; left; auto|].
  destruct (_ && _); [eauto|]. destruct (str_eqb c RES_DROPPED); [eauto|]. destruct (starts (SPAN ++ _) c); [eauto|]. destruct (_ || _); [eauto|].
  destruct (str_eqb c TRACE_STATE); [eauto|]. destruct (starts (event_prefix e) c) eqn:S1; [rewrite mem_true by auto; eauto|].
  destruct (starts (link_prefix k) c) eqn:S2; [|eauto]. destruct (C2 eq_refl). rewrite !mem_true by auto. cbn [andb]. eauto.
Qed.
Theorem readable cols r : exported_columns cols -> exists j, to_jspan cols r = Some j.
Proof.
  intros X. unfold to_jspan. cbv zeta. match goal with |- context [columns_loop cols r ?a cols] => destruct (loop_total cols r X cols a (fun c I => I)) as (b & E) end.
  rewrite E. eauto.
Qed.

(** * Counting through the columns *)
Lemma dec_inj i j : 0 <= i < 2 ^ 64 -> 0 <= j < 2 ^ 64 -> dec i = dec j -> i = j.
Proof. intros A1 B1 E. pose proof (dec_decimal i A1) as (_ & D1 & _). pose proof (dec_decimal j B1) as (_ & D2 & _). rewrite E in D1. lia. Qed.
Lemma decimal_dec d n : 0 <= n < 2 ^ 64 -> decimal d n -> d = dec n.
Proof. intros B D. eapply decimal_unique; [exact D|apply dec_decimal; auto]. Qed.
Section Count.
Variable P : Z -> str -> bool.
Fixpoint count (e : Z) (l : list str) : Z := match l with [] => e | c :: r => count (if P e c then e + 1 else e) r end.
Variable n : nat.
Variable cols : list str.
Hypothesis ORD : forall l1 a l2 b l3 x y, cols = l1 ++ a :: l2 ++ b :: l3 -> 0 <= x <= Z.of_nat n -> 0 <= y <= Z.of_nat n -> P x a = true -> P y b = true -> x <= y.
Hypothesis UP : forall c x, In c cols -> 0 <= x <= Z.of_nat n -> P x c = true -> x < Z.of_nat n.
Hypothesis ALL : forall x, 0 <= x < Z.of_nat n -> exists c, In c cols /\ P x c = true.
Hypothesis UNIQ : forall c x y, 0 <= x <= Z.of_nat n -> 0 <= y <= Z.of_nat n -> P x c = true -> P y c = true -> x = y.
Lemma count_run : forall l2 l1 e, cols = l1 ++ l2 -> 0 <= e <= Z.of_nat n -> (forall c x, In c l1 -> 0 <= x <= Z.of_nat n -> P x c = true -> x < e) ->
  e <= count e l2 <= Z.of_nat n /\ (forall c x, In c cols -> 0 <= x <= Z.of_nat n -> P x c = true -> x < count e l2).
Proof.
  induction l2 as [|c l2 IH]; intros l1 e EQ B INV.
  - cbn [count]. rewrite app_nil_r in EQ. subst l1. split; [lia|exact INV].
  - cbn [count].
    assert (forall x, 0 <= x <= Z.of_nat n -> P x c = true -> x <= e) as LE.
    { intros x BX PX. destruct (Z_le_gt_dec x e) as [|G]; auto. exfalso. assert (x < Z.of_nat n) as XN by (apply (UP c); auto; rewrite EQ; apply in_app_iff; right; left; auto).
      destruct (ALL e ltac:(lia)) as (d & ID & PD). rewrite EQ in ID. apply in_app_iff in ID. destruct ID as [ID|[->|ID]].
      - pose proof (INV d e ID ltac:(lia) PD). lia.
      - pose proof (UNIQ d x e ltac:(lia) ltac:(lia) PX PD). lia.
      - apply in_split in ID. destruct ID as (m1 & m2 & ->). pose proof (ORD l1 c m1 d m2 x e EQ ltac:(lia) ltac:(lia) PX PD). lia. }
    assert (cols = (l1 ++ [c]) ++ l2) as EQ2 by (rewrite <- app_assoc; exact EQ).
    destruct (P e c) eqn:PE.
    + assert (e < Z.of_nat n) as EN by (apply (UP c); auto; rewrite EQ; apply in_app_iff; right; left; auto).
      destruct (IH (l1 ++ [c]) (e + 1) EQ2 ltac:(lia)) as [Q1 Q2].
      * intros d x I BX PX. apply in_app_iff in I. destruct I as [I|[<-|[]]]; [pose proof (INV d x I BX PX); lia|pose proof (LE x BX PX); lia].
      * split; [lia|exact Q2].
    + apply (IH (l1 ++ [c]) e EQ2 B). intros d x I BX PX. apply in_app_iff in I. destruct I as [I|[<-|[]]]; [apply (INV d); auto|].
      pose proof (LE x BX PX). assert (x <> e) by congruence. lia.
Qed.
Theorem count_all : count 0 cols = Z.of_nat n.
Proof.
  destruct (count_run cols [] 0 eq_refl ltac:(lia)) as [B Q]; [intros ? ? []|]. destruct n as [|m]; [lia|].
  destruct (ALL (Z.of_nat m) ltac:(lia)) as (c & I & PC). pose proof (Q c (Z.of_nat m) I ltac:(lia) PC). lia.
Qed.
End Count.

Definition is_event (e : Z) (c : str) : bool := starts (event_prefix e) c.
Definition is_link (e : Z) (c : str) : bool := starts (link_prefix e) c.
(** the numbers of the events and links that are read *)
Fixpoint run (i : Z) (k : nat) : list Z := match k with O => [] | S k => i :: run (i + 1) k end.
Lemma run_app i a b : run i (a + b) = run i a ++ run (i + Z.of_nat a) b.
Proof. revert i. induction a as [|a IH]; intros i; cbn [Nat.add run app]; [replace (i + Z.of_nat 0) with i by lia; reflexivity|]. rewrite IH. replace (i + 1 + Z.of_nat a) with (i + Z.of_nat (S a)) by lia. reflexivity. Qed.
Definition counted (cols : list str) (r : row) (a b : acc) : Prop :=
  exists m k, ac_event b = ac_event a + Z.of_nat m /\ ac_logs b = ac_logs a ++ map (event_log cols r) (run (ac_event a) m) /\
              ac_link b = ac_link a + Z.of_nat k /\
              ac_refs b = ac_refs a ++ map (fun i => (str_at r (link_prefix i ++ txt "trace_id"), str_at r (link_prefix i ++ txt "span_id"))) (run (ac_link a) k).
Lemma counted_trans cols r a b c : counted cols r a b -> counted cols r b c -> counted cols r a c.
Proof.
  intros (m1 & k1 & A1 & A2 & A3 & A4) (m2 & k2 & B1 & B2 & B3 & B4). exists (m1 + m2)%nat, (k1 + k2)%nat.
  split; [lia|]. split; [rewrite B2, A2, run_app, map_app, A1, app_assoc; reflexivity|]. split; [lia|].
  rewrite B4, A4, run_app, map_app, A3, app_assoc. reflexivity.
Qed.
Lemma counted_same cols r e l t1 t2 p1 p2 logs refs : counted cols r (Acc e l t1 p1 logs refs) (Acc e l t2 p2 logs refs).
Proof. exists 0%nat, 0%nat. cbn [ac_event ac_logs ac_link ac_refs run map]. rewrite !app_nil_r. repeat split; lia. Qed.
Lemma special_event e c : is_event e c = true -> (starts (txt "ResourceSpans/Resource/attributes") c && negb (str_eqb c SERVICE) = false) /\ str_eqb c RES_DROPPED = false /\
  starts (SPAN ++ txt "attributes/") c = false /\ str_eqb c DROPPED || str_eqb c DROPPED_EVENTS || str_eqb c DROPPED_LINKS = false /\ str_eqb c TRACE_STATE = false.
Proof.
  intros S. pose proof (starts_trans _ _ _ (event_event e) S) as T.
  assert (forall k, starts EVENT k = false -> str_eqb c k = false) as NE by (intros k H; apply eqb_false; intros ->; congruence).
  rewrite !NE by reflexivity. rewrite (starts_apart _ (txt "ResourceSpans/Resource/attributes") _ T eq_refl eq_refl), (starts_apart _ (SPAN ++ txt "attributes/") _ T eq_refl eq_refl). auto 6.
Qed.
Lemma special_link e c : is_link e c = true -> (starts (txt "ResourceSpans/Resource/attributes") c && negb (str_eqb c SERVICE) = false) /\ str_eqb c RES_DROPPED = false /\
  starts (SPAN ++ txt "attributes/") c = false /\ str_eqb c DROPPED || str_eqb c DROPPED_EVENTS || str_eqb c DROPPED_LINKS = false /\ str_eqb c TRACE_STATE = false.
Proof.
  intros S. pose proof (starts_trans _ _ _ (link_link e) S) as T.
  assert (forall k, starts LINK k = false -> str_eqb c k = false) as NE by (intros k H; apply eqb_false; intros ->; congruence).
  rewrite !NE by reflexivity. rewrite (starts_apart _ (txt "ResourceSpans/Resource/attributes") _ T eq_refl eq_refl), (starts_apart _ (SPAN ++ txt "attributes/") _ T eq_refl eq_refl). auto 6.
Qed.
Lemma not_both e l c : is_event e c = true -> is_link l c = false.
Proof.
  intros S. unfold is_link. destruct (starts (link_prefix l) c) eqn:T; auto. exfalso.
  pose proof (starts_trans _ _ _ (event_event e) S) as S1. pose proof (starts_trans _ _ _ (link_link l) T) as T1. destruct (starts_both _ _ _ S1 T1) as [H|H]; discriminate H.
Qed.
Lemma step_count cols r a c b : column_step cols r a c = Some b -> counted cols r a b /\
  ac_event b = (if is_event (ac_event a) c then ac_event a + 1 else ac_event a) /\ ac_link b = (if is_link (ac_link a) c then ac_link a + 1 else ac_link a).
Proof.
  destruct a as [e l tags ptags logs refs]. cbn [ac_event ac_link]. intros E. destruct (is_event e c) eqn:IE.
  - rewrite (not_both _ l _ IE). destruct (special_event _ _ IE) as (S1 & S2 & S3 & S4 & S5). unfold column_step in E. rewrite S1, S2, S3, S4, S5 in E.
    unfold is_event in IE. rewrite IE in E. destruct (mem _ cols); [|discriminate]. injection E as <-. split; [|split; reflexivity].
    exists 1%nat, 0%nat. cbn [ac_event ac_logs ac_link ac_refs run map]. rewrite app_nil_r. repeat split; lia.
  - destruct (is_link l c) eqn:IL.
    + destruct (special_link _ _ IL) as (S1 & S2 & S3 & S4 & S5). unfold column_step in E. rewrite S1, S2, S3, S4, S5 in E.
      unfold is_event in IE. unfold is_link in IL. rewrite IE, IL in E. destruct (_ && _); [|discriminate]. injection E as <-. split; [|split; reflexivity].
      exists 0%nat, 1%nat. cbn [ac_event ac_logs ac_link ac_refs run map]. rewrite app_nil_r. repeat split; lia.
    + unfold column_step in E. unfold is_event in IE. unfold is_link in IL. rewrite IE, IL in E.
      destruct (_ && _); [injection E as <-; split; [apply counted_same|auto]|]. destruct (str_eqb c RES_DROPPED); [injection E as <-; split; [apply counted_same|auto]|].
      destruct (starts (SPAN ++ _) c); [injection E as <-; split; [apply counted_same|auto]|]. destruct (_ || _); [injection E as <-; split; [apply counted_same|auto]|].
      destruct (str_eqb c TRACE_STATE); [injection E as <-; split; [apply counted_same|auto]|]. injection E as <-; split; [apply counted_same|auto].
Qed.
Lemma loop_count cols r : forall l a b, columns_loop cols r a l = Some b -> counted cols r a b /\
  ac_event b = count is_event (ac_event a) l /\ ac_link b = count is_link (ac_link a) l.
Proof.
  induction l as [|c l IH]; intros a b E; cbn [columns_loop] in E.
  - injection E as <-. destruct a. split; [apply counted_same|auto].
  - destruct (column_step cols r a c) as [a'|] eqn:Q; [|discriminate]. apply step_count in Q. destruct Q as (Q1 & Q2 & Q3). apply IH in E. destruct E as (E1 & E2 & E3).
    split; [exact (counted_trans _ _ _ _ _ Q1 E1)|]. cbn [count]. split; [rewrite E2, Q2; reflexivity|rewrite E3, Q3; reflexivity].
Qed.

(** * The columns of the events and links of a span *)
Lemma event_text : txt "ResourceSpans/ScopeSpans/Span/Event_" = EVENT.
Proof. reflexivity. Qed.
Lemma link_text : txt "ResourceSpans/ScopeSpans/Span/Link_" = LINK.
Proof. reflexivity. Qed.
Lemma event_prefix_eq e : event_prefix e = EVENT ++ dec e ++ [47].
Proof. unfold event_prefix, EVENT. rewrite <- app_assoc. reflexivity. Qed.
Lemma link_prefix_eq e : link_prefix e = LINK ++ dec e ++ [47].
Proof. unfold link_prefix, LINK. rewrite <- app_assoc. reflexivity. Qed.
Lemma event_col_iff e c : 0 <= e < 2 ^ 64 -> (event_column e c <-> is_event e c = true).
Proof.
  intros B. unfold is_event, event_column. rewrite event_prefix_eq, event_text. split.
  - intros (d & rest & D & ->). apply (decimal_dec d e B) in D. subst d. replace (EVENT ++ dec e ++ [47] ++ rest) with ((EVENT ++ dec e ++ [47]) ++ rest) by (rewrite <- !app_assoc; reflexivity).
    apply starts_app.
  - intros S. apply starts_ex in S. destruct S as (rest & ->). exists (dec e), rest. split; [apply dec_decimal; auto|]. rewrite <- !app_assoc. reflexivity.
Qed.
Lemma link_col_iff e c : 0 <= e < 2 ^ 64 -> (link_column e c <-> is_link e c = true).
Proof.
  intros B. unfold is_link, link_column. rewrite link_prefix_eq, link_text. split.
  - intros (d & rest & D & ->). apply (decimal_dec d e B) in D. subst d. replace (LINK ++ dec e ++ [47] ++ rest) with ((LINK ++ dec e ++ [47]) ++ rest) by (rewrite <- !app_assoc; reflexivity).
    apply starts_app.
  - intros S. apply starts_ex in S. destruct S as (rest & ->). exists (dec e), rest. split; [apply dec_decimal; auto|]. rewrite <- !app_assoc. reflexivity.
Qed.

(** the values of the [m]-th event *)
Opaque event_puts link_puts dec event_prefix link_prefix.
Lemma last_event k : forall l i m e, nth_error l m = Some e -> 0 <= i -> i + Z.of_nat (length l) < 2 ^ 64 -> is_event (i + Z.of_nat m) k = true ->
  last_of k (events_puts i l) = last_of k (event_puts (i + Z.of_nat m) e).
Proof.
  induction l as [|a l IH]; intros i m e Q B1 B2 S; [destruct m; discriminate|]. cbn [events_puts length] in *. rewrite last_of_app. destruct m as [|m].
  - injection Q as <-. replace (i + Z.of_nat 0) with i in * by lia. rewrite last_of_none; [reflexivity|]. intros I. clear IH.
    assert (forall l' j, i < j -> j + Z.of_nat (length l') < 2 ^ 64 -> ~ In k (map fst (events_puts j l'))) as W.
    { induction l' as [|b l' IH']; intros j LT BB J; [destruct J|]. cbn [events_puts length] in *. rewrite map_app in J. apply in_app_iff in J. destruct J as [J|J]; [|apply (IH' (j + 1)); [lia|lia|exact J]].
      pose proof (all_in _ _ _ (event_start j b) J) as T. apply (event_same _ _ _ S) in T. apply dec_inj in T; lia. }
    apply (W l (i + 1)); [lia|lia|exact I].
  - cbn [nth_error] in Q. assert (i + Z.of_nat (Datatypes.S m) = i + 1 + Z.of_nat m) as EQ by (clear; lia). revert S. rewrite EQ. clear EQ. assert (0 <= i + 1) as G1 by (clear - B1; lia). assert (i + 1 + Z.of_nat (length l) < 2 ^ 64) as G2 by (clear - B2; lia). intros S. rewrite (IH (i + 1) m e Q G1 G2 S).
    assert (last_of k (event_puts i a) = None) as ->; [|destruct (last_of k (event_puts (i + 1 + Z.of_nat m) e)); reflexivity].
    apply last_of_none. intros J. pose proof (all_in _ _ _ (event_start i a) J) as T. apply (event_same _ _ _ S) in T.
    assert (nth_error l m <> None) as NN by congruence. apply nth_error_Some in NN. apply dec_inj in T; clear - T B1 B2 NN G1 G2; lia.
Qed.
Lemma last_link k : forall l i m e, nth_error l m = Some e -> 0 <= i -> i + Z.of_nat (length l) < 2 ^ 64 -> is_link (i + Z.of_nat m) k = true ->
  last_of k (links_puts i l) = last_of k (link_puts (i + Z.of_nat m) e).
Proof.
  induction l as [|a l IH]; intros i m e Q B1 B2 S; [destruct m; discriminate|]. cbn [links_puts length] in *. rewrite last_of_app. destruct m as [|m].
  - injection Q as <-. replace (i + Z.of_nat 0) with i in * by lia. rewrite last_of_none; [reflexivity|]. intros I. clear IH.
    assert (forall l' j, i < j -> j + Z.of_nat (length l') < 2 ^ 64 -> ~ In k (map fst (links_puts j l'))) as W.
    { induction l' as [|b l' IH']; intros j LT BB J; [destruct J|]. cbn [links_puts length] in *. rewrite map_app in J. apply in_app_iff in J. destruct J as [J|J]; [|apply (IH' (j + 1)); [lia|lia|exact J]].
      pose proof (all_in _ _ _ (link_start j b) J) as T. apply (link_same _ _ _ S) in T. apply dec_inj in T; lia. }
    apply (W l (i + 1)); [lia|lia|exact I].
  - cbn [nth_error] in Q. assert (i + Z.of_nat (Datatypes.S m) = i + 1 + Z.of_nat m) as EQ by (clear; lia). revert S. rewrite EQ. clear EQ. assert (0 <= i + 1) as G1 by (clear - B1; lia). assert (i + 1 + Z.of_nat (length l) < 2 ^ 64) as G2 by (clear - B2; lia). intros S. rewrite (IH (i + 1) m e Q G1 G2 S).
    assert (last_of k (link_puts i a) = None) as ->; [|destruct (last_of k (link_puts (i + 1 + Z.of_nat m) e)); reflexivity].
    apply last_of_none. intros J. pose proof (all_in _ _ _ (link_start i a) J) as T. apply (link_same _ _ _ S) in T.
    assert (nth_error l m <> None) as NN by congruence. apply nth_error_Some in NN. apply dec_inj in T; clear - T B1 B2 NN G1 G2; lia.
Qed.
Transparent event_puts link_puts.
Lemma eqb_common p a b : str_eqb (p ++ a) (p ++ b) = str_eqb a b.
Proof. destruct (str_eqb_spec a b) as [->|H]; [apply eqb_refl|]. apply eqb_false. intros E. apply app_inj in E. auto. Qed.
Lemma event_values i e :
  last_of (event_prefix i ++ txt "time_unix_nano") (event_puts i e) = Some (int (ev_time e)) /\
  last_of (event_prefix i ++ txt "name") (event_puts i e) = Some (JStr (ev_name e)) /\
  last_of (event_prefix i ++ txt "dropped_attributes_count") (event_puts i e) = Some (int (ev_dropped e)).
Proof.
  unfold event_puts. rewrite !last_of_app. rewrite !(last_of_prefix _ _ _ (attrs_start _ _)) by (rewrite starts_common; reflexivity). cbn [last_of fst snd].
  rewrite !eqb_common. auto.
Qed.
Lemma link_values i e :
  last_of (link_prefix i ++ txt "trace_id") (link_puts i e) = Some (JStr (hex (lk_trace e))) /\
  last_of (link_prefix i ++ txt "span_id") (link_puts i e) = Some (JStr (hex (lk_span e))).
Proof.
  unfold link_puts. rewrite !last_of_app. rewrite !(last_of_prefix _ _ _ (attrs_start _ _)) by (rewrite starts_common; reflexivity). cbn [last_of fst snd].
  rewrite !eqb_common. auto.
Qed.
Lemma span_event sp k : starts EVENT k = true -> last_of k (span_puts sp) = last_of k (events_puts 0 (sp_events sp)).
Proof.
  intros S. assert (forall x, starts EVENT x = false -> str_eqb k x = false) as NE by (intros x H; apply eqb_false; intros ->; congruence).
  unfold span_puts. rewrite !last_of_app. rewrite (last_of_prefix _ _ _ (links_start _ _)) by (exact (starts_apart _ LINK _ S eq_refl eq_refl)).
  rewrite (last_of_prefix _ _ _ (attrs_start _ _)) by (exact (starts_apart _ (SPAN ++ txt "attributes/") _ S eq_refl eq_refl)).
  destruct (sp_status sp) as [[a b]|]; cbn [last_of fst snd]; rewrite !NE by (vm_compute; reflexivity); destruct (last_of k (events_puts 0 (sp_events sp))); reflexivity.
Qed.
Lemma span_link sp k : starts LINK k = true -> last_of k (span_puts sp) = last_of k (links_puts 0 (sp_links sp)).
Proof.
  intros S. assert (forall x, starts LINK x = false -> str_eqb k x = false) as NE by (intros x H; apply eqb_false; intros ->; congruence).
  unfold span_puts. rewrite !last_of_app. rewrite (last_of_prefix _ _ _ (events_start _ _)) by (exact (starts_apart _ EVENT _ S eq_refl eq_refl)).
  rewrite (last_of_prefix _ _ _ (attrs_start _ _)) by (exact (starts_apart _ (SPAN ++ txt "attributes/") _ S eq_refl eq_refl)).
  destruct (sp_status sp) as [[a b]|]; cbn [last_of fst snd]; rewrite !NE by (vm_compute; reflexivity); destruct (last_of k (links_puts 0 (sp_links sp))); reflexivity.
Qed.

(** a float is at most 512 away from an integer below 2^63 *)
Lemma f64_near z : 0 <= z < 2 ^ 63 -> Z.abs (f64_of_int z - z) <= 512 /\ 0 <= f64_of_int z <= 2 ^ 63 + 512.
Proof.
  intros B. unfold f64_of_int. cbv zeta. rewrite (Z.abs_eq z) by lia. destruct (Z.ltb_spec z (2 ^ 53)) as [L|L]; [lia|].
  rewrite Z.sgn_pos by lia. rewrite Z.mul_1_l. assert (53 <= Z.log2 z <= 62) as LG.
  { split; [apply Z.log2_le_pow2; lia|]. assert (Z.log2 z < 63) by (apply Z.log2_lt_pow2; lia). lia. }
  assert (2 <= 2 ^ (Z.log2 z - 52) <= 1024) as U.
  { split; [change 2 with (2 ^ 1) at 1; apply Z.pow_le_mono_r; lia|]. change 1024 with (2 ^ 10). apply Z.pow_le_mono_r; lia. }
  revert U. generalize (2 ^ (Z.log2 z - 52)). intros u U. pose proof (Z.div_mod z u ltac:(lia)) as D. pose proof (Z.mod_pos_bound z u ltac:(lia)) as M.
  revert D M. generalize (z / u) (z mod u). intros q m D M. clear LG. clear L.
  assert (Z.abs (u * (if 2 * m <? u then q else if u <? 2 * m then q + 1 else if Z.even q then q else q + 1) - z) <= 512) as Q.
  { destruct (Z.ltb_spec (2 * m) u); [nia|]. destruct (Z.ltb_spec u (2 * m)); [nia|]. destruct (Z.even q); nia. }
  split; [exact Q|]. split; [|lia]. apply Z.mul_nonneg_nonneg; [lia|]. assert (0 <= q) by nia. destruct (_ <? _); [lia|]. destruct (_ <? _); [lia|]. destruct (Z.even q); lia.
Qed.

Lemma event_key_plain i x : mem (event_prefix i ++ x) TAGS = false /\ str_eqb TIME_COLUMN (event_prefix i ++ x) = false.
Proof.
  pose proof (starts_trans _ _ _ (event_event i) (starts_app (event_prefix i) x)) as T. split.
  - destruct (mem_spec (event_prefix i ++ x) TAGS) as [Q|]; auto. exfalso. unfold TAGS in Q. repeat (destruct Q as [Q|Q]; [rewrite <- Q in T; discriminate T|]). destruct Q.
  - apply eqb_false. intros Q. rewrite <- Q in T. discriminate T.
Qed.
Lemma link_key_plain i x : mem (link_prefix i ++ x) TAGS = false /\ str_eqb TIME_COLUMN (link_prefix i ++ x) = false.
Proof.
  pose proof (starts_trans _ _ _ (link_link i) (starts_app (link_prefix i) x)) as T. split.
  - destruct (mem_spec (link_prefix i ++ x) TAGS) as [Q|]; auto. exfalso. unfold TAGS in Q. repeat (destruct Q as [Q|Q]; [rewrite <- Q in T; discriminate T|]). destruct Q.
  - apply eqb_false. intros Q. rewrite <- Q in T. discriminate T.
Qed.
Lemma run_length i k : length (run i k) = k.
Proof. revert i. induction k as [|k IH]; intros i; cbn [run length]; auto. Qed.
Lemma forall2_run {A B : Type} (R : A -> B -> Prop) (f : Z -> B) : forall l i, (forall m a, nth_error l m = Some a -> R a (f (i + Z.of_nat m))) ->
  Forall2 R l (map f (run i (length l))).
Proof.
  induction l as [|a l IH]; intros i H; cbn [length run map]; constructor.
  - specialize (H 0%nat a eq_refl). replace (i + Z.of_nat 0) with i in H by lia. exact H.
  - apply IH. intros m b Q. specialize (H (Datatypes.S m) b Q). replace (i + Z.of_nat (Datatypes.S m)) with (i + 1 + Z.of_nat m) in H by lia. exact H.
Qed.
Section Events.
Variables (table : str) (r : resource_spans) (sp : span) (fs0 : fields) (ln : line) (cols : list str).
Let fs := puts (span_puts sp) fs0.
Hypothesis IV : inv r fs0.
Hypothesis E : export_line table fs = Some ln.
Hypothesis C : incl (line_columns ln) cols.
Let w := row_of_line ln.
Lemma event_find m e x v : Z.of_nat (length (sp_events sp)) < 2 ^ 64 -> nth_error (sp_events sp) m = Some e ->
  last_of (event_prefix (Z.of_nat m) ++ x) (event_puts (Z.of_nat m) e) = Some v -> find (event_prefix (Z.of_nat m) ++ x) fs = Some v.
Proof.
  intros B Q L. unfold fs. apply own. rewrite span_event by (apply (starts_trans _ _ _ (event_event (Z.of_nat m))); apply starts_app).
  pose proof (last_event (event_prefix (Z.of_nat m) ++ x) (sp_events sp) 0 m e Q ltac:(lia) ltac:(lia)) as W. rewrite Z.add_0_l in W. rewrite W; [exact L|]. apply starts_app.
Qed.
Lemma link_find m e x v : Z.of_nat (length (sp_links sp)) < 2 ^ 64 -> nth_error (sp_links sp) m = Some e ->
  last_of (link_prefix (Z.of_nat m) ++ x) (link_puts (Z.of_nat m) e) = Some v -> find (link_prefix (Z.of_nat m) ++ x) fs = Some v.
Proof.
  intros B Q L. unfold fs. apply own. rewrite span_link by (apply (starts_trans _ _ _ (link_link (Z.of_nat m))); apply starts_app).
  pose proof (last_link (link_prefix (Z.of_nat m) ++ x) (sp_links sp) 0 m e Q ltac:(lia) ltac:(lia)) as W. rewrite Z.add_0_l in W. rewrite W; [exact L|]. apply starts_app.
Qed.
Lemma cols_has k v : find k fs = Some v -> str_eqb TIME_COLUMN k = false -> In k cols.
Proof. intros F T. exact (in_cols table r sp fs0 ln cols IV E C k v F T). Qed.
Lemma event_log_shown m e : Z.of_nat (length (sp_events sp)) < 2 ^ 64 -> nth_error (sp_events sp) m = Some e ->
  0 <= ev_time e < 2 ^ 63 -> 0 <= ev_dropped e < 2 ^ 32 -> event_shown e (event_log cols w (Z.of_nat m)).
Proof.
  intros B Q BT BD. destruct (event_values (Z.of_nat m) e) as (V1 & V2 & V3).
  pose proof (event_find m e _ _ B Q V1) as F1. pose proof (event_find m e _ _ B Q V2) as F2. pose proof (event_find m e _ _ B Q V3) as F3.
  destruct (event_key_plain (Z.of_nat m) (txt "time_unix_nano")) as [K1 T1]. destruct (event_key_plain (Z.of_nat m) (txt "name")) as [K2 T2].
  destruct (event_key_plain (Z.of_nat m) (txt "dropped_attributes_count")) as [K3 T3].
  pose proof (number_at table r sp fs0 ln IV E _ _ F1 K1 T1) as N1. pose proof (field_at table r sp fs0 ln IV E _ _ F2 K2 T2) as N2.
  pose proof (number_at table r sp fs0 ln IV E _ _ F3 K3 T3) as N3. pose proof (cols_has _ _ F2 T2) as I2. pose proof (cols_has _ _ F3 T3) as I3.
  fold w in N1, N2, N3. split.
  - unfold event_log. cbn [fst]. rewrite N1. cbn [clamp]. destruct (f64_near (ev_time e) BT) as [D1 D2]. revert D1 D2. generalize (f64_of_int (ev_time e)). clear - BT. intros z D1 D2.
    unfold U64_MAX. lia.
  - intros k v. unfold event_log. cbn [snd]. rewrite in_flat_map. split.
    + intros (c & IC & H). destruct (starts (event_prefix (Z.of_nat m) ++ txt "attributes/") c); [destruct H|].
      destruct (str_eqb_spec c (event_prefix (Z.of_nat m) ++ txt "name")) as [->|NE1]; [destruct H as [H|[]]; injection H as <- <-; left; rewrite N2; auto|].
      destruct (str_eqb_spec c (event_prefix (Z.of_nat m) ++ txt "dropped_attributes_count")) as [->|NE2]; [|destruct H].
      destruct H as [H|[]]. injection H as <- <-. right. split; auto. rewrite N3. rewrite f64_exact by (clear - BD; lia). cbn [clamp]. f_equal. clear - BD. unfold I64_MIN, I64_MAX. lia.
    + intros [[-> ->]|[-> ->]].
      * exists (event_prefix (Z.of_nat m) ++ txt "name"). split; [exact I2|]. rewrite starts_common. change (starts (txt "attributes/") (txt "name")) with false. cbv iota.
        rewrite eqb_refl. left. rewrite N2. reflexivity.
      * exists (event_prefix (Z.of_nat m) ++ txt "dropped_attributes_count"). split; [exact I3|]. rewrite starts_common. change (starts (txt "attributes/") (txt "dropped_attributes_count")) with false. cbv iota.
        rewrite eqb_common. change (str_eqb (txt "dropped_attributes_count") (txt "name")) with false. cbv iota. rewrite eqb_refl. left. rewrite N3.
        rewrite f64_exact by (clear - BD; lia). cbn [clamp]. do 2 f_equal. clear - BD. unfold I64_MIN, I64_MAX. lia.
Qed.
Lemma ref_shown m k : Z.of_nat (length (sp_links sp)) < 2 ^ 64 -> nth_error (sp_links sp) m = Some k -> bytes (lk_trace k) -> bytes (lk_span k) ->
  link_shown k (str_at w (link_prefix (Z.of_nat m) ++ txt "trace_id"), str_at w (link_prefix (Z.of_nat m) ++ txt "span_id")).
Proof.
  intros B Q B1 B2. destruct (link_values (Z.of_nat m) k) as (V1 & V2). pose proof (link_find m k _ _ B Q V1) as F1. pose proof (link_find m k _ _ B Q V2) as F2.
  destruct (link_key_plain (Z.of_nat m) (txt "trace_id")) as [K1 T1]. destruct (link_key_plain (Z.of_nat m) (txt "span_id")) as [K2 T2].
  pose proof (field_at table r sp fs0 ln IV E _ _ F1 K1 T1) as N1. pose proof (field_at table r sp fs0 ln IV E _ _ F2 K2 T2) as N2. fold w in N1, N2.
  unfold link_shown. cbn [fst snd]. rewrite N1, N2. split; apply hex_ok; auto.
Qed.
Lemma count_events : Z.of_nat (length (sp_events sp)) < 2 ^ 64 - 1 -> in_turn event_column (length (sp_events sp)) cols ->
  count is_event 0 cols = Z.of_nat (length (sp_events sp)).
Proof.
  intros B [ORD UP]. set (n := length (sp_events sp)) in *.
  assert (forall x c, 0 <= x <= Z.of_nat n -> is_event x c = true -> event_column x c) as W by (intros x c BX PX; apply event_col_iff; [clear - B BX; lia|exact PX]).
  apply count_all.
  - intros l1 a l2 b l3 x y EQ BX BY PX PY. exact (ORD l1 a l2 b l3 x y EQ (W _ _ BX PX) (W _ _ BY PY)).
  - intros c x I BX PX. exact (UP c x I (W _ _ BX PX)).
  - intros x BX. destruct (nth_error (sp_events sp) (Z.to_nat x)) as [e|] eqn:Q; [|apply nth_error_None in Q; fold n in Q; lia].
    destruct (event_values (Z.of_nat (Z.to_nat x)) e) as (V1 & _). exists (event_prefix x ++ txt "time_unix_nano"). split; [|apply starts_app].
    assert (Z.of_nat (length (sp_events sp)) < 2 ^ 64) as BB by (fold n; clear - B; lia).
    pose proof (event_find _ e _ _ BB Q V1) as F. rewrite Z2Nat.id in F by lia. exact (cols_has _ _ F (proj2 (event_key_plain _ _))).
  - intros c x y BX BY PX PY. pose proof (event_same _ _ _ PX PY) as D. apply dec_inj in D; clear - B BX BY D; lia.
Qed.
Lemma count_links : Z.of_nat (length (sp_links sp)) < 2 ^ 64 - 1 -> in_turn link_column (length (sp_links sp)) cols ->
  count is_link 0 cols = Z.of_nat (length (sp_links sp)).
Proof.
  intros B [ORD UP]. set (n := length (sp_links sp)) in *.
  assert (forall x c, 0 <= x <= Z.of_nat n -> is_link x c = true -> link_column x c) as W by (intros x c BX PX; apply link_col_iff; [clear - B BX; lia|exact PX]).
  apply count_all.
  - intros l1 a l2 b l3 x y EQ BX BY PX PY. exact (ORD l1 a l2 b l3 x y EQ (W _ _ BX PX) (W _ _ BY PY)).
  - intros c x I BX PX. exact (UP c x I (W _ _ BX PX)).
  - intros x BX. destruct (nth_error (sp_links sp) (Z.to_nat x)) as [e|] eqn:Q; [|apply nth_error_None in Q; fold n in Q; lia].
    destruct (link_values (Z.of_nat (Z.to_nat x)) e) as (V1 & _). exists (link_prefix x ++ txt "trace_id"). split; [|apply starts_app].
    assert (Z.of_nat (length (sp_links sp)) < 2 ^ 64) as BB by (fold n; clear - B; lia).
    pose proof (link_find _ e _ _ BB Q V1) as F. rewrite Z2Nat.id in F by lia. exact (cols_has _ _ F (proj2 (link_key_plain _ _))).
  - intros c x y BX BY PX PY. pose proof (link_same _ _ _ PX PY) as D. apply dec_inj in D; clear - B BX BY D; lia.
Qed.
Theorem events_ok j : to_jspan cols w = Some j -> Z.of_nat (length (sp_events sp)) < 2 ^ 64 - 1 ->
  Forall (fun e => 0 <= ev_time e < 2 ^ 63 /\ 0 <= ev_dropped e < 2 ^ 32) (sp_events sp) ->
  in_turn event_column (length (sp_events sp)) cols -> Forall2 event_shown (sp_events sp) (j_logs j).
Proof.
  intros T B F TU. unfold to_jspan in T. cbv zeta in T. destruct (columns_loop _ _ _ _) as [a|] eqn:L; [|discriminate]. injection T as <-. cbn [j_logs].
  apply loop_count in L. destruct L as ((m & k & C1 & C2 & _) & C3 & _). cbn [ac_event ac_logs app] in *. rewrite (count_events B TU) in C3.
  assert (m = length (sp_events sp)) as -> by (clear - C1 C3; lia). rewrite C2. apply forall2_run. intros i e Q. rewrite Z.add_0_l.
  pose proof (nth_error_In _ _ Q) as I. rewrite Forall_forall in F. destruct (F e I). apply event_log_shown; auto. clear - B. lia.
Qed.
Theorem links_ok j : to_jspan cols w = Some j -> Z.of_nat (length (sp_links sp)) < 2 ^ 64 - 1 ->
  Forall (fun k => bytes (lk_trace k) /\ bytes (lk_span k)) (sp_links sp) ->
  in_turn link_column (length (sp_links sp)) cols -> Forall2 link_shown (sp_links sp) (j_refs j).
Proof.
  intros T B F TU. unfold to_jspan in T. cbv zeta in T. destruct (columns_loop _ _ _ _) as [a|] eqn:L; [|discriminate]. injection T as <-. cbn [j_refs].
  apply loop_count in L. destruct L as ((m & k & _ & _ & C1 & C2) & _ & C3). cbn [ac_link ac_refs app] in *. rewrite (count_links B TU) in C3.
  assert (k = length (sp_links sp)) as -> by (clear - C1 C3; lia). rewrite C2.
  apply (forall2_run link_shown (fun i => (str_at w (link_prefix i ++ txt "trace_id"), str_at w (link_prefix i ++ txt "span_id")))). intros i e Q. rewrite Z.add_0_l.
  pose proof (nth_error_In _ _ Q) as I. rewrite Forall_forall in F. destruct (F e I). apply ref_shown; auto. clear - B. lia.
Qed.
End Events.
