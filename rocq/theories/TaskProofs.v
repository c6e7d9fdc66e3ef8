(** Proofs about tasks (C71, C72). *)
From Verif Require Import Prelude TaskModel TaskSpec.

Lemma str_eqb_eq a b : str_eqb a b = true <-> a = b.
Proof.
  revert b. induction a as [|x a IH]; intros [|y b]; cbn [str_eqb]; try (split; congruence).
  rewrite andb_true_iff, Z.eqb_eq, IH. split; [intros []; congruence|intros H; injection H; auto].
Qed.
Lemma str_eqb_refl a : str_eqb a a = true.
Proof. apply str_eqb_eq. reflexivity. Qed.
Lemma str_eqb_neq a b : str_eqb a b = false <-> a <> b.
Proof. rewrite <- str_eqb_eq. destruct (str_eqb a b); intuition congruence. Qed.

Section Maps.
  Context {A : Type}.
  Implicit Types (m : list (str * A)).
  Lemma get_del k k' m : get k (del k' m) = if str_eqb k k' then None else get k m.
  Proof.
    induction m as [|[k2 v] m IH]; cbn [del get]; [destruct (str_eqb k k'); reflexivity|].
    destruct (str_eqb k' k2) eqn:E; cbn [get]; rewrite ?IH.
    - apply str_eqb_eq in E. subst k2. destruct (str_eqb k k') eqn:F; reflexivity.
    - destruct (str_eqb k k2) eqn:F; [|reflexivity]. apply str_eqb_eq in F. subst k2.
      destruct (str_eqb k k') eqn:G; [|reflexivity]. apply str_eqb_eq in G. subst. rewrite str_eqb_refl in E. discriminate.
  Qed.
  Lemma get_put k k' v m : get k (put k' v m) = if str_eqb k k' then Some v else get k m.
  Proof. unfold put. cbn [get]. rewrite get_del. destruct (str_eqb k k'); reflexivity. Qed.
  Lemma in_del k v k' m : In (k, v) (del k' m) -> In (k, v) m /\ k <> k'.
  Proof.
    induction m as [|[k2 w] m IH]; cbn [del]; [intros []|]. destruct (str_eqb k' k2) eqn:E.
    - intros H. destruct (IH H). split; [right|]; auto.
    - apply str_eqb_neq in E. cbn [In]. intros [H|H]; [injection H as -> ->; split; [auto|congruence]|]. destruct (IH H). auto.
  Qed.
  Lemma in_put k v k' v' m : In (k, v) (put k' v' m) -> (k = k' /\ v = v') \/ In (k, v) m /\ k <> k'.
  Proof. unfold put. cbn [In]. intros [H|H]; [injection H as <- <-; auto|]. right. apply in_del, H. Qed.
  Lemma get_in k v m : get k m = Some v -> In (k, v) m.
  Proof.
    induction m as [|[k2 w] m IH]; cbn [get]; [discriminate|]. destruct (str_eqb k k2) eqn:E; [|right; auto].
    apply str_eqb_eq in E. intros H. injection H as ->. subst. now left.
  Qed.
End Maps.

Lemma nth_set_nth {A} k j (x : A) l : nth_error (set_nth k x l) j =
  if (j =? k)%nat then match nth_error l j with Some _ => Some x | None => None end else nth_error l j.
Proof.
  revert k j. induction l as [|y l IH]; intros k j.
  - destruct k, j; cbn; try reflexivity. destruct (j =? k)%nat; reflexivity.
  - destruct k as [|k], j as [|j]; cbn [nth_error Nat.eqb]; try reflexivity. apply IH.
Qed.
Lemma in_set_nth {A} k (x y : A) l : In y (set_nth k x l) -> y = x \/ In y l.
Proof.
  revert k. induction l as [|z l IH]; intros [|k]; cbn [set_nth]; try (intros []; fail); cbn [In].
  - intros [->|H]; auto.
  - intros [->|H]; auto. destruct (IH _ H); auto.
Qed.
Lemma in_remove_nth {A} k (y : A) l : In y (remove_nth k l) -> In y l.
Proof.
  revert k. induction l as [|z l IH]; intros [|k]; cbn [remove_nth]; try (intros []; fail); cbn [In]; [auto|].
  intros [->|H]; auto. right. exact (IH _ H).
Qed.
Lemma run_app s es1 es2 : run s (es1 ++ es2) = match run s es1 with Some s' => run s' es2 | None => None end.
Proof. revert s. induction es1 as [|a es1 IH]; intros s; cbn [app run]; [reflexivity|]. destruct (step s a); auto. Qed.
Lemma clock_app t es1 es2 : clock t (es1 ++ es2) = clock (clock t es1) es2.
Proof. revert t. induction es1 as [|a es1 IH]; intros t; cbn [app clock]; [reflexivity|]. destruct a; apply IH. Qed.
Lemma run_ind_r t0 up (P : list act -> state -> Prop) : P [] (start t0 up) ->
  (forall es a s s', run (start t0 up) es = Some s -> step s a = Some s' -> P es s -> P (es ++ [a]) s') ->
  forall es s, run (start t0 up) es = Some s -> P es s.
Proof.
  intros H0 HS es. induction es as [|a es IH] using rev_ind; intros s R.
  - injection R as <-. exact H0.
  - rewrite run_app in R. destruct (run (start t0 up) es) as [s1|] eqn:E; [|discriminate].
    cbn [run] in R. destruct (step s1 a) as [s2|] eqn:F; [|discriminate]. injection R as <-. eapply HS; eauto.
Qed.

(** ** What is true of every task description and of every process *)
Definition all (P : info -> Prop) (Q : pc -> Prop) (s : state) : Prop :=
  (forall k i, In (k, i) (entries s) -> P i /\ k = i_name i) /\ (forall i, In (EInfo i) (log s) -> P i) /\
  (forall n i, In i (n_take (nodes s n)) -> P i) /\ (forall c, In c (clients s) -> Q (snd c)) /\
  (forall n k p, In (k, p) (n_async (nodes s n)) -> Q p) /\ (forall n k p, In (k, p) (n_retry (nodes s n)) -> Q p) /\
  (forall n p, n_inline (nodes s n) = Some p -> Q p).
Lemma all_weaken (P P' : info -> Prop) (Q Q' : pc -> Prop) s : (forall i, P i -> P' i) -> (forall p, Q p -> Q' p) -> all P Q s -> all P' Q' s.
Proof.
  intros HP HQ (A & B & C & D & E & F & G). split; [|split; [|split; [|split; [|split; [|split]]]]]; intros; eauto.
  destruct (A _ _ H). auto.
Qed.
Lemma all_write (P : info -> Prop) Q i s : P i -> all P Q s -> all P Q (write i s).
Proof.
  intros HP (A & B & C & D & E & F & G). split; [|split; [|auto]].
  - intros k j H. cbn [write entries] in H. apply in_put in H. destruct H as [[-> ->]|[H _]]; auto.
  - intros j H. cbn [write log] in H. apply in_app_iff in H. destruct H as [H|[H|[]]]; [auto|]. injection H as <-. exact HP.
Qed.
Lemma all_carried P Q o s : all P Q s -> all P Q (carried o s).
Proof. intros H. exact H. Qed.
Lemma all_mark P Q m s : all P Q s -> all P Q (set_mark m s).
Proof. intros H. exact H. Qed.
Lemma all_clients P (Q : pc -> Prop) c s : (forall x, In x c -> Q (snd x)) -> all P Q s -> all P Q (set_clients c s).
Proof. intros H (A & B & C & D & E & F & G). split; [exact A|]. split; [exact B|]. split; [exact C|]. split; [exact H|]. auto. Qed.
Lemma all_node (P : info -> Prop) (Q : pc -> Prop) n v s : (forall i, In i (n_take v) -> P i) -> (forall k p, In (k, p) (n_async v) -> Q p) ->
  (forall k p, In (k, p) (n_retry v) -> Q p) -> (forall p, n_inline v = Some p -> Q p) -> all P Q s -> all P Q (set_node n v s).
Proof.
  intros H1 H2 H3 H4 (A & B & C & D & E & F & G). unfold set_node, set_nodes. split; [exact A|]. split; [exact B|].
  split; [|split; [exact D|split; [|split]]]; intros m; cbn [nodes]; destruct (m =? n); eauto.
Qed.

Lemma nodes_write i s n : nodes (write i s) n = nodes s n.
Proof. reflexivity. Qed.
Lemma nodes_set n v s m : nodes (set_node n v s) m = if m =? n then v else nodes s m.
Proof. reflexivity. Qed.

Section Gen.
  Variables (P : info -> Prop) (Q : pc -> Prop).
  (** The state before and after a step of a process. *)
  Definition pc_effect (s s' : state) : Prop := s' = s \/ (exists o, s' = carried o s) \/ (exists i, s' = write i s /\ P i).
  Lemma all_effect s s' : pc_effect s s' -> all P Q s -> all P Q s'.
  Proof. intros [->|[(o & ->)|(i & -> & H)]] A; [exact A|apply all_carried, A|apply all_write; auto]. Qed.
  Lemma effect_nodes s s' n : pc_effect s s' -> nodes s' n = nodes s n.
  Proof. intros [->|[(o & ->)|(i & -> & H)]]; reflexivity. Qed.
  Lemma effect_clients s s' : pc_effect s s' -> clients s' = clients s.
  Proof. intros [->|[(o & ->)|(i & -> & H)]]; reflexivity. Qed.

  Variable s : state.
  Hypothesis A : all P Q s.
  Hypothesis Hpc : forall n r ok p s' p', Q p -> step_pc n r ok p s = Some (s', p') -> Q p' /\ pc_effect s s'.
  Hypothesis Hsleep : forall i, P i -> i_status i = Schedule -> Q (sleeping i s).
  Hypothesis Hwait : forall i, P i -> i_status i = Failed -> Q (waiting i s).
  Hypothesis Hnode : forall i n, P i -> P (with_node i n false).
  Hypothesis Hlook : forall i, P i -> i_status i = Executing -> Q (Look i).
  Hypothesis Hend : forall b, Q (Ended b).
  Lemma all_step a s' : step s a = Some s' ->
    (forall n o after, a = Issue n o after -> Q (Look (new_info o after (now s) n))) ->
    (forall n o, a = Recover n o -> Q (Cancelling (with_status (new_info o None (now s) n) Cancel true))) -> all P Q s'.
  Proof.
    intros E HI HR. pose proof A as A0. destruct A0 as (A1 & A2 & A3 & A4 & A5 & A6 & A7). destruct a; cbn [step] in E.
    - destruct (d >? 0); [|discriminate]. injection E as <-. exact A.
    - destruct (n_up (nodes s n) && _); [|discriminate]. injection E as <-. apply all_clients; [|exact A].
      intros x H. apply in_app_iff in H. destruct H as [H|[<-|[]]]; [auto|]. exact (HI _ _ _ eq_refl).
    - destruct (n_up (nodes s n) && recoverable o); [|discriminate]. injection E as <-. apply all_clients; [|exact A].
      intros x H. apply in_app_iff in H. destruct H as [H|[<-|[]]]; [auto|]. exact (HR _ _ eq_refl).
    - destruct (nth_error (clients s) k) as [[n p]|] eqn:K; [|discriminate]. destruct (step_pc n false ok p s) as [[s1 p1]|] eqn:S; [|discriminate].
      injection E as <-. apply nth_error_In in K. destruct (Hpc _ _ _ _ _ _ (A4 _ K) S) as (Hq & He).
      apply all_clients; [|exact (all_effect _ _ He A)]. intros x H. apply in_set_nth in H. destruct H as [->|H]; [exact Hq|auto].
    - destruct (get x (n_async (nodes s n))) as [p|] eqn:K; [|discriminate]. destruct (step_pc n false ok p s) as [[s1 p1]|] eqn:S; [|discriminate].
      injection E as <-. apply get_in in K. destruct (Hpc _ _ _ _ _ _ (A5 _ _ _ K) S) as (Hq & He). rewrite (effect_nodes _ _ n He).
      apply all_node; cbn [n_take n_async n_retry n_inline]; eauto; [|exact (all_effect _ _ He A)].
      intros y q H. apply in_put in H. destruct H as [[-> ->]|[H _]]; eauto.
    - destruct (get x (n_retry (nodes s n))) as [p|] eqn:K; [|discriminate]. destruct (step_pc n true ok p s) as [[s1 p1]|] eqn:S; [|discriminate].
      injection E as <-. apply get_in in K. destruct (Hpc _ _ _ _ _ _ (A6 _ _ _ K) S) as (Hq & He). rewrite (effect_nodes _ _ n He).
      apply all_node; cbn [n_take n_async n_retry n_inline]; eauto; [|exact (all_effect _ _ He A)].
      intros y q H. apply in_put in H. destruct H as [[-> ->]|[H _]]; eauto.
    - destruct (n_inline (nodes s n)) as [p|] eqn:K; [|discriminate]. destruct (step_pc n false ok p s) as [[s1 p1]|] eqn:S; [|discriminate].
      injection E as <-. destruct (Hpc _ _ _ _ _ _ (A7 _ _ K) S) as (Hq & He). rewrite (effect_nodes _ _ n He).
      apply all_node; cbn [n_take n_async n_retry n_inline]; eauto; [|exact (all_effect _ _ He A)].
      intros q H. assert (q = p1) as ->; [|exact Hq]. destruct p1; congruence.
    - cbv zeta in E. destruct (n_take (nodes s n)) eqn:KT; [|discriminate]. destruct (n_inline (nodes s n)) eqn:KI; [discriminate|].
      destruct (nth_error (log s) (n_pos (nodes s n))) as [e|] eqn:K; [|discriminate]. destruct (n_up (nodes s n)); [|discriminate].
      apply nth_error_In in K.
      assert (B : all P Q (set_node n (Node true (S (n_pos (nodes s n))) (n_async (nodes s n)) (n_retry (nodes s n)) [] None) s)).
      { apply all_node; cbn [n_take n_async n_retry n_inline]; eauto; [intros ? []|discriminate]. }
      revert E B. set (s1 := set_node n _ s). intros E B. destruct e as [i|d]; injection E as <-.
      + apply A2 in K. rewrite Z.eqb_refl.
        unfold handle_info. destruct (i_new i && _ && _).
        2: { apply all_node; cbn [n_take n_async n_retry n_inline]; eauto; [intros ? []|discriminate]. }
        destruct (i_status i) eqn:ST; cbn [n_up n_pos n_take n_async n_retry n_inline];
          try (apply all_node; cbn [n_take n_async n_retry n_inline]; eauto; [intros ? []|discriminate]).
        * apply all_node; cbn [n_take n_async n_retry n_inline]; eauto; [intros ? []| |discriminate].
          intros y q H. apply in_put in H. destruct H as [[-> ->]|[H _]]; [apply (Hsleep i); auto|eauto].
        * destruct (has _ _); apply all_node; cbn [n_take n_async n_retry n_inline]; eauto; try (intros ? []; fail); try discriminate.
          intros y q H. apply in_put in H. destruct H as [[-> ->]|[H _]]; [apply (Hwait i); auto|eauto].
        * apply all_node; cbn [n_take n_async n_retry n_inline]; eauto; [intros ? []| |discriminate].
          intros y q H. apply in_del in H. destruct H. eauto.
      + unfold handle_down. cbv zeta. set (s2 := if _ && _ then set_mark _ s1 else s1).
        assert (B2 : all P Q s2) by (unfold s2; destruct (_ && _); [apply all_mark|]; exact B).
        destruct B2 as (B2a & B2b & B2c & B2d & B2e & B2f & B2g). destruct ((fst (mark s2) =? n) && snd (mark s2)); [|repeat (split; auto)].
        apply all_node; cbn [n_take n_async n_retry n_inline]; eauto; [|repeat (split; auto)].
        intros i H. apply filter_In in H. destruct H as [H _]. apply in_map_iff in H. destruct H as ([k j] & <- & H). destruct (B2a _ _ H). auto.
    - cbv zeta in E. destruct (nth_error (n_take (nodes s n)) j) as [i|] eqn:K; [|discriminate]. destruct (n_inline (nodes s n)) eqn:KI; [discriminate|].
      destruct (n_up (nodes s n)) eqn:KU; [|discriminate]. injection E as <-. apply nth_error_In in K.
      assert (Pi : P (with_node i n false)) by (apply Hnode; eauto). unfold take_one. cbv zeta.
      pose proof (all_write _ Q _ _ Pi A) as B. revert B. set (s1 := write (with_node i n false) s). intros B.
      assert (N1 : nodes s1 n = nodes s n) by reflexivity. rewrite N1. change (i_status (with_node i n false)) with (i_status i).
      assert (R : forall x, In x (remove_nth j (n_take (nodes s n))) -> P x) by (intros x H; apply in_remove_nth in H; eauto).
      destruct (i_status i) eqn:ST; try (destruct (has _ _)); apply all_node; cbn [n_take n_async n_retry n_inline]; eauto;
        try (intros ? []; fail); try (rewrite KI; discriminate).
      + intros y q H. apply in_put in H. destruct H as [[-> ->]|[H _]]; [apply (Hsleep (with_node i n false)); auto|eauto].
      + intros p H. injection H as <-. apply Hlook; auto.
      + intros y q H. apply in_put in H. destruct H as [[-> ->]|[H _]]; [apply (Hwait (with_node i n false)); auto|eauto].
    - destruct (n_up (nodes s n)); [|discriminate]. injection E as <-. destruct (snd (mark s)); [exact A|apply all_mark, A].
    - injection E as <-. split; [exact A1|]. split; [|auto]. intros i H. cbn [log] in H. apply in_app_iff in H. destruct H as [H|[H|[]]]; [auto|discriminate].
    - injection E as <-. apply all_clients; [|apply all_node; cbn [n_take n_async n_retry n_inline]; eauto; try (intros ? []; fail); try (intros ? ? []; fail); discriminate].
      intros x H. apply in_map_iff in H. destruct H as (c & <- & H). destruct (fst c =? n); [|auto]. destruct (snd c) eqn:SC; cbn [snd]; try apply Hend. rewrite SC. apply Hend.
    - destruct (n_up (nodes s n)); [discriminate|]. injection E as <-. apply all_node; cbn [n_take n_async n_retry n_inline]; eauto; try (intros ? []; fail); try (intros ? ? []; fail); discriminate.
  Qed.
End Gen.

(** ** Where tasks come from *)
Lemma asked_more t0 es a o V : asked_for t0 es o V -> asked_for t0 (es ++ [a]) o V.
Proof. intros (e1 & n & af & e2 & -> & H). exists e1, n, af, (e2 ++ [a]). rewrite <- app_assoc. auto. Qed.
Lemma mentioned_more es a o : mentioned es o -> mentioned (es ++ [a]) o.
Proof. intros (n & af & H). exists n, af. rewrite !in_app_iff. tauto. Qed.
Lemma asked_mentioned t0 es o V : asked_for t0 es o V -> mentioned es o.
Proof. intros (e1 & n & af & e2 & -> & _). exists n, af. left. apply in_or_app. right. now left. Qed.
Lemma same_drop a b : same_object a b -> recoverable b = true -> a = b.
Proof. destruct a, b; cbn; intros H; try discriminate; try contradiction; intros _; [subst|destruct H; subst]; reflexivity. Qed.

Section Origin.
  Variables (t0 : Z).
  Definition ripe (es : list act) (t : Z) (o : op) : Prop := exists V, asked_for t0 es o V /\ V <= t.
  (** [es]: the events so far, [t]: the time. *)
  Definition okI (es : list act) (t : Z) (i : info) : Prop :=
    mentioned es (i_op i) /\
    (i_status i = Schedule -> recoverable (i_op i) = true /\ exists V, asked_for t0 es (i_op i) V /\ i_time i = wrap_i64 V /\ V <= t + I64_MAX /\ t0 < V) /\
    (i_status i = Cancel -> recoverable (i_op i) = true) /\
    (i_status i <> Schedule -> i_status i <> Cancel -> no_clash es -> ripe es t (i_op i)).
  Definition okQ (es : list act) (t : Z) (p : pc) : Prop :=
    match p with
    | Look i | Mark i | Put i | Cancelling i => okI es t i
    | Run i | Note i _ => mentioned es (i_op i) /\ (no_clash es -> ripe es t (i_op i))
    | Sleep i w => okI es t i /\ i_status i = Schedule /\
        exists V, asked_for t0 es (i_op i) V /\ V <= w /\ (V < t \/ w = V)
    | Begin i => okI es t i /\ i_status i = Schedule /\ ripe es t (i_op i)
    | Wait i _ | Backoff i _ => mentioned es (i_op i) /\ (no_clash es -> ripe es t (i_op i))
    | Ended _ => True
    end.
  Definition okS (es : list act) (s : state) : Prop :=
    now s = clock t0 es /\ t0 <= now s /\ all (okI es (now s)) (okQ es (now s)) s /\
    (no_clash es -> forall t o, In (t, o) (done s) -> ripe es t o).

  Lemma clash_prefix es a : no_clash (es ++ [a]) -> no_clash es.
  Proof. intros H x y X Y. apply H; apply mentioned_more; assumption. Qed.
  Lemma ripe_more es a t t' o : t <= t' -> ripe es t o -> ripe (es ++ [a]) t' o.
  Proof. intros L (V & A & B). exists V. split; [apply asked_more, A|lia]. Qed.
  Lemma okI_more es a t t' i : t <= t' -> okI es t i -> okI (es ++ [a]) t' i.
  Proof.
    intros L (M & A & B & C). split; [apply mentioned_more, M|]. split; [|split].
    - intros S. destruct (A S) as (R & V & X & Y & W & U). split; [exact R|]. exists V. split; [apply asked_more, X|]. split; [exact Y|]. split; [lia|exact U].
    - exact B.
    - intros S1 S2 N. apply (ripe_more _ _ t); [exact L|]. apply C; auto. exact (clash_prefix _ _ N).
  Qed.
  Lemma okQ_more es a t t' p : t <= t' -> okQ es t p -> okQ (es ++ [a]) t' p.
  Proof.
    intros L. pose proof (okI_more es a t t') as I. pose proof (ripe_more es a t t') as R. pose proof (clash_prefix es a) as N. pose proof (mentioned_more es a) as M.
    destruct p; cbn [okQ]; auto; try (intros [X Y]; split; [auto|auto]).
    - destruct Y as (S & V & A & B & C). split; [exact S|]. exists V. split; [apply asked_more, A|]. split; [exact B|]. destruct C; [left; lia|right; assumption].
    - destruct Y as (S & Y). split; [exact S|auto].
  Qed.

  Lemma wrap_mod a b : (exists k, a = b + k * 2 ^ 64) -> wrap_u64 a = wrap_u64 b.
  Proof. intros (k & ->). unfold wrap_u64. apply Z_mod_plus_full. Qed.
  Lemma wrap_i64_cong z : exists k, wrap_i64 z = z + k * 2 ^ 64.
  Proof.
    assert (2 ^ 64 <> 0) as N by (rewrite two64; lia). pose proof (Z.div_mod z (2 ^ 64) N) as D. unfold wrap_i64.
    destruct (_ <? _); [exists (- (z / 2 ^ 64))|exists (- (z / 2 ^ 64) - 1)]; lia.
  Qed.
  Lemma wake V t : wrap_u64 (wrap_i64 (wrap_i64 V - t)) = wrap_u64 (V - t).
  Proof.
    apply wrap_mod. destruct (wrap_i64_cong V) as (k1 & E1). destruct (wrap_i64_cong (wrap_i64 V - t)) as (k2 & E2). exists (k1 + k2). lia.
  Qed.
  Lemma wake_time V t : V <= t + I64_MAX -> V <= t + wrap_u64 (V - t) /\ (V < t \/ t + wrap_u64 (V - t) = V).
  Proof.
    intros H. rewrite I64_MAX_eq in H. destruct (Z.lt_ge_cases V t) as [L|L].
    - split; [|auto]. pose proof (wrap_u64_is_u64 (V - t)) as [U _]. lia.
    - rewrite wrap_u64_id by (split; [lia|rewrite U64_MAX_eq; lia]). lia.
  Qed.

  Lemma note_info es t i (r : bool) : mentioned es (i_op i) -> (no_clash es -> ripe es t (i_op i)) ->
    okI es t (Info (i_op i) (i_time i) (i_try i + 1) (if r then Successed else Failed) (i_node i) (negb r)).
  Proof. intros M R. split; [exact M|]. cbn [i_op i_status]. split; [destruct r; discriminate|]. split; [destruct r; discriminate|auto]. Qed.
  (** A step of a process, at the same time. *)
  Lemma okQ_step es s n r ok p s' p' : all (okI es (now s)) (okQ es (now s)) s ->
    okQ es (now s) p -> step_pc n r ok p s = Some (s', p') -> okQ es (now s) p' /\ pc_effect (okI es (now s)) s s'.
  Proof.
    intros A O E. destruct A as (A1 & _). destruct p; cbn [okQ] in O; cbn [step_pc] in E.
    - destruct (match get (i_name i) (entries s) with Some old => _ | None => _ end); injection E as <- <-;
        (split; [|left; reflexivity]); [|exact I]. destruct (is_schedule (i_status i)); exact O.
    - injection E as <- <-. split; [|left; reflexivity]. cbn [okQ]. destruct (snd (mark s)); exact O.
    - injection E as <- <-. split; [|right; right; exists i; auto]. destruct (i_status i) eqn:S; cbn [is_executing okQ]; auto.
      destruct O as (M & _ & _ & C). split; [exact M|]. apply C; rewrite S; discriminate.
    - injection E as <- <-. split; [exact O|]. destruct ok; [right; left; eauto|left; reflexivity].
    - injection E as <- <-. destruct O as [M R]. split; [|right; right; eexists; split; [reflexivity|apply note_info; auto]].
      destruct ok0; cbn [okQ]; auto. destruct r; cbn [okQ]; auto.
    - injection E as <- <-. split; [exact I|right; right; exists i; auto].
    - destruct (at_ <=? now s) eqn:L; [|discriminate]. injection E as <- <-. split; [|left; reflexivity].
      destruct O as (O & S & V & F & G & _). split; [exact O|]. split; [exact S|]. exists V. split; [exact F|lia].
    - injection E as <- <-. destruct O as (O & S & R). split; [split; [apply O|auto]|]. right; right. eexists. split; [reflexivity|].
      split; [apply O|]. cbn [with_status i_status i_op]. split; [discriminate|]. split; [discriminate|auto].
    - destruct (at_ <=? now s) eqn:L; [|discriminate]. injection E as <- <-. split; [exact O|left; reflexivity].
    - destruct (at_ <=? now s) eqn:L; [|discriminate]. destruct (get (i_name i) (entries s)) as [x|] eqn:G; injection E as <- <-; (split; [|left; reflexivity]); [|exact I].
      apply get_in in G. destruct (A1 _ _ G) as [(M & B & C & D) NM]. cbn [okQ]. split; [exact M|]. intros N. destruct O as [M' R].
      assert (K : recoverable (i_op x) = true -> ripe es (now s) (i_op x)).
      { intros RX. assert (i_op i = i_op x) as <-; [|auto]. apply same_drop; [|exact RX]. apply N; auto. }
      destruct (i_status x); try (apply D; (discriminate || assumption)); [apply K, B; reflexivity|apply K, C; reflexivity].
    - discriminate.
  Qed.
  Lemma okS_step es a s s' : okS es s -> delays_ok (es ++ [a]) -> step s a = Some s' -> okS (es ++ [a]) s'.
  Proof.
    intros (HN & HT & HA & HD) DL E.
    assert (NOW : now s <= now s' /\ now s' = clock t0 (es ++ [a])).
    { rewrite clock_app, <- HN. assert (X : forall n r ok p s1 p1, step_pc n r ok p s = Some (s1, p1) -> now s1 = now s).
      { intros n r ok p s1 p1 S. destruct p; cbn [step_pc] in S; try discriminate;
          repeat match type of S with context [if ?c then _ else _] => destruct c end;
          repeat match type of S with context [match ?c with Some _ => _ | None => _ end] => destruct c end; try discriminate; injection S as <- <-; reflexivity. }
      destruct a; cbn [step clock] in *.
      - destruct (d >? 0) eqn:D; [|discriminate]. injection E as <-. cbn [now]. lia.
      - destruct (_ && _); [|discriminate]. injection E as <-. cbn. lia.
      - destruct (_ && _); [|discriminate]. injection E as <-. cbn. lia.
      - destruct (nth_error _ _) as [[n p]|]; [|discriminate]. destruct (step_pc _ _ _ _ _) as [[s1 p1]|] eqn:S; [|discriminate]. injection E as <-. apply X in S. cbn. lia.
      - destruct (get _ _) as [p|]; [|discriminate]. destruct (step_pc _ _ _ _ _) as [[s1 p1]|] eqn:S; [|discriminate]. injection E as <-. apply X in S. cbn. lia.
      - destruct (get _ _) as [p|]; [|discriminate]. destruct (step_pc _ _ _ _ _) as [[s1 p1]|] eqn:S; [|discriminate]. injection E as <-. apply X in S. cbn. lia.
      - destruct (n_inline _) as [p|]; [|discriminate]. destruct (step_pc _ _ _ _ _) as [[s1 p1]|] eqn:S; [|discriminate]. injection E as <-. apply X in S. cbn. lia.
      - destruct (n_take _); [|discriminate]. destruct (n_inline _); [discriminate|]. destruct (nth_error _ _) as [e|]; [|discriminate].
        destruct (n_up _); [|discriminate]. destruct e; injection E as <-; [cbn; lia|]. unfold handle_down. cbv zeta.
        repeat match goal with |- context [if ?c then _ else _] => destruct c end; cbn; lia.
      - destruct (nth_error _ _) as [i|]; [|discriminate]. destruct (n_inline _); [discriminate|]. destruct (n_up _); [|discriminate]. injection E as <-.
        unfold take_one. cbv zeta. destruct (i_status _); try destruct (has _ _); cbn; lia.
      - destruct (n_up _); [|discriminate]. injection E as <-. destruct (snd (mark s)); cbn; lia.
      - injection E as <-. cbn. lia.
      - injection E as <-. cbn. lia.
      - destruct (n_up _); [discriminate|]. injection E as <-. cbn. lia. }
    destruct NOW as [LE NW].
    assert (W : all (okI (es ++ [a]) (now s)) (okQ (es ++ [a]) (now s)) s).
    { apply (all_weaken _ _ _ _ s (fun i => okI_more es a (now s) (now s) i (Z.le_refl _)) (fun p => okQ_more es a (now s) (now s) p (Z.le_refl _)) HA). }
    split; [exact NW|]. split; [lia|]. split.
    - assert (all (okI (es ++ [a]) (now s)) (okQ (es ++ [a]) (now s)) s').
      { apply (all_step _ _ s W) with (a := a); auto.
        - intros. eapply okQ_step; eauto.
        - intros i O S. unfold sleeping. destruct O as (M & B & C & D). split; [split; auto|]. split; [exact S|]. destruct (B S) as (R & V & F & G & H & U).
          rewrite G, wake. exists V. split; [exact F|]. apply wake_time, H.
        - intros i (M & B & C & D) S. split; [exact M|]. intros N. apply D; try exact N; rewrite S; discriminate.
        - intros b. exact I.
        - intros n o af ->. cbn [okQ]. assert (AF : asked_for t0 (es ++ [Issue n o af]) o (now s + delay af)).
          { exists es, n, af, []. split; [reflexivity|]. rewrite HN. reflexivity. }
          assert (M : mentioned (es ++ [Issue n o af]) o) by (eapply asked_mentioned; eauto).
          cbn [step] in E. destruct (n_up (nodes s n)); [|discriminate]. cbn [andb] in E.
          unfold new_info. destruct af as [d|]; [destruct (d >? 0) eqn:GT|]; cbn [delay] in AF; (split; [exact M|]); cbn [i_op i_status i_time].
          + split; [|split; [discriminate|congruence]]. intros _. split; [destruct (recoverable o); [reflexivity|discriminate]|].
            rewrite Z.max_r in AF by lia. exists (now s + d). split; [exact AF|]. split; [reflexivity|].
            assert (d <= I64_MAX) by (eapply DL; apply in_or_app; right; now left). lia.
          + split; [discriminate|]. split; [discriminate|]. intros _ _ _. rewrite Z.max_l in AF by lia. exists (now s + 0). split; [exact AF|lia].
          + split; [discriminate|]. split; [discriminate|]. intros _ _ _. exists (now s + 0). split; [exact AF|lia].
        - intros n o ->. cbn [step] in E. destruct (n_up (nodes s n)); [|discriminate]. cbn [andb] in E. cbn [okQ new_info with_status].
          split; [exists n, None; right; apply in_or_app; right; now left|]. cbn [with_status i_status i_op]. split; [discriminate|].
          split; [|intros _ K; destruct (K eq_refl)]. intros _. destruct (recoverable o); [reflexivity|discriminate]. }
      revert H. apply all_weaken.
      + intros i (M & B & C & D). split; [exact M|]. split; [|split; [exact C|]].
        * intros S. destruct (B S) as (R & V & F & G & H & U). split; [exact R|]. exists V. split; [exact F|]. split; [exact G|]. split; [lia|exact U].
        * intros S1 S2 N. destruct (D S1 S2 N) as (V & F & G). exists V. split; [exact F|lia].
      + intros p. assert (K : forall i, okI (es ++ [a]) (now s) i -> okI (es ++ [a]) (now s') i).
        { intros i (M & B & C & D). split; [exact M|]. split; [|split; [exact C|]].
          * intros S. destruct (B S) as (R & V & F & G & H & U). split; [exact R|]. exists V. split; [exact F|]. split; [exact G|]. split; [lia|exact U].
          * intros S1 S2 N. destruct (D S1 S2 N) as (V & F & G). exists V. split; [exact F|lia]. }
        assert (RR : forall o, ripe (es ++ [a]) (now s) o -> ripe (es ++ [a]) (now s') o) by (intros o (V & F & G); exists V; split; [exact F|lia]).
        destruct p; cbn [okQ]; auto; try (intros [X Y]; split; [auto|auto]).
        * destruct Y as (S & V & F & B & C). split; [exact S|]. exists V. split; [exact F|]. split; [exact B|]. destruct C; [left; lia|right; assumption].
        * destruct Y. split; [assumption|auto].
    - intros N t o I. 
      assert (OLD : In (t, o) (done s) -> ripe (es ++ [a]) t o).
      { intros J. apply (ripe_more es a t t); [lia|]. apply HD; auto. exact (clash_prefix _ _ N). }
      assert (X : forall n r ok p s1 p1, okQ (es ++ [a]) (now s) p -> step_pc n r ok p s = Some (s1, p1) -> In (t, o) (done s1) -> ripe (es ++ [a]) t o).
      { intros n r ok p s1 p1 O S J. destruct p; cbn [step_pc] in S;
          repeat match type of S with context [if ?c then _ else _] => destruct c end;
          repeat match type of S with context [match ?c with Some _ => _ | None => _ end] => destruct c end; try discriminate; injection S as <- <-; cbn [write done] in J; auto.
        cbn [carried done] in J. apply in_app_iff in J. destruct J as [J|[J|[]]]; [auto|]. injection J as <- <-. destruct O as [_ O]. exact (O N). }
      destruct W as (W1 & W2 & W3 & W4 & W5 & W6 & W7). destruct a; cbn [step] in E.
      + destruct (d >? 0); [|discriminate]. injection E as <-. auto.
      + destruct (_ && _); [|discriminate]. injection E as <-. auto.
      + destruct (_ && _); [|discriminate]. injection E as <-. auto.
      + destruct (nth_error (clients s) k) as [[n p]|] eqn:K; [|discriminate]. destruct (step_pc _ _ _ _ _) as [[s1 p1]|] eqn:S; [|discriminate]. injection E as <-.
        apply nth_error_In in K. exact (X _ _ _ _ _ _ (W4 _ K) S I).
      + destruct (get x (n_async (nodes s n))) as [p|] eqn:K; [|discriminate]. destruct (step_pc _ _ _ _ _) as [[s1 p1]|] eqn:S; [|discriminate]. injection E as <-.
        apply get_in in K. exact (X _ _ _ _ _ _ (W5 _ _ _ K) S I).
      + destruct (get x (n_retry (nodes s n))) as [p|] eqn:K; [|discriminate]. destruct (step_pc _ _ _ _ _) as [[s1 p1]|] eqn:S; [|discriminate]. injection E as <-.
        apply get_in in K. exact (X _ _ _ _ _ _ (W6 _ _ _ K) S I).
      + destruct (n_inline (nodes s n)) as [p|] eqn:K; [|discriminate]. destruct (step_pc _ _ _ _ _) as [[s1 p1]|] eqn:S; [|discriminate]. injection E as <-.
        exact (X _ _ _ _ _ _ (W7 _ _ K) S I).
      + destruct (n_take _); [|discriminate]. destruct (n_inline _); [discriminate|]. destruct (nth_error _ _) as [e|]; [|discriminate].
        destruct (n_up _); [|discriminate]. destruct e; injection E as <-; [auto|]. unfold handle_down in I. cbv zeta in I.
        repeat match type of I with context [if ?c then _ else _] => destruct c end; auto.
      + destruct (nth_error _ _) as [i|]; [|discriminate]. destruct (n_inline _); [discriminate|]. destruct (n_up _); [|discriminate]. injection E as <-.
        unfold take_one in I. cbv zeta in I. destruct (i_status _); try destruct (has _ _); auto.
      + destruct (n_up _); [|discriminate]. injection E as <-. destruct (snd (mark s)); auto.
      + injection E as <-. auto.
      + injection E as <-. auto.
      + destruct (n_up _); [discriminate|]. injection E as <-. auto.
  Qed.
  Lemma okS_run up es s : delays_ok es -> run (start t0 up) es = Some s -> okS es s.
  Proof.
    intros D R. revert es s R D. apply (run_ind_r t0 up (fun es s => delays_ok es -> okS es s)).
    - intros _. split; [reflexivity|]. split; [cbn; lia|]. split; [|intros _ ? ? []].
      repeat split; cbn; try (intros; contradiction); intros; discriminate.
    - intros es a s s' _ S IH D. apply (okS_step es a s s'); auto. apply IH. intros n o d H. apply (D n o d). apply in_or_app. auto.
  Qed.
End Origin.

(** ** The table of tasks *)
Lemma pc_entries n r ok p s s' p' : step_pc n r ok p s = Some (s', p') ->
  (s' = s \/ (exists o, s' = carried o s) \/ exists i, s' = write i s).
Proof.
  destruct p; cbn [step_pc]; intros S; repeat match type of S with context [if ?c then _ else _] => destruct c end;
    repeat match type of S with context [match ?c with Some _ => _ | None => _ end] => destruct c end; try discriminate; injection S as <- <-; eauto.
Qed.
Lemma step_entries s a s' : step s a = Some s' -> entries s' = entries s \/ exists i, entries s' = put (i_name i) i (entries s).
Proof.
  intros E. assert (X : forall n r ok p s1 p1, step_pc n r ok p s = Some (s1, p1) -> entries s1 = entries s \/ exists i, entries s1 = put (i_name i) i (entries s)).
  { intros n r ok p s1 p1 S. apply pc_entries in S. destruct S as [->|[(o & ->)|(i & ->)]]; [left; reflexivity|left; reflexivity|right; exists i; reflexivity]. }
  destruct a; cbn [step] in E.
  - destruct (d >? 0); [|discriminate]. injection E as <-. auto.
  - destruct (_ && _); [|discriminate]. injection E as <-. auto.
  - destruct (_ && _); [|discriminate]. injection E as <-. auto.
  - destruct (nth_error _ _) as [[n p]|]; [|discriminate]. destruct (step_pc _ _ _ _ _) as [[s1 p1]|] eqn:S; [|discriminate]. injection E as <-. exact (X _ _ _ _ _ _ S).
  - destruct (get _ _) as [p|]; [|discriminate]. destruct (step_pc _ _ _ _ _) as [[s1 p1]|] eqn:S; [|discriminate]. injection E as <-. exact (X _ _ _ _ _ _ S).
  - destruct (get _ _) as [p|]; [|discriminate]. destruct (step_pc _ _ _ _ _) as [[s1 p1]|] eqn:S; [|discriminate]. injection E as <-. exact (X _ _ _ _ _ _ S).
  - destruct (n_inline _) as [p|]; [|discriminate]. destruct (step_pc _ _ _ _ _) as [[s1 p1]|] eqn:S; [|discriminate]. injection E as <-. exact (X _ _ _ _ _ _ S).
  - destruct (n_take _); [|discriminate]. destruct (n_inline _); [discriminate|]. destruct (nth_error _ _) as [e|]; [|discriminate].
    destruct (n_up _); [|discriminate]. destruct e; injection E as <-; [auto|]. unfold handle_down. cbv zeta.
    repeat match goal with |- context [if ?c then _ else _] => destruct c end; auto.
  - destruct (nth_error _ _) as [i|]; [|discriminate]. destruct (n_inline _); [discriminate|]. destruct (n_up _); [|discriminate]. injection E as <-.
    right. exists (with_node i n false). unfold take_one. cbv zeta. destruct (i_status _); try destruct (has _ _); reflexivity.
  - destruct (n_up _); [|discriminate]. injection E as <-. destruct (snd (mark s)); auto.
  - injection E as <-. auto.
  - injection E as <-. auto.
  - destruct (n_up _); [discriminate|]. injection E as <-. auto.
Qed.
(** Keys are names, and there is one entry for each. *)
Definition table_wf (m : list (str * info)) : Prop := forall k i, In (k, i) m -> k = i_name i /\ get k m = Some i.
Lemma put_wf i m : table_wf m -> table_wf (put (i_name i) i m).
Proof.
  intros W k j H. apply in_put in H. destruct H as [[-> ->]|[H N]].
  - split; [reflexivity|]. rewrite get_put, str_eqb_refl. reflexivity.
  - destruct (W _ _ H) as [-> G]. split; [reflexivity|]. rewrite get_put. apply str_eqb_neq in N. rewrite N. exact G.
Qed.
Lemma run_wf t0 up es s : run (start t0 up) es = Some s -> table_wf (entries s).
Proof.
  intros R. revert es s R. apply (run_ind_r t0 up (fun _ s => table_wf (entries s))); [intros k i []|].
  intros es a s s' _ S W. destruct (step_entries _ _ _ S) as [->|(i & ->)]; [exact W|apply put_wf, W].
Qed.

(** ** A name nobody works on *)
Section Settled.
  Variables (x : str) (st : status).
  Hypothesis Hst : st <> Schedule /\ st <> Failed.
  Definition quiet_pc (p : pc) : Prop := works_on x p -> st = Executing /\ exists i, p = Look i.
  Record settled (s : state) : Prop := {
    st_wf : table_wf (entries s);
    st_is : exists i, get x (entries s) = Some i /\ i_status i = st;
    st_cl : forall c, In c (clients s) -> quiet_pc (snd c);
    st_as : forall n k p, In (k, p) (n_async (nodes s n)) -> ~ works_on x p;
    st_re : forall n k p, In (k, p) (n_retry (nodes s n)) -> ~ works_on x p;
    st_in : forall n p, n_inline (nodes s n) = Some p -> quiet_pc p;
    st_ta : forall n i, In i (n_take (nodes s n)) -> i_name i = x -> i_status i = st;
    st_lo : forall n k i, n_up (nodes s n) = true -> (n_pos (nodes s n) <= k)%nat -> nth_error (log s) k = Some (EInfo i) -> i_name i = x ->
      i_status i <> Schedule /\ i_status i <> Failed }.
  Definition eff (s s' : state) : Prop :=
    s' = s \/ (exists o, name_of o <> x /\ s' = carried o s) \/ (exists i, (i_name i = x -> i_status i = st) /\ s' = write i s).
  Lemma settled_eff s s' : settled s -> eff s s' -> settled s' /\ done_for x s' = done_for x s.
  Proof.
    intros H [->|[(o & N & ->)|(i & N & ->)]].
    - auto.
    - split; [destruct H; constructor; auto|]. unfold done_for. cbn [carried done]. rewrite filter_app. cbn [filter snd].
      apply str_eqb_neq in N. rewrite N. apply app_nil_r.
    - split; [|reflexivity]. destruct H. constructor; auto; cbn [write entries log nodes].
      + apply put_wf; auto.
      + rewrite get_put. destruct (str_eqb x (i_name i)) eqn:E; [|exact st_is0]. apply str_eqb_eq in E. exists i. auto.
      + intros n k j U L E X. destruct (Nat.lt_ge_cases k (length (log s))) as [Q|Q].
        * rewrite nth_error_app1 in E by exact Q. eauto.
        * rewrite nth_error_app2 in E by exact Q. destruct (k - length (log s))%nat as [|q]; [|destruct q; discriminate].
          injection E as <-. rewrite (N X). exact Hst.
  Qed.
  Lemma settled_pc s n r ok p s' p' : settled s -> quiet_pc p -> step_pc n r ok p s = Some (s', p') -> quiet_pc p' /\ eff s s' /\ (~ works_on x p -> ~ works_on x p').
  Proof.
    intros H Q S. unfold quiet_pc in *.
    assert (D : ~ works_on x p \/ st = Executing /\ exists i, p = Look i /\ i_name i = x).
    { destruct p; cbn [works_on] in *; try (destruct (list_eq_dec Z.eq_dec (i_name i) x) as [E|E]; [|left; exact E]; destruct (Q E) as (A & j & B); try discriminate; right; eauto).
      left. auto. }
    destruct D as [D|(D & i & -> & E)].
    2: { cbn [step_pc] in S. destruct (st_is _ H) as (e & G & T). rewrite E, G, T, D in S. cbn [free_status] in S. injection S as <- <-.
      cbn [works_on]. split; [intros []|]. split; [left; reflexivity|auto]. }
    assert (K : ~ works_on x p' /\ eff s s').
    { destruct p; cbn [step_pc] in S; cbn [works_on] in D.
      - destruct (match get (i_name i) (entries s) with Some old => _ | None => _ end); injection S as <- <-; (split; [|left; reflexivity]); [destruct (is_schedule (i_status i)); exact D|cbn; auto].
      - injection S as <- <-. split; [cbn [works_on]; destruct (snd (mark s)); exact D|left; reflexivity].
      - injection S as <- <-. split; [destruct (is_executing (i_status i)); [exact D|cbn; auto]|]. right. right. exists i. split; [intros F; contradiction|reflexivity].
      - injection S as <- <-. split; [exact D|]. destruct ok; [right; left; exists (i_op i); auto|left; reflexivity].
      - injection S as <- <-. split; [destruct ok0; [cbn; auto|destruct r; [exact D|cbn; auto]]|]. right. right. eexists. split; [|reflexivity]. intros F. contradiction.
      - injection S as <- <-. split; [cbn; auto|]. right. right. exists i. split; [intros F; contradiction|reflexivity].
      - destruct (at_ <=? now s); [|discriminate]. injection S as <- <-. split; [exact D|left; reflexivity].
      - injection S as <- <-. split; [exact D|]. right. right. eexists. split; [|reflexivity]. intros F. contradiction.
      - destruct (at_ <=? now s); [|discriminate]. injection S as <- <-. split; [exact D|left; reflexivity].
      - destruct (at_ <=? now s); [|discriminate]. destruct (get (i_name i) (entries s)) as [e|] eqn:G; injection S as <- <-; (split; [|left; reflexivity]); [|cbn; auto].
        apply get_in in G. destruct (st_wf _ H _ _ G) as [F _]. cbn [works_on]. congruence.
      - discriminate. }
    destruct K. split; [contradiction|]. split; auto.
  Qed.
  Lemma settled_node n v s : settled s -> (forall k p, In (k, p) (n_async v) -> ~ works_on x p) -> (forall k p, In (k, p) (n_retry v) -> ~ works_on x p) ->
    (forall p, n_inline v = Some p -> quiet_pc p) -> (forall i, In i (n_take v) -> i_name i = x -> i_status i = st) ->
    (forall k i, n_up v = true -> (n_pos v <= k)%nat -> nth_error (log s) k = Some (EInfo i) -> i_name i = x -> i_status i <> Schedule /\ i_status i <> Failed) ->
    settled (set_node n v s).
  Proof.
    intros H A B C D F. destruct H. constructor; auto; intros m; rewrite ?nodes_set; destruct (m =? n); eauto.
  Qed.
  Lemma settled_clients c s : settled s -> (forall y, In y c -> quiet_pc (snd y)) -> settled (set_clients c s).
  Proof. intros H K. destruct H. constructor; auto. Qed.
  Lemma eff_nodes s s' n : eff s s' -> nodes s' n = nodes s n.
  Proof. intros [->|[(o & _ & ->)|(i & _ & ->)]]; reflexivity. Qed.

  Lemma settled_step s a s' : settled s -> step s a = Some s' ->
    match a with Issue _ o _ => st = Executing \/ name_of o <> x | Recover _ o => name_of o <> x | _ => True end ->
    settled s' /\ done_for x s' = done_for x s.
  Proof.
    intros H E HA. destruct a; cbn [step] in E.
    - destruct (d >? 0); [|discriminate]. injection E as <-. split; [destruct H; constructor; auto|reflexivity].
    - destruct (_ && _); [|discriminate]. injection E as <-. split; [|reflexivity]. apply settled_clients; [exact H|].
      intros y Y. apply in_app_iff in Y. destruct Y as [Y|[<-|[]]]; [apply (st_cl _ H), Y|]. cbn [snd]. intros W. cbn [works_on] in W.
      assert (name_of o = x) by (revert W; unfold new_info, i_name; destruct after as [z|]; [destruct (z >? 0)|]; auto).
      destruct HA; [eauto|contradiction].
    - destruct (_ && _); [|discriminate]. injection E as <-. split; [|reflexivity]. apply settled_clients; [exact H|].
      intros y Y. apply in_app_iff in Y. destruct Y as [Y|[<-|[]]]; [apply (st_cl _ H), Y|]. cbn [snd]. intros W. contradiction.
    - destruct (nth_error (clients s) k) as [[n p]|] eqn:K; [|discriminate]. destruct (step_pc n false ok p s) as [[s1 p1]|] eqn:S; [|discriminate].
      injection E as <-. apply nth_error_In in K. destruct (settled_pc _ _ _ _ _ _ _ H (st_cl _ H _ K) S) as (Hq & He & _).
      destruct (settled_eff _ _ H He) as [H1 D1]. split; [|exact D1]. apply settled_clients; [exact H1|].
      intros y Y. apply in_set_nth in Y. destruct Y as [->|Y]; [exact Hq|apply (st_cl _ H), Y].
    - destruct (get x0 (n_async (nodes s n))) as [p|] eqn:K; [|discriminate]. destruct (step_pc n false ok p s) as [[s1 p1]|] eqn:S; [|discriminate].
      injection E as <-. apply get_in in K. pose proof (st_as _ H _ _ _ K) as Q. destruct (settled_pc s n false ok p s1 p1 H ltac:(intros W; contradiction) S) as (_ & He & Hq).
      destruct (settled_eff _ _ H He) as [H1 D1]. split; [|exact D1]. apply settled_node; cbn [n_async n_retry n_inline n_take n_up n_pos]; [exact H1| |apply (st_re _ H1)|apply (st_in _ H1)|apply (st_ta _ H1)|apply (st_lo _ H1)].
      intros y q Y. apply in_put in Y. destruct Y as [[-> ->]|[Y _]]; [exact (Hq Q)|exact (st_as _ H1 _ _ _ Y)].
    - destruct (get x0 (n_retry (nodes s n))) as [p|] eqn:K; [|discriminate]. destruct (step_pc n true ok p s) as [[s1 p1]|] eqn:S; [|discriminate].
      injection E as <-. apply get_in in K. pose proof (st_re _ H _ _ _ K) as Q. destruct (settled_pc s n true ok p s1 p1 H ltac:(intros W; contradiction) S) as (_ & He & Hq).
      destruct (settled_eff _ _ H He) as [H1 D1]. split; [|exact D1]. apply settled_node; cbn [n_async n_retry n_inline n_take n_up n_pos]; [exact H1|apply (st_as _ H1)| |apply (st_in _ H1)|apply (st_ta _ H1)|apply (st_lo _ H1)].
      intros y q Y. apply in_put in Y. destruct Y as [[-> ->]|[Y _]]; [exact (Hq Q)|exact (st_re _ H1 _ _ _ Y)].
    - destruct (n_inline (nodes s n)) as [p|] eqn:K; [|discriminate]. destruct (step_pc n false ok p s) as [[s1 p1]|] eqn:S; [|discriminate].
      injection E as <-. destruct (settled_pc s n false ok p s1 p1 H (st_in _ H _ _ K) S) as (Hq & He & _).
      destruct (settled_eff _ _ H He) as [H1 D1]. split; [|exact D1]. apply settled_node; cbn [n_async n_retry n_inline n_take n_up n_pos]; [exact H1|apply (st_as _ H1)|apply (st_re _ H1)| |apply (st_ta _ H1)|apply (st_lo _ H1)].
      intros q Y. assert (q = p1) as ->; [destruct p1; congruence|exact Hq].
    - cbv zeta in E. destruct (n_take (nodes s n)) eqn:KT; [|discriminate]. destruct (n_inline (nodes s n)) eqn:KI; [discriminate|].
      destruct (nth_error (log s) (n_pos (nodes s n))) as [e|] eqn:K; [|discriminate]. destruct (n_up (nodes s n)) eqn:KU; [|discriminate].
      assert (B : settled (set_node n (Node true (S (n_pos (nodes s n))) (n_async (nodes s n)) (n_retry (nodes s n)) [] None) s)).
      { apply settled_node; cbn [n_async n_retry n_inline n_take n_up n_pos]; [exact H|apply (st_as _ H)|apply (st_re _ H)|discriminate|intros ? []|].
        intros k i _ L. apply (st_lo _ H n); [exact KU|lia]. }
      revert E B. set (s1 := set_node n _ s). intros E B.
      assert (LO : forall k i, (S (n_pos (nodes s n)) <= k)%nat -> nth_error (log s1) k = Some (EInfo i) -> i_name i = x -> i_status i <> Schedule /\ i_status i <> Failed)
        by (intros k i L; apply (st_lo _ H n); [exact KU|lia]).
      destruct e as [i|d]; injection E as <-.
      + rewrite Z.eqb_refl. split; [|reflexivity]. pose proof (st_lo _ H n _ i KU (Nat.le_refl _) K) as NS. unfold handle_info.
        destruct (i_new i && _ && _); [destruct (i_status i) eqn:ST; try (destruct (has _ _))|];
          apply settled_node; cbn [n_up n_pos n_take n_async n_retry n_inline]; auto; try apply (st_as _ H); try apply (st_re _ H); try discriminate; try (intros ? []; fail); try (intros k0 i0 _; apply LO).
        * intros y q Y. apply in_put in Y. destruct Y as [[-> ->]|[Y _]]; [|exact (st_as _ H _ _ _ Y)]. cbn [works_on sleeping]. intros W. destruct (NS W). congruence.
        * intros y q Y. apply in_put in Y. destruct Y as [[-> ->]|[Y _]]; [|exact (st_re _ H _ _ _ Y)]. cbn [works_on waiting]. intros W. destruct (NS W). congruence.
        * intros y q Y. apply in_del in Y. destruct Y as [Y _]. exact (st_as _ H _ _ _ Y).
      + unfold handle_down. cbv zeta. set (s2 := if _ && _ then set_mark _ s1 else s1).
        assert (B2 : settled s2 /\ done s2 = done s /\ entries s2 = entries s) by (unfold s2; destruct (_ && _); [split; [destruct B; constructor; auto|split; reflexivity]|split; [exact B|split; reflexivity]]).
        destruct B2 as (B2 & D2 & E2). destruct ((fst (mark s2) =? n) && snd (mark s2)); [|split; [exact B2|unfold done_for; rewrite D2; reflexivity]].
        split; [|unfold done_for; cbn [set_node set_nodes done]; rewrite D2; reflexivity].
        apply settled_node; cbn [n_up n_pos n_take n_async n_retry n_inline]; [exact B2|apply (st_as _ B2)|apply (st_re _ B2)|apply (st_in _ B2)| |apply (st_lo _ B2)].
        intros i I X. apply filter_In in I. destruct I as [I _]. apply in_map_iff in I. destruct I as ([k j] & J & I). cbn [snd] in J. subst j.
        destruct (st_wf _ B2 _ _ I) as [-> G]. destruct (st_is _ B2) as (e & G2 & <-). rewrite X in G. congruence.
    - cbv zeta in E. destruct (nth_error (n_take (nodes s n)) j) as [i|] eqn:K; [|discriminate]. destruct (n_inline (nodes s n)) eqn:KI; [discriminate|].
      destruct (n_up (nodes s n)) eqn:KU; [|discriminate]. injection E as <-. apply nth_error_In in K. pose proof (st_ta _ H _ _ K) as T.
      unfold take_one. cbv zeta. assert (He : eff s (write (with_node i n false) s)) by (right; right; exists (with_node i n false); split; [exact T|reflexivity]).
      destruct (settled_eff _ _ H He) as [B D1]. revert B D1. set (s1 := write (with_node i n false) s). intros B D1.
      assert (N1 : nodes s1 n = nodes s n) by reflexivity. change (i_status (with_node i n false)) with (i_status i).
      assert (R : forall y, In y (remove_nth j (n_take (nodes s n))) -> i_name y = x -> i_status y = st) by (intros y I; apply in_remove_nth in I; apply (st_ta _ H _ _ I)).
      destruct (i_status i) eqn:ST; try (destruct (has _ _)); (split; [|exact D1]);
        apply settled_node; cbn [n_up n_pos n_take n_async n_retry n_inline]; auto; try apply (st_as _ B); try apply (st_re _ B); try apply (st_in _ B); try apply (st_lo _ B); try (intros ? []; fail).
      + intros y q Y. apply in_put in Y. destruct Y as [[-> ->]|[Y _]]; [|exact (st_as _ B _ _ _ Y)]. cbn [works_on sleeping]. intros W. destruct Hst. pose proof (T W). congruence.
      + intros p Y. injection Y as <-. intros W. cbn [works_on] in W. split; [symmetry; apply T, W|eauto].
      + intros y q Y. apply in_put in Y. destruct Y as [[-> ->]|[Y _]]; [|exact (st_re _ B _ _ _ Y)]. cbn [works_on waiting]. intros W. destruct Hst. pose proof (T W). congruence.
    - destruct (n_up (nodes s n)); [|discriminate]. injection E as <-. destruct (snd (mark s)); [auto|]. split; [destruct H; constructor; auto|reflexivity].
    - injection E as <-. split; [|reflexivity]. destruct H. constructor; auto. cbn [nodes log]. intros m k i U L E X.
      destruct (Nat.lt_ge_cases k (length (log s))) as [Q|Q]; [rewrite nth_error_app1 in E by exact Q; eauto|].
      rewrite nth_error_app2 in E by exact Q. destruct (k - length (log s))%nat as [|q]; [discriminate|destruct q; discriminate].
    - injection E as <-. split; [|reflexivity]. apply settled_clients.
      + apply settled_node; cbn [n_up n_pos n_take n_async n_retry n_inline]; [exact H|intros ? ? []|intros ? ? []|discriminate|intros ? []|discriminate].
      + intros y Y. apply in_map_iff in Y. destruct Y as (c & <- & Y). pose proof (st_cl _ H _ Y) as Q. destruct (fst c =? n); [|exact Q].
        destruct (snd c) eqn:SC; cbn [snd]; try (intros []; fail). rewrite SC. intros [].
    - destruct (n_up (nodes s n)); [discriminate|]. injection E as <-. split; [|reflexivity].
      apply settled_node; cbn [n_up n_pos n_take n_async n_retry n_inline]; [exact H|intros ? ? []|intros ? ? []|discriminate|intros ? []|].
      intros k i _ L G. assert (nth_error (log s) k <> None) as Q by congruence. apply nth_error_Some in Q. lia.
  Qed.
  Lemma settled_run es s s' : settled s -> run s es = Some s' ->
    (forall a, In a es -> match a with Issue _ o _ => st = Executing \/ name_of o <> x | Recover _ o => name_of o <> x | _ => True end) ->
    settled s' /\ done_for x s' = done_for x s.
  Proof.
    revert s. induction es as [|a es IH]; intros s H R HA; cbn [run] in R; [injection R as <-; auto|].
    destruct (step s a) as [s1|] eqn:S; [|discriminate]. destruct (settled_step _ _ _ H S (HA _ (or_introl eq_refl))) as [H1 D1].
    destruct (IH _ H1 R (fun b I => HA b (or_intror I))) as [H2 D2]. split; [exact H2|]. congruence.
  Qed.
  Lemma idle_settled t0 up es s : run (start t0 up) es = Some s -> idle x s -> stands x st s -> settled s.
  Proof.
    intros R (A & B & C & D & F) S. constructor.
    - exact (run_wf _ _ _ _ R).
    - exact S.
    - intros c I W. destruct (A _ I W).
    - intros n k p I. apply (B n k). apply in_or_app. auto.
    - intros n k p I. apply (B n k). apply in_or_app. auto.
    - intros n p I W. destruct (C _ _ I W).
    - intros n i I X. destruct (D _ _ I X).
    - exact F.
  Qed.
End Settled.

(** ** The one node that keeps the delayed tasks *)
Section Holder.
  Variable m : Z.
  Definition told (i : info) : Prop := i_status i = Schedule \/ i_status i = Cancel.
  (** Statements announce as new what they schedule or cancel. *)
  Definition fair_pc (p : pc) : Prop :=
    match p with
    | Look i | Mark i | Put i | Cancelling i => told i -> i_new i = true
    | _ => True
    end.
  (** Background tasks run under their own name. *)
  Definition own_pc (k : str) (p : pc) : Prop :=
    match p with Look _ | Mark _ | Put _ | Cancelling _ => False | Ended _ => True | _ => works_on k p end.
  Definition kept_pc (i : info) (p : pc) : Prop := p = Begin i \/ exists w, p = Sleep i w.
  (** What is scheduled was announced, nothing about it later; the holder keeps it from when it has heard that. *)
  Definition kept (s : state) : Prop := forall x i, get x (entries s) = Some i -> told i ->
    i_new i = true /\ exists k, nth_error (log s) k = Some (EInfo i) /\
      (forall k' j, (k < k')%nat -> nth_error (log s) k' = Some (EInfo j) -> i_name j <> x) /\
      ((k < n_pos (nodes s m))%nat -> match i_status i with
                                      | Schedule => exists p, get x (n_async (nodes s m)) = Some p /\ kept_pc i p
                                      | _ => get x (n_async (nodes s m)) = None
                                      end).
  Record holds (s : state) : Prop := {
    h_wf : table_wf (entries s);
    h_mark : mark s = (m, true);
    h_pos : (n_pos (nodes s m) <= length (log s))%nat;
    h_take : forall n, n_take (nodes s n) = [];
    h_inline : forall n, n_inline (nodes s n) = None;
    h_down : forall n, ~ In (EDown n) (log s);
    h_cl : forall c, In c (clients s) -> fair_pc (snd c);
    h_as : forall n k p, In (k, p) (n_async (nodes s n)) -> own_pc k p;
    h_re : forall n k p, In (k, p) (n_retry (nodes s n)) -> own_pc k p;
    h_other : forall n, n <> m -> n_async (nodes s n) = [] /\ n_retry (nodes s n) = [];
    h_kept : kept s }.
  Definition eff2 (s s' : state) : Prop :=
    s' = s \/ (exists o, s' = carried o s) \/ (exists i, (told i -> i_new i = true) /\ s' = write i s).
  Lemma holds_eff s s' : holds s -> eff2 s s' -> holds s'.
  Proof.
    intros H [->|[(o & ->)|(i & N & ->)]]; [exact H|destruct H; constructor; auto|].
    destruct H. constructor; auto; cbn [write entries log nodes mark].
    - apply put_wf; auto.
    - rewrite app_length. lia.
    - intros n I. apply in_app_iff in I. destruct I as [I|[I|[]]]; [exact (h_down0 _ I)|discriminate].
    - intros x j G S. cbn [write entries log nodes] in *. rewrite get_put in G. destruct (str_eqb x (i_name i)) eqn:E.
      + injection G as <-. split; [auto|]. exists (length (log s)). split; [rewrite nth_error_app2, Nat.sub_diag by lia; reflexivity|]. split; [|lia].
        intros k' j L Q. rewrite nth_error_app2 in Q by lia. destruct (k' - length (log s))%nat as [|q] eqn:K; [lia|destruct q; discriminate].
      + destruct (h_kept0 _ _ G S) as (A & k & B & C & D). split; [exact A|]. exists k.
        assert (L : (k < length (log s))%nat) by (apply nth_error_Some; congruence).
        split; [rewrite nth_error_app1 by exact L; exact B|]. split; [|exact D].
        intros k' q K Q. destruct (Nat.lt_ge_cases k' (length (log s))) as [Q1|Q1]; [rewrite nth_error_app1 in Q by exact Q1; eauto|].
        rewrite nth_error_app2 in Q by exact Q1. destruct (k' - length (log s))%nat as [|z]; [|destruct z; discriminate].
        injection Q as <-. apply str_eqb_neq in E. auto.
  Qed.
  Lemma holds_pc s n ok p s' p' : holds s -> fair_pc p -> step_pc n false ok p s = Some (s', p') -> fair_pc p' /\ eff2 s s'.
  Proof.
    intros H F S. destruct p; cbn [step_pc fair_pc] in *.
    - destruct (match get (i_name i) (entries s) with Some old => _ | None => _ end); injection S as <- <-; (split; [|left; reflexivity]); [destruct (is_schedule (i_status i)); exact F|exact Logic.I].
    - injection S as <- <-. split; [|left; reflexivity]. destruct (snd (mark s)); exact F.
    - injection S as <- <-. split; [destruct (is_executing (i_status i)); exact Logic.I|]. right; right. exists i. auto.
    - injection S as <- <-. split; [exact Logic.I|]. destruct ok; [right; left; eauto|left; reflexivity].
    - injection S as <- <-. split; [destruct ok0; exact Logic.I|]. right; right. eexists. split; [|reflexivity]. intros [X|X]; cbn [i_status] in X; destruct ok0; discriminate.
    - injection S as <- <-. split; [exact Logic.I|]. right; right. exists i. split; [exact F|reflexivity].
    - destruct (at_ <=? now s); [|discriminate]. injection S as <- <-. split; [exact Logic.I|left; reflexivity].
    - injection S as <- <-. split; [exact Logic.I|]. right; right. eexists. split; [|reflexivity]. intros [X|X]; discriminate.
    - destruct (at_ <=? now s); [|discriminate]. injection S as <- <-. split; [exact Logic.I|left; reflexivity].
    - destruct (at_ <=? now s); [|discriminate]. destruct (get _ _); injection S as <- <-; (split; [exact Logic.I|left; reflexivity]).
    - discriminate.
  Qed.
  Lemma own_step s n r ok k p s' p' : holds s -> own_pc k p -> step_pc n r ok p s = Some (s', p') -> own_pc k p' /\ eff2 s s' /\
    (forall i, kept_pc i p -> kept_pc i p' \/ exists j, get k (entries s') = Some j /\ ~ told j).
  Proof.
    intros H F S. assert (NK : forall q, (forall i, ~ kept_pc i p) -> forall i, kept_pc i p -> q) by (intros q A i B; destruct (A i B)).
    destruct p; cbn [step_pc own_pc works_on] in *; try contradiction.
    - injection S as <- <-. split; [exact F|]. split; [destruct ok; [right; left; eauto|left; reflexivity]|]. intros j [X|(w & X)]; discriminate.
    - injection S as <- <-. split; [destruct ok0; [exact Logic.I|destruct r; [exact F|exact Logic.I]]|]. split; [|intros j [X|(w & X)]; discriminate].
      right; right. eexists. split; [|reflexivity]. intros [X|X]; cbn [i_status] in X; destruct ok0; discriminate.
    - destruct (at_ <=? now s); [|discriminate]. injection S as <- <-. split; [exact F|]. split; [left; reflexivity|].
      intros j [X|(w & X)]; [discriminate|]. injection X as -> _. left. left. reflexivity.
    - injection S as <- <-. split; [exact F|]. split; [right; right; eexists; split; [|reflexivity]; intros [X|X]; discriminate|].
      intros j _. right. eexists. split; [cbn [write entries]; rewrite get_put; change (i_name (with_status i Executing false)) with (i_name i); rewrite F, str_eqb_refl; reflexivity|intros [X|X]; discriminate].
    - destruct (at_ <=? now s); [|discriminate]. injection S as <- <-. split; [exact F|]. split; [left; reflexivity|]. intros j [X|(w & X)]; discriminate.
    - destruct (at_ <=? now s); [|discriminate]. destruct (get (i_name i) (entries s)) as [e|] eqn:G; injection S as <- <-; (split; [|split; [left; reflexivity|intros j [X|(w & X)]; discriminate]]); [|exact Logic.I].
      apply get_in in G. destruct (h_wf _ H _ _ G) as [E _]. cbn [own_pc works_on]. congruence.
    - discriminate.
  Qed.
  Lemma eff2_nodes s s' n : eff2 s s' -> nodes s' n = nodes s n.
  Proof. intros [->|[(o & ->)|(i & _ & ->)]]; reflexivity. Qed.
  Lemma holds_node n v s : holds s -> n_take v = [] -> n_inline v = None ->
    (forall k p, In (k, p) (n_async v) -> own_pc k p) -> (forall k p, In (k, p) (n_retry v) -> own_pc k p) ->
    (n = m -> (n_pos v <= length (log s))%nat) -> (n <> m -> n_async v = [] /\ n_retry v = []) -> kept (set_node n v s) -> holds (set_node n v s).
  Proof.
    intros H A B C D E O K. destruct H. constructor; auto; try (intros q; rewrite nodes_set; destruct (q =? n); eauto; fail).
    - rewrite nodes_set. destruct (Z.eqb_spec m n); auto.
    - intros q Q. rewrite nodes_set. destruct (Z.eqb_spec q n); [subst; auto|auto].
  Qed.
  Lemma kept_node n v s : kept s -> (n = m -> n_pos v = n_pos (nodes s m) /\ n_async v = n_async (nodes s m)) -> kept (set_node n v s).
  Proof.
    intros K E x i G S. destruct (K x i G S) as (A & k & B & C & D). split; [exact A|]. exists k. split; [exact B|]. split; [exact C|].
    rewrite nodes_set. destruct (Z.eqb_spec m n) as [Q|Q]; [|exact D]. destruct (E (eq_sym Q)) as [-> ->]. exact D.
  Qed.
  Lemma holds_step s a s' : holds s -> step s a = Some s' -> match a with Down _ | Crash _ | Start _ => False | _ => True end -> holds s'.
  Proof.
    intros H E HA. destruct a; cbn [step] in E; try contradiction.
    - destruct (d >? 0); [|discriminate]. injection E as <-. destruct H; constructor; auto.
    - destruct (_ && _); [|discriminate]. injection E as <-. destruct H; constructor; auto. cbn [set_clients clients].
      intros y Y. apply in_app_iff in Y. destruct Y as [Y|[<-|[]]]; [auto|]. cbn [snd fair_pc]. intros _. unfold new_info.
      destruct after as [z|]; [destruct (z >? 0)|]; reflexivity.
    - destruct (_ && _); [|discriminate]. injection E as <-. destruct H; constructor; auto. cbn [set_clients clients].
      intros y Y. apply in_app_iff in Y. destruct Y as [Y|[<-|[]]]; [auto|]. cbn [snd fair_pc]. reflexivity.
    - destruct (nth_error (clients s) k) as [[n p]|] eqn:K; [|discriminate]. destruct (step_pc n false ok p s) as [[s1 p1]|] eqn:S; [|discriminate].
      injection E as <-. apply nth_error_In in K. destruct (holds_pc _ _ _ _ _ _ H (h_cl _ H _ K) S) as (Hq & He).
      pose proof (holds_eff _ _ H He) as H1. assert (Hc : forall y, In y (set_nth k (n, p1) (clients s)) -> fair_pc (snd y)).
      { intros y Y. apply in_set_nth in Y. destruct Y as [->|Y]; [exact Hq|apply (h_cl _ H), Y]. }
      destruct H1; constructor; auto.
    - destruct (get x (n_async (nodes s n))) as [p|] eqn:K; [|discriminate]. destruct (step_pc n false ok p s) as [[s1 p1]|] eqn:S; [|discriminate].
      injection E as <-. pose proof (h_as _ H _ _ _ (get_in _ _ _ K)) as Q. destruct (own_step _ _ _ _ _ _ _ _ H Q S) as (Hq & He & Hk).
      pose proof (holds_eff _ _ H He) as H1. pose proof (eff2_nodes _ _ n He) as N1. pose proof (eff2_nodes _ _ m He) as N2.
      apply holds_node; cbn [n_async n_retry n_inline n_take n_up n_pos]; [exact H1|apply (h_take _ H1)|apply (h_inline _ H1)| |apply (h_re _ H1)|intros ->; apply (h_pos _ H1)| |].
      + intros y q Y. apply in_put in Y. destruct Y as [[-> ->]|[Y _]]; [exact Hq|exact (h_as _ H1 _ _ _ Y)].
      + intros NM. destruct (h_other _ H _ NM) as [X _]. rewrite X in K. discriminate.
      + intros y i G Sc. destruct (h_kept _ H1 y i G Sc) as (A & k & B & C & D). split; [exact A|]. exists k. split; [exact B|]. split; [exact C|].
        rewrite nodes_set. destruct (Z.eqb_spec m n) as [->|Ne]; [|exact D]. cbn [n_pos n_async]. intros L. specialize (D L).
        rewrite get_put. destruct (str_eqb y x) eqn:YX; [|exact D]. apply str_eqb_eq in YX. subst y. rewrite N1, K in D.
        destruct Sc as [Sc|Sc]; rewrite Sc in *; [|discriminate]. destruct D as (q & D1 & D2).
        injection D1 as <-. destruct (Hk _ D2) as [X|(j & X & Y)]; [eauto|].
        change (entries (set_node n _ s1)) with (entries s1) in G. rewrite X in G. injection G as <-. destruct Y. left. exact Sc.
    - destruct (get x (n_retry (nodes s n))) as [p|] eqn:K; [|discriminate]. destruct (step_pc n true ok p s) as [[s1 p1]|] eqn:S; [|discriminate].
      injection E as <-. pose proof (h_re _ H _ _ _ (get_in _ _ _ K)) as Q. destruct (own_step _ _ _ _ _ _ _ _ H Q S) as (Hq & He & Hk).
      pose proof (holds_eff _ _ H He) as H1.
      apply holds_node; cbn [n_async n_retry n_inline n_take n_up n_pos]; [exact H1|apply (h_take _ H1)|apply (h_inline _ H1)|apply (h_as _ H1)| |intros ->; apply (h_pos _ H1)| |].
      + intros y q Y. apply in_put in Y. destruct Y as [[-> ->]|[Y _]]; [exact Hq|exact (h_re _ H1 _ _ _ Y)].
      + intros NM. destruct (h_other _ H _ NM) as [_ X]. rewrite X in K. discriminate.
      + apply kept_node; [apply (h_kept _ H1)|]. intros ->. split; reflexivity.
    - rewrite (h_inline _ H) in E. discriminate.
    - cbv zeta in E. rewrite (h_take _ H), (h_inline _ H) in E.
      destruct (nth_error (log s) (n_pos (nodes s n))) as [e|] eqn:K; [|discriminate]. destruct (n_up (nodes s n)) eqn:KU; [|discriminate].
      destruct e as [i|d]; [|destruct (h_down _ H d (nth_error_In _ _ K))]. injection E as <-. rewrite Z.eqb_refl.
      assert (L : (n_pos (nodes s n) < length (log s))%nat) by (apply nth_error_Some; congruence).
      set (v := Node true (S (n_pos (nodes s n))) (n_async (nodes s n)) (n_retry (nodes s n)) [] None).
      set (s1 := set_node n v s). set (v' := handle_info n i v s1).
      assert (SS : holds (set_node n v' s)).
      2: { destruct SS. constructor; auto; try (intros q; specialize (h_take0 q); specialize (h_inline0 q); specialize (h_as0 q); specialize (h_re0 q); specialize (h_other0 q));
           unfold s1; rewrite ?nodes_set in *; try (destruct (q =? n); auto; fail); try (destruct (m =? n); auto; fail).
           intros y j G Sc. destruct (h_kept0 y j G Sc) as (X1 & k & X2 & X3 & X4). split; [exact X1|]. exists k. split; [exact X2|]. split; [exact X3|].
           rewrite !nodes_set in *. destruct (m =? n); exact X4. }
      assert (FM : (fst (mark s1) =? n) && snd (mark s1) = (m =? n)) by (change (mark s1) with (mark s); rewrite (h_mark _ H); cbn [fst snd]; rewrite andb_true_r; reflexivity).
      assert (V' : v' = if i_new i && (m =? n) then
        match i_status i with
        | Schedule => Node true (S (n_pos (nodes s n))) (put (i_name i) (sleeping i s1) (n_async (nodes s n))) (n_retry (nodes s n)) [] None
        | Failed => if has (i_name i) (n_retry (nodes s n)) then v
                else Node true (S (n_pos (nodes s n))) (n_async (nodes s n)) (put (i_name i) (waiting i s1) (n_retry (nodes s n))) [] None
        | Cancel => Node true (S (n_pos (nodes s n))) (del (i_name i) (n_async (nodes s n))) (n_retry (nodes s n)) [] None
        | _ => v end else v).
      { unfold v', handle_info. rewrite <- andb_assoc, FM. reflexivity. }
      assert (P1 : n_pos v' = S (n_pos (nodes s n)) /\ n_take v' = [] /\ n_inline v' = None).
      { rewrite V'. destruct (i_new i && (m =? n)); [destruct (i_status i); try destruct (has _ _)|]; auto. }
      destruct P1 as (P1 & P2 & P3).
      assert (AS : forall k p, In (k, p) (n_async v') -> own_pc k p).
      { rewrite V'. destruct (i_new i && (m =? n)); [destruct (i_status i); try destruct (has _ _)|]; cbn [n_async v]; try apply (h_as _ H).
        - intros k p I. apply in_put in I. destruct I as [[-> ->]|[I _]]; [reflexivity|exact (h_as _ H _ _ _ I)].
        - intros k p I. apply in_del in I. destruct I as [I _]. exact (h_as _ H _ _ _ I). }
      assert (RE : forall k p, In (k, p) (n_retry v') -> own_pc k p).
      { rewrite V'. destruct (i_new i && (m =? n)); [destruct (i_status i); try destruct (has _ _)|]; cbn [n_retry v]; try apply (h_re _ H).
        intros k p I. apply in_put in I. destruct I as [[-> ->]|[I _]]; [reflexivity|exact (h_re _ H _ _ _ I)]. }
      apply holds_node; auto; [intros ->; rewrite P1; lia| |].
      { intros NM. rewrite V'. apply Z.eqb_neq in NM. rewrite Z.eqb_sym in NM. rewrite NM, andb_false_r. apply Z.eqb_neq in NM. apply (h_other _ H). congruence. }
      intros y j G Sc. change (entries (set_node n v' s)) with (entries s) in G. destruct (h_kept _ H y j G Sc) as (X1 & k & X2 & X3 & X4).
      split; [exact X1|]. exists k. split; [exact X2|]. split; [exact X3|]. rewrite nodes_set. destruct (Z.eqb_spec m n) as [<-|Ne]; [|exact X4].
      rewrite P1. intros LK. destruct (Nat.eq_dec k (n_pos (nodes s m))) as [->|NK].
      + rewrite K in X2. injection X2 as <-. rewrite V', X1. destruct (h_wf _ H _ _ (get_in _ _ _ G)) as [-> _].
        destruct Sc as [Sc|Sc]; rewrite Sc; cbn [andb n_async].
        * rewrite get_put, str_eqb_refl. eexists. split; [reflexivity|]. right. eexists. reflexivity.
        * rewrite get_del, str_eqb_refl. reflexivity.
      + specialize (X4 ltac:(lia)). assert (LN : (k < n_pos (nodes s m))%nat) by lia. pose proof (X3 _ _ LN K) as NE.
        assert (NE' : str_eqb y (i_name i) = false) by (apply str_eqb_neq; congruence).
        assert (AE : get y (n_async v') = get y (n_async (nodes s m))).
        { rewrite V'. destruct (i_new i && true); [destruct (i_status i); try destruct (has _ _)|]; cbn [n_async v]; try reflexivity; rewrite ?get_put, ?get_del, NE'; reflexivity. }
        rewrite AE. exact X4.
    - rewrite (h_take _ H) in E. destruct j; discriminate.
    - destruct (n_up (nodes s n)); [|discriminate]. injection E as <-. rewrite (h_mark _ H). exact H.
  Qed.
  Lemma holds_run es s s' : holds s -> run s es = Some s' -> no_loss es -> holds s'.
  Proof.
    revert s. induction es as [|a es IH]; intros s H R L; cbn [run] in R; [injection R as <-; exact H|].
    destruct (step s a) as [s1|] eqn:S; [|discriminate]. apply (IH s1); [|exact R|intros b I; apply (L b); right; exact I].
    apply (holds_step s a); [exact H|exact S|]. apply (L a). left. reflexivity.
  Qed.
  Lemma holds_start t0 up es s : run (start t0 up) (Join m :: es) = Some s -> no_loss es -> holds s.
  Proof.
    cbn [run step]. destruct (n_up (nodes (start t0 up) m)); [|discriminate]. intros R L.
    apply (holds_run es (set_mark (m, true) (start t0 up))); [|exact R|exact L].
    constructor; auto; cbn; try (intros ? []; fail); try (intros ? ? []; fail); try (intros ? ? ? []; fail). intros x i. discriminate.
  Qed.
End Holder.

(** ** What the holder keeps can be carried out *)
Lemma async_step m x p ok s s1 p1 : get x (n_async (nodes s m)) = Some p -> step_pc m false ok p s = Some (s1, p1) -> nodes s1 m = nodes s m ->
  exists s2, step s (Async m x ok) = Some s2 /\ get x (n_async (nodes s2 m)) = Some p1 /\ now s2 = now s1 /\ done s2 = done s1.
Proof.
  intros G S N. cbn [step]. rewrite G, S. eexists. split; [reflexivity|]. rewrite nodes_set, Z.eqb_refl. cbn [n_async]. rewrite get_put, str_eqb_refl. auto.
Qed.
Lemma finish m x s i p : get x (n_async (nodes s m)) = Some p -> kept_pc i p ->
  exists es s', only_task m x es /\ run s es = Some s' /\ In (match p with Sleep _ w => Z.max w (now s) | _ => now s end, i_op i) (done s').
Proof.
  assert (B : forall s, get x (n_async (nodes s m)) = Some (Begin i) ->
    exists s', run s [Async m x true; Async m x true] = Some s' /\ In (now s, i_op i) (done s')).
  { clear. intros s G. edestruct (async_step m x (Begin i) true s) as (s1 & S1 & G1 & N1 & D1); [exact G|reflexivity|reflexivity|].
    edestruct (async_step m x (Run (with_status i Executing false)) true s1) as (s2 & S2 & G2 & N2 & D2); [exact G1|reflexivity|reflexivity|].
    exists s2. cbn [run]. rewrite S1, S2. split; [reflexivity|]. rewrite D2. cbn [carried done]. apply in_or_app. right. left. rewrite N1. reflexivity. }
  assert (W : forall s w, get x (n_async (nodes s m)) = Some (Sleep i w) -> w <= now s ->
    exists s', run s [Async m x true; Async m x true; Async m x true] = Some s' /\ In (now s, i_op i) (done s')).
  { clear - B. intros s w G L. edestruct (async_step m x (Sleep i w) true s) as (s1 & S1 & G1 & N1 & D1); [exact G| |reflexivity|].
    { cbn [step_pc]. apply Z.leb_le in L. rewrite L. reflexivity. }
    destruct (B s1 G1) as (s2 & R & I). exists s2. cbn [run] in *. rewrite S1. split; [exact R|]. rewrite N1 in I. exact I. }
  intros G [->|(w & ->)].
  - destruct (B s G) as (s' & R & I). exists [Async m x true; Async m x true], s'. split; [|auto]. intros a [<-|[<-|[]]]; auto.
  - destruct (Z.le_gt_cases w (now s)) as [L|L].
    + destruct (W s w G L) as (s' & R & I). exists [Async m x true; Async m x true; Async m x true], s'.
      split; [intros a [<-|[<-|[<-|[]]]]; auto|]. split; [exact R|]. rewrite Z.max_r by lia. exact I.
    + set (s1 := St (now s + (w - now s)) (entries s) (mark s) (log s) (nodes s) (clients s) (done s)).
      assert (N1 : now s1 = w) by (unfold s1; cbn [now]; lia).
      destruct (W s1 w G ltac:(lia)) as (s' & R & I). exists [Tick (w - now s); Async m x true; Async m x true; Async m x true], s'.
      split; [intros a [<-|[<-|[<-|[<-|[]]]]]; eauto|]. rewrite N1 in I. rewrite Z.max_l by lia. split; [|exact I].
      change (run s (Tick (w - now s) :: [Async m x true; Async m x true; Async m x true])) with
        (match step s (Tick (w - now s)) with Some s' => run s' [Async m x true; Async m x true; Async m x true] | None => None end).
      cbn [step]. destruct (Z.gtb_spec (w - now s) 0); [exact R|lia].
Qed.
Lemma not_forgotten t0 up m es s x i : run (start t0 up) (Join m :: es) = Some s -> no_loss es -> delays_ok es ->
  n_pos (nodes s m) = length (log s) -> get x (entries s) = Some i -> i_status i = Schedule ->
  exists V t es' s', asked_for t0 es (i_op i) V /\ only_task m x es' /\ run s es' = Some s' /\ In (t, i_op i) (done s') /\ (now s <= V -> t = V).
Proof.
  intros R L D P G S. pose proof (holds_start _ _ _ _ _ R L) as H. destruct (h_kept _ _ H _ _ G (or_introl S)) as (_ & k & K & _ & X). rewrite S in X.
  assert (LK : (k < length (log s))%nat) by (apply nth_error_Some; congruence).
  destruct (X ltac:(lia)) as (p & Q & KP).
  assert (D' : delays_ok (Join m :: es)) by (intros n o a [E|I]; [discriminate|exact (D n o a I)]).
  destruct (okS_run t0 up _ s D' R) as (_ & _ & (_ & _ & _ & _ & A & _) & _).
  pose proof (A _ _ _ (get_in _ _ _ Q)) as OK.
  assert (AF : forall V, asked_for t0 (Join m :: es) (i_op i) V -> asked_for t0 es (i_op i) V).
  { intros V (es1 & n & after & es2 & E1 & E2). destruct es1 as [|a es1]; [discriminate|]. injection E1 as Ea Eb. subst a es. exists es1, n, after, es2. auto. }
  destruct (finish m x s i p Q KP) as (es' & s' & F1 & F2 & F3).
  destruct KP as [->|(w & ->)]; cbn [okQ] in OK.
  - destruct OK as (_ & _ & V & V1 & V2). exists V, (now s), es', s'. repeat (split; auto). intros. lia.
  - destruct OK as (_ & _ & V & V1 & V2 & V3). exists V, (Z.max w (now s)), es', s'. repeat (split; auto). intros. lia.
Qed.

(** ** A statement that finds its name free *)
Section Statement.
  Variables (k : nat) (o : op) (t : Z).
  Definition carried_out (s : state) : Prop := exists t', t <= t' /\ In (t', o) (done s).
  Definition goes_on (s : state) : Prop := t <= now s /\ exists n p, nth_error (clients s) k = Some (n, p) /\
    match p with
    | Put i | Run i => i_op i = o /\ i_status i = Executing
    | Note i r => i_op i = o /\ (r = true -> carried_out s)
    | Ended r => r = true -> carried_out s
    | _ => False
    end.
  Lemma step_done s a s' : step s a = Some s' -> now s <= now s' /\ exists l, done s' = done s ++ l.
  Proof.
    intros E. assert (X : forall n r ok p s1 p1, step_pc n r ok p s = Some (s1, p1) -> now s <= now s1 /\ exists l, done s1 = done s ++ l).
    { intros n r ok p s1 p1 S. apply pc_entries in S. destruct S as [->|[(q & ->)|(i & ->)]]; (split; [cbn; lia|]); [exists []|exists [(now s, q)]|exists []]; cbn [carried write done]; rewrite ?app_nil_r; reflexivity. }
    assert (Y : now s <= now s /\ exists l, done s = done s ++ l) by (split; [lia|exists []; rewrite app_nil_r; reflexivity]).
    destruct a; cbn [step] in E.
    - destruct (Z.gtb_spec d 0); [|discriminate]. injection E as <-. cbn [now done]. split; [lia|apply Y].
    - destruct (_ && _); [|discriminate]. injection E as <-. exact Y.
    - destruct (_ && _); [|discriminate]. injection E as <-. exact Y.
    - destruct (nth_error _ _) as [[n p]|]; [|discriminate]. destruct (step_pc _ _ _ _ _) as [[s1 p1]|] eqn:S; [|discriminate]. injection E as <-. exact (X _ _ _ _ _ _ S).
    - destruct (get _ _) as [p|]; [|discriminate]. destruct (step_pc _ _ _ _ _) as [[s1 p1]|] eqn:S; [|discriminate]. injection E as <-. exact (X _ _ _ _ _ _ S).
    - destruct (get _ _) as [p|]; [|discriminate]. destruct (step_pc _ _ _ _ _) as [[s1 p1]|] eqn:S; [|discriminate]. injection E as <-. exact (X _ _ _ _ _ _ S).
    - destruct (n_inline _) as [p|]; [|discriminate]. destruct (step_pc _ _ _ _ _) as [[s1 p1]|] eqn:S; [|discriminate]. injection E as <-. exact (X _ _ _ _ _ _ S).
    - destruct (n_take _); [|discriminate]. destruct (n_inline _); [discriminate|]. destruct (nth_error _ _) as [e|]; [|discriminate].
      destruct (n_up _); [|discriminate]. destruct e; injection E as <-; [exact Y|]. unfold handle_down. cbv zeta.
      repeat match goal with |- context [if ?c then _ else _] => destruct c end; exact Y.
    - destruct (nth_error _ _) as [i|]; [|discriminate]. destruct (n_inline _); [discriminate|]. destruct (n_up _); [|discriminate]. injection E as <-.
      unfold take_one. cbv zeta. destruct (i_status _); try destruct (has _ _); exact Y.
    - destruct (n_up _); [|discriminate]. injection E as <-. destruct (snd (mark s)); exact Y.
    - injection E as <-. exact Y.
    - injection E as <-. exact Y.
    - destruct (n_up _); [discriminate|]. injection E as <-. exact Y.
  Qed.
  (** What another event does to the statement. *)
  Lemma step_client s a s' n p : step s a = Some s' -> (forall b, a <> Client k b) -> nth_error (clients s) k = Some (n, p) ->
    nth_error (clients s') k = Some (n, p) \/ nth_error (clients s') k = Some (n, Ended false).
  Proof.
    intros E NC K. assert (X : forall n r ok p s1 p1, step_pc n r ok p s = Some (s1, p1) -> clients s1 = clients s).
    { intros n0 r ok p0 s1 p1 S. apply pc_entries in S. destruct S as [->|[(q & ->)|(i & ->)]]; reflexivity. }
    assert (L : (k < length (clients s))%nat) by (apply nth_error_Some; congruence).
    destruct a; cbn [step] in E.
    - destruct (d >? 0); [|discriminate]. injection E as <-. auto.
    - destruct (_ && _); [|discriminate]. injection E as <-. left. cbn [set_clients clients]. rewrite nth_error_app1; auto.
    - destruct (_ && _); [|discriminate]. injection E as <-. left. cbn [set_clients clients]. rewrite nth_error_app1; auto.
    - destruct (nth_error (clients s) k0) as [[n0 p0]|]; [|discriminate]. destruct (step_pc _ _ _ _ _) as [[s1 p1]|] eqn:S; [|discriminate]. injection E as <-.
      left. cbn [set_clients clients]. assert (k <> k0) as NE by (intros ->; apply (NC ok); reflexivity). rewrite nth_set_nth.
      destruct (Nat.eqb_spec k k0); [contradiction|]. try (destruct (Nat.eqb_spec k0 k); [congruence|]). exact K.
    - destruct (get _ _) as [p0|]; [|discriminate]. destruct (step_pc _ _ _ _ _) as [[s1 p1]|] eqn:S; [|discriminate]. injection E as <-. left. cbn [set_node set_nodes clients]. rewrite (X _ _ _ _ _ _ S). exact K.
    - destruct (get _ _) as [p0|]; [|discriminate]. destruct (step_pc _ _ _ _ _) as [[s1 p1]|] eqn:S; [|discriminate]. injection E as <-. left. cbn [set_node set_nodes clients]. rewrite (X _ _ _ _ _ _ S). exact K.
    - destruct (n_inline _) as [p0|]; [|discriminate]. destruct (step_pc _ _ _ _ _) as [[s1 p1]|] eqn:S; [|discriminate]. injection E as <-. left. cbn [set_node set_nodes clients]. rewrite (X _ _ _ _ _ _ S). exact K.
    - destruct (n_take _); [|discriminate]. destruct (n_inline _); [discriminate|]. destruct (nth_error (log s) _) as [e|]; [|discriminate].
      destruct (n_up _); [|discriminate]. left. destruct e; injection E as <-; [exact K|]. unfold handle_down. cbv zeta.
      repeat match goal with |- context [if ?c then _ else _] => destruct c end; exact K.
    - destruct (nth_error (n_take _) _) as [i|]; [|discriminate]. destruct (n_inline _); [discriminate|]. destruct (n_up _); [|discriminate]. injection E as <-.
      left. unfold take_one. cbv zeta. destruct (i_status _); try destruct (has _ _); exact K.
    - destruct (n_up _); [|discriminate]. injection E as <-. left. destruct (snd (mark s)); exact K.
    - injection E as <-. auto.
    - injection E as <-. cbn [set_clients clients]. rewrite nth_error_map, K. cbn [option_map fst snd].
      destruct (Z.eqb_spec n n0) as [->|]; [|auto]. destruct p; auto.
    - destruct (n_up _); [discriminate|]. injection E as <-. auto.
  Qed.
  Lemma goes_on_step s a s' : goes_on s -> step s a = Some s' -> goes_on s'.
  Proof.
    intros (T & n & p & K & H) E. destruct (step_done _ _ _ E) as [N (l & D)].
    assert (M : carried_out s -> carried_out s') by (intros (t' & A & B); exists t'; rewrite D; split; [exact A|apply in_or_app; auto]).
    split; [lia|].
    assert (C : (exists b, a = Client k b) \/ forall b, a <> Client k b).
    { destruct a; try (right; intros b; discriminate). destruct (Nat.eq_dec k k0) as [->|NE]; [left; eauto|right; intros b; congruence]. }
    destruct C as [(b & ->)|C].
    - cbn [step] in E. rewrite K in E. destruct (step_pc n false b p s) as [[s1 p1]|] eqn:S; [|discriminate]. injection E as <-.
      exists n, p1. split.
      { cbn [set_clients clients]. rewrite nth_set_nth. rewrite Nat.eqb_refl. assert (L : (k < length (clients s))%nat) by (apply nth_error_Some; congruence).
        try (apply Nat.ltb_lt in L; rewrite L). try rewrite K. reflexivity. }
      destruct p; cbn [step_pc] in S; try contradiction; try discriminate.
      + injection S as <- <-. destruct H as [H1 H2]. rewrite H2. cbn [is_executing]. auto.
      + injection S as <- <-. destruct H as [H1 H2]. split; [exact H1|]. intros ->. exists (now s). split; [exact T|].
        cbn [set_clients carried done]. apply in_or_app. right. left. rewrite H1. reflexivity.
      + injection S as <- <-. destruct H as [H1 H2]. destruct ok; [|discriminate]. intros _. exact (M (H2 eq_refl)).
    - destruct (step_client _ _ _ _ _ E C K) as [K'|K'].
      + exists n, p. split; [exact K'|]. destruct p; auto. destruct H; auto.
      + exists n, (Ended false). split; [exact K'|discriminate].
  Qed.
  Lemma goes_on_run es s s' : goes_on s -> run s es = Some s' -> goes_on s'.
  Proof.
    revert s. induction es as [|a es IH]; intros s H R; cbn [run] in R; [injection R as <-; exact H|].
    destruct (step s a) as [s1|] eqn:S; [|discriminate]. exact (IH s1 (goes_on_step _ _ _ H S) R).
  Qed.
  Lemma waits_run es s s' n p : run s es = Some s' -> client_waits k es -> nth_error (clients s) k = Some (n, p) ->
    nth_error (clients s') k = Some (n, p) \/ nth_error (clients s') k = Some (n, Ended false).
  Proof.
    revert s p. induction es as [|a es IH]; intros s p R W K; cbn [run] in R; [injection R as <-; auto|].
    destruct (step s a) as [s1|] eqn:S; [|discriminate]. assert (W' : client_waits k es) by (intros b I; apply (W b); right; exact I).
    destruct (step_client _ _ _ _ _ S (fun b e => W b (or_introl e)) K) as [K'|K']; [exact (IH _ _ R W' K')|].
    destruct (IH _ _ R W' K'); auto.
  Qed.
  Lemma run_now es s s' : run s es = Some s' -> now s <= now s'.
  Proof.
    revert s. induction es as [|a es IH]; intros s R; cbn [run] in R; [injection R as <-; lia|].
    destruct (step s a) as [s1|] eqn:S; [|discriminate]. destruct (step_done _ _ _ S). specialize (IH _ R). lia.
  Qed.
End Statement.
Lemma statement_done s0 n o after es2 b es3 k s1 s2 s : k = length (clients s0) -> delay after = 0 ->
  step s0 (Issue n o after) = Some s1 -> run s1 es2 = Some s2 -> client_waits k es2 -> unclaimed (name_of o) s2 ->
  run s2 (Client k b :: es3) = Some s -> nth_error (clients s) k = Some (n, Ended true) ->
  exists t, now s0 <= t /\ In (t, o) (done s).
Proof.
  intros Hk Hd S1 R2 W U R3 HE.
  cbn [step] in S1. destruct (_ && _); [|discriminate]. injection S1 as <-.
  assert (NI : new_info o after (now s0) n = Info o (now s0) 0 Executing n true).
  { unfold new_info. destruct after as [z|]; [|reflexivity]. unfold delay in Hd. destruct (Z.gtb_spec z 0); [lia|reflexivity]. }
  rewrite NI in R2. assert (T : now s0 <= now s2) by exact (run_now 0 _ _ _ R2).
  destruct (waits_run k es2 _ s2 n (Look (Info o (now s0) 0 Executing n true)) R2 W) as [K|K].
  { cbn [set_clients clients]. rewrite nth_error_app2, Hk, Nat.sub_diag by lia. reflexivity. }
  2: { cbn [run step] in R3. rewrite K in R3. cbn in R3. discriminate. }
  cbn [run step] in R3. rewrite K in R3. cbn [step_pc] in R3. change (i_name (Info o (now s0) 0 Executing n true)) with (name_of o) in R3.
  assert (F : match get (name_of o) (entries s2) with Some old => free_status (i_status old) | None => true end = true).
  { destruct U as [U1 U2]. destruct (get (name_of o) (entries s2)) as [old|] eqn:G; [|reflexivity].
    destruct (i_status old) eqn:ST; auto; exfalso; [apply U1|apply U2]; exists old; auto. }
  rewrite F in R3. cbn [i_status is_schedule] in R3.
  assert (G : goes_on k o (now s0) s).
  { apply (goes_on_run k o (now s0) es3 _ _) with (2 := R3). split; [exact T|]. exists n, (Put (Info o (now s0) 0 Executing n true)). split; [|auto].
    cbn [set_clients clients]. rewrite nth_set_nth, Nat.eqb_refl. assert (L : (k < length (clients s2))%nat) by (apply nth_error_Some; congruence).
    try (apply Nat.ltb_lt in L; rewrite L). try rewrite K. reflexivity. }
  destruct G as (_ & n' & p & K' & H). rewrite HE in K'. injection K' as <- <-. destruct (H eq_refl) as (t & A & B). eauto.
Qed.

(** ** After RECOVER has reached the nodes *)
Lemma recovered_idle t0 up m es s x : run (start t0 up) (Join m :: es) = Some s -> no_loss es -> stands x Cancel s ->
  (forall n, n_up (nodes s n) = true -> up_to_date n s) -> up_to_date m s ->
  (forall c, In c (clients s) -> ~ works_on x (snd c)) -> (forall n k p, In (k, p) (n_retry (nodes s n)) -> ~ works_on x p) -> idle x s.
Proof.
  intros R L (i & G & S) U M C Re. pose proof (holds_start _ _ _ _ _ R L) as H.
  destruct (h_kept _ _ H _ _ G (or_intror S)) as (_ & k & K & _ & X). rewrite S in X.
  assert (LK : (k < length (log s))%nat) by (apply nth_error_Some; congruence).
  specialize (X ltac:(unfold up_to_date in M; lia)).
  assert (NA : forall n, n_async (nodes s n) = [] \/ get x (n_async (nodes s n)) = None).
  { intros n. destruct (Z.eq_dec n m) as [->|NM]; [right; exact X|left; apply (h_other _ _ H), NM]. }
  split; [exact C|]. split; [|split; [|split]].
  - intros n y p I W. apply in_app_iff in I. destruct I as [I|I]; [|exact (Re _ _ _ I W)].
    pose proof (h_as _ _ H _ _ _ I) as O. assert (y = x) as ->.
    { destruct p; cbn [own_pc works_on] in *; try contradiction; congruence. }
    destruct (NA n) as [E|E]; [rewrite E in I; destruct I|].
    revert E I. clear. induction (n_async (nodes s n)) as [|[k v] l IH]; intros E I; [destruct I|]. cbn [get] in E.
    destruct (str_eqb x k) eqn:Q; [discriminate|]. destruct I as [I|I]; [|auto]. injection I as -> ->. rewrite str_eqb_refl in Q. discriminate.
  - intros n p I. rewrite (h_inline _ _ H) in I. discriminate.
  - intros n j I. rewrite (h_take _ _ H) in I. destruct I.
  - intros n q j Un Lq E. rewrite (U _ Un) in Lq. assert (nth_error (log s) q <> None) as Q by congruence. apply nth_error_Some in Q. lia.
Qed.

(** ** Checking the above on concrete runs *)
Definition act_node (a : act) : option Z :=
  match a with Async n _ _ | Retry n _ _ | Inline n _ | Handle n | Take n _ | Crash n | Start n => Some n | _ => None end.
Lemma step_node s a s' n : step s a = Some s' -> act_node a <> Some n -> nodes s' n = nodes s n.
Proof.
  intros E NA. assert (X : forall n' r ok p s1 p1, step_pc n' r ok p s = Some (s1, p1) -> nodes s1 n = nodes s n).
  { intros n0 r ok p0 s1 p1 S. apply pc_entries in S. destruct S as [->|[(q & ->)|(i & ->)]]; reflexivity. }
  assert (Y : forall n' v s1, act_node a = Some n' -> nodes (set_node n' v s1) n = nodes s1 n).
  { intros n' v s1 Q. rewrite nodes_set. destruct (Z.eqb_spec n n'); [congruence|reflexivity]. }
  destruct a; cbn [step act_node] in *.
  - destruct (d >? 0); [|discriminate]. injection E as <-. auto.
  - destruct (_ && _); [|discriminate]. injection E as <-. reflexivity.
  - destruct (_ && _); [|discriminate]. injection E as <-. reflexivity.
  - destruct (nth_error _ _) as [[n0 p]|]; [|discriminate]. destruct (step_pc _ _ _ _ _) as [[s1 p1]|] eqn:S; [|discriminate]. injection E as <-. exact (X _ _ _ _ _ _ S).
  - destruct (get _ _) as [p|]; [|discriminate]. destruct (step_pc _ _ _ _ _) as [[s1 p1]|] eqn:S; [|discriminate]. injection E as <-. rewrite Y by reflexivity. exact (X _ _ _ _ _ _ S).
  - destruct (get _ _) as [p|]; [|discriminate]. destruct (step_pc _ _ _ _ _) as [[s1 p1]|] eqn:S; [|discriminate]. injection E as <-. rewrite Y by reflexivity. exact (X _ _ _ _ _ _ S).
  - destruct (n_inline _) as [p|]; [|discriminate]. destruct (step_pc _ _ _ _ _) as [[s1 p1]|] eqn:S; [|discriminate]. injection E as <-. rewrite Y by reflexivity. exact (X _ _ _ _ _ _ S).
  - destruct (n_take _); [|discriminate]. destruct (n_inline _); [discriminate|]. destruct (nth_error _ _) as [e|]; [|discriminate].
    destruct (n_up _); [|discriminate]. destruct e; injection E as <-; [rewrite !Y by reflexivity; reflexivity|]. unfold handle_down. cbv zeta.
    repeat match goal with |- context [if ?c then _ else _] => destruct c end; rewrite ?Y by reflexivity; cbn [set_mark nodes]; rewrite ?Y by reflexivity; reflexivity || exact (Y _ _ _ eq_refl).
  - destruct (nth_error _ _) as [i|]; [|discriminate]. destruct (n_inline _); [discriminate|]. destruct (n_up _); [|discriminate]. injection E as <-.
    unfold take_one. cbv zeta. destruct (i_status _); try destruct (has _ _); rewrite Y by reflexivity; reflexivity.
  - destruct (n_up _); [|discriminate]. injection E as <-. destruct (snd (mark s)); reflexivity.
  - injection E as <-. reflexivity.
  - injection E as <-. rewrite <- (Y n0 (Node false (n_pos (nodes s n0)) [] [] [] None) s eq_refl). reflexivity.
  - destruct (n_up _); [discriminate|]. injection E as <-. rewrite Y by reflexivity. reflexivity.
Qed.
Definition acts_in (L : list Z) (es : list act) : bool :=
  forallb (fun a => match act_node a with Some n => existsb (Z.eqb n) L | None => true end) es.
Lemma run_node L es s s' n : run s es = Some s' -> acts_in L es = true -> existsb (Z.eqb n) L = false -> nodes s' n = nodes s n.
Proof.
  revert s. induction es as [|a es IH]; intros s R A N; cbn [run] in R; [injection R as <-; reflexivity|].
  destruct (step s a) as [s1|] eqn:S; [|discriminate]. cbn [acts_in forallb] in A. apply andb_prop in A. destruct A as [A1 A2].
  rewrite (IH s1 R A2 N). apply (step_node _ _ _ _ S). intros Q. rewrite Q in A1. congruence.
Qed.
Definition busy (x : str) (p : pc) : bool :=
  match p with
  | Look i | Mark i | Put i | Run i | Note i _ | Cancelling i | Sleep i _ | Begin i | Wait i _ | Backoff i _ => str_eqb (i_name i) x
  | Ended _ => false
  end.
Lemma busy_works x p : busy x p = false -> ~ works_on x p.
Proof. destruct p; cbn [busy works_on]; auto; intros H; apply str_eqb_neq in H; exact H. Qed.
Definition over (p : pc) : bool := match p with Ended _ => true | _ => false end.
Definition node_check (f : pc -> bool) (v : node) (len : nat) : bool :=
  forallb (fun e => f (snd e)) (n_async v ++ n_retry v) && match n_inline v with None => true | _ => false end &&
  match n_take v with [] => true | _ => false end && (negb (n_up v) || (n_pos v =? len)%nat).
Definition check (f : pc -> bool) (L : list Z) (s : state) : bool :=
  forallb (fun c => f (snd c)) (clients s) && forallb (fun n => node_check f (nodes s n) (length (log s))) L.
Lemma check_ok f t0 up es s : run (start t0 up) es = Some s -> acts_in up es = true -> check f up s = true ->
  (forall c, In c (clients s) -> f (snd c) = true) /\
  (forall n k p, In (k, p) (n_async (nodes s n) ++ n_retry (nodes s n)) -> f p = true) /\
  (forall n, n_inline (nodes s n) = None /\ n_take (nodes s n) = []) /\
  (forall n, n_up (nodes s n) = true -> n_pos (nodes s n) = length (log s)).
Proof.
  intros R A C. apply andb_prop in C. destruct C as [C1 C2]. rewrite forallb_forall in C1, C2.
  assert (N : forall n, nodes s n = Node false 0 [] [] [] None \/ node_check f (nodes s n) (length (log s)) = true).
  { intros n. destruct (existsb (Z.eqb n) up) eqn:E.
    - right. apply existsb_exists in E. destruct E as (m & I & E). apply Z.eqb_eq in E. subst m. apply C2, I.
    - left. rewrite (run_node up es _ s n R A E). cbn [start nodes]. rewrite E. reflexivity. }
  split; [exact C1|]. unfold node_check in N.
  split; [|split].
  - intros n k p I. destruct (N n) as [Q|Q]; [rewrite Q in I; destruct I|]. apply andb_prop in Q. destruct Q as [Q _]. apply andb_prop in Q. destruct Q as [Q _].
    apply andb_prop in Q. destruct Q as [Q _]. rewrite forallb_forall in Q. apply (Q _ I).
  - intros n. destruct (N n) as [Q|Q]; [rewrite Q; auto|]. apply andb_prop in Q. destruct Q as [Q _]. apply andb_prop in Q. destruct Q as [Q Q2].
    apply andb_prop in Q. destruct Q as [_ Q]. split; [destruct (n_inline (nodes s n)); [discriminate|reflexivity]|destruct (n_take (nodes s n)); [reflexivity|discriminate]].
  - intros n Un. destruct (N n) as [Q|Q]; [rewrite Q in Un; discriminate|]. apply andb_prop in Q. destruct Q as [_ Q]. rewrite Un in Q. apply Nat.eqb_eq, Q.
Qed.
Lemma check_rest t0 up es s : run (start t0 up) es = Some s -> acts_in up es = true -> check over up s = true -> at_rest s.
Proof.
  intros R A C. destruct (check_ok _ _ _ _ _ R A C) as (X & Y & V & W).
  assert (O : forall p, over p = true -> exists b, p = Ended b) by (intros []; try discriminate; eauto).
  split; [intros c I; apply O, X, I|]. split; [intros n k p I; apply O, (Y n k p I)|]. auto.
Qed.
Lemma check_idle x t0 up es s : run (start t0 up) es = Some s -> acts_in up es = true -> check (fun p => negb (busy x p)) up s = true -> idle x s.
Proof.
  intros R A C. destruct (check_ok _ _ _ _ _ R A C) as (X & Y & V & W).
  assert (O : forall p, negb (busy x p) = true -> ~ works_on x p) by (intros p H; apply busy_works; destruct (busy x p); [discriminate|reflexivity]).
  split; [intros c I; apply O, X, I|]. split; [intros n k p I; apply O, (Y n k p I)|].
  split; [intros n p I; destruct (V n) as [E _]; congruence|]. split; [intros n i I; destruct (V n) as [_ E]; rewrite E in I; destruct I|].
  intros n k i U L E. rewrite (W _ U) in L. assert (nth_error (log s) k <> None) as Q by congruence. apply nth_error_Some in Q. lia.
Qed.
Lemma run_some s es : match run s es with Some _ => true | None => false end = true -> exists s', run s es = Some s'.
Proof. destruct (run s es); [eauto|discriminate]. Qed.
Lemma stands_of x st s : option_map i_status (get x (entries s)) = Some st -> stands x st s.
Proof. unfold stands. destruct (get x (entries s)) as [i|]; [|discriminate]. intros H. exists i. split; [reflexivity|]. injection H as H. exact H. Qed.
Lemma some1 {A} (a a' : A) : Some a = Some a' -> a = a'.
Proof. congruence. Qed.
Lemma some2 {A B} (a a' : A) (b b' : B) : Some (a, b) = Some (a', b') -> a = a' /\ b = b'.
Proof. intros H. injection H. auto. Qed.
Lemma some3 {A B C} (a a' : A) (b b' : B) (c c' : C) : Some (a, b, c) = Some (a', b', c') -> a = a' /\ b = b' /\ c = c'.
Proof. intros H. injection H. auto. Qed.
Lemma some4 {A B C D} (a a' : A) (b b' : B) (c c' : C) (d d' : D) : Some (a, b, c, d) = Some (a', b', c', d') -> a = a' /\ b = b' /\ c = c' /\ d = d'.
Proof. intros H. injection H. auto. Qed.
Definition delays_b (es : list act) : bool := forallb (fun a => match a with Issue _ _ (Some d) => d <=? I64_MAX | _ => true end) es.
Lemma delays_b_ok es : delays_b es = true -> delays_ok es.
Proof. intros H n o a I. unfold delays_b in H. rewrite forallb_forall in H. specialize (H _ I). cbn in H. apply Z.leb_le, H. Qed.
(** The operations asked for, with the times. *)
Fixpoint asks (t : Z) (es : list act) : list (op * Z) :=
  match es with
  | [] => []
  | Tick d :: es => asks (t + d) es
  | Issue _ o after :: es => (o, t + delay after) :: asks t es
  | _ :: es => asks t es
  end.
Lemma asked_asks t es o V : asked_for t es o V -> In (o, V) (asks t es).
Proof.
  intros (es1 & n & after & es2 & -> & <-). revert t. induction es1 as [|a es1 IH]; intros t; cbn [app clock asks]; [left; reflexivity|].
  destruct a; cbn [asks clock]; auto. right. apply IH.
Qed.
Definition quiet_b (x : str) (es : list act) : bool :=
  forallb (fun a => match a with Issue _ o _ | Recover _ o => negb (str_eqb (name_of o) x) | _ => true end) es.
Lemma quiet_b_ok x es : quiet_b x es = true -> not_asked x es.
Proof.
  intros H a I. unfold quiet_b in H. rewrite forallb_forall in H. specialize (H _ I). destruct a; auto; apply str_eqb_neq; destruct (str_eqb _ _); auto; discriminate.
Qed.
Definition no_loss_b (es : list act) : bool := forallb (fun a => match a with Down _ | Crash _ | Start _ => false | _ => true end) es.
Lemma no_loss_b_ok es : no_loss_b es = true -> no_loss es.
Proof. intros H a I. unfold no_loss_b in H. rewrite forallb_forall in H. specialize (H _ I). destruct a; auto; discriminate. Qed.
