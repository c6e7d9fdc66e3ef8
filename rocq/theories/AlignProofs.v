(** Proofs about reading a chunk when the schema has changed. *)
From Verif Require Import Prelude MergeModel EvolveModel EvolveSpec AlignModel AlignSpec.
Open Scope Z_scope.

Lemma value_position u cols : forall vals, value u cols vals = match position u cols with Some i => nth i vals None | None => None end.
Proof.
  induction cols as [|c cols IH]; intros vals; [reflexivity|]. cbn [value position]. destruct vals as [|v vals].
  - destruct (sc_id c =? u); [reflexivity|]. destruct (position u cols) as [i|]; reflexivity.
  - destruct (sc_id c =? u); [reflexivity|]. rewrite IH. destruct (position u cols); reflexivity.
Qed.
Lemma position_some u cols : forall i, position u cols = Some i -> (i < length cols)%nat /\ sc_id (nth i cols time_col) = u.
Proof.
  induction cols as [|c cols IH]; intros i; cbn [position]; [discriminate|]. destruct (Z.eqb_spec (sc_id c) u) as [E|E].
  - injection 1 as <-. cbn. split; [lia|auto].
  - destruct (position u cols) as [j|]; [|discriminate]. injection 1 as <-. destruct (IH j eq_refl). cbn [length nth]. split; [lia|auto].
Qed.
Lemma position_none u cols : position u cols = None -> ~ In u (map sc_id cols).
Proof.
  induction cols as [|c cols IH]; cbn [position map In]; [tauto|]. destruct (Z.eqb_spec (sc_id c) u) as [E|E]; [discriminate|].
  destruct (position u cols); [discriminate|]. intros _ [H|H]; [auto|exact (IH eq_refl H)].
Qed.
Lemma position_nth cols : NoDup (map sc_id cols) -> forall i, (i < length cols)%nat -> position (sc_id (nth i cols time_col)) cols = Some i.
Proof.
  induction cols as [|c cols IH]; intros HN i Hi; cbn [length] in Hi; [lia|]. cbn [map] in HN. inversion HN; subst.
  destruct i as [|i]; cbn [nth position]; [rewrite Z.eqb_refl; reflexivity|].
  destruct (Z.eqb_spec (sc_id c) (sc_id (nth i cols time_col))) as [E|E].
  - exfalso. apply H1. rewrite E. apply in_map, nth_In. lia.
  - rewrite IH; auto. lia.
Qed.
Lemma index_of_some n cols : forall i, index_of n cols = Some i -> (i < length cols)%nat /\ sc_name (nth i cols time_col) = n.
Proof.
  induction cols as [|c cols IH]; intros i; cbn [index_of]; [discriminate|]. destruct (Z.eqb_spec (sc_name c) n) as [E|E].
  - injection 1 as <-. cbn. split; [lia|auto].
  - destruct (index_of n cols) as [j|]; [|discriminate]. injection 1 as <-. destruct (IH j eq_refl). cbn [length nth]. split; [lia|auto].
Qed.
Lemma index_of_in n cols : In n (map sc_name cols) -> exists i, index_of n cols = Some i.
Proof.
  induction cols as [|c cols IH]; cbn [index_of map In]; [tauto|]. destruct (Z.eqb_spec (sc_name c) n) as [E|E]; [eauto|].
  intros [H|H]; [congruence|]. destruct (IH H) as [i ->]. cbn. eauto.
Qed.
Lemma is_true_eq v : is_true v = true <-> v = Some 1.
Proof. unfold is_true. destruct v as [x|]; [|split; discriminate]. rewrite Z.eqb_eq. split; [intros ->; auto|injection 1; auto]. Qed.
Lemma and3_true a b : is_true (and3 a b) = true <-> is_true a = true /\ is_true b = true.
Proof.
  unfold and3. rewrite !is_true_eq. destruct (is_false a || is_false b) eqn:E.
  - split; [discriminate|]. intros [-> ->]. discriminate.
  - destruct (is_true a && is_true b) eqn:T.
    + apply andb_true_iff in T as [T1 T2]. rewrite is_true_eq in T1, T2. tauto.
    + split; [discriminate|]. intros [-> ->]. discriminate.
Qed.
Lemma or3_true a b : is_true (or3 a b) = true <-> is_true a = true \/ is_true b = true.
Proof.
  unfold or3. rewrite <- orb_true_iff. destruct (is_true a || is_true b) eqn:E; [tauto|]. destruct (is_false a && is_false b); split; intros H; discriminate H.
Qed.

Section Pred.
Variable un : Z -> option Z -> option Z.
Variable bin : Z -> option Z -> option Z -> option Z.
Variables sch full : list scol.

Lemma reassign_total e : (forall n, mentions n e -> In n (map sc_name full)) -> exists e', reassign sch full e = Some e'.
Proof.
  induction e as [n i|v|l IHl r IHr|l IHl r IHr|op x IHx|op l IHl r IHr]; intros H; cbn [reassign mentions] in *.
  - destruct (index_of n sch); [eauto|]. destruct (index_of_in n full (H n eq_refl)) as [k ->]. eauto.
  - eauto.
  - destruct (IHl (fun n Hn => H n (or_introl Hn))) as [l' ->]. destruct (IHr (fun n Hn => H n (or_intror Hn))) as [r' ->].
    destruct (missing sch l'), (missing sch r'); eauto.
  - destruct (IHl (fun n Hn => H n (or_introl Hn))) as [l' ->]. destruct (IHr (fun n Hn => H n (or_intror Hn))) as [r' ->].
    destruct (missing sch l' || missing sch r'); eauto.
  - destruct (IHx H) as [x' ->]. eauto.
  - destruct (IHl (fun n Hn => H n (or_introl Hn))) as [l' ->]. destruct (IHr (fun n Hn => H n (or_intror Hn))) as [r' ->]. eauto.
Qed.
(** Expressions without missing columns are only renumbered. *)
Lemma reassign_present e : (forall n, mentions n e -> In n (map sc_name sch)) -> forall e', reassign sch full e = Some e' ->
  missing sch e' = false /\ forall vs env, (forall n j, mentions n e -> index_of n sch = Some j -> nth j vs None = env n) ->
  eval un bin vs e' = evaln un bin env [] [] e.
Proof.
  induction e as [n i|v|l IHl r IHr|l IHl r IHr|op x IHx|op l IHl r IHr]; intros H e' E; cbn [reassign mentions] in *.
  - destruct (index_of_in n sch (H n eq_refl)) as [j Ej]. rewrite Ej in E. injection E as <-. cbn [missing]. rewrite Ej. split; auto.
    intros vs env Hv. cbn [eval evaln lookup]. apply Hv; auto.
  - injection E as <-. auto.
  - destruct (reassign sch full l) as [l'|]; [|discriminate]. destruct (reassign sch full r) as [r'|]; [|discriminate].
    destruct (IHl (fun n Hn => H n (or_introl Hn)) l' eq_refl) as [M1 V1]. destruct (IHr (fun n Hn => H n (or_intror Hn)) r' eq_refl) as [M2 V2].
    rewrite M1, M2 in E. injection E as <-. cbn [missing]. rewrite M1, M2. split; auto. intros vs env Hv. cbn [eval evaln].
    rewrite (V1 vs env), (V2 vs env); auto.
  - destruct (reassign sch full l) as [l'|]; [|discriminate]. destruct (reassign sch full r) as [r'|]; [|discriminate].
    destruct (IHl (fun n Hn => H n (or_introl Hn)) l' eq_refl) as [M1 V1]. destruct (IHr (fun n Hn => H n (or_intror Hn)) r' eq_refl) as [M2 V2].
    rewrite M1, M2 in E. injection E as <-. cbn [missing]. rewrite M1, M2. split; auto. intros vs env Hv. cbn [eval evaln].
    rewrite (V1 vs env), (V2 vs env); auto.
  - destruct (reassign sch full x) as [x'|]; [|discriminate]. injection E as <-. destruct (IHx H x' eq_refl) as [M V]. cbn [missing]. split; auto.
    intros vs env Hv. cbn [eval evaln]. rewrite (V vs env); auto.
  - destruct (reassign sch full l) as [l'|]; [|discriminate]. destruct (reassign sch full r) as [r'|]; [|discriminate].
    destruct (IHl (fun n Hn => H n (or_introl Hn)) l' eq_refl) as [M1 V1]. destruct (IHr (fun n Hn => H n (or_intror Hn)) r' eq_refl) as [M2 V2].
    injection E as <-. cbn [missing]. rewrite M1, M2. split; auto. intros vs env Hv. cbn [eval evaln]. rewrite (V1 vs env), (V2 vs env); auto.
Qed.
(** An atomic expression either keeps a missing column or has none. *)
Lemma atomic_missing e : atomic e -> forall e', reassign sch full e = Some e' -> missing sch e' = false -> forall n, mentions n e -> In n (map sc_name sch).
Proof.
  induction e as [n i|v|l IHl r IHr|l IHl r IHr|op x IHx|op l IHl r IHr]; intros A e' E M m Hm; cbn [atomic reassign mentions] in *; try tauto.
  - subst m. destruct (index_of n sch) as [j|] eqn:Ej.
    + apply index_of_some in Ej as [L <-]. apply in_map, nth_In; auto.
    + destruct (index_of n full); [|discriminate]. injection E as <-. cbn [missing] in M. rewrite Ej in M. discriminate.
  - destruct (reassign sch full x) as [x'|]; [|discriminate]. injection E as <-. cbn [missing] in M. eapply IHx; eauto.
  - destruct (reassign sch full l) as [l'|]; [|discriminate]. destruct (reassign sch full r) as [r'|]; [|discriminate]. injection E as <-.
    cbn [missing] in M. apply orb_false_iff in M as [M1 M2]. destruct A as [A1 A2]. destruct Hm as [Hm|Hm]; [eapply IHl|eapply IHr]; eauto.
Qed.
(** Rewriting weakens. *)
Lemma reassign_weak e : positive e -> forall e', reassign sch full e = Some e' -> missing sch e' = false ->
  forall vs env, (forall n j, mentions n e -> index_of n sch = Some j -> nth j vs None = env n) ->
  is_true (evaln un bin env [] [] e) = true -> is_true (eval un bin vs e') = true.
Proof.
  assert (HA : forall e, atomic e -> forall e', reassign sch full e = Some e' -> missing sch e' = false ->
    forall vs env, (forall n j, mentions n e -> index_of n sch = Some j -> nth j vs None = env n) ->
    is_true (evaln un bin env [] [] e) = true -> is_true (eval un bin vs e') = true).
  { intros x A x' E M vs env Hv H. destruct (reassign_present x (atomic_missing x A x' E M) x' E) as [_ V]. rewrite (V vs env Hv). exact H. }
  induction e as [n i|v|l IHl r IHr|l IHl r IHr|op x IHx|op l IHl r IHr]; intros A e' E M vs env Hv H; try (eapply HA; eauto; fail).
  - cbn [positive] in A. destruct A as [A1 A2]. cbn [reassign mentions evaln] in *. destruct (reassign sch full l) as [l'|]; [|discriminate].
    destruct (reassign sch full r) as [r'|]; [|discriminate]. apply and3_true in H as [H1 H2].
    destruct (missing sch l') eqn:M1, (missing sch r') eqn:M2; injection E as <-.
    + reflexivity.
    + eapply IHr; eauto.
    + eapply IHl; eauto.
    + cbn [eval]. apply and3_true. split; [eapply IHl|eapply IHr]; eauto.
  - cbn [positive] in A. destruct A as [A1 A2]. cbn [reassign mentions evaln] in *. destruct (reassign sch full l) as [l'|]; [|discriminate].
    destruct (reassign sch full r) as [r'|]; [|discriminate]. destruct (missing sch l' || missing sch r') eqn:ME; injection E as <-; [reflexivity|].
    apply orb_false_iff in ME as [M1 M2]. cbn [eval]. apply or3_true. apply or3_true in H as [H|H]; [left; eapply IHl|right; eapply IHr]; eauto.
Qed.
(** Conjuncts without missing columns are kept. *)
Lemma reassign_and_present l r e' : reassign sch full (PAnd l r) = Some e' -> missing sch e' = false.
Proof.
  cbn [reassign]. destruct (reassign sch full l) as [l'|]; [|discriminate]. destruct (reassign sch full r) as [r'|]; [|discriminate].
  destruct (missing sch l') eqn:M1, (missing sch r') eqn:M2; injection 1 as <-; cbn [missing lit_true]; rewrite ?M1, ?M2; auto.
Qed.
Lemma conjunct_present c e : conjunct c e -> (forall n, mentions n c -> In n (map sc_name sch)) -> forall e', reassign sch full e = Some e' -> missing sch e' = false.
Proof.
  intros C H e' E. destruct e as [n i|v|l r|l r|op x|op l r]; cbn [conjunct] in C; try (destruct C as [-> | []]; eapply reassign_present; eauto; fail).
  eapply reassign_and_present; eauto.
Qed.
Lemma reassign_conjunct c e : conjunct c e -> (forall n, mentions n c -> In n (map sc_name sch)) -> forall e', reassign sch full e = Some e' ->
  forall vs env, (forall n j, mentions n c -> index_of n sch = Some j -> nth j vs None = env n) ->
  is_true (eval un bin vs e') = true -> is_true (evaln un bin env [] [] c) = true.
Proof.
  intros C H. induction e as [n i|v|l IHl r IHr|l IHl r IHr|op x IHx|op l IHl r IHr]; cbn [conjunct] in C; intros e' E vs env Hv HT;
    try (destruct C as [-> | []]; destruct (reassign_present _ H e' E) as [_ V]; rewrite <- (V vs env Hv); exact HT).
  destruct C as [-> | C]; [destruct (reassign_present _ H e' E) as [_ V]; rewrite <- (V vs env Hv); exact HT|].
  cbn [reassign] in E. destruct (reassign sch full l) as [l'|] eqn:EL; [|discriminate]. destruct (reassign sch full r) as [r'|] eqn:ER; [|discriminate].
  destruct C as [C|C].
  - pose proof (conjunct_present c l C H l' EL) as M. rewrite M in E. destruct (missing sch r'); injection E as <-.
    + eapply IHl; eauto.
    + cbn [eval] in HT. apply and3_true in HT as [HT _]. eapply IHl; eauto.
  - pose proof (conjunct_present c r C H r' ER) as M. rewrite M in E. destruct (missing sch l'); injection E as <-.
    + eapply IHr; eauto.
    + cbn [eval] in HT. apply and3_true in HT as [_ HT]. eapply IHr; eauto.
Qed.
End Pred.

(** The named evaluation depends on the values of the names only. *)
Lemma evaln_env un bin tags T row e : evaln un bin tags T row e = evaln un bin (fun n => match lookup n T row with Some v => v | None => tags n end) [] [] e.
Proof.
  induction e as [n i|v|l IHl r IHr|l IHl r IHr|op x IHx|op l IHl r IHr]; cbn [evaln lookup]; auto; try (rewrite IHl, IHr; reflexivity). rewrite IHx. reflexivity.
Qed.

(** ** Reading a group *)
Lemma ss_nth {A} (R : A -> A -> Prop) d l : StronglySorted R l -> forall i j, (i < j < length l)%nat -> R (nth i l d) (nth j l d).
Proof.
  induction 1 as [|x l S IH F]; intros i j L; cbn [length] in L; [lia|]. rewrite Forall_forall in F. destruct j as [|j]; [lia|]. destruct i as [|i]; cbn [nth].
  - apply F, nth_In. lia.
  - apply IH. lia.
Qed.
Lemma ss_ids_nodup cols : StronglySorted (fun x y => sc_id x < sc_id y) cols -> NoDup (map sc_id cols).
Proof.
  induction 1 as [|x l S IH F]; cbn [map]; constructor; auto. intros H. apply in_map_iff in H as (y & E & Hy). rewrite Forall_forall in F.
  specialize (F y Hy). lia.
Qed.
Lemma pages_in ids cols i : In i (pages ids cols) <-> exists u, In u ids /\ position u cols = Some i.
Proof.
  unfold pages. rewrite in_concat. split.
  - intros (l & Hl & Hi). apply in_map_iff in Hl as (u & <- & Hu). exists u. split; auto. destruct (position u cols) as [k|]; [|destruct Hi]. destruct Hi as [<- | []]; auto.
  - intros (u & Hu & E). eexists. split; [apply in_map; exact Hu|]. cbv beta. rewrite E. left; auto.
Qed.
Lemma pages_sorted cols : StronglySorted (fun x y => sc_id x < sc_id y) cols -> forall ids, StronglySorted Z.lt ids -> StronglySorted lt (pages ids cols).
Proof.
  intros HC. induction ids as [|u ids IH]; intros HS; [constructor|]. apply StronglySorted_inv in HS as [S1 S2]. specialize (IH S1).
  unfold pages in *. cbn [map concat]. destruct (position u cols) as [i|] eqn:E; [|exact IH]. cbn [app]. constructor; auto.
  apply Forall_forall. intros k Hk. apply (pages_in ids cols k) in Hk as (v & Hv & Ek). rewrite Forall_forall in S2. specialize (S2 v Hv).
  apply position_some in E as [L1 E1], Ek as [L2 E2]. destruct (Nat.lt_ge_cases i k) as [|L]; auto. exfalso.
  destruct (Nat.eq_dec i k) as [-> | N]; [lia|]. pose proof (ss_nth _ time_col _ HC k i) as H. cbv beta in H. specialize (H ltac:(clear - L N L1; lia)). rewrite E1, E2 in H. lia.
Qed.
Lemma by_offset_sorted l : StronglySorted lt l -> by_offset l = l.
Proof.
  induction 1 as [|n l S IH F]; auto. cbn [by_offset]. rewrite IH. destruct l as [|m l]; auto. cbn [insert_nat]. inversion F; subst.
  destruct (Nat.leb_spec n m); [reflexivity|lia].
Qed.

(** Columns and values of the rows of a stream that come from group [b]. *)
Definition layout (sch : list scol) (vs : list (option Z)) (b : sblock) (r : mrow) : Prop :=
  forall j, (j < length sch)%nat -> In (nth j sch time_col) (g_cols b) /\
    nth j vs None = value (sc_id (nth j sch time_col)) (g_cols b) (g_row r).
Lemma layout_group b r : group_ok b -> layout (g_cols b) (g_row r) b r.
Proof.
  intros (S & _ & _) j Hj. split; [apply nth_In; auto|]. rewrite value_position, (position_nth (g_cols b)); auto. apply ss_ids_nodup; auto.
Qed.
Section Stream.
Variable q : list (scol * bool).
Variable b : sblock.
Hypothesis Hq : query_ok q.
Hypothesis Hb : group_ok b.
Let ps := pages (q_ids q) (g_cols b).
Let sch := cg_schema (q_ids q) b.
Let vs (r : mrow) := map (fun i => nth i (g_row r) None) ps.
Lemma q_ids_sorted : StronglySorted Z.lt (q_ids q).
Proof.
  destruct Hq as (_ & S & _). unfold q_ids. clear Hq. clear ps sch vs. induction S as [|p l S IH F]; cbn [map]; constructor; auto. rewrite Forall_forall in *.
  intros u Hu. apply in_map_iff in Hu as (x & <- & Hx). auto.
Qed.
Lemma ps_sorted : StronglySorted lt ps.
Proof. apply pages_sorted; [apply Hb|apply q_ids_sorted]. Qed.
Lemma cg_rows_eq : cg_rows (q_ids q) b = map vs (sb_live b).
Proof. unfold cg_rows. fold ps. rewrite (by_offset_sorted ps ps_sorted). reflexivity. Qed.
Lemma ps_bound i : In i ps -> (i < length (g_cols b))%nat.
Proof. intros H. apply pages_in in H as (u & _ & E). apply position_some in E. tauto. Qed.
Lemma sch_len : length sch = length ps.
Proof. apply map_length. Qed.
Lemma sch_nth j : (j < length ps)%nat -> nth j sch time_col = nth (nth j ps 0%nat) (g_cols b) time_col.
Proof.
  intros L. unfold sch, cg_schema. fold ps. rewrite (nth_indep _ time_col (nth 0%nat (g_cols b) time_col)) by (rewrite map_length; auto).
  exact (map_nth (fun i => nth i (g_cols b) time_col) ps 0%nat j).
Qed.
Lemma vs_nth r j : (j < length ps)%nat -> nth j (vs r) None = nth (nth j ps 0%nat) (g_row r) None.
Proof.
  intros L. unfold vs. rewrite (nth_indep _ None (nth 0%nat (g_row r) None)) by (rewrite map_length; auto).
  exact (map_nth (fun i => nth i (g_row r) None) ps 0%nat j).
Qed.
Lemma layout_stream r : layout sch (vs r) b r.
Proof.
  intros j L. rewrite sch_len in L. rewrite sch_nth, vs_nth; auto. apply (layout_group b r Hb). apply ps_bound, nth_In; auto.
Qed.
Lemma sch_sorted : StronglySorted (fun x y => sc_id x < sc_id y) sch.
Proof.
  unfold sch, cg_schema. fold ps. pose proof ps_sorted as S. pose proof ps_bound as B. clearbody ps. clear sch vs. destruct Hb as (SC & _ & _).
  induction S as [|i l S IH F]; cbn [map]; constructor.
  - apply IH. intros k Hk. apply B. right; auto.
  - apply Forall_forall. intros y Hy. apply in_map_iff in Hy as (k & <- & Hk). rewrite Forall_forall in F. specialize (F k Hk).
    apply (ss_nth _ time_col _ SC i k). split; auto. apply B. right; auto.
Qed.
Lemma sch_position u : In u (q_ids q) -> position u sch = None -> position u (g_cols b) = None.
Proof.
  intros Hu H. destruct (position u (g_cols b)) as [i|] eqn:E; auto. exfalso. apply position_none in H. apply H.
  pose proof (proj2 (pages_in (q_ids q) (g_cols b) i) (ex_intro _ u (conj Hu E))) as Hi. apply position_some in E as [_ <-].
  unfold sch, cg_schema. apply in_map, in_map_iff. exists i. auto.
Qed.
Lemma align_value u r : In u (q_ids q) -> match position u sch with Some i => nth i (vs r) None | None => None end = value u (g_cols b) (g_row r).
Proof.
  intros Hu. destruct (position u sch) as [j|] eqn:E.
  - apply position_some in E as [L <-]. apply (layout_stream r j L).
  - rewrite value_position, (sch_position u Hu E). reflexivity.
Qed.
Lemma q_fields_ids c : In c (q_fields q) -> In (sc_id c) (q_ids q).
Proof. intros H. unfold q_fields in H. apply in_map_iff in H as (p & <- & Hp). apply filter_In in Hp as [Hp _]. unfold q_ids. apply in_map_iff. exists p; auto. Qed.
Lemma scol_eqb_eq x y : scol_eqb x y = true -> x = y.
Proof. unfold scol_eqb. rewrite andb_true_iff, !Z.eqb_eq. destruct x, y; cbn. intros [-> ->]; auto. Qed.
Lemma cols_eqb_eq x : forall y, cols_eqb x y = true -> x = y.
Proof. induction x as [|c x IH]; intros [|d y]; cbn [cols_eqb]; try discriminate; auto. rewrite andb_true_iff. intros [H1 H2]. apply scol_eqb_eq in H1 as ->. rewrite (IH y H2). reflexivity. Qed.
Lemma cols_eqb_refl x : cols_eqb x x = true.
Proof. induction x as [|c x IH]; auto. cbn [cols_eqb]. unfold scol_eqb. rewrite !Z.eqb_refl. auto. Qed.
Lemma align_row r : (if cols_eqb (q_fields q) sch then vs r else
   map (fun c => match position (sc_id c) sch with Some i => nth i (vs r) None | None => None end) (q_fields q)) = seen (q_fields q) b r.
Proof.
  unfold seen. fold (g_cols b). fold (g_row r). destruct (cols_eqb (q_fields q) sch) eqn:E.
  - apply cols_eqb_eq in E. rewrite E. symmetry. apply nth_ext with (d := None) (d' := None).
    + unfold vs. rewrite !map_length. apply sch_len.
    + rewrite map_length. intros j L. rewrite (nth_indep _ None (value (sc_id time_col) (g_cols b) (g_row r))) by (rewrite map_length; auto).
      rewrite (map_nth (fun c => value (sc_id c) (g_cols b) (g_row r)) sch time_col j). symmetry. apply (layout_stream r j L).
  - apply map_ext_in. intros c Hc. apply align_value. apply q_fields_ids; auto.
Qed.
End Stream.

(** ** The values of the names *)
Lemma lookup_seen T b r n d : NoDup (map sc_name T) -> In d T -> sc_name d = n -> lookup n T (seen T b r) = Some (value (sc_id d) (g_cols b) (g_row r)).
Proof.
  intros HN Hd <-. unfold seen. fold (g_cols b). fold (g_row r). induction T as [|c T IH]; [destruct Hd|]. cbn [map lookup]. cbn [map] in HN. inversion HN; subst.
  destruct Hd as [-> | Hd]; [rewrite Z.eqb_refl; reflexivity|]. destruct (Z.eqb_spec (sc_name c) (sc_name d)) as [E|E]; [|apply IH; auto].
  exfalso. apply H1. rewrite E. apply in_map; auto.
Qed.
Lemma q_fields_names q : query_ok q -> NoDup (map sc_name (q_fields q)).
Proof.
  intros (_ & _ & H). unfold q_fields. induction q as [|p q IH]; cbn [filter map] in *; [constructor|]. inversion H; subst.
  destruct (negb (snd p)); cbn [map]; auto. constructor; auto. intros Hc. apply H2. rewrite map_map in Hc. apply in_map_iff in Hc as (x & E & Hx).
  apply filter_In in Hx as [Hx _]. apply in_map_iff. exists x; auto.
Qed.
Lemma names_env q b r e tags sch vs : query_ok q -> names_ok q e b -> layout sch vs b r ->
  (forall n, mentions n e -> In n (map (fun p => sc_name (fst p)) q)) ->
  forall n j, mentions n e -> index_of n sch = Some j -> nth j vs None = match lookup n (q_fields q) (seen (q_fields q) b r) with Some v => v | None => tags n end.
Proof.
  intros Hq Hn HL HM n j Hme E. apply index_of_some in E as [L En]. destruct (HL j L) as [L1 L2]. rewrite L2. set (c := nth j sch time_col) in *.
  assert (HP : exists d, In d (q_fields q) /\ sc_name d = n /\ sc_id d = sc_id c).
  { assert (HF : forall p, In p q -> snd p = false -> In (fst p) (q_fields q)).
    { intros p Hp E. unfold q_fields. apply in_map, filter_In. rewrite E. auto. }
    destruct L1 as [Et | L1].
    - destruct Hq as ((q' & Eq) & _). exists time_col. split; [apply (HF (time_col, false)); [rewrite Eq; left; auto|reflexivity]|]. rewrite <- En, <- Et. auto.
    - pose proof (HM n Hme) as HI. apply in_map_iff in HI as (p & Ep & Hp). destruct (Hn c p L1 Hp) as [T I]; [congruence|rewrite En; auto|].
      exists (fst p). split; [apply HF; auto|]. auto. }
  destruct HP as (d & Hd & Nd & Id). rewrite (lookup_seen _ b r n d (q_fields_names q Hq) Hd Nd). rewrite Id. reflexivity.
Qed.

(** ** Reading a chunk *)
Section Chunk.
Variable un : Z -> option Z -> option Z.
Variable bin : Z -> option Z -> option Z -> option Z.
Variable prune : pexpr -> list scol -> list sblock -> list bool.
Hypothesis Hprune : prune_ok un bin prune.
Variable q : list (scol * bool).
Hypothesis Hq : query_ok q.
Variable cols : list scol.
Let T := q_fields q.

Definition streams_ok (gs : list sblock) : Prop := Forall (fun b => group_ok b /\ sb_cols b = cols) gs.
Lemma cg_schema_cols b : sb_cols b = cols -> cg_schema (q_ids q) b = cg_schema (q_ids q) (SB 0 0 cols [] []).
Proof. intros E. unfold cg_schema, g_cols. cbn [sb_cols]. rewrite E. reflexivity. Qed.
Let sch := cg_schema (q_ids q) (SB 0 0 cols [] []).
Lemma combined_ok gs : streams_ok gs -> gs <> [] ->
  combined (q_ids q) gs = Some (sch, concat (map (cg_rows (q_ids q)) gs)).
Proof.
  intros H NE. unfold combined. destruct (rev gs) as [|b l] eqn:E; [exfalso; apply NE; rewrite <- (rev_involutive gs), E; reflexivity|].
  assert (HB : In b gs) by (rewrite <- (rev_involutive gs), <- in_rev, E; left; auto).
  unfold streams_ok in H. rewrite Forall_forall in H. rewrite (cg_schema_cols b) by (apply H; auto). fold sch.
  replace (forallb (fun x => cols_eqb (cg_schema (q_ids q) x) sch) gs) with true; auto. symmetry. apply forallb_forall. intros x Hx.
  rewrite (cg_schema_cols x) by (apply H; auto). apply cols_eqb_refl.
Qed.
(** Rows of the stream and rows seen. *)
Definition pairs (gs : list sblock) : list (sblock * mrow) := concat (map (fun b => map (pair b) (sb_live b)) gs).
Definition raw_row (p : sblock * mrow) : list (option Z) := map (fun i => nth i (g_row (snd p)) None) (pages (q_ids q) (g_cols (fst p))).
Definition seen_row (p : sblock * mrow) : list (option Z) := seen T (fst p) (snd p).
Lemma pairs_in gs b r : In (b, r) (pairs gs) <-> In b gs /\ In r (sb_live b).
Proof.
  unfold pairs. rewrite in_concat. split.
  - intros (l & Hl & H). apply in_map_iff in Hl as (x & <- & Hx). apply in_map_iff in H as (y & E & Hy). injection E as <- <-. auto.
  - intros [H1 H2]. eexists. split; [apply in_map; exact H1|]. apply in_map; auto.
Qed.
Lemma rows_pairs gs : streams_ok gs -> concat (map (cg_rows (q_ids q)) gs) = map raw_row (pairs gs).
Proof.
  unfold pairs. induction gs as [|b gs IH]; intros H; auto. inversion H as [|? ? [H1 H2] H3]; subst. cbn [map concat]. rewrite map_app, IH; auto. f_equal.
  rewrite (cg_rows_eq q b Hq H1), map_map. reflexivity.
Qed.
Lemma seen_pairs gs : all_seen T gs = map seen_row (pairs gs).
Proof. unfold all_seen, pairs. induction gs as [|b gs IH]; auto. cbn [map concat]. rewrite map_app, IH. f_equal. rewrite map_map. reflexivity. Qed.
Lemma align_pairs l : (forall p, In p l -> group_ok (fst p) /\ sb_cols (fst p) = cols) -> align_rows T sch (map raw_row l) = map seen_row l.
Proof.
  intros H. unfold align_rows. destruct (cols_eqb T sch) eqn:E.
  - apply map_ext_in. intros p Hp. destruct (H p Hp) as [H1 H2]. pose proof (align_row q (fst p) H1 (snd p)) as A.
    rewrite (cg_schema_cols (fst p) H2) in A. fold sch in A. fold T in A. rewrite E in A. exact A.
  - rewrite map_map. apply map_ext_in. intros p Hp. destruct (H p Hp) as [H1 H2]. pose proof (align_row q (fst p) H1 (snd p)) as A.
    rewrite (cg_schema_cols (fst p) H2) in A. fold sch in A. fold T in A. rewrite E in A. exact A.
Qed.
Lemma pairs_ok gs p : streams_ok gs -> In p (pairs gs) -> group_ok (fst p) /\ sb_cols (fst p) = cols.
Proof. intros H Hp. destruct p as [b r]. apply pairs_in in Hp as [Hb _]. unfold streams_ok in H. rewrite Forall_forall in H. apply H; auto. Qed.

Theorem read_all gs : streams_ok gs -> read_chunk un bin prune q None gs = Some (all_seen T gs).
Proof.
  intros H. unfold read_chunk. cbn [filter_groups data_filter]. destruct gs as [|b gs].
  - cbn [combined rev]. unfold align_rows. destruct (cols_eqb _ _); reflexivity.
  - rewrite combined_ok; [|auto|discriminate]. cbn [data_filter]. rewrite rows_pairs by auto. fold T. rewrite align_pairs; [|intros p Hp; eapply pairs_ok; eauto].
    rewrite seen_pairs. reflexivity.
Qed.

Variable e : pexpr.
Hypothesis He : positive e.
Hypothesis Hm : forall n, mentions n e -> In n (map (fun p => sc_name (fst p)) q).
Variable tags : Z -> option Z.

Lemma mentions_full n : mentions n e -> In n (map sc_name (q_full q)).
Proof. intros H. unfold q_full. rewrite map_map. apply Hm; auto. Qed.
Lemma weak_row b r s vs e' : group_ok b -> names_ok q e b -> layout s vs b r -> reassign s (q_full q) e = Some e' -> missing s e' = false ->
  sat un bin tags T e (seen T b r) = true -> is_true (eval un bin vs e') = true.
Proof.
  intros Hb Hn HL E M H. unfold sat in H. rewrite evaln_env in H. eapply reassign_weak; eauto. intros n j Hme Ej.
  apply (names_env q b r e tags s vs Hq Hn HL Hm n j Hme Ej).
Qed.
Lemma zip_keep_in bits gs b : In b (zip_keep bits gs) -> In b gs.
Proof. unfold zip_keep. intros H. apply in_map_iff in H as ([x y] & <- & H). apply filter_In in H as [H _]. apply in_combine_r in H. auto. Qed.
Lemma zip_keep_rows {A} (g : sblock -> list A) bits : forall gs, length bits = length gs ->
  (forall i b, nth_error gs i = Some b -> g b <> [] -> nth i bits false = true) ->
  concat (map g (zip_keep bits gs)) = concat (map g gs).
Proof.
  induction bits as [|x bits IH]; intros [|b gs] L H; try discriminate; auto. unfold zip_keep. cbn [combine filter fst].
  assert (I : concat (map g (zip_keep bits gs)) = concat (map g gs)) by (apply IH; [cbn in L; lia|]; intros i c Hc; apply (H (S i) c Hc)).
  unfold zip_keep in I. destruct x; cbn [map concat snd]; rewrite I; auto.
  destruct (g b) eqn:E; auto. specialize (H 0%nat b eq_refl). rewrite E in H. discriminate H. discriminate.
Qed.
Lemma filter_concat {A} (f : A -> bool) l : filter f (concat l) = concat (map (filter f) l).
Proof. induction l as [|x l IH]; auto. cbn [concat map]. rewrite filter_app, IH. reflexivity. Qed.
Lemma filter_groups_ok gs : streams_ok gs -> Forall (names_ok q e) gs ->
  exists gs', filter_groups prune (Some e) (q_full q) gs = Some gs' /\ (forall b, In b gs' -> In b gs) /\
    filter (sat un bin tags T e) (all_seen T gs') = filter (sat un bin tags T e) (all_seen T gs).
Proof.
  intros H HN. unfold filter_groups. set (s := match gs with [] => [] | b :: _ => g_cols b end).
  destruct (reassign_total s (q_full q) e mentions_full) as [e' E]. unfold reassign_predicate. rewrite E.
  destruct (missing s e') eqn:M; [exists gs; auto|]. eexists. split; [reflexivity|]. split; [intros b; apply zip_keep_in|].
  unfold all_seen. rewrite !filter_concat, !map_map. destruct (Hprune e' s gs) as [L HP]. apply zip_keep_rows; auto.
  intros i b Hb Hne. unfold streams_ok in H. rewrite Forall_forall in H, HN. pose proof (nth_error_In _ _ Hb) as Hin. destruct (H b Hin) as [Hok Hc].
  destruct (filter (sat un bin tags T e) (map (seen T b) (sb_live b))) as [|w l] eqn:F; [congruence|].
  assert (Hw : In w (filter (sat un bin tags T e) (map (seen T b) (sb_live b)))) by (rewrite F; left; auto).
  apply filter_In in Hw as [Hw Hs]. apply in_map_iff in Hw as (r & <- & Hr).
  assert (Es : g_cols b = s).
  { unfold s. destruct gs as [|b0 gs0]; [destruct Hin|]. unfold g_cols. rewrite Hc. destruct (H b0 (or_introl eq_refl)) as [_ ->]. reflexivity. }
  apply (HP i b r); auto. apply (weak_row b r s); auto. rewrite <- Es. apply layout_group; auto.
Qed.
Lemma filter_map_imp {A B} (f g : B -> bool) (h : A -> bool) (m : A -> B) l : (forall a, In a l -> f (m a) = true -> h a = true) ->
  filter f (map m (filter h l)) = filter f (map m l).
Proof.
  induction l as [|a l IH]; intros H; auto. cbn [filter map]. specialize (IH (fun x Hx => H x (or_intror Hx))).
  destruct (h a) eqn:E; cbn [map filter]; rewrite IH; auto. destruct (f (m a)) eqn:F; auto. rewrite (H a (or_introl eq_refl) F) in E. discriminate.
Qed.
Lemma filter_map_comm {A B} (f : B -> bool) (m : A -> B) l : filter f (map m l) = map m (filter (fun a => f (m a)) l).
Proof. induction l as [|a l IH]; auto. cbn [map filter]. destruct (f (m a)); cbn [map]; rewrite IH; auto. Qed.

Theorem read_pred gs : streams_ok gs -> Forall (names_ok q e) gs ->
  exists rows, read_chunk un bin prune q (Some e) gs = Some rows /\
    filter (sat un bin tags T e) rows = filter (sat un bin tags T e) (all_seen T gs) /\
    (forall w, In w rows -> In w (all_seen T gs)) /\
    (forall c, conjunct c e -> (forall n, mentions n c -> In n (map sc_name sch)) -> forall w, In w rows -> sat un bin tags T c w = true).
Proof.
  intros H HN. destruct (filter_groups_ok gs H HN) as (gs' & E & Hsub & HF). unfold read_chunk. rewrite E.
  assert (H' : streams_ok gs') by (unfold streams_ok in *; rewrite Forall_forall in *; auto).
  assert (HN' : Forall (names_ok q e) gs') by (rewrite Forall_forall in *; auto).
  assert (Hinc : forall w, In w (all_seen T gs') -> In w (all_seen T gs)).
  { intros w Hw. rewrite seen_pairs in *. apply in_map_iff in Hw as ([b r] & <- & Hp). apply in_map. apply pairs_in in Hp as [Hp1 Hp2]. apply pairs_in. auto. }
  destruct gs' as [|b0 gs0] eqn:Eg.
  - cbn [combined rev]. unfold data_filter, reassign_predicate. destruct (reassign_total [] (q_full q) e mentions_full) as [e' ->].
    assert (EA : forall x, align_rows T x [] = []) by (intros x; unfold align_rows; destruct (cols_eqb _ _); auto).
    assert (EX : (if missing [] e' then @Some (list (list (option Z))) [] else Some []) = Some []) by (destruct (missing [] e'); auto).
    exists []. split; [destruct (missing [] e'); cbn [filter]; fold T; rewrite EA; reflexivity|]. split; [exact HF|]. split; [intros w []|]. intros c _ _ w [].
  - rewrite <- Eg in *. rewrite combined_ok; auto; [|rewrite Eg; discriminate]. clear Eg. unfold data_filter, reassign_predicate.
    destruct (reassign_total sch (q_full q) e mentions_full) as [e' Er]. rewrite Er. rewrite rows_pairs by auto.
    assert (HL : forall p, In p (pairs gs') -> layout sch (raw_row p) (fst p) (snd p)).
    { intros p Hp. destruct (pairs_ok gs' p H' Hp) as [P1 P2]. pose proof (layout_stream q (fst p) P1 (snd p)) as L. rewrite (cg_schema_cols (fst p) P2) in L. exact L. }
    assert (HNp : forall p, In p (pairs gs') -> names_ok q e (fst p)).
    { intros [b r] Hp. apply pairs_in in Hp as [Hp _]. rewrite Forall_forall in HN'. apply HN'; auto. }
    destruct (missing sch e') eqn:M.
    + eexists. split; [reflexivity|]. fold T. rewrite align_pairs; [|intros p Hp; eapply pairs_ok; eauto]. rewrite <- seen_pairs. split; [exact HF|]. split; [exact Hinc|].
      intros c C Hc. pose proof (conjunct_present un bin sch (q_full q) c e C Hc e' Er). congruence.
    + eexists. split; [reflexivity|]. rewrite filter_map_comm. fold T.
      set (keep := fun p => is_true (eval un bin (raw_row p) e')).
      assert (HS : forall p, In p (filter keep (pairs gs')) -> In p (pairs gs')) by (intros p Hp; apply filter_In in Hp; tauto).
      rewrite align_pairs; [|intros p Hp; eapply pairs_ok; eauto]. split; [|split].
      * rewrite <- HF, seen_pairs. apply (filter_map_imp _ (fun _ => true)). intros p Hp Hs. unfold keep.
        destruct (pairs_ok gs' p H' Hp) as [P1 P2]. apply (weak_row (fst p) (snd p) sch); auto.
      * intros w Hw. apply Hinc. rewrite seen_pairs. apply in_map_iff in Hw as (p & <- & Hp). apply in_map; auto.
      * intros c C Hc w Hw. apply in_map_iff in Hw as (p & <- & Hp). pose proof (HS p Hp) as Hp0. apply filter_In in Hp as [_ Hk].
        unfold sat, seen_row. rewrite evaln_env. apply (reassign_conjunct un bin sch (q_full q) c e C Hc e' Er (raw_row p)); [|exact Hk].
        assert (HMc : forall n, mentions n c -> mentions n e).
        { clear - C. induction e as [| |l IHl r IHr| | |]; cbn [conjunct] in C; intros n0 Hn0; try (destruct C as [-> | []]; exact Hn0).
          destruct C as [-> | [C|C]]; [exact Hn0|left; auto|right; auto]. }
        intros n j Hme Ej. apply (names_env q (fst p) (snd p) e tags sch (raw_row p) Hq); auto.
Qed.
End Chunk.
