From Verif Require Import Prelude SummaryModel SummarySpec.
Open Scope Z_scope.

Notation ssorted := (StronglySorted (fun a b : meta => m_id a < m_id b)).
Notation ids := (map m_id).
Lemma ins_in x l m : In m (ins x l) <-> m = x \/ In m l.
Proof.
  induction l as [|y l IH]; cbn [ins In]; [intuition auto|].
  destruct (_ <? _); cbn [In]; [intuition auto|]. rewrite IH. tauto.
Qed.
Lemma ins_sorted x l : ssorted l -> ~ In (m_id x) (ids l) -> ssorted (ins x l).
Proof.
  induction 1 as [|y l S IH F]; cbn [ins map In]; intros N.
  - constructor; constructor.
  - destruct (m_id x <? m_id y) eqn:E.
    + constructor; [constructor; auto|]. constructor; [lia|]. rewrite Forall_forall in *. intros z Hz. specialize (F z Hz). cbn in F. lia.
    + constructor; [apply IH; tauto|]. rewrite Forall_forall in *. intros z Hz. apply ins_in in Hz as [->|Hz]; auto.
      assert (m_id y <> m_id x) by tauto. lia.
Qed.
Lemma sort_gen l acc : ssorted acc -> NoDup (ids (acc ++ l)) ->
  ssorted (fold_left (fun acc x => ins x acc) l acc) /\ (forall m, In m (fold_left (fun acc x => ins x acc) l acc) <-> In m (acc ++ l)).
Proof.
  revert acc. induction l as [|x l IH]; intros acc S N; cbn [fold_left].
  - rewrite app_nil_r. split; auto. tauto.
  - assert (Hx : ~ In (m_id x) (ids acc)).
    { rewrite map_app in N. cbn [map] in N. apply NoDup_remove_2 in N. rewrite in_app_iff in N. tauto. }
    destruct (IH (ins x acc)) as [A B].
    + apply ins_sorted; auto.
    + apply (Permutation_NoDup (l := ids (acc ++ x :: l))); auto. apply Permutation_map.
      apply (Permutation_trans (l' := x :: acc ++ l)). apply Permutation_sym, Permutation_middle.
      change (x :: acc ++ l) with ((x :: acc) ++ l). apply Permutation_app_tail.
      clear. induction acc as [|y acc IH]; cbn [ins]; auto. destruct (_ <? _); auto.
      eapply Permutation_trans; [apply perm_swap|]. apply perm_skip. auto.
    + split; auto. intros m. rewrite B, !in_app_iff, ins_in. cbn [In]. intuition auto.
Qed.
Lemma push_ok l x : ssorted l -> ~ In (m_id x) (ids l) -> NoDup (ids l) ->
  ssorted (push_file l x) /\ forall m, In m (push_file l x) <-> m = x \/ In m l.
Proof.
  intros S Hx N. unfold push_file, sort_files. destruct (sort_gen (l ++ [x]) []) as [A B].
  - constructor.
  - cbn [app]. rewrite map_app. cbn. clear - Hx N. induction (ids l) as [|y r IH]; cbn [app].
    + constructor; auto.
    + inversion N; subst. constructor; [rewrite in_app_iff; cbn [In]; intros [H|[H|[]]]; [auto|apply Hx; left; auto]|]. apply IH; auto. intros H. apply Hx. right; auto.
  - split; auto. intros m. rewrite B. cbn [app]. rewrite in_app_iff. cbn. intuition auto.
Qed.
Lemma ssorted_nodup l : ssorted l -> NoDup (ids l).
Proof.
  induction 1 as [|x l S IH F]; cbn [map]; constructor; auto. intros H. apply in_map_iff in H as (y&E&H).
  rewrite Forall_forall in F. specialize (F y H). cbn in F. lia.
Qed.
Lemma pushes_ok xs : forall l, ssorted l -> NoDup (ids (l ++ xs)) ->
  ssorted (fold_left push_file xs l) /\ forall m, In m (fold_left push_file xs l) <-> In m l \/ In m xs.
Proof.
  induction xs as [|x xs IH]; intros l S N; cbn [fold_left].
  - split; auto. cbn. tauto.
  - assert (Hx : ~ In (m_id x) (ids l)).
    { rewrite map_app in N. cbn [map] in N. apply NoDup_remove_2 in N. rewrite in_app_iff in N. tauto. }
    destruct (push_ok l x S Hx (ssorted_nodup _ S)) as [A B].
    destruct (IH (push_file l x) A) as [C D].
    + rewrite map_app in *. cbn [map] in N. 
      assert (P : Permutation (ids l ++ m_id x :: ids xs) (ids (push_file l x) ++ ids xs)).
      { apply (Permutation_trans (l' := (m_id x :: ids l) ++ ids xs)).
        - apply Permutation_sym, Permutation_middle.
        - apply Permutation_app_tail. apply NoDup_Permutation.
          + constructor; auto. apply ssorted_nodup; auto.
          + apply ssorted_nodup; auto.
          + intros z. cbn [In]. rewrite !in_map_iff. split.
            * intros [<-|(y&<-&H)]; [exists x|exists y]; (split; [auto|apply B]; auto).
            * intros (y&<-&H). apply B in H as [->|H]; [left; auto|right; exists y; auto]. }
      eapply Permutation_NoDup; eauto.
    + split; auto. intros m. rewrite D, B. cbn [In]. intuition auto.
Qed.
Lemma ssorted_eq l1 : forall l2, ssorted l1 -> ssorted l2 -> (forall m, In m l1 <-> In m l2) -> l1 = l2.
Proof.
  induction l1 as [|x l1 IH]; intros [|y l2] S1 S2 E; auto.
  - destruct (proj2 (E y)). left; auto.
  - destruct (proj1 (E x)). left; auto.
  - inversion S1 as [|? ? S1' F1]; inversion S2 as [|? ? S2' F2]; subst. rewrite Forall_forall in F1, F2.
    assert (x = y).
    { destruct (proj1 (E x) (or_introl eq_refl)) as [H|H]; auto. destruct (proj2 (E y) (or_introl eq_refl)) as [K|K]; auto.
      specialize (F1 y K). specialize (F2 x H). cbn in *. lia. }
    subst y. f_equal. apply IH; auto. intros m. split; intros H.
    + destruct (proj1 (E m) (or_intror H)) as [<-|K]; auto. specialize (F1 _ H). cbn in F1. lia.
    + destruct (proj2 (E m) (or_intror H)) as [<-|K]; auto. specialize (F2 _ H). cbn in F2. lia.
Qed.

(** * Sets of files *)
Record awf (a : fset) : Prop := {
  w_nd : NoDup (ids (fs_files a)); w_seq : 0 <= fs_seq a;
  w_lv : forall m, In m (fs_files a) -> 0 < m_id m /\ (m_level m < 5)%nat }.
Lemma ids_filter (p : meta -> bool) l : NoDup (ids l) -> NoDup (ids (filter p l)).
Proof.
  induction l as [|x l IH]; cbn [filter map]; intros N; auto. inversion N; subst.
  destruct (p x); cbn [map]; auto. constructor; auto. intros H. apply H1. apply in_map_iff in H as (y&E&H).
  apply filter_In in H as [H _]. apply in_map_iff. exists y. auto.
Qed.
Lemma ids_app l1 l2 : NoDup (ids l1) -> NoDup (ids l2) -> (forall x y, In x l1 -> In y l2 -> m_id x <> m_id y) -> NoDup (ids (l1 ++ l2)).
Proof.
  intros N1 N2 D. induction l1 as [|x l1 IH]; cbn [app map] in *; auto. inversion N1; subst. constructor.
  - rewrite map_app, in_app_iff. intros [H|H]; auto. apply in_map_iff in H as (y&E&H). apply (D x y); auto. left; auto.
  - apply IH; auto. intros; apply D; auto. right; auto.
Qed.
Lemma edit_awf a n e : awf a -> edit_ok a n e -> awf (fs_edit a e).
Proof.
  intros [N S L] (E1&E2&E3&E4&E5&E6). unfold fs_edit. split; cbn [fs_files fs_seq].
  - apply ids_app; auto using ids_filter. intros x y Hx Hy Exy. apply filter_In in Hx as [Hx Hd].
    destruct (E4 y Hy) as (_&_&_&K). specialize (K x Hx Exy). apply negb_true_iff in Hd.
    apply in_map_iff in K as (d&Ed&K). assert (existsb (fun d => m_id d =? m_id x) (e_del e) = true); [|congruence].
    apply existsb_exists. exists d. split; auto. lia.
  - lia.
  - intros m H. apply in_app_or in H as [H|H].
    + apply filter_In in H as [H _]. auto.
    + destruct (E4 m H) as (?&?&_). lia.
Qed.

Lemma nth_map_combine (f : nat -> list meta -> list meta) ls l : length ls = 5%nat -> (l < 5)%nat ->
  nth l (map (fun p => f (fst p) (snd p)) (combine (seq 0 5) ls)) [] = f l (nth l ls []).
Proof.
  intros H. destruct ls as [|a [|b [|c [|d [|x [|y ls]]]]]]; try discriminate H. intros Hl.
  do 5 (destruct l as [|l]; [reflexivity|]). lia.
Qed.
Lemma apply_shows v a n e : shows v a -> awf a -> edit_ok a n e -> shows (apply_edit v e) (fs_edit a e).
Proof.
  intros (V1&V2&V3&V4) W E. pose proof (edit_awf a n e W E) as W'. destruct E as (E1&E2&E3&E4&E5&E6).
  unfold apply_edit. split; [cbn; rewrite V1; auto|]. cbn [v_levels].
  assert (Len : length (map (fun p => apply_level e (fst p) (snd p)) (combine (seq 0 5) (v_levels v))) = 5%nat).
  { rewrite map_length, combine_length, seq_length, V2. reflexivity. }
  split; auto.
  assert (K : forall l, (l < 5)%nat -> ssorted (apply_level e l (nth l (v_levels v) [])) /\
     forall m, In m (apply_level e l (nth l (v_levels v) [])) <-> In m (fs_files (fs_edit a e)) /\ m_level m = l).
  { intros l Hl. unfold apply_level. set (kept := filter _ (nth l (v_levels v) [])). set (added := filter _ (e_add e)).
    assert (Hk : forall m, In m kept <-> In m (filter (fun m => negb (existsb (fun d => m_id d =? m_id m) (e_del e))) (fs_files a)) /\ m_level m = l).
    { intros m. unfold kept. rewrite !filter_In, V3, !negb_true_iff.
      assert (X : In m (fs_files a) -> has_id (filter (fun d => (m_level d =? m_level m)%nat) (e_del e)) (m_id m) = existsb (fun d => m_id d =? m_id m) (e_del e)).
      { intros Hm. apply eq_true_iff_eq. unfold has_id. rewrite !existsb_exists. split.
        - intros (d&Hd&Ed). apply filter_In in Hd as [Hd _]. exists d; auto.
        - intros (d&Hd&Ed). exists d. split; auto. apply filter_In. split; auto. apply Nat.eqb_eq. apply E6; auto. lia. }
      split.
      - intros [[H1 H2] H3]. rewrite X in H3 by auto. auto.
      - intros [[H1 H2] H3]. rewrite X by auto. auto. }
    assert (Nk : NoDup (ids kept)). { unfold kept. apply ids_filter. apply ssorted_nodup. auto. }
    destruct (pushes_ok kept [] (SSorted_nil _) Nk) as [S1 I1].
    assert (Na : NoDup (ids (fold_left push_file kept [] ++ added))).
    { apply ids_app.
      - apply ssorted_nodup; auto.
      - apply ids_filter; auto.
      - intros x y Hx Hy Exy. apply I1 in Hx as [[]|Hx]. apply Hk in Hx as [Hx _].
        apply filter_In in Hy as [Hy _]. destruct W' as [W1 _ _]. cbn [fs_edit fs_files] in W1. rewrite map_app in W1.
        clear - W1 Hx Hy Exy. apply (in_map m_id) in Hx, Hy. rewrite Exy in Hx.
        induction (ids (filter _ (fs_files a))) as [|z r IH]; [destruct Hx|]. cbn [app] in W1. inversion W1; subst.
        destruct Hx as [->|Hx]; auto. apply H1. apply in_or_app. auto. }
    destruct (pushes_ok added _ S1 Na) as [S2 I2]. split; auto. intros m. rewrite I2, I1, Hk. cbn [fs_edit fs_files].
    rewrite in_app_iff. unfold added. rewrite (filter_In _ m (e_add e)), Nat.eqb_eq. cbn [In]. tauto. }
  assert (B : forall l, ~ (l < 5)%nat -> nth l (map (fun p => apply_level e (fst p) (snd p)) (combine (seq 0 5) (v_levels v))) [] = []).
  { intros l Hl. apply nth_overflow. rewrite Len. lia. }
  split; intros l.
  - destruct (lt_dec l 5) as [Hl|Hl].
    + rewrite nth_map_combine by auto. apply K; auto.
    + rewrite B by auto. intros m. split; [intros []|]. intros [Hm El]. destruct (w_lv _ W' m Hm). lia.
  - destruct (lt_dec l 5) as [Hl|Hl].
    + rewrite nth_map_combine by auto. apply K; auto.
    + rewrite B by auto. constructor.
Qed.

(** * Recovery *)
Lemma fold_max_ge l b : b <= fold_left Z.max l b /\ forall x, In x l -> x <= fold_left Z.max l b.
Proof.
  revert b. induction l as [|y l IH]; intros b; cbn [fold_left In]; [split; [lia|tauto]|]. destruct (IH (Z.max b y)) as [A B].
  split; [lia|]. intros x [->|H]; auto. lia.
Qed.
Lemma fold_max_app l x b : fold_left Z.max (l ++ [x]) b = Z.max (fold_left Z.max l b) x.
Proof. rewrite fold_left_app. reflexivity. Qed.
Lemma fold_max_lt l b c : b < c -> (forall x, In x l -> x < c) -> fold_left Z.max l b < c.
Proof. revert b. induction l as [|y l IH]; intros b H1 H2; cbn [fold_left]; auto. apply IH; [|intros; apply H2; right; auto]. specialize (H2 y (or_introl eq_refl)). lia. Qed.

Definition same (f g : list meta) : Prop := NoDup (ids f) /\ forall m, In m f <-> In m g.
Lemma remove_in i f m : In m (file_remove i f) <-> In m f /\ m_id m <> i.
Proof. unfold file_remove. rewrite filter_In, negb_true_iff, Z.eqb_neq. tauto. Qed.
Lemma removes_in ds : forall f m, In m (fold_left (fun fs d => file_remove (m_id d) fs) ds f) <-> In m f /\ ~ In (m_id m) (ids ds).
Proof.
  induction ds as [|d ds IH]; intros f m; cbn [fold_left map In]; [tauto|]. rewrite IH, remove_in. intuition auto.
Qed.
Lemma removes_nd ds : forall f, NoDup (ids f) -> NoDup (ids (fold_left (fun fs d => file_remove (m_id d) fs) ds f)).
Proof. induction ds; intros f N; cbn [fold_left]; auto. apply IHds. apply ids_filter. auto. Qed.
Lemma insert_nd f m : NoDup (ids f) -> NoDup (ids (file_insert f m)).
Proof.
  intros N. unfold file_insert. cbn [map]. constructor; [|apply ids_filter; auto]. intros H.
  apply in_map_iff in H as (y&E&H). apply remove_in in H as [_ H]. auto.
Qed.
Lemma inserts_in xs : forall f, NoDup (ids f) -> NoDup (ids xs) ->
  NoDup (ids (fold_left file_insert xs f)) /\
  forall m, In m (fold_left file_insert xs f) <-> In m xs \/ (In m f /\ ~ In (m_id m) (ids xs)).
Proof.
  induction xs as [|x xs IH]; intros f N Nx; cbn [fold_left map].
  - split; auto. cbn. tauto.
  - inversion Nx; subst. destruct (IH (file_insert f x)) as [A B]; auto using insert_nd. split; auto. intros m. rewrite B.
    unfold file_insert. cbn [In]. rewrite remove_in. split.
    + intros [H|[[<-|[H H']] K]]; auto. right. split; auto. intros [E|E]; auto.
    + intros [[->|H]|[H K]].
      * right. auto.
      * auto.
      * right. split; [right; split; auto|tauto].
Qed.
Lemma files_edit_same f a n e : awf a -> same f (fs_files a) -> edit_ok a n e -> same (files_edit f e) (fs_files (fs_edit a e)).
Proof.
  intros W [N I] E. pose proof (edit_awf a n e W E) as W'. destruct E as (E1&E2&E3&E4&E5&E6).
  unfold files_edit. destruct (inserts_in (e_add e) _ (removes_nd (e_del e) f N) E3) as [A B].
  split; auto. intros m. rewrite B, removes_in, I. cbn [fs_edit fs_files]. rewrite in_app_iff, filter_In, negb_true_iff.
  assert (X : existsb (fun d => m_id d =? m_id m) (e_del e) = false <-> ~ In (m_id m) (ids (e_del e))).
  { rewrite <- not_true_iff_false, existsb_exists, in_map_iff. split; intros H (d&H1&H2); apply H; exists d; split; auto; lia. }
  rewrite X. split.
  - intros [H|[[H1 H2] H3]]; auto.
  - intros [[H1 H2]|H]; auto. right. split; auto. intros H. apply in_map_iff in H as (y&Ey&Hy).
    destruct (E4 y Hy) as (_&_&_&K). apply H2. apply (K m); auto.
Qed.

Lemma level_upd_nth l f ls k : nth k (level_upd l f ls) [] = if (k =? l)%nat then (if (k <? length ls)%nat then f (nth k ls []) else []) else nth k ls [].
Proof.
  revert l k. induction ls as [|x ls IH]; intros l k; cbn [level_upd].
  - destruct (Nat.eqb k l); destruct k, l; reflexivity.
  - destruct l as [|l], k as [|k]; cbn [level_upd nth length]; auto. rewrite IH. cbn [Nat.eqb].
    change (S k <? S (length ls))%nat with (k <? length ls)%nat. reflexivity.
Qed.
Lemma level_upd_len l f ls : length (level_upd l f ls) = length ls.
Proof. revert l. induction ls as [|x ls IH]; intros l; destruct l as [|l]; cbn [level_upd length]; auto. Qed.
Lemma fill_levels ms : forall ls, length ls = 5%nat -> (forall m, In m ms -> (m_level m < 5)%nat) ->
  let r := fold_left (fun lv m => level_upd (m_level m) (fun l => push_file l m) lv) ms ls in
  length r = 5%nat /\ forall l, nth l r [] = fold_left push_file (filter (fun m => (m_level m =? l)%nat) ms) (nth l ls []).
Proof.
  induction ms as [|m ms IH]; intros ls L H; cbn [fold_left filter]; auto.
  destruct (IH (level_upd (m_level m) (fun l => push_file l m) ls)) as [A B].
  - rewrite level_upd_len; auto.
  - intros; apply H; right; auto.
  - split; auto. intros l. rewrite B, level_upd_nth, L. rewrite (Nat.eqb_sym (m_level m) l).
    destruct (l =? m_level m)%nat eqn:E; auto. apply Nat.eqb_eq in E. subst l.
    assert (Hl : (m_level m <? 5)%nat = true). { apply Nat.ltb_lt. apply H. left; auto. }
    rewrite Hl. reflexivity.
Qed.

Definition fseq es := fold_left Z.max (map e_seq es) 0.
Definition ffid es := fold_left Z.max (map e_fid es) 0.
(** The edits on disk stand for the set of files. *)
Record disk (records : list edit) (a : fset) (top : Z) : Prop := {
  d_ne : pick_edits records <> [];
  d_same : same (fold_left files_edit (pick_edits records) []) (fs_files a);
  d_seq : fseq (pick_edits records) = fs_seq a;
  d_top : ffid (pick_edits records) = top;
  d_id : forall m, In m (fs_files a) -> m_id m <= top }.
Lemma recover_disk order (order_perm : forall l : list meta, Permutation (order l) l) r a top : awf a -> disk r a top -> exists v, recover order r = Some (v, top + 1) /\ shows v a.
Proof.
  intros W [D1 [D2 D3] D4 D5 D6]. unfold recover. destruct (pick_edits r) as [|e0 es] eqn:E; [congruence|]. rewrite <- E in *.
  set (files := order (fold_left files_edit (pick_edits r) [])).
  assert (P : Permutation files (fold_left files_edit (pick_edits r) [])) by apply order_perm.
  assert (Hf : forall m, In m files <-> In m (fs_files a)).
  { intros m. rewrite <- D3. split; apply Permutation_in; auto. apply Permutation_sym; auto. }
  assert (Nf : NoDup (ids files)). { eapply Permutation_NoDup; [|exact D2]. apply Permutation_map, Permutation_sym; auto. }
  destruct (fill_levels files no_levels) as [A B]; [reflexivity| |].
  { intros m H. apply Hf in H. apply (w_lv _ W); auto. }
  eexists. split; [rewrite <- D5; unfold ffid; reflexivity|].
  split; [exact D4|]. cbn [v_levels]. split; auto.
  assert (No : forall l, nth l no_levels [] = []). { intros [|[|[|[|[|[|l]]]]]]; reflexivity. }
  assert (K : forall l, ssorted (nth l (fold_left (fun lv m => level_upd (m_level m) (fun l => push_file l m) lv) files no_levels) []) /\
     forall m, In m (nth l (fold_left (fun lv m => level_upd (m_level m) (fun l => push_file l m) lv) files no_levels) []) <-> In m (fs_files a) /\ m_level m = l).
  { intros l. rewrite B, No. destruct (pushes_ok (filter (fun m => (m_level m =? l)%nat) files) [] (SSorted_nil _)) as [S I].
    - cbn [app]. apply ids_filter; auto.
    - split; auto. intros m. rewrite I, filter_In, Hf, Nat.eqb_eq. cbn. tauto. }
  split; intros l; apply K.
Qed.
Lemma pick_app r e : e_act e = AUpd -> pick_edits (r ++ [e]) = pick_edits r ++ [e].
Proof. intros E. unfold pick_edits. rewrite fold_left_app. cbn [fold_left]. rewrite E. auto. Qed.
Lemma disk_edit r a top n e : awf a -> disk r a top -> edit_ok a n e -> disk (r ++ [e]) (fs_edit a e) (Z.max top (e_fid e)).
Proof.
  intros W [D1 D2 D4 D5 D6] E. pose proof E as (E1&E2&E3&E4&E5&E6). split.
  - rewrite pick_app by auto. destruct (pick_edits r); discriminate.
  - rewrite pick_app, fold_left_app by auto. cbn [fold_left]. eapply files_edit_same; eauto.
  - rewrite pick_app by auto. unfold fseq in *. rewrite map_app. cbn [map]. rewrite fold_max_app, D4. auto.
  - rewrite pick_app by auto. unfold ffid in *. rewrite map_app. cbn [map]. rewrite fold_max_app, D5. auto.
  - intros m H. cbn [fs_edit fs_files] in H. apply in_app_or in H as [H|H].
    + apply filter_In in H as [H _]. specialize (D6 m H). lia.
    + destruct (E4 m H) as (_&_&K&_). lia.
Qed.

Lemma build_gen ms mx e : let r := fold_left (fun e m => add_file e m mx) ms e in
  e_seq r = e_seq e /\ e_add r = e_add e ++ ms /\ e_del r = e_del e /\ e_act r = e_act e /\
  e_fid r = fold_left Z.max (ids ms) (e_fid e).
Proof.
  revert e. induction ms as [|m ms IH]; intros e; cbn [fold_left map].
  - rewrite app_nil_r. auto.
  - destruct (IH (add_file e m mx)) as (A&B&C&D&F). cbv zeta. rewrite A, B, C, D, F. cbn. rewrite <- app_assoc. auto.
Qed.
Lemma build_spec v : e_seq (build_edit v) = v_seq v /\ e_add (build_edit v) = concat (v_levels v) /\ e_del (build_edit v) = [] /\
  e_act (build_edit v) = AAdd /\ e_fid (build_edit v) = fold_left Z.max (ids (concat (v_levels v))) 0.
Proof. unfold build_edit. destruct (build_gen (concat (v_levels v)) (v_maxts v) (new_add_vnode (v_seq v))) as (A&B&C&D&E). auto. Qed.
Lemma shows_concat v a : shows v a -> awf a -> NoDup (ids (concat (v_levels v))) /\ forall m, In m (concat (v_levels v)) <-> In m (fs_files a).
Proof.
  intros (V1&V2&V3&V4) W.
  assert (I : forall m, In m (concat (v_levels v)) <-> In m (fs_files a)).
  { intros m. rewrite in_concat. split.
    - intros (l&Hl&Hm). apply In_nth with (d := []) in Hl as (k&Hk&<-). apply V3 in Hm. tauto.
    - intros Hm. exists (nth (m_level m) (v_levels v) []). split.
      + apply nth_In. rewrite V2. apply (w_lv _ W); auto.
      + apply V3. auto. }
  split; auto.
  assert (G : forall k ls, (forall l m, In m (nth l ls []) -> In m (fs_files a) /\ m_level m = (k + l)%nat) -> (forall l, ssorted (nth l ls [])) -> NoDup (ids (concat ls))).
  { intros k ls. revert k. induction ls as [|x ls IH]; intros k H Q; [constructor|]. cbn [concat]. apply ids_app.
    - apply ssorted_nodup. apply (Q 0%nat).
    - apply (IH (S k)). { intros l m Hm. specialize (H (S l) m Hm). rewrite Nat.add_succ_r in H. exact H. } intros l. apply (Q (S l)).
    - intros y z Hy Hz E. destruct (H 0%nat y Hy) as [Y1 Y2]. apply in_concat in Hz as (l&Hl&Hz).
      apply In_nth with (d := []) in Hl as (j&Hj&<-). destruct (H (S j) z Hz) as [Z1 Z2].
      assert (y = z).
      { destruct W as [Nd _ _]. clear - Nd Y1 Z1 E. induction (fs_files a) as [|q r IH]; [destruct Y1|]. cbn [map] in Nd. inversion Nd; subst.
        destruct Y1 as [->|Y1], Z1 as [->|Z1]; auto.
        - destruct H1. rewrite E. apply in_map; auto.
        - destruct H1. rewrite <- E. apply in_map; auto. }
      subst. lia. }
  apply (G 0%nat); auto. intros l m Hm. apply V3 in Hm. auto.
Qed.
Lemma disk_build v a : shows v a -> awf a -> exists top, disk [build_edit v] a top.
Proof.
  intros S W. destruct (build_spec v) as (A&B&C&D&E). destruct (shows_concat v a S W) as [N I].
  exists (fold_left Z.max (ids (concat (v_levels v))) 0).
  assert (P : pick_edits [build_edit v] = [build_edit v]). { unfold pick_edits. cbn [fold_left]. rewrite D. auto. }
  split.
  - rewrite P. discriminate.
  - rewrite P. cbn [fold_left]. unfold files_edit. rewrite C, B. cbn [fold_left].
    destruct (inserts_in (concat (v_levels v)) []) as [X Y]; [constructor|auto|]. split; auto.
    intros m. rewrite Y, <- I. cbn. tauto.
  - rewrite P. unfold fseq. cbn [map fold_left]. rewrite A. destruct S as (S1&_). rewrite S1. pose proof (w_seq _ W). lia.
  - rewrite P. unfold ffid. cbn [map fold_left]. rewrite E. pose proof (proj1 (fold_max_ge (ids (concat (v_levels v))) 0)). lia.
  - intros m Hm. apply I in Hm. apply (fold_max_ge (ids (concat (v_levels v))) 0). apply in_map; auto.
Qed.

Definition inv (s : vstate) (a : fset) : Prop :=
  awf a /\ s_tmp s = None /\ shows (s_ver s) a /\ (exists top, disk (s_file s) a top) /\ (forall m, In m (fs_files a) -> m_id m < s_next s) /\ 0 < s_next s.
Lemma restart_inv order (order_perm : forall l : list meta, Permutation (order l) l) s a : awf a -> (exists top, disk (s_file s) a top) -> inv (s_restart order s) a.
Proof.
  intros W (top&D). destruct (recover_disk order order_perm _ _ _ W D) as (v&E&S). unfold s_restart. rewrite E. split; auto. split; auto. split; auto.
  split; [exists top; auto|]. cbn [s_next]. assert (0 <= top). { rewrite <- (d_top _ _ _ D). apply (proj1 (fold_max_ge _ 0)). }
  split; [|lia]. intros m Hm. pose proof (d_id _ _ _ D m Hm). lia.
Qed.
Lemma shows_eq v1 v2 a : shows v1 a -> shows v2 a -> v_levels v1 = v_levels v2 /\ v_seq v1 = v_seq v2.
Proof.
  intros (A1&A2&A3&A4) (B1&B2&B3&B4). split; [|congruence]. apply (nth_ext _ _ [] []); [congruence|].
  intros l _. apply ssorted_eq; auto. intros m. rewrite A3, B3. tauto.
Qed.
Lemma inv_create : inv s_create (FS [] 0).
Proof.
  assert (W : awf (FS [] 0)). { split; cbn; [constructor|lia|tauto]. }
  split; auto. split; auto. split.
  - split; [reflexivity|]. split; [reflexivity|]. split; intros [|[|[|[|[|[|l]]]]]]; cbn; try (intros; tauto); constructor.
  - split; [|cbn; split; [tauto|lia]]. exists 0. split; cbn; try reflexivity; try tauto; [discriminate|]. split; [constructor|tauto].
Qed.
Lemma renumber_ids l : forall n, ids (renumber n l) = map (fun k => n + Z.of_nat k) (seq 0 (length l)).
Proof.
  induction l as [|m l IH]; intros n; cbn [renumber map length seq]; auto. cbn [m_id]. f_equal; [lia|].
  rewrite IH, <- seq_shift, map_map. apply map_ext. intros k. lia.
Qed.
Lemma renumber_len l : forall n, length (renumber n l) = length l.
Proof. induction l; intros n; cbn; auto. Qed.
Lemma renumber_lv l m : forall n, In m (renumber n l) -> exists x, In x l /\ m_level m = m_level x /\ n <= m_id m < n + Z.of_nat (length l).
Proof.
  induction l as [|x l IH]; intros n; cbn [renumber In length]; [tauto|]. intros [<-|H].
  - exists x. cbn. split; auto. split; auto. lia.
  - destruct (IH _ H) as (y&?&?&?). exists y. split; auto. split; auto. lia.
Qed.
Lemma renumber_nd l n : NoDup (ids (renumber n l)).
Proof.
  rewrite renumber_ids. apply FinFun.Injective_map_NoDup; [|apply seq_NoDup]. intros a b. lia.
Qed.
(** Distinct positive ids: there are no more of them than the largest one. *)
Lemma count_max l : NoDup l -> (forall x, In x l -> 0 < x) -> Z.of_nat (length l) <= fold_left Z.max l 0.
Proof.
  intros N P. set (M := fold_left Z.max l 0).
  assert (H0 : 0 <= M) by apply (proj1 (fold_max_ge l 0)).
  assert (I : incl l (map (fun k => 1 + Z.of_nat k) (seq 0 (Z.to_nat M)))).
  { intros x Hx. apply in_map_iff. exists (Z.to_nat (x - 1)). specialize (P x Hx). pose proof (proj2 (fold_max_ge l 0) x Hx). fold M in H.
    split; [lia|]. apply in_seq. lia. }
  apply NoDup_incl_length in I; auto. rewrite map_length, seq_length in I. lia.
Qed.
Lemma inv_snapshot v a0 : shows v a0 -> awf a0 -> inv (s_snapshot v) (FS (renumber 1 (concat (v_levels v))) (v_seq v)).
Proof.
  intros S W. destruct (build_spec v) as (A&B&C&D&E). destruct (shows_concat v a0 S W) as [N I].
  set (a := FS (renumber 1 (concat (v_levels v))) (v_seq v)).
  assert (Sq : 0 <= v_seq v). { destruct S as (S1&_). rewrite S1. apply (w_seq _ W). }
  assert (W' : awf a).
  { split; cbn [a fs_files fs_seq]; auto.
    - apply renumber_nd.
    - intros m H. apply renumber_lv in H as (x&Hx&El&Hi). apply I in Hx. destruct (w_lv _ W x Hx). lia. }
  unfold s_snapshot. rewrite A, B, C, D. set (ve := ED _ _ _ _ _ _).
  split; auto. split; auto. split.
  - cbn [s_ver]. (* applying the edit to nothing *)
    assert (Sh : shows (VER (v_seq v) (e_maxts (build_edit v)) no_levels) (FS [] (v_seq v))).
    { split; [reflexivity|]. split; [reflexivity|]. split; intros [|[|[|[|[|[|l]]]]]]; cbn; try (intros; tauto); constructor. }
    assert (We : awf (FS [] (v_seq v))). { split; cbn; [constructor|auto|tauto]. }
    pose (ve' := ED (e_seq ve) (Z.of_nat (length (concat (v_levels v)))) (e_maxts ve) (e_add ve) (e_del ve) AUpd).
    assert (Ok : edit_ok (FS [] (v_seq v)) (1 + Z.of_nat (length (concat (v_levels v)))) ve').
    { unfold edit_ok, ve', ve. cbn [e_act e_seq e_add e_fid e_del fs_files]. split; auto. split; auto. split; [apply renumber_nd|].
      split; [|split; [lia|cbn; tauto]]. intros m H. pose proof (w_lv _ W' m H). apply renumber_lv in H as (x&Hx&El&Hi).
      split; [tauto|]. split; [lia|]. split; [lia|]. cbn; tauto. }
    pose proof (apply_shows _ _ _ _ Sh We Ok) as R. unfold fs_edit in R. cbn [fs_files filter app fs_seq] in R.
    unfold ve' in R. cbn [e_add e_seq] in R. unfold ve in R. cbn [e_add e_seq] in R. rewrite Z.max_id in R. exact R.
  - split.
    + exists (fold_left Z.max (ids (concat (v_levels v))) 0).
      assert (Cn : Z.of_nat (length (concat (v_levels v))) <= fold_left Z.max (ids (concat (v_levels v))) 0).
      { rewrite <- (map_length m_id). apply count_max; auto. intros x Hx. apply in_map_iff in Hx as (m&<-&Hm). apply I in Hm. apply (w_lv _ W); auto. }
      assert (P : pick_edits [ve] = [ve]) by reflexivity. cbn [s_file]. split.
      * rewrite P. discriminate.
      * rewrite P. cbn [fold_left]. unfold files_edit, ve. cbn [e_del e_add fold_left].
        destruct (inserts_in (renumber 1 (concat (v_levels v))) []) as [X Y]; [constructor|apply renumber_nd|]. split; auto.
        intros m. rewrite Y. cbn. tauto.
      * rewrite P. unfold fseq, ve. cbn [map fold_left e_seq a fs_seq]. lia.
      * rewrite P. unfold ffid, ve. cbn [map fold_left e_fid]. rewrite E. lia.
      * intros m Hm. cbn [a fs_files] in Hm. apply renumber_lv in Hm as (x&_&_&Hi). lia.
    + cbn [s_next a fs_files]. split; [|lia]. intros m Hm. apply renumber_lv in Hm as (x&_&_&Hi). lia.
Qed.
Lemma op_inv order (order_perm : forall l : list meta, Permutation (order l) l) s a o : inv s a -> op_ok a (s_next s) o -> inv (sop_run order s o) (spec_op a o).
Proof.
  intros Hi H. pose proof Hi as (W&T&S&(top&D)&N&P).
  assert (G : forall e, edit_ok a (s_next s) e -> awf (fs_edit a e) /\ disk (s_file s ++ [e]) (fs_edit a e) (Z.max top (e_fid e)) /\
     shows (apply_edit (s_ver s) e) (fs_edit a e) /\ forall m, In m (fs_files (fs_edit a e)) -> m_id m < s_next s).
  { intros e E. split; [eapply edit_awf; eauto|]. split; [eapply disk_edit; eauto|]. split; [eapply apply_shows; eauto|].
    intros m Hm. cbn [fs_edit fs_files] in Hm. apply in_app_or in Hm as [Hm|Hm].
    - apply filter_In in Hm as [Hm _]. auto.
    - destruct E as (_&_&_&E4&_). destruct (E4 m Hm) as (_&?&_). lia. }
  destruct o as [|e rw|e|e| |v]; cbn [sop_run spec_op op_ok] in *.
  - split; auto. split; auto. split; auto. cbn. split; [exists top; auto|]. split; [|lia]. intros m Hm. specialize (N m Hm). lia.
  - destruct (G e H) as (W'&D'&S'&N'). unfold s_apply, write_edit. rewrite T. cbn [s_ver s_next s_file s_tmp].
    destruct rw; split; auto; split; auto; split; auto; cbn [s_file s_next].
    + split; auto. destruct (disk_build _ _ S' W') as (t&Ht). exists t; auto.
    + split; auto. exists (Z.max top (e_fid e)); auto.
  - destruct (G e H) as (W'&D'&S'&N'). apply restart_inv; auto. unfold write_edit. rewrite T. cbn [s_file]. eexists; eauto.
  - destruct (G e H) as (W'&D'&S'&N'). apply restart_inv; auto. unfold s_apply, write_edit. rewrite T. cbn [s_file]. eexists; eauto.
  - apply restart_inv; auto. exists top; auto.
  - destruct H as (a0&H1&H2&H3&H4). eapply inv_snapshot; [exact H1|]. split; auto.
Qed.
Lemma run_inv order (order_perm : forall l : list meta, Permutation (order l) l) h : forall s a, inv s a -> hist_ok order s a h -> inv (fold_left (sop_run order) h s) (fold_left spec_op h a).
Proof.
  induction h as [|o h IH]; intros s a I H; cbn [fold_left]; auto. destruct H as [H1 H2]. apply IH; auto. apply op_inv; auto.
Qed.
Lemma recover_exact order (order_perm : forall l : list meta, Permutation (order l) l) h : hist_ok order s_create (FS [] 0) h ->
  shows (s_ver (sops_run order h)) (spec_run h) /\
  exists v n, recover order (s_file (sops_run order h)) = Some (v, n) /\ shows v (spec_run h) /\
    v_levels v = v_levels (s_ver (sops_run order h)) /\
    (forall m, In m (fs_files (spec_run h)) -> m_id m < n /\ m_id m < s_next (sops_run order h)).
Proof.
  intros H. destruct (run_inv order order_perm h _ _ inv_create H) as (W&T&S&(top&D)&N&P). fold (sops_run order h) in *. fold (spec_run h) in *.
  split; auto. destruct (recover_disk order order_perm _ _ _ W D) as (v&E&S'). exists v, (top + 1). split; auto. split; auto. split.
  - apply (shows_eq _ _ (spec_run h)); auto.
  - intros m Hm. split; auto. pose proof (d_id _ _ _ D m Hm). lia.
Qed.

Lemma fold_max_att l : forall b, fold_left Z.max l b = b \/ In (fold_left Z.max l b) l.
Proof.
  induction l as [|x l IH]; intros b; cbn [fold_left]; auto.
  destruct (IH (Z.max b x)) as [E|H]; [|right; right; auto]. rewrite E.
  destruct (Z.max_spec b x) as [[_ ->]|[_ ->]]; [right; left|left]; auto.
Qed.
Lemma max_ts_exact levels : (forall l m, In m (nth l levels []) -> m_max m <= max_ts_of levels) /\
  (max_ts_of levels = I64_MIN \/ exists l m, In m (nth l levels []) /\ m_max m = max_ts_of levels).
Proof.
  unfold max_ts_of. split.
  - intros l m H. apply fold_max_ge. apply in_map_iff. exists m. split; auto. apply in_concat.
    destruct (Nat.lt_ge_cases l (length levels)).
    + exists (nth l levels []). split; auto. apply nth_In. auto.
    + rewrite nth_overflow in H by auto. destruct H.
  - destruct (fold_max_att (map m_max (concat levels)) I64_MIN) as [E|H]; [left; auto|right].
    apply in_map_iff in H as (m & E & H). apply in_concat in H as (f & F & H). apply In_nth with (d := []) in F as (l & L & F).
    exists l, m. rewrite F. auto.
Qed.
