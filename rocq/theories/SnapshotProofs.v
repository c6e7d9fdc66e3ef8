From Verif Require Import Prelude MergeModel MergeSpec MergeProofs ReadModel ReadSpec ReadProofs SummaryModel SummarySpec SummaryProofs SnapshotModel SnapshotSpec.
Open Scope Z_scope.

Lemma time_sort_exists cs : exists l, time_sorted cs l.
Proof.
  induction cs as [|c cs (l&P&S)].
  - exists []. split; [apply Permutation_refl|constructor].
  - assert (K : exists l', Permutation (c :: l) l' /\ StronglySorted range_le l').
    { clear P. induction S as [|x l S (l'&P'&S') F].
      - exists [c]. split; [apply Permutation_refl|repeat constructor].
      - assert (T : range_le c x \/ range_le x c) by (unfold range_le; lia).
        destruct T as [T|T].
        + exists (c :: x :: l). split; [apply Permutation_refl|]. constructor; [constructor; auto|]. constructor; auto.
          rewrite Forall_forall in *. intros y Hy. specialize (F y Hy). unfold range_le in *. lia.
        + exists (x :: l'). split.
          * eapply Permutation_trans; [apply perm_swap|]. apply perm_skip; auto.
          * constructor; auto. rewrite Forall_forall in *. intros y Hy. apply (Permutation_in y (Permutation_sym P')) in Hy as [<-|Hy]; auto. }
    destruct K as (l'&P'&S'). exists l'. split; auto. eapply Permutation_trans; [apply perm_skip, P|auto].
Qed.
Lemma answers_iff width bs cs F out : (1 <= bs)%nat -> Forall (chunk_ok width) cs -> Forall (fun c => I64_MIN <= c_max c) cs ->
  file_sorted cs F -> (answers width bs cs out <-> merged width (concat (map c_rows F)) out).
Proof.
  intros B O L S.
  assert (K : forall l, time_sorted cs l -> exists o, read_series width bs (fun _ => true) l = Some o /\ merged width (concat (map c_rows F)) o).
  { intros l H. destruct (read_series_ok width bs (fun _ => true) cs l F B O L H S) as (o&E&M). exists o. split; auto.
    replace (concat (map c_rows F)) with (filter (fun _ : mrow => true) (concat (map c_rows F))); auto.
    generalize (concat (map c_rows F)). induction l0; cbn; congruence. }
  split.
  - intros (l&T&E). destruct (K l T) as (o&E'&M). congruence.
  - intros M. destruct (time_sort_exists cs) as (l&T). exists l. split; auto. destruct (K l T) as (o&E'&M').
    rewrite E'. f_equal. eapply merged_unique; eauto.
Qed.
Lemma filter_ssorted (p : meta -> bool) l : ssorted l -> ssorted (filter p l).
Proof.
  induction 1 as [|x l S IH F]; cbn [filter]; [constructor|]. destruct (p x); auto. constructor; auto.
  rewrite Forall_forall in *. intros y Hy. apply filter_In in Hy as [Hy _]. auto.
Qed.
Definition covers (t : Z) (m : meta) : bool := (m_min m <=? t) && (t <=? m_max m).
Lemma rows_cover (g : meta -> list mrow) t l : (forall m r, In m l -> In r (g m) -> m_min m <= r_ts r <= m_max m) ->
  rows_at t (concat (map g l)) = rows_at t (concat (map g (filter (covers t) l))).
Proof.
  induction l as [|m l IH]; intros H; cbn [map concat filter]; auto. rewrite rows_at_app, IH by (intros; apply (H m0); auto; right; auto).
  destruct (covers t m) eqn:E; cbn [map concat]; rewrite ?rows_at_app; auto.
  rewrite (rows_at_nil t (g m)); auto. intros r Hr Ht. destruct (H m r (or_introl eq_refl) Hr). unfold covers in E.
  apply andb_false_iff in E as [E|E]; lia.
Qed.
Lemma listed_filter t l : (forall l1 a l2 b l3, l = l1 ++ a :: l2 ++ b :: l3 -> covers t a = true -> covers t b = true -> m_id a < m_id b) ->
  ssorted (filter (covers t) l).
Proof.
  induction l as [|x l IH]; intros H; cbn [filter]; [constructor|].
  assert (S : ssorted (filter (covers t) l)).
  { apply IH. intros l1 a l2 b l3 E. apply (H (x :: l1) a l2 b l3). rewrite E. reflexivity. }
  destruct (covers t x) eqn:E; auto. constructor; auto. rewrite Forall_forall. intros y Hy. apply filter_In in Hy as [Hy Ey].
  apply in_split in Hy as (l2&l3&->). apply (H [] x l2 y l3); auto.
Qed.

Lemma assoc_new files : forall n old m, In (m, old) (combine (renumber n files) files) ->
  assoc (m_id m) (combine (map m_id (renumber n files)) (map m_id files)) = Some (m_id old) /\
  m_min m = m_min old /\ m_max m = m_max old.
Proof.
  induction files as [|x files IH]; intros n old m H; cbn [renumber combine map In assoc] in *; [tauto|]. destruct H as [H|H].
  - injection H as E1 E2. subst. cbn [m_id m_min m_max]. rewrite Z.eqb_refl. auto.
  - destruct (IH _ _ _ H) as (A&B&C). cbn [m_id]. split; auto.
    destruct (n =? m_id m) eqn:E; auto. apply in_combine_l in H. apply renumber_lv in H as (y&_&_&Hi). lia.
Qed.
Lemma map_combine_eq {A B C} (f : A -> C) (g : B -> C) : forall l1 l2, length l1 = length l2 ->
  (forall a b, In (a, b) (combine l1 l2) -> f a = g b) -> map f l1 = map g l2.
Proof.
  induction l1 as [|a l1 IH]; intros [|b l2] L H; cbn in *; try discriminate; auto. f_equal; auto.
Qed.
Lemma combine_in_l {A B} : forall (l1 : list A) (l2 : list B) a, length l1 = length l2 -> In a l1 -> exists b, In (a, b) (combine l1 l2).
Proof.
  induction l1 as [|x l1 IH]; intros [|y l2] a L H; cbn in *; try discriminate; try tauto. destruct H as [->|H].
  - exists y; auto.
  - destruct (IH l2 a) as (b&Hb); auto. exists b; auto.
Qed.
Lemma live_none rows : live_rows [] rows = rows.
Proof. unfold live_rows. cbn. induction rows; cbn; congruence. Qed.
Lemma renumber_ss l : forall n, ssorted (renumber n l).
Proof.
  induction l as [|x l IH]; intros n; cbn [renumber]; constructor; auto. rewrite Forall_forall. intros m H.
  apply renumber_lv in H as (y&_&_&Hi). cbn. lia.
Qed.
Lemma ids_perm l1 l2 : NoDup (ids l1) -> NoDup (ids l2) -> (forall m, In m l1 <-> In m l2) -> Permutation l1 l2.
Proof. intros N1 N2 I. apply NoDup_Permutation; auto; eapply NoDup_map_inv; eauto. Qed.
Lemma file_sorted_map (f : meta -> chunk) l1 l2 : (forall m, c_file (f m) = m_id m) -> Permutation l1 l2 -> ssorted l2 -> file_sorted (map f l1) (map f l2).
Proof.
  intros E P S. split; [apply Permutation_map; auto|]. clear P. induction S as [|x l S IH F]; cbn [map]; constructor; auto.
  rewrite Forall_forall in *. intros y Hy. apply in_map_iff in Hy as (m&<-&Hm). rewrite !E. auto.
Qed.

Lemma snapshot_answers width bs contents dead v out : (1 <= bs)%nat -> snap_ok v -> files_ok width contents v ->
  (forall m, In m (concat (v_levels v)) -> live_rows (dead (m_id m)) (contents (m_id m)) = contents (m_id m)) ->
  listed_in_order v ->
  (answers width bs (version_chunks contents dead v) out <-> answers width bs (replica_chunks contents v) out).
Proof.
  intros B (a0&H1&H2&H3&H4) FO NT LO. assert (W : awf a0) by (split; auto).
  destruct (shows_concat v a0 H1 W) as [N I]. destruct (build_spec v) as (_&EA&_).
  set (F := concat (v_levels v)) in *.
  destruct (sort_gen F [] (SSorted_nil _) N) as [SF IF]. fold (SummaryModel.sort_files F) in SF, IF. set (F' := SummaryModel.sort_files F) in *. cbn [app] in IF.
  assert (PF : Permutation F F'). { apply ids_perm; auto. apply ssorted_nodup; auto. intros m. rewrite IF. tauto. }
  destruct (inv_snapshot v a0 H1 W) as (W'&_&S'&_). fold F in S', W'.
  destruct (shows_concat _ _ S' W') as [N' I']. cbn [fs_files] in I'.
  set (R := renumber 1 F) in *. set (V := concat (v_levels (s_ver (s_snapshot v)))) in *.
  assert (PR : Permutation V R). { apply ids_perm; auto. apply renumber_nd. }
  assert (LR : length R = length F) by apply renumber_len.
  assert (G : forall m old, In (m, old) (combine R F) -> replica_contents contents v (m_id m) = contents (m_id old) /\ m_min m = m_min old /\ m_max m = m_max old /\ In old F).
  { intros m old H. destruct (assoc_new F 1 old m H) as (A1&A2&A3). unfold replica_contents, new_ids. rewrite EA. fold F. rewrite A1.
    split; auto. split; auto. split; auto. eapply in_combine_r; eauto. }
  rewrite (answers_iff width bs _ (map (file_chunk contents dead) F')); auto.
  2:{ unfold version_chunks. fold F. rewrite Forall_map, Forall_forall. intros m Hm. destruct (FO m Hm) as [_ O].
      unfold file_chunk. rewrite (NT m Hm). exact O. }
  2:{ unfold version_chunks. fold F. rewrite Forall_map, Forall_forall. intros m Hm. apply (FO m Hm). }
  2:{ unfold version_chunks. fold F. apply file_sorted_map; auto. }
  rewrite (answers_iff width bs (replica_chunks contents v) (map (file_chunk (replica_contents contents v) replica_dead) R)); auto.
  2:{ unfold replica_chunks, version_chunks. fold V. rewrite Forall_map, Forall_forall. intros m Hm. apply (Permutation_in m PR) in Hm.
      destruct (combine_in_l R F m LR Hm) as (old&Ho). destruct (G m old Ho) as (G1&G2&G3&G4). destruct (FO old G4) as [_ (O1&O2&O3)].
      unfold file_chunk, replica_dead. rewrite live_none, G1, G2, G3. split; [|split]; auto. }
  2:{ unfold replica_chunks, version_chunks. fold V. rewrite Forall_map, Forall_forall. intros m Hm. apply (Permutation_in m PR) in Hm.
      destruct (combine_in_l R F m LR Hm) as (old&Ho). destruct (G m old Ho) as (G1&G2&G3&G4). cbn [file_chunk c_max]. rewrite G3. apply (FO old G4). }
  2:{ unfold replica_chunks, version_chunks. fold V. apply file_sorted_map; auto. apply renumber_ss. }
  rewrite !map_map.
  set (g := fun m : meta => contents (m_id m)).
  assert (E1 : map (fun x => c_rows (file_chunk contents dead x)) F' = map g F').
  { apply map_ext_in. intros m Hm. cbn. apply NT. apply IF; auto. }
  assert (E2 : map (fun x => c_rows (file_chunk (replica_contents contents v) replica_dead x)) R = map g F).
  { apply map_combine_eq; auto. intros m old H. destruct (G m old H) as (G1&_). cbn. unfold replica_dead. rewrite live_none. auto. }
  rewrite E1, E2.
  assert (RC : forall l, (forall m, In m l -> In m F) -> forall m r, In m l -> In r (g m) -> m_min m <= r_ts r <= m_max m).
  { intros l Hl m r Hm Hr. destruct (FO m (Hl m Hm)) as [_ (_&_&O3)]. cbn in O3. rewrite Forall_forall in O3. apply (O3 r Hr). }
  assert (Q : forall t, rows_at t (concat (map g F')) = rows_at t (concat (map g F))).
  { intros t. rewrite (rows_cover g t F'), (rows_cover g t F).
    - f_equal. f_equal. f_equal. apply ssorted_eq.
      + apply filter_ssorted; auto.
      + apply listed_filter. intros l1 a l2 b l3 E Ca Cb. unfold covers in *. apply (LO l1 a l2 b l3 t E); lia.
      + intros m. rewrite !filter_In, IF. tauto.
    - apply RC; auto.
    - apply RC. intros m. apply IF. }
  split; apply merged_rows; auto.
Qed.
