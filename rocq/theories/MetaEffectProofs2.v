(** Proofs about changes of replica sets and of the owner of queries. *)
From Coq Require Import Permutation.
From Verif Require Import Prelude MetaModel MetaSpec MetaProofs MetaProofs2 MetaProofs3 MetaEffectSpec MetaEffectProofs MetaEffectSpec2.
Open Scope Z_scope.

Lemma leader_moved_step e s c t d i rid n v : snd (step e s (CChangeLeader c t d i rid n v)) = Done ->
  exists b gs, get (k_bucket c t d i) (s_map s) = Some (VBucket b) /\ Forall2 (leader_moved rid n v) (BucketModel.b_group b) gs /\
    get (k_bucket c t d i) (s_map (fst (step e s (CChangeLeader c t d i rid n v)))) = Some (VBucket (same_bucket b gs)).
Proof.
  cbn [step]. unfold process_change_leader. cbv zeta. destruct (get_as as_bucket s (k_bucket c t d i)) as [| |b] eqn:G; try discriminate.
  apply get_as_got in G as (w & G & D). apply dec_bucket in D. subst w. intros _. eexists b, _. split; [exact G|]. cbn [fst]. split; [|apply get_self].
  induction (BucketModel.b_group b) as [|g gs IH]; cbn [map]; [constructor|]. constructor; [|exact IH]. unfold leader_moved.
  destruct (r_id g =? rid) eqn:E; [apply Z.eqb_eq in E|apply Z.eqb_neq in E]; cbn; split; auto; split; auto; split; auto; intros; contradiction.
Qed.
Lemma vnode_status_step e s c t d i : snd (step e s (CUpdateVnode c t d i)) = Done ->
  exists b, get (k_bucket c t d i) (s_map s) = Some (VBucket b) /\ get (k_bucket c t d i) (s_map (fst (step e s (CUpdateVnode c t d i)))) = Some (VBucket b).
Proof.
  cbn [step]. unfold process_update_vnode. cbv zeta. destruct (get_as as_bucket s (k_bucket c t d i)) as [| |b] eqn:G; try discriminate.
  apply get_as_got in G as (w & G & D). apply dec_bucket in D. subst w. intros _. exists b. split; [exact G|apply get_self].
Qed.
Lemma existsb_pair (v : Z * Z) l : existsb (fun d => (fst v =? fst d) && (snd v =? snd d)) l = true <-> In v l.
Proof.
  rewrite existsb_exists. split.
  - intros ([a b] & I & E). apply andb_prop in E as [E1 E2]. apply Z.eqb_eq in E1, E2. destruct v; cbn in *; now subst.
  - intros I. exists v. split; [exact I|]. now rewrite !Z.eqb_refl.
Qed.
Lemma existsb_fst (a : Z) (l : list (Z * Z)) : existsb (fun v => fst v =? a) l = true <-> In a (map fst l).
Proof.
  rewrite existsb_exists, in_map_iff. split; intros (x & A & B); exists x.
  - apply Z.eqb_eq in B. auto.
  - split; [exact B|]. now apply Z.eqb_eq.
Qed.
Lemma update_group_changed rid gone new g : members_changed rid gone new g (if r_id g =? rid then update_group gone new g else g).
Proof.
  unfold members_changed. destruct (r_id g =? rid) eqn:E; [apply Z.eqb_eq in E|apply Z.eqb_neq in E]; [|split; [reflexivity|]; split; [reflexivity|contradiction]].
  unfold update_group. cbv zeta.
  set (vs := filter (fun v => negb (existsb (fun d => (fst v =? fst d) && (snd v =? snd d)) gone)) (r_vnodes g) ++ new).
  assert (M : forall v, In v vs <-> (In v (r_vnodes g) /\ ~ In v gone) \/ In v new).
  { intros v. unfold vs. rewrite in_app_iff, (filter_In (fun v => negb (existsb (fun d => (fst v =? fst d) && (snd v =? snd d)) gone))).
    rewrite negb_true_iff. rewrite <- (existsb_pair v gone). destruct (existsb _ gone); intuition congruence. }
  destruct (existsb (fun v => fst v =? r_leader_vnode g) vs) eqn:L.
  - cbn. split; [reflexivity|]. split; [contradiction|]. intros _. split; [exact M|]. split; [auto|]. intros N. apply existsb_fst in L. contradiction.
  - assert (N : ~ In (r_leader_vnode g) (map fst vs)) by (rewrite <- existsb_fst; congruence).
    destruct vs as [|[v0 n0] vs'] eqn:V; cbn [BucketModel.r_id BucketModel.r_vnodes BucketModel.r_leader_node BucketModel.r_leader_vnode].
    + split; [reflexivity|]. split; [contradiction|]. intros _. split; [exact M|]. split; [auto|]. intros _ Q. now destruct Q.
    + split; [reflexivity|]. split; [contradiction|]. intros _. split; [exact M|]. split; [intros Q; contradiction|]. intros _ _. now left.
Qed.
Lemma members_step e s c t d i rid gone new : srt s -> snd (step e s (CUpdateReplSet c t d i rid gone new)) = Done ->
  exists b gs, get (k_bucket c t d i) (s_map s) = Some (VBucket b) /\ Forall2 (members_changed rid gone new) (BucketModel.b_group b) gs /\
    get (k_bucket c t d i) (s_map (fst (step e s (CUpdateReplSet c t d i rid gone new)))) =
      match filter has_members gs with [] => None | gs' => Some (VBucket (same_bucket b gs')) end.
Proof.
  intros W. cbn [step]. unfold process_update_repl_set. cbv zeta. destruct (get_as as_bucket s (k_bucket c t d i)) as [| |b] eqn:G; try discriminate.
  apply get_as_got in G as (w & G & D). apply dec_bucket in D. subst w. intros _.
  exists b, (map (fun g => if r_id g =? rid then update_group gone new g else g) (BucketModel.b_group b)). split; [exact G|]. split.
  - induction (BucketModel.b_group b) as [|g gs IH]; cbn [map]; [constructor|]. constructor; [apply update_group_changed|exact IH].
  - cbn [fst]. change (fun g : repl => match r_vnodes g with [] => false | _ :: _ => true end) with has_members.
    destruct (filter has_members _) as [|g' gs'].
    + rewrite get_remove by exact W. now rewrite seqb_refl.
    + apply get_self.
Qed.

Lemma fold_insert_query c dst : forall qs s k, get k (s_map (fold_left (fun s q => insert s (k_query c (q_id q)) (VQuery (QU (q_id q) dst (q_rest q)))) qs s)) =
  match find (fun q => seqb k (k_query c (q_id q))) (rev qs) with Some q => Some (VQuery (QU (q_id q) dst (q_rest q))) | None => get k (s_map s) end.
Proof.
  induction qs as [|q qs IH]; intros s k; [reflexivity|]. cbn [fold_left rev]. rewrite IH, get_insert.
  assert (F : forall l x, find (fun q => seqb k (k_query c (q_id q))) (l ++ [x]) = match find (fun q => seqb k (k_query c (q_id q))) l with Some y => Some y | None => if seqb k (k_query c (q_id x)) then Some x else None end).
  { clear. induction l as [|y l IH]; intros x; cbn; [now destruct (seqb k (k_query c (q_id x)))|]. destruct (seqb k (k_query c (q_id y))); [reflexivity|apply IH]. }
  rewrite F. destruct (find _ (rev qs)); [reflexivity|]. now destruct (seqb k (k_query c (q_id q))).
Qed.
Lemma moved_step e s c a b i q : wf s -> env_ok e -> name_ok c -> snd (step e s (CMoveQuery c a b)) = Done ->
  get (k_query c i) (s_map s) = Some (VQuery q) ->
  get (k_query c i) (s_map (fst (step e s (CMoveQuery c a b)))) = Some (VQuery (if (q_node q =? a)%N then QU (q_id q) b (q_rest q) else q)).
Proof.
  intros W E Oc _ G. cbn [step]. unfold process_move_query.
  assert (D : dir (k_queries c) = path [c; s_queries] ++ [47]) by dirp.
  destruct (children_spec as_query e 9 s _ _ W E D ltac:(auto 10 with nm) (typed_queries c)) as (l & L1 & L2 & L3).
  unfold children_values. rewrite L1. cbn [option_map fst]. rewrite fold_insert_query.
  assert (K : forall n q0, In (n, q0) l -> n = show (q_id q0) /\ get (k_query c (q_id q0)) (s_map s) = Some (VQuery q0)).
  { intros n q0 I. apply L3 in I as (v & H & N & X). apply dec_query in X. subst v. cbn [app] in H.
    assert (En : n = show (q_id q0)) by (apply W in H; apply legal_path in H; [|auto 10 with nm]; now inversion H).
    split; [exact En|]. subst n. apply (holds_get s _ _ W). exact H. }
  assert (Ei : i = q_id q /\ In (show i, q) l).
  { assert (H : holds s (path [c; s_queries; show i]) (VQuery q)) by exact (get_in _ _ _ G).
    assert (Ei : i = q_id q). { apply W in H. apply legal_path in H; [|auto 10 with nm]. inversion H as [| | | | | | | | | | | |? ? H1]; subst. now apply show_inj. }
    split; [exact Ei|]. apply L3. exists (VQuery q). split; [exact H|]. split; [apply show_ok|reflexivity]. }
  destruct Ei as [Ei Il]. 
  destruct (find (fun q0 => seqb (k_query c i) (k_query c (q_id q0))) (rev (filter (fun q0 => (q_node q0 =? a)%N) (map snd l)))) as [q0|] eqn:F.
  - apply find_some in F as [F1 F2]. apply in_rev in F1. apply filter_In in F1 as [F1 F3]. apply in_map_iff in F1 as ((n & q1) & <- & F1). cbn [snd] in *.
    apply seqb_eq in F2. destruct (K _ _ F1) as [_ K2]. rewrite <- F2, G in K2. injection K2 as <-. now rewrite F3.
  - rewrite G. destruct (q_node q =? a)%N eqn:Q; [|reflexivity]. exfalso.
    assert (I : In q (rev (filter (fun q0 => (q_node q0 =? a)%N) (map snd l)))).
    { rewrite <- in_rev. apply filter_In. split; [exact (in_map snd _ _ Il)|exact Q]. }
    pose proof (find_none _ _ F _ I) as X. cbn beta in X. rewrite <- Ei, seqb_refl in X. discriminate X.
Qed.
