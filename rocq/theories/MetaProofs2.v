(** Proofs about the metadata state machine: users, members, dropping a tenant. *)
From Coq Require Import Permutation Sorted.
From Verif Require Import Prelude MetaModel MetaSpec MetaProofs.
From Verif Require BucketModel RateModel PrivilegeModel.
Open Scope Z_scope.

(** * User ids *)
Definition uniq (s : st) : Prop :=
  forall k1 u1 k2 u2, holds s k1 (VUser u1) -> holds s k2 (VUser u2) -> u_id u1 = u_id u2 -> k1 = k2.
Definition ids_in (s : st) (L : list N) : Prop := forall k u, holds s k (VUser u) -> In (u_id u) L.

Lemma writes_user s x k u : writes s x k (VUser u) ->
  created_ids x = [u_id u] \/ exists u0, holds s k (VUser u0) /\ u_id u0 = u_id u.
Proof.
  destruct x; cbn [writes created_ids]; intro H; try contradiction;
    repeat match goal with H : exists _, _ |- _ => destruct H | H : _ /\ _ |- _ => destruct H | H : _ \/ _ |- _ => destruct H end;
    subst; try discriminate.
  - now left.
  - match goal with H : VUser _ = VUser _ |- _ => injection H as <- end. now left.
  - match goal with H : VUser _ = VUser _ |- _ => injection H as <- end. right. eauto.
Qed.
Lemma writes_user_key s x k1 u1 k2 u2 : writes s x k1 (VUser u1) -> writes s x k2 (VUser u2) -> k1 = k2.
Proof.
  destruct x; cbn [writes]; intros H1 H2; try contradiction;
    repeat match goal with H : exists _, _ |- _ => destruct H | H : _ /\ _ |- _ => destruct H | H : _ \/ _ |- _ => destruct H end;
    subst; try discriminate; reflexivity.
Qed.
Lemma uniq_step e s x L : uniq s -> ids_in s L -> (forall i, In i (created_ids x) -> ~ In i L) ->
  uniq (fst (step e s x)) /\ ids_in (fst (step e s x)) (created_ids x ++ L).
Proof.
  intros U I F. split.
  - intros k1 u1 k2 u2 H1 H2 E. apply step_in in H1, H2.
    assert (X : forall k1 u1 k2 u2, holds s k1 (VUser u1) -> writes s x k2 (VUser u2) -> u_id u1 = u_id u2 -> k1 = k2).
    { clear k1 u1 k2 u2 H1 H2 E. intros k1 u1 k2 u2 H1 H2 E. destruct (writes_user _ _ _ _ H2) as [C|(u0 & H0 & E0)].
      - exfalso. apply (F (u_id u2)); [rewrite C; now left|]. rewrite <- E. eapply I; eauto.
      - eapply U; eauto. congruence. }
    destruct H1 as [H1|H1], H2 as [H2|H2].
    + eapply U; eauto. + eapply X; eauto. + symmetry. eapply X; eauto. + eapply writes_user_key; eauto.
  - intros k u H. apply step_in in H. apply in_or_app. destruct H as [H|H]; [right; eapply I; eauto|].
    destruct (writes_user _ _ _ _ H) as [C|(u0 & H0 & E0)]; [left; rewrite C; now left|right; rewrite <- E0; eapply I; eauto].
Qed.
Lemma uniq_run h : forall s L, uniq s -> ids_in s L -> NoDup (flat_map (fun ex => created_ids (snd ex)) h) ->
  (forall i, In i (flat_map (fun ex => created_ids (snd ex)) h) -> ~ In i L) -> uniq (run s h).
Proof.
  induction h as [|(e, x) h IH]; cbn; intros s L U I D F; [exact U|].
  destruct (uniq_step e s x L U I) as [U' I']; [intros i Hi; apply F; apply in_or_app; now left|].
  apply (IH _ (created_ids x ++ L) U' I').
  - clear - D. induction (created_ids x) as [|a l IHl]; [exact D|]. inversion D; auto.
  - intros i Hi J. apply in_app_or in J. destruct J as [J|J].
    + clear - D Hi J. induction (created_ids x) as [|a l IHl]; [contradiction|]. cbn in D. inversion D as [|? ? N D']; subst.
      destruct J as [->|J]; [apply N; apply in_or_app; now right|auto].
    + apply (F i); [apply in_or_app; now right|exact J].
Qed.
Lemma uniq_history h : history h -> uniq (run st0 h).
Proof.
  intros [_ D]. apply (uniq_run h st0 []); auto.
  - intros ? ? ? ? []. - intros ? ? [].
Qed.
Lemma wf_history h : history h -> wf (run st0 h).
Proof. intros [F _]. apply run_wf; [apply wf0|exact F]. Qed.

(** * Members *)
Lemma name_members_spec us ms n r : In (n, r) (name_members us ms) ->
  exists id u, In (id, r) ms /\ In u us /\ show (u_id u) = id /\ u_name u = n.
Proof.
  induction ms as [|(id, ri) ms IH]; cbn; [contradiction|]. unfold find_last. destruct (find _ (rev us)) as [u|] eqn:F.
  - intros [[= <- <-]|H].
    + apply find_some in F. destruct F as [I E]. apply seqb_eq in E. apply in_rev in I. exists id, u. auto.
    + destruct (IH H) as (i & w & A & B). eauto.
  - intro H. destruct (IH H) as (i & w & A & B). eauto.
Qed.
Lemma name_members_in us ms id r u : In (id, r) ms -> In u us -> show (u_id u) = id ->
  (forall w, In w us -> u_id w = u_id u -> w = u) -> In (u_name u, r) (name_members us ms).
Proof.
  intros I J E Q. induction ms as [|(id', ri) ms IH]; [contradiction|]. cbn. unfold find_last.
  destruct I as [[= -> ->]|I].
  - destruct (find _ (rev us)) as [w|] eqn:F.
    + apply find_some in F. destruct F as [Iw Ew]. apply seqb_eq in Ew. apply in_rev in Iw. rewrite <- E in Ew. apply show_inj in Ew.
      rewrite (Q w Iw Ew). now left.
    + exfalso. apply in_rev in J. apply (find_none _ _ F) in J. rewrite E, seqb_refl in J. discriminate.
  - destruct (find _ (rev us)); [right|]; auto.
Qed.
Lemma user_key s c n v u : wf s -> name_ok c -> name_ok n -> holds s (path [c; s_users; n]) v -> as_user v = Some u -> n = u_name u /\ v = VUser u.
Proof.
  intros W Oc On H D. apply dec_user in D. subst v. split; [|reflexivity]. apply W in H. apply legal_path in H; [|auto 10 with nm]. now inversion H.
Qed.
Lemma users_spec e i s c : wf s -> env_ok e -> name_ok c -> exists us, children_values e i as_user s (k_users c) = Some us /\ NoDup us /\
  forall u, In u us <-> holds s (k_user c (u_name u)) (VUser u) /\ name_ok (u_name u).
Proof.
  intros W E Oc. assert (D : dir (k_users c) = path [c; s_users] ++ [47]) by dirp.
  destruct (children_spec as_user e i s _ _ W E D ltac:(auto 10 with nm) (typed_users c)) as (l & L1 & L2 & L3).
  assert (K : forall n u, In (n, u) l -> n = u_name u).
  { intros n u I. apply L3 in I. destruct I as (v & H & N & X). eapply user_key in H; eauto. apply H. }
  exists (map snd l). unfold children_values. rewrite L1. split; [reflexivity|]. split.
  - clear - L2 K. induction l as [|(n, u) l IH]; cbn; [constructor|]. cbn in L2. inversion L2 as [|? ? N L2']; subst. constructor.
    + intro I. apply in_map_iff in I. destruct I as ((n', u') & Q & I). cbn in Q. subst u'. apply N. apply in_map_iff. exists (n', u). split; [|exact I].
      cbn. rewrite (K n' u (or_intror I)). symmetry. apply K. now left.
    + apply IH; auto. intros; apply K; now right.
  - intro u. rewrite in_map_iff. split.
    + intros ((n, w) & Q & I). cbn in Q. subst w. pose proof (K _ _ I). subst n. apply L3 in I. destruct I as (v & H & N & X). cbn [app] in H.
      destruct (user_key s c (u_name u) v u W Oc N H X) as [_ ->]. split; [exact H|exact N].
    + intros [H N]. exists (u_name u, u). split; [reflexivity|]. apply L3. exists (VUser u). auto.
Qed.
Lemma uniq_user s c u w : wf s -> uniq s -> name_ok c -> name_ok (u_name u) -> name_ok (u_name w) ->
  holds s (k_user c (u_name u)) (VUser u) -> holds s (k_user c (u_name w)) (VUser w) -> u_id u = u_id w -> u = w.
Proof.
  intros W U Oc Ou Ow H1 H2 E. pose proof (U _ _ _ _ H1 H2 E) as K. rewrite K in H1. apply in_get in H1, H2; try apply W. congruence.
Qed.
Lemma members_spec e s c t : wf s -> env_ok e -> name_ok c -> name_ok t -> exists ms, read_members e s c t = Some ms /\
  forall n r, In (n, r) ms -> exists u, u_name u = n /\ name_ok n /\ holds s (k_user c n) (VUser u) /\ holds s (k_member c t (u_id u)) (VMember r).
Proof.
  intros W E Oc Ot. assert (D : dir (k_members c t) = path [c; s_tenants; t; s_members] ++ [47]) by dirp.
  destruct (children_spec as_member e 0 s _ _ W E D ltac:(auto 10 with nm) (typed_members c t)) as (ms & M1 & _ & M2).
  destruct (users_spec e 1 s c W E Oc) as (us & U1 & _ & U2).
  exists (name_members us ms). unfold read_members. rewrite M1, U1. split; [reflexivity|]. intros n r I.
  apply name_members_spec in I. destruct I as (id & u & I & J & K & Q). apply U2 in J. destruct J as [J On]. apply M2 in I. destruct I as (v & H & N & X).
  apply dec_member in X. subst v. cbn [app] in H. exists u. subst. auto.
Qed.
(** A user is listed exactly when the member key of their id is present. *)
Lemma members_cond e s c t ms : wf s -> uniq s -> env_ok e -> name_ok c -> name_ok t -> read_members e s c t = Some ms ->
  forall u, name_ok (u_name u) -> holds s (k_user c (u_name u)) (VUser u) ->
  existsb (fun m => seqb (u_name u) (fst m)) ms = contains s (k_member c t (u_id u)).
Proof.
  intros W U E Oc Ot R u Ou H. destruct (contains s (k_member c t (u_id u))) eqn:C.
  - apply contains_holds in C. destruct C as (v & C). apply existsb_exists.
    assert (D : dir (k_members c t) = path [c; s_tenants; t; s_members] ++ [47]) by dirp.
    destruct (children_spec as_member e 0 s _ _ W E D ltac:(auto 10 with nm) (typed_members c t)) as (ml & M1 & _ & M2).
    destruct (users_spec e 1 s c W E Oc) as (us & U1 & _ & U2). unfold read_members in R. rewrite M1, U1 in R. injection R as <-.
    assert (EO : entry_ok [c; s_tenants; t; s_members; show (u_id u)] v) by (apply legal_path; [auto 10 with nm|now apply W]).
    destruct (typed_members c t (show (u_id u)) v EO) as (r & X). exists (u_name u, r). split; [|apply seqb_refl].
    apply (name_members_in us ml (show (u_id u)) r u); auto.
    + apply M2. exists v. auto using show_ok.
    + apply U2. auto.
    + intros w Iw Ew. apply U2 in Iw. destruct Iw as [Iw Ow]. exact (uniq_user s c w u W U Oc Ow Ou Iw H Ew).
  - destruct (existsb _ ms) eqn:X; [|reflexivity]. apply existsb_exists in X. destruct X as ((n, r) & I & Q). cbn in Q. apply seqb_eq in Q. subst n.
    destruct (members_spec e s c t W E Oc Ot) as (ms' & R' & M). rewrite R in R'. injection R' as <-.
    destruct (M _ _ I) as (w & Nw & _ & H1 & H2). assert (w = u).
    { rewrite <- Nw in H1. rewrite Nw in H1. apply in_get in H1, H; try apply W. congruence. }
    subst w. apply in_get in H2; [|apply W]. apply contains_false in C. congruence.
Qed.

(** * Removing several keys *)
Lemma same_refl s : same_data s s. Proof. now split. Qed.
Lemma same_sym a b : same_data a b -> same_data b a. Proof. intros (A & B & C). now split. Qed.
Lemma same_trans a b c : same_data a b -> same_data b c -> same_data a c.
Proof. intros (A & B & C) (A' & B' & C'). split; [congruence|split; congruence]. Qed.
Lemma get_fold_remove ks : forall s k, srt s -> get k (s_map (fold_left remove ks s)) = if existsb (seqb k) ks then None else get k (s_map s).
Proof.
  induction ks as [|x ks IH]; cbn; intros s k S; [reflexivity|]. rewrite IH by now apply remove_srt.
  unfold remove. cbn [s_map]. rewrite get_del by exact S. destruct (seqb k x); cbn; [now destruct (existsb _ _)|reflexivity].
Qed.
Lemma ver_fold_remove ks : forall s, s_ver (fold_left remove ks s) = s_ver s + Z.of_nat (length ks) /\ s_incr (fold_left remove ks s) = s_incr s.
Proof.
  induction ks as [|x ks IH]; cbn [fold_left length]; intro s; [split; [lia|reflexivity]|]. destruct (IH (remove s x)) as [A B]. rewrite A, B.
  cbn [s_ver s_incr remove]. split; [lia|reflexivity].
Qed.
Lemma fold_remove_perm k1 k2 s : srt s -> Permutation k1 k2 -> same_data (fold_left remove k1 s) (fold_left remove k2 s).
Proof.
  intros S P. split; [|split].
  - apply sorted_ext; try (apply (fold_remove_srt (fun k => k)), S). intro k. rewrite !get_fold_remove by exact S.
    replace (existsb (seqb k) k2) with (existsb (seqb k) k1); [reflexivity|]. clear - P. induction P; cbn; auto.
    + now rewrite IHP. + now destruct (seqb k x), (seqb k y). + congruence.
  - rewrite !(proj1 (ver_fold_remove _ _)). now rewrite (Permutation_length P).
  - now rewrite !(proj2 (ver_fold_remove _ _)).
Qed.
Lemma fold_remove_map {A} (f : A -> str) l : forall s, fold_left (fun s x => remove s (f x)) l s = fold_left remove (map f l) s.
Proof. induction l; cbn; auto. Qed.
Lemma try_remove {A} (f : A -> str) (g : st -> A -> st * reply) :
  (forall s x, g s x = if contains s (f x) then (remove s (f x), Done) else (s, Refused)) ->
  forall l s, srt s -> NoDup (map f l) -> (forall x, In x l -> contains s (f x) = true) -> try_all g s l = (fold_left remove (map f l) s, Done).
Proof.
  intros G l. induction l as [|x l IH]; cbn; intros s S D C; [reflexivity|]. rewrite G, (C x) by now left. inversion D as [|? ? N D']; subst.
  apply IH; auto using remove_srt. intros y I. apply contains_true. cbn. rewrite get_del by exact S. rewrite seqb_neq.
  - apply contains_true. apply C. now right.
  - intros Q. apply N. rewrite <- Q. apply in_map_iff. eauto.
Qed.

(** * Dropping a tenant *)
Lemma wf_remove s k : wf s -> wf (remove s k).
Proof. intros [S W]. split; [now apply remove_srt|]. intros k' v H. apply remove_in in H. auto. Qed.
Lemma wf_fold_remove ks : forall s, wf s -> wf (fold_left remove ks s).
Proof. induction ks; cbn; auto using wf_remove. Qed.
Lemma roles_spec e i s c t : wf s -> env_ok e -> name_ok c -> name_ok t -> exists rs, children_values e i as_role s (k_roles c t) = Some rs /\
  NoDup (map ro_name rs) /\ forall r, In r rs <-> holds s (k_role c t (ro_name r)) (VRole r) /\ name_ok (ro_name r).
Proof.
  intros W E Oc Ot. assert (D : dir (k_roles c t) = path [c; s_tenants; t; s_roles] ++ [47]) by dirp.
  destruct (children_spec as_role e i s _ _ W E D ltac:(auto 10 with nm) (typed_roles c t)) as (l & L1 & L2 & L3).
  assert (K : forall n r, In (n, r) l -> n = ro_name r /\ name_ok n /\ holds s (k_role c t n) (VRole r)).
  { intros n r I. apply L3 in I. destruct I as (v & H & N & X). apply dec_role in X. subst v. cbn [app] in H. split; [|auto].
    assert (EO : legal (path [c; s_tenants; t; s_roles; n]) (VRole r)) by now apply W. apply legal_path in EO; [|auto 10 with nm]. now inversion EO. }
  exists (map snd l). unfold children_values. rewrite L1. split; [reflexivity|]. split.
  - replace (map ro_name (map snd l)) with (map fst l); [exact L2|]. rewrite map_map. apply map_ext_in. intros (n, r) I. cbn. now apply K.
  - intro r. rewrite in_map_iff. split.
    + intros ((n, w) & Q & I). cbn in Q. subst w. destruct (K _ _ I) as (-> & A & B). auto.
    + intros [H N]. exists (ro_name r, r). split; [reflexivity|]. apply L3. exists (VRole r). auto.
Qed.
Lemma k_member_inj c t i j : name_ok c -> name_ok t -> k_member c t i = k_member c t j -> i = j.
Proof. intros Oc Ot E. apply path_inj in E; [|auto 10 with nm..]. injection E as E. now apply show_inj. Qed.
Lemma k_role_inj c t a b : name_ok c -> name_ok t -> name_ok a -> name_ok b -> k_role c t a = k_role c t b -> a = b.
Proof. intros Oc Ot Oa Ob E. apply path_inj in E; [|auto 10 with nm..]. now injection E. Qed.
Lemma nodup_map_in {A B} (f : A -> B) l : NoDup l -> (forall x y, In x l -> In y l -> f x = f y -> x = y) -> NoDup (map f l).
Proof.
  induction l as [|a l IH]; cbn; intros D F; [constructor|]. inversion D as [|? ? N D']; subst. constructor; [|apply IH; auto].
  intro I. apply in_map_iff in I. destruct I as (b & E & I). apply N. rewrite (F a b); auto.
Qed.
Lemma nodup_of_map {A B} (f : A -> B) l : NoDup (map f l) -> NoDup l.
Proof.
  induction l as [|a l IH]; cbn; intro D; [constructor|]. inversion D as [|? ? N D']; subst. constructor; [|auto].
  intro I. apply N. now apply in_map.
Qed.
Lemma nodup_app_intro {A} (a b : list A) : NoDup a -> NoDup b -> (forall x, In x a -> ~ In x b) -> NoDup (a ++ b).
Proof.
  induction a as [|x a IH]; cbn; intros Da Db F; [exact Db|]. inversion Da as [|? ? N Da']; subst. constructor.
  - intro I. apply in_app_or in I. destruct I as [I|I]; [contradiction|]. exact (F x (or_introl eq_refl) I).
  - apply IH; auto.
Qed.
Lemma distinct_keys c n x y : name_ok c -> name_ok n -> Forall name_ok x -> Forall name_ok y -> x <> y -> path (c :: s_tenants :: n :: x) <> path (c :: s_tenants :: n :: y).
Proof. intros Oc On Hx Hy N E. apply path_inj in E; [|auto 10 with nm..]. injection E as E. contradiction. Qed.

Definition tenant_keys (s : st) (c n k : str) : Prop :=
  k = k_tenant c n \/ k = k_limiter c n \/ (exists r v, name_ok r /\ k = k_role c n r /\ holds s k v) \/
  (exists u w v, name_ok u /\ holds s (k_user c u) (VUser w) /\ k = k_member c n (u_id w) /\ holds s k v).
Lemma drop_tenant_eq e s c n : wf s -> uniq s -> env_ok e -> name_ok c -> name_ok n -> exists ks,
  process_drop_tenant e s c n = (fold_left remove ks s, Done) /\ NoDup ks /\ forall k, In k ks <-> tenant_keys s c n k.
Proof.
  intros W U E Oc On. unfold process_drop_tenant.
  destruct (members_spec e s c n W E Oc On) as (ms & M1 & _). destruct (users_spec e 2 s c W E Oc) as (us & U1 & U2 & U3).
  unfold read_users. rewrite M1, U1. pose proof (members_cond e s c n ms W U E Oc On M1) as MC.
  set (fu := filter (fun u => existsb (fun m => seqb (u_name u) (fst m)) ms) us).
  assert (Fu : forall u, In u fu <-> holds s (k_user c (u_name u)) (VUser u) /\ name_ok (u_name u) /\ contains s (k_member c n (u_id u)) = true).
  { intro u. unfold fu. rewrite filter_In, U3. split; [intros [[A B] C]; rewrite MC in C by assumption; auto|intros (A & B & C); rewrite MC by assumption; auto]. }
  set (mk := map (fun u => k_member c n (u_id u)) fu).
  assert (Nm : NoDup mk).
  { unfold mk. apply nodup_map_in; [unfold fu; now apply NoDup_filter|]. intros x y Ix Iy Q. apply k_member_inj in Q; auto.
    apply Fu in Ix, Iy. destruct Ix as (A & B & _), Iy as (A' & B' & _). exact (uniq_user s c x y W U Oc B B' A A' Q). }
  rewrite (try_remove (fun u => k_member c n (u_id u)) (fun s u => process_remove_member s c (u_id u) n));
    [|reflexivity|apply W|exact Nm|intros x I; now apply Fu in I].
  fold mk. set (s1 := fold_left remove mk s). assert (W1 : wf s1) by now apply wf_fold_remove.
  assert (H1 : forall k v, holds s1 k v <-> holds s k v /\ ~ In k mk) by (intros; apply holds_fold_remove, W).
  unfold read_roles. destruct (roles_spec e 3 s1 c n W1 E Oc On) as (rs & R1 & R2 & R3). rewrite R1.
  set (rk := map (fun r => k_role c n (ro_name r)) rs).
  assert (Nr : NoDup rk).
  { unfold rk. apply nodup_map_in; [now apply nodup_of_map in R2|]. intros x y Ix Iy Q. apply k_role_inj in Q; auto; [|now apply R3..].
    apply R3 in Ix, Iy. destruct Ix as [Ix _], Iy as [Iy _]. rewrite Q in Ix. apply in_get in Ix, Iy; try apply W1. congruence. }
  rewrite (try_remove (fun r => k_role c n (ro_name r)) (fun s r => process_drop_role s c (ro_name r) n));
    [|reflexivity|apply W1|exact Nr|intros x I; apply R3 in I; destruct I as [I _]; apply in_get in I; [|apply W1]; apply contains_true; eauto].
  fold rk. exists (mk ++ rk ++ [k_tenant c n; k_limiter c n]). split; [|split].
  - rewrite !fold_left_app. reflexivity.
  - assert (Im : forall k, In k mk -> exists i, k = k_member c n i) by (intros k I; apply in_map_iff in I; destruct I as (u & <- & _); eauto).
    assert (Ir : forall k, In k rk -> exists r, name_ok r /\ k = k_role c n r).
    { intros k I; apply in_map_iff in I; destruct I as (r & <- & I). apply R3 in I. exists (ro_name r). intuition. }
    assert (T : NoDup [k_tenant c n; k_limiter c n]).
    { constructor; [|constructor; [intros []|constructor]]. intros [Q|[]]. revert Q. apply (distinct_keys c n [s_limiter] []); auto 10 with nm. discriminate. }
    apply nodup_app_intro; [exact Nm|apply nodup_app_intro; [exact Nr|exact T|]|].
    + intros k I. apply Ir in I. destruct I as (r & Or & ->). intros [Q|[Q|[]]]; revert Q.
      * apply (distinct_keys c n [] [s_roles; r]); auto 10 with nm. discriminate.
      * apply (distinct_keys c n [s_limiter] [s_roles; r]); auto 10 with nm. discriminate.
    + intros k I. apply Im in I. destruct I as (i & ->). intro J. apply in_app_or in J. destruct J as [J|[Q|[Q|[]]]].
      * apply Ir in J. destruct J as (r & Or & Q). revert Q. apply (distinct_keys c n [s_members; show i] [s_roles; r]); auto 10 with nm. discriminate.
      * revert Q. apply (distinct_keys c n [] [s_members; show i]); auto 10 with nm. discriminate.
      * revert Q. apply (distinct_keys c n [s_limiter] [s_members; show i]); auto 10 with nm. discriminate.
  - intro k. unfold tenant_keys. rewrite !in_app_iff. cbn [In]. split.
    + intros [I|[I|[<-|[<-|[]]]]]; auto.
      * right. right. right. unfold mk in I. apply in_map_iff in I. destruct I as (u & <- & I). apply Fu in I. destruct I as (A & B & C).
        apply contains_holds in C. destruct C as (v & C). exists (u_name u), u, v. auto.
      * right. right. left. unfold rk in I. apply in_map_iff in I. destruct I as (r & <- & I). apply R3 in I. destruct I as [A B].
        apply H1 in A. exists (ro_name r), (VRole r). intuition.
    + intros [->|[->|[(r & v & Or & -> & H)|(u & w & v & Ou & Hw & -> & H)]]]; auto.
      * right. left. assert (L : legal (k_role c n r) v) by now apply W. apply legal_path in L; [|auto 10 with nm]. inversion L; subst.
        unfold rk. apply in_map_iff. exists r0. split; [reflexivity|]. apply R3. split; [|assumption]. apply H1. split; [assumption|].
        intro I. unfold mk in I. apply in_map_iff in I. destruct I as (u & Q & _). revert Q.
        apply (distinct_keys c n [s_members; show (u_id u)] [s_roles; ro_name r0]); auto 10 with nm. discriminate.
      * left. unfold mk. apply in_map_iff. exists w. split; [reflexivity|].
        destruct (user_key s c u (VUser w) w W Oc Ou Hw eq_refl) as [-> _]. apply Fu. split; [assumption|split; [assumption|]].
        apply in_get in H; [|apply W]. apply contains_true. eauto.
Qed.
Lemma drop_tenant_holds e s c n : wf s -> uniq s -> env_ok e -> name_ok c -> name_ok n ->
  snd (step e s (CDropTenant c n)) = Done /\
  forall k v, holds (fst (step e s (CDropTenant c n))) k v <-> holds s k v /\ ~ tenant_keys s c n k.
Proof.
  intros W U E Oc On. cbn [step]. destruct (drop_tenant_eq e s c n W U E Oc On) as (ks & -> & _ & K). cbn [fst snd]. split; [reflexivity|].
  intros k v. rewrite holds_fold_remove by apply W. now rewrite K.
Qed.

(** * Dropping users, roles and tenants, and creating them again *)
Lemma holds_get s k v : wf s -> (holds s k v <-> get k (s_map s) = Some v).
Proof. intro W. split; intro H; [apply in_get; [apply W|exact H]|now apply get_in]. Qed.
Lemma not_listed e s c t n ms : wf s -> env_ok e -> name_ok c -> name_ok t -> read_members e s c t = Some ms ->
  get (k_user c n) (s_map s) = None -> ~ In n (map fst ms).
Proof.
  intros W E Oc Ot R G I. apply in_map_iff in I. destruct I as ((n', r) & Q & I). cbn in Q. subst n'.
  destruct (members_spec e s c t W E Oc Ot) as (ms' & R' & M). rewrite R in R'. injection R' as <-.
  destruct (M _ _ I) as (u & _ & _ & H & _). apply holds_get in H; [|exact W]. congruence.
Qed.
Lemma drop_user_gone e s c n : wf s -> env_ok e -> name_ok c -> name_ok n -> get (k_user c n) (s_map (fst (step e s (CDropUser c n)))) = None.
Proof.
  intros W E Oc On. cbn [step]. unfold process_drop_user. destruct (get_as as_user s (k_user c n)) as [| |u] eqn:G.
  - unfold get_as in G. cbn [fst]. destruct (get (k_user c n) (s_map s)) as [v|]; [|reflexivity]. destruct (as_user v); discriminate.
  - exfalso. unfold get_as in G. destruct (get (k_user c n) (s_map s)) as [v|] eqn:H; [|discriminate].
    apply holds_get in H; [|exact W]. apply W in H. apply legal_path in H; [|auto 10 with nm]. inversion H; subst; discriminate.
  - destruct (values_spec as_tenant e 14 s (k_tenants c) [c; s_tenants] W E (dir_tenants c) ltac:(auto 10 with nm) (typed_tenants c)) as (ts & -> & _).
    cbn [fst]. cbn [remove s_map]. rewrite get_del, seqb_refl; [reflexivity|]. apply (fold_remove_srt (fun t => k_member (t_name t) (t_name t) (u_id u))). apply W.
Qed.
Definition no_member (s : st) (i : N) : Prop :=
  forall k r, holds s k (VMember r) -> exists c t j, name_ok c /\ name_ok t /\ k = k_member c t j /\ j <> i.
Lemma no_member_step e s x i : cmd_ok x -> ~ member_ids x i -> no_member s i -> no_member (fst (step e s x)) i.
Proof.
  intros O M N k r H. destruct (step_in _ _ _ _ _ H) as [H0|H0]; [now apply N in H0|]. clear H.
  destruct x; cbn [writes cmd_ok member_ids] in *; try contradiction;
    repeat match goal with H : exists _, _ |- _ => destruct H | H : _ /\ _ |- _ => destruct H | H : _ \/ _ |- _ => destruct H end;
    subst; try discriminate.
  - contradiction. - eauto 10. - eauto 10.
Qed.
Lemma no_member_run h : forall s i, no_member s i -> Forall (fun ex => env_ok (fst ex) /\ cmd_ok (snd ex)) h ->
  (forall ex, In ex h -> ~ member_ids (snd ex) i) -> no_member (run s h) i.
Proof.
  induction h as [|(e, x) h IH]; cbn [run]; intros s i N F M; [exact N|]. inversion F as [|? ? [Ee Ox] F']; subst. cbn [fst snd] in Ee, Ox.
  apply IH; [|exact F'|intros ex I; apply M; now right]. apply no_member_step; [exact Ox|apply (M (e, x)); now left|exact N].
Qed.
Lemma no_member_get s i c t : wf s -> no_member s i -> name_ok c -> name_ok t -> get (k_member c t i) (s_map s) = None.
Proof.
  intros W N Oc Ot. destruct (get _ _) as [v|] eqn:G; [|reflexivity]. exfalso. apply holds_get in G; [|exact W].
  assert (L : legal (k_member c t i) v) by now apply W. apply legal_path in L; [|auto 10 with nm]. inversion L; subst; try discriminate.
  apply N in G. destruct G as (c' & t' & j & Oc' & Ot' & Q & J). apply path_inj in Q; [|auto 10 with nm..]. injection Q as _ _ Q. apply show_inj in Q. auto.
Qed.
Lemma wf_insert s k v : wf s -> legal k v -> wf (insert s k v).
Proof. intros [S W] L. split; [now apply insert_srt|]. intros k' v' H. apply insert_in in H. destruct H as [[-> ->]|H]; auto. Qed.
Lemma create_user_fresh e0 s c u : wf s -> name_ok c -> name_ok (u_name u) -> no_member s (u_id u) ->
  snd (step e0 s (CCreateUser c u)) = Done -> forall t, name_ok t ->
  get (k_member c t (u_id u)) (s_map (fst (step e0 s (CCreateUser c u)))) = None /\
  forall e, env_ok e -> exists ms, read_members e (fst (step e0 s (CCreateUser c u))) c t = Some ms /\ ~ In (u_name u) (map fst ms).
Proof.
  intros W Oc Ou N D t Ot. assert (W' : wf (fst (step e0 s (CCreateUser c u)))) by (apply step_wf; cbn; auto).
  assert (N' : no_member (fst (step e0 s (CCreateUser c u))) (u_id u)) by (apply no_member_step; cbn; auto).
  split; [now apply no_member_get|]. intros e E.
  destruct (members_spec e _ c t W' E Oc Ot) as (ms & R & M). exists ms. split; [exact R|]. intro I. apply in_map_iff in I.
  destruct I as ((n, r) & Q & I). cbn in Q. subst n. destruct (M _ _ I) as (w & Nw & _ & H & Hm).
  assert (w = u).
  { cbn [step] in H, D. unfold process_create_user in H, D. destruct (contains s (k_user c (u_name u))) eqn:C; [discriminate|]. cbn [fst] in H.
    apply holds_get in H; [|apply wf_insert; [exact W|eexists; split; [reflexivity|split; [auto 10 with nm|constructor]]]].
    unfold insert in H. cbn [s_map] in H. rewrite get_put in H by apply W. rewrite seqb_refl in H. now injection H. }
  subst w. apply holds_get in Hm; [|exact W']. rewrite no_member_get in Hm by assumption. discriminate.
Qed.
Lemma role_gone e s c r t : srt s -> get (k_role c t r) (s_map (fst (step e s (CDropRole c r t)))) = None.
Proof.
  intro S. cbn [step]. unfold process_drop_role. destruct (contains s (k_role c t r)) eqn:C; cbn [fst].
  - cbn [remove s_map]. now rewrite get_del, seqb_refl.
  - now apply contains_false.
Qed.
Lemma to_map_in {A} (l : list (str * A)) : forall m, sorted m -> forall d p, get d (fold_left (fun m kv => put (fst kv) (snd kv) m) l m) = Some p ->
  In (d, p) l \/ get d m = Some p.
Proof.
  induction l as [|(k, v) l IH]; cbn; intros m S d p H; [now right|]. apply IH in H; [|now apply put_sorted].
  destruct H as [H|H]; [auto|]. rewrite get_put in H by exact S. destruct (seqb d k) eqn:Q; [|auto]. apply seqb_eq in Q. injection H as ->. subst. auto.
Qed.
Lemma create_role_privs e s c r sys ps t : srt s -> snd (step e s (CCreateRole c r sys ps t)) = Done ->
  exists ro, get_as as_role (fst (step e s (CCreateRole c r sys ps t))) (k_role c t r) = Got ro /\ ro_name ro = r /\ ro_sys ro = sys /\
  forall d p, get d (ro_privs ro) = Some p -> In (d, p) ps.
Proof.
  intros S D. cbn [step] in *. unfold process_create_role in *. destruct (contains _ _); [discriminate|]. cbn [fst].
  eexists. unfold get_as. cbn [insert s_map]. rewrite get_put, seqb_refl by exact S. cbn [as_role]. split; [reflexivity|]. cbn [ro_name ro_sys ro_privs].
  split; [reflexivity|split; [reflexivity|]]. intros d p H. unfold to_map in H. apply to_map_in in H; [|constructor]. destruct H as [H|H]; [exact H|discriminate].
Qed.

Lemma drop_dbs_holds e c t ds : name_ok c -> name_ok t -> Forall name_ok ds -> forall s, wf s ->
  wf (run s (map (fun d => (e, CDropDb c t d)) ds)) /\
  forall k v, holds (run s (map (fun d => (e, CDropDb c t d)) ds)) k v -> holds s k v /\ forall d, In d ds -> ~ under (k_db c t d) k.
Proof.
  intros Oc Ot. induction ds as [|d ds IH]; intros F s W; cbn [map run]; [split; [exact W|]; intros k v H; split; [exact H|intros d []]|].
  inversion F as [|? ? Od F']; subst. assert (W1 : wf (fst (step e s (CDropDb c t d)))) by (apply step_wf; cbn; auto).
  destruct (IH F' _ W1) as [W2 H2]. split; [exact W2|]. intros k v H. apply H2 in H. destruct H as [H N].
  pose proof (drop_db_trace s c t d W Oc Ot Od) as T. rewrite no_trace_under in T. split.
  - apply step_in in H. destruct H as [H|H]; [exact H|destruct H].
  - intros d' [<-|I]; [now apply (T k v)|now apply N].
Qed.
Lemma run_app a : forall s b, run s (a ++ b) = run (run s a) b.
Proof. induction a as [|(e, x) a IH]; cbn [app run]; auto. Qed.
Lemma uniq_sub a b : uniq b -> (forall k v, holds a k v -> holds b k v) -> uniq a.
Proof. intros U S k1 u1 k2 u2 H1 H2. apply U; auto. Qed.
(** What is left below the tenant after the SQL command. *)
Lemma sql_drop_left e s c t ds : wf s -> uniq s -> env_ok e -> name_ok c -> name_ok t -> Forall name_ok ds ->
  let s' := run s (sql_drop_tenant e c t ds) in wf s' /\
  forall k v, holds s' k v -> holds s k v /\ (under (k_tenant c t) k ->
    (exists d, name_ok d /\ ~ In d ds /\ under (k_db c t d) k) \/
    (exists i r, k = k_member c t i /\ v = VMember r /\ forall n u, name_ok n -> holds s' (k_user c n) (VUser u) -> u_id u <> i)).
Proof.
  intros W U E Oc Ot F s'. unfold s', sql_drop_tenant. rewrite run_app. cbn [run].
  destruct (drop_dbs_holds e c t ds Oc Ot F s W) as [W1 H1]. set (s1 := run s (map _ ds)) in *.
  assert (U1 : uniq s1) by (apply (uniq_sub s1 s); [exact U|intros k v H; now apply H1]).
  destruct (drop_tenant_holds e s1 c t W1 U1 E Oc Ot) as [_ H2].
  assert (W2 : wf (fst (step e s1 (CDropTenant c t)))) by (apply step_wf; cbn; auto).
  split; [exact W2|]. intros k v H. pose proof H as H'. apply H2 in H. destruct H as [H NT]. pose proof (H1 _ _ H) as [H0 ND].
  split; [exact H0|]. intro Un. pose proof (proj2 W2 _ _ H') as (cs & -> & Fc & Eo).
  apply under_path in Un; [|auto 10 with nm|exact Fc]. destruct Un as (rest & ->). cbn [app] in Eo.
  unfold tenant_keys in NT. inversion Eo; subst; try (exfalso; cbn [app] in *;
    repeat match goal with Q : _ = _ :: _ |- _ => try discriminate Q; injection Q; intros; subst; clear Q end; fail);
    repeat match goal with Q : [] = _ |- _ => symmetry in Q | Q : _ :: _ = rest |- _ => symmetry in Q end; subst; cbn [app] in *.
  - exfalso. apply NT. now left.
  - exfalso. apply NT. right. right. left. exists (ro_name r), (VRole r).
    assert (name_ok (ro_name r)) by (repeat match goal with F : Forall _ (_ :: _) |- _ => inversion F; clear F; subst end; assumption). auto.
  - right. exists id, r. split; [reflexivity|split; [reflexivity|]]. intros n u On Hu Q. apply NT. right. right. right.
    apply H2 in Hu. destruct Hu as [Hu _]. exists n, u, (VMember r). rewrite Q. auto.
  - exfalso. apply NT. right. now left.
  - assert (Od : name_ok (d_name d)) by (repeat match goal with F : Forall _ (_ :: _) |- _ => inversion F; clear F; subst end; assumption).
    left. exists (d_name d). split; [exact Od|]. assert (X : under (k_db c t (d_name d)) (path [c; s_tenants; t; s_dbs; d_name d])) by now left.
    split; [intro I; exact (ND _ I X)|exact X].
  - assert (Od : name_ok d) by (repeat match goal with F : Forall _ (_ :: _) |- _ => inversion F; clear F; subst end; assumption).
    left. exists d. split; [exact Od|]. pose proof (path_under [c; s_tenants; t; s_dbs; d] [s_buckets; show id]) as X. cbn [app] in X.
    split; [intro I; exact (ND _ I X)|exact X].
  - assert (Od : name_ok (tb_db tb)) by (repeat match goal with F : Forall _ (_ :: _) |- _ => inversion F; clear F; subst end; assumption).
    left. exists (tb_db tb). split; [exact Od|]. pose proof (path_under [c; s_tenants; t; s_dbs; tb_db tb] [s_schemas; tb_name tb]) as X. cbn [app] in X.
    split; [intro I; exact (ND _ I X)|exact X].
Qed.
Lemma create_tenant_clean e0 s c tn : wf s -> name_ok c -> name_ok (t_name tn) ->
  (forall k v, holds s k v -> under (k_tenant c (t_name tn)) k ->
    exists i r, k = k_member c (t_name tn) i /\ v = VMember r /\ forall n u, name_ok n -> holds s (k_user c n) (VUser u) -> u_id u <> i) ->
  let s' := fst (step e0 s (CCreateTenant c tn)) in
  forall e, env_ok e -> exists td, tenant_meta e s' c (t_name tn) = Some td /\ td_roles td = [] /\ td_dbs td = [] /\
  read_members e s' c (t_name tn) = Some [].
Proof.
  intros W Oc Ot L s' e E. set (t := t_name tn) in *. assert (W' : wf s') by (apply step_wf; cbn; auto).
  assert (P : forall k v, holds s' k v -> holds s k v \/ (k = k_tenant c t) \/ k = k_limiter c t).
  { intros k v H. apply step_in in H. destruct H as [H|H]; [auto|]. cbn [writes] in H. destruct H as [[-> _]|(l & -> & _)]; auto. }
  assert (Und : forall rest, under (k_tenant c t) (path (c :: s_tenants :: t :: rest))) by (intro rest; apply (path_under [c; s_tenants; t] rest)).
  destruct (tenant_meta_spec e s' c t W' E Oc Ot) as (td & T1 & T2 & T3 & _ & _). exists td. split; [exact T1|].
  split; [|split].
  - destruct (td_roles td) as [|(r, ro) l] eqn:Q; [reflexivity|]. exfalso. destruct (proj1 (T3 r ro) (or_introl eq_refl)) as [H Or].
    destruct (P _ _ H) as [H0|[Y|Y]].
    + destruct (L _ _ H0 (Und _)) as (i & r' & Y & _). revert Y. apply (distinct_keys c t [s_roles; r] [s_members; show i]); auto 10 with nm. discriminate.
    + revert Y. apply (distinct_keys c t [s_roles; r] []); auto 10 with nm. discriminate.
    + revert Y. apply (distinct_keys c t [s_roles; r] [s_limiter]); auto 10 with nm. discriminate.
  - destruct (td_dbs td) as [|(d, i) l] eqn:Q; [reflexivity|]. exfalso. destruct (proj1 (T2 d) (or_introl eq_refl)) as (v & H & Od).
    destruct (P _ _ H) as [H0|[Y|Y]].
    + destruct (L _ _ H0 (Und _)) as (j & r' & Y & _). revert Y. apply (distinct_keys c t [s_dbs; d] [s_members; show j]); auto 10 with nm. discriminate.
    + revert Y. apply (distinct_keys c t [s_dbs; d] []); auto 10 with nm. discriminate.
    + revert Y. apply (distinct_keys c t [s_dbs; d] [s_limiter]); auto 10 with nm. discriminate.
  - destruct (members_spec e s' c t W' E Oc Ot) as (ms & R & M). rewrite R. destruct ms as [|(n, r) ms]; [reflexivity|]. exfalso.
    destruct (M n r (or_introl eq_refl)) as (u & _ & On & Hu & Hm).
    assert (Hu0 : holds s (k_user c n) (VUser u)).
    { destruct (P _ _ Hu) as [H0|[Y|Y]]; [exact H0|exfalso..]; apply path_inj in Y; auto 10 with nm; discriminate. }
    destruct (P _ _ Hm) as [H0|[Y|Y]].
    + destruct (L _ _ H0 (Und _)) as (j & r' & Y & _ & F). apply k_member_inj in Y; auto. exact (F n u On Hu0 Y).
    + revert Y. apply (distinct_keys c t [s_members; show (u_id u)] []); auto 10 with nm. discriminate.
    + revert Y. apply (distinct_keys c t [s_members; show (u_id u)] [s_limiter]); auto 10 with nm. discriminate.
Qed.
