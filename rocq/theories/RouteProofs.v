(** Proofs about routing: sorted tags. *)
From Verif Require Import Prelude WriteModel WriteSpec BucketModel RouteModel RouteSpec.
From Verif Require WriteProofs.
Notation str_eqb_eq := WriteProofs.str_eqb_eq.
Notation str_eqb_refl := WriteProofs.str_eqb_refl.
Notation str_eqb_neq := WriteProofs.str_eqb_neq.

Lemma ltb_irrefl a : str_ltb a a = false.
Proof. induction a as [|x a IH]; cbn; [reflexivity|]. rewrite IH, Z.ltb_irrefl, andb_false_r. reflexivity. Qed.
Lemma ltb_trans a b c : str_ltb a b = true -> str_ltb b c = true -> str_ltb a c = true.
Proof.
  revert b c. induction a as [|x a IH]; intros [|y b] [|z c]; cbn; intros H1 H2; try discriminate; try reflexivity.
  apply orb_true_iff in H1. apply orb_true_iff in H2. apply orb_true_iff.
  destruct H1 as [H1|H1], H2 as [H2|H2].
  - left. apply Z.ltb_lt in H1, H2. apply Z.ltb_lt. lia.
  - apply andb_true_iff in H2 as [E _]. apply Z.eqb_eq in E. subst. left. exact H1.
  - apply andb_true_iff in H1 as [E _]. apply Z.eqb_eq in E. subst. left. exact H2.
  - apply andb_true_iff in H1 as [E1 H1]. apply andb_true_iff in H2 as [E2 H2].
    apply Z.eqb_eq in E1, E2. subst. right. rewrite Z.eqb_refl. cbn. eapply IH; eassumption.
Qed.
Lemma ltb_total a b : str_ltb a b = false -> str_ltb b a = false -> a = b.
Proof.
  revert b. induction a as [|x a IH]; intros [|y b]; cbn; intros H1 H2; try discriminate; try reflexivity.
  apply orb_false_iff in H1 as [A1 B1]. apply orb_false_iff in H2 as [A2 B2].
  apply Z.ltb_ge in A1, A2. assert (x = y) by lia. subst. rewrite Z.eqb_refl in *. cbn in *. f_equal. auto.
Qed.
Lemma ltb_neq a b : str_ltb a b = true -> a <> b.
Proof. intros H ->. rewrite ltb_irrefl in H. discriminate. Qed.

Notation tlt := (fun a b : str * str => str_ltb (fst a) (fst b) = true).
Notation tle := (fun a b : str * str => str_ltb (fst b) (fst a) = false).
Lemma tle_trans (a b c : str * str) : tle a b -> tle b c -> tle a c.
Proof.
  cbv beta. intros H1 H2. destruct (str_ltb (fst c) (fst a)) eqn:E; [|reflexivity].
  destruct (str_ltb (fst a) (fst b)) eqn:F.
  - rewrite (ltb_trans _ _ _ E F) in H2. discriminate.
  - pose proof (ltb_total _ _ F H1) as Q. rewrite <- Q in H2. congruence.
Qed.
Lemma ins_tsorted x l : StronglySorted tle l -> StronglySorted tle (ins (fun a b => str_ltb (fst a) (fst b)) x l).
Proof.
  induction l as [|y l IH]; cbn; intros H; [repeat constructor|].
  inversion H as [|? ? H1 H2]; subst. destruct (str_ltb (fst y) (fst x)) eqn:E.
  - constructor; [auto|]. eapply Permutation_Forall; [apply Permutation_sym, WriteProofs.ins_perm|].
    constructor; [|exact H2]. destruct (str_ltb (fst x) (fst y)) eqn:F; [|reflexivity].
    pose proof (ltb_trans _ _ _ E F) as Q. rewrite ltb_irrefl in Q. discriminate.
  - constructor; [exact H|]. constructor; [exact E|].
    eapply Forall_impl; [|exact H2]. cbv beta. intros z Hz. exact (tle_trans x y z E Hz).
Qed.
Lemma sort_tags_sorted l : StronglySorted tle (sort_tags l).
Proof. unfold sort_tags, isort. induction l as [|x l IH]; cbn; [constructor|]. apply ins_tsorted, IH. Qed.
Lemma sort_tags_perm l : Permutation (sort_tags l) l.
Proof. apply WriteProofs.isort_perm. Qed.

Lemma dedup_from_In x l y : In y (dedup_from x l) -> y = x \/ In y l.
Proof.
  revert x. induction l as [|z l IH]; intros x; cbn; [intros [H|[]]; auto|].
  destruct (str_eqb (fst z) (fst x)).
  - intros H. apply IH in H as [H|H]; auto.
  - intros [H|H]; [auto|]. apply IH in H as [H|H]; auto.
Qed.
Lemma dedup_from_strict x l : StronglySorted tle (x :: l) -> StronglySorted tlt (dedup_from x l).
Proof.
  revert x. induction l as [|z l IH]; intros x H; cbn; [repeat constructor|].
  inversion H as [|? ? H1 H2]; subst. inversion H1 as [|? ? H3 H4]; subst. inversion H2 as [|? ? H5 H6]; subst.
  destruct (str_eqb (fst z) (fst x)) eqn:E.
  - apply IH. constructor; assumption.
  - constructor; [apply IH; exact H1|]. apply Forall_forall. intros y Hy.
    assert (X : str_ltb (fst x) (fst z) = true).
    { destruct (str_ltb (fst x) (fst z)) eqn:F; [reflexivity|]. apply str_eqb_neq in E. exfalso. apply E.
      symmetry. apply ltb_total; [exact F|exact H5]. }
    apply dedup_from_In in Hy as [->|Hy]; [exact X|].
    rewrite Forall_forall in H4. specialize (H4 _ Hy). cbv beta in H4.
    destruct (str_ltb (fst z) (fst y)) eqn:F; [eapply ltb_trans; eassumption|].
    rewrite <- (ltb_total _ _ F H4). exact X.
Qed.
Lemma dedup_strict l : StronglySorted tlt (dedup_tags (sort_tags l)).
Proof.
  pose proof (sort_tags_sorted l) as H. destruct (sort_tags l) as [|x k]; cbn; [constructor|].
  apply dedup_from_strict, H.
Qed.
Lemma nodup_strict l : NoDup (map fst l) -> StronglySorted tle l -> StronglySorted tlt l.
Proof.
  induction l as [|x l IH]; cbn; intros ND H; [constructor|].
  inversion ND as [|? ? N1 N2]; subst. inversion H as [|? ? H1 H2]; subst.
  constructor; [auto|]. apply Forall_forall. intros y Hy. rewrite Forall_forall in H2. specialize (H2 _ Hy). cbv beta in H2.
  destruct (str_ltb (fst x) (fst y)) eqn:F; [reflexivity|]. exfalso. apply N1.
  rewrite (ltb_total _ _ F H2). apply in_map, Hy.
Qed.
Lemma sort_strict l : NoDup (map fst l) -> StronglySorted tlt (sort_tags l).
Proof.
  intros ND. apply nodup_strict; [|apply sort_tags_sorted].
  eapply Permutation_NoDup; [|exact ND]. apply Permutation_map, Permutation_sym, sort_tags_perm.
Qed.
Lemma dedup_nodup l : NoDup (map fst l) -> dedup_tags l = l.
Proof.
  destruct l as [|x l]; cbn; intros ND; [reflexivity|]. revert x ND.
  induction l as [|z l IH]; intros x ND; cbn; [reflexivity|].
  inversion ND as [|? ? N1 N2]; subst. destruct (str_eqb (fst z) (fst x)) eqn:E.
  - apply str_eqb_eq in E. exfalso. apply N1. left. exact E.
  - f_equal. apply IH, N2.
Qed.
Lemma sort_id l : StronglySorted tlt l -> sort_tags l = l.
Proof.
  unfold sort_tags, isort. induction l as [|x l IH]; cbn; intros H; [reflexivity|].
  inversion H as [|? ? H1 H2]; subst. rewrite IH by exact H1. destruct l as [|y l]; cbn; [reflexivity|].
  inversion H2 as [|? ? H3 _]; subst. cbv beta in H3. destruct (str_ltb (fst y) (fst x)) eqn:E; [|reflexivity].
  pose proof (ltb_trans _ _ _ E H3) as Q. rewrite ltb_irrefl in Q. discriminate.
Qed.
Lemma strict_nodup l : StronglySorted tlt l -> NoDup (map fst l).
Proof.
  induction l as [|x l IH]; cbn; intros H; [constructor|]. inversion H as [|? ? H1 H2]; subst.
  constructor; [|auto]. intros I. apply in_map_iff in I as (y & E & I). rewrite Forall_forall in H2.
  specialize (H2 _ I). cbv beta in H2. rewrite E, ltb_irrefl in H2. discriminate.
Qed.

(** values by name *)
Lemma tag_value_ins x l n :
  tag_value (ins (fun a b => str_ltb (fst a) (fst b)) x l) n = tag_value (x :: l) n.
Proof.
  induction l as [|y l IH]; [reflexivity|]. cbn [ins]. destruct (str_ltb (fst y) (fst x)) eqn:E; [|reflexivity].
  cbn [tag_value]. rewrite IH. cbn [tag_value].
  destruct (str_eqb (fst y) n) eqn:A, (str_eqb (fst x) n) eqn:B; try reflexivity.
  apply str_eqb_eq in A, B. exfalso. apply (ltb_neq _ _ E). congruence.
Qed.
Lemma tag_value_sort l n : tag_value (sort_tags l) n = tag_value l n.
Proof.
  unfold sort_tags, isort. induction l as [|x l IH]; [reflexivity|]. cbn [fold_right]. rewrite tag_value_ins.
  cbn [tag_value]. rewrite IH. reflexivity.
Qed.
Lemma tag_value_dedup_from x l n : tag_value (dedup_from x l) n = tag_value (x :: l) n.
Proof.
  revert x. induction l as [|z l IH]; intros x; [reflexivity|]. cbn [dedup_from].
  destruct (str_eqb (fst z) (fst x)) eqn:E.
  - rewrite IH. cbn [tag_value]. destruct (str_eqb (fst x) n) eqn:F; [reflexivity|].
    apply str_eqb_eq in E. rewrite E, F. reflexivity.
  - cbn [tag_value]. rewrite IH. reflexivity.
Qed.
Lemma tag_value_dedup l n : tag_value (dedup_tags l) n = tag_value l n.
Proof. destruct l; [reflexivity|]. apply tag_value_dedup_from. Qed.
Lemma tag_value_notin l n : ~ In n (map fst l) -> tag_value l n = None.
Proof.
  induction l as [|x l IH]; cbn; intros H; [reflexivity|]. destruct (str_eqb (fst x) n) eqn:E.
  - apply str_eqb_eq in E. exfalso. apply H. left. exact E.
  - apply IH. intros I. apply H. right. exact I.
Qed.
Lemma tag_value_some l n v : tag_value l n = Some v -> In (n, v) l.
Proof.
  induction l as [|[m w] l IH]; cbn; [discriminate|]. destruct (str_eqb m n) eqn:E.
  - intros H. injection H as ->. apply str_eqb_eq in E. subst. left. reflexivity.
  - intros H. right. auto.
Qed.
(** strictly sorted lists with the same values are the same list *)
Lemma strict_ext l k : StronglySorted tlt l -> StronglySorted tlt k ->
  (forall n, tag_value l n = tag_value k n) -> l = k.
Proof.
  revert k. induction l as [|[n v] l IH]; intros k SL SK E.
  - destruct k as [|[m w] k]; [reflexivity|]. specialize (E m). cbn in E. rewrite str_eqb_refl in E. discriminate.
  - destruct k as [|[m w] k]; [specialize (E n); cbn in E; rewrite str_eqb_refl in E; discriminate|].
    pose proof (strict_nodup _ SL) as NL. pose proof (strict_nodup _ SK) as NK.
    inversion SL as [|? ? L1 L2]; subst. inversion SK as [|? ? K1 K2]; subst.
    cbn in NL, NK. inversion NL as [|? ? NL1 NL2]; subst. inversion NK as [|? ? NK1 NK2]; subst.
    rewrite Forall_forall in L2, K2.
    assert (n = m) as ->.
    { destruct (str_eqb n m) eqn:Q; [apply str_eqb_eq, Q|].
      pose proof (E n) as E1. pose proof (E m) as E2. cbn in E1, E2. rewrite str_eqb_refl in E1, E2. rewrite Q in E2.
      assert (Q' : str_eqb m n = false). { apply str_eqb_neq. apply str_eqb_neq in Q. congruence. }
      rewrite Q' in E1. symmetry in E1. apply tag_value_some in E1. apply tag_value_some in E2.
      specialize (L2 _ E2). specialize (K2 _ E1). cbn in L2, K2.
      pose proof (ltb_trans _ _ _ L2 K2) as X. rewrite ltb_irrefl in X. discriminate. }
    pose proof (E m) as E1. cbn in E1. rewrite str_eqb_refl in E1. injection E1 as ->. f_equal.
    apply IH; [exact L1|exact K1|]. intros p. destruct (str_eqb m p) eqn:Q.
    + apply str_eqb_eq in Q. subst. rewrite !tag_value_notin; auto.
    + specialize (E p). cbn in E. rewrite Q in E. exact E.
Qed.
Lemma tags_eqb_eq a b : tags_eqb a b = true <-> a = b.
Proof.
  revert b. induction a as [|[n v] a IH]; intros [|[m w] b]; cbn; split; intros H; try discriminate; try reflexivity.
  - apply andb_true_iff in H as [H H3]. apply andb_true_iff in H as [H1 H2].
    apply str_eqb_eq in H1, H2. apply IH in H3. subst. reflexivity.
  - injection H as -> -> ->. rewrite !str_eqb_refl. cbn. apply IH. reflexivity.
Qed.
