(** Proofs about value_repair: the missing values. *)
From Coq Require Import QArith Qabs.
From Verif Require Import Prelude RepairModel FillSpec ScreenModel ScreenSpec.
Open Scope Z_scope.

Lemma find_known_spec : forall l from i,
  let r := find_known l from i in
  (from <= r)%nat /\ (forall k, (i <= k)%nat -> (from <= k < r)%nat -> (k < i + length l)%nat -> nth_error l (k - i) = Some None)
  /\ ((r < i + length l)%nat -> (i <= r)%nat /\ exists q, nth_error l (r - i) = Some (Some q))
  /\ ((i + length l <= r)%nat -> r = Nat.max (i + length l) from).
Proof.
  induction l as [|x l IH]; intros from i; cbv zeta; cbn [find_known length].
  - repeat split; try lia.
  - assert (H := IH from (S i)). cbv zeta in H. destruct H as (H1 & H2 & H3 & H4).
    assert (Skip : (x = None \/ (i < from)%nat) -> let r := find_known l from (S i) in
      (from <= r)%nat /\ (forall k, (i <= k)%nat -> (from <= k < r)%nat -> (k < i + S (length l))%nat -> nth_error (x :: l) (k - i) = Some None)
      /\ ((r < i + S (length l))%nat -> (i <= r)%nat /\ exists q, nth_error (x :: l) (r - i) = Some (Some q))
      /\ ((i + S (length l) <= r)%nat -> r = Nat.max (i + S (length l)) from)).
    { intros Hx. cbv zeta. split; [exact H1|]. split; [|split].
      - intros k Hk Hf Hl. destruct (Nat.eq_dec k i) as [->|Ne].
        + rewrite Nat.sub_diag. destruct Hx as [->|Hx]; [reflexivity|lia].
        + replace (k - i)%nat with (S (k - S i)) by lia. cbn [nth_error]. apply H2; lia.
      - intros Hr. destruct H3 as [H3 [q Hq]]; [lia|]. split; [lia|]. exists q.
        replace (find_known l from (S i) - i)%nat with (S (find_known l from (S i) - S i)) by lia. exact Hq.
      - intros Hr. rewrite H4 by lia. lia. }
    destruct x as [q|].
    + destruct (from <=? i)%nat eqn:E.
      * apply Nat.leb_le in E. split; [lia|]. split; [intros; lia|]. split; [|intros; lia].
        intros _. split; [lia|]. exists q. rewrite Nat.sub_diag. reflexivity.
      * apply Nat.leb_gt in E. apply Skip. right. exact E.
    + apply Skip. left. reflexivity.
Qed.

Lemma putq_length : forall i v out, length (putq i v out) = length out.
Proof. induction i; intros v [|x r]; cbn; auto. Qed.
Lemma nth_putq_same : forall i v out, (i < length out)%nat -> nth i (putq i v out) None = Some v.
Proof. induction i; intros v [|x r] H; cbn in *; try lia; [reflexivity|]. apply IHi. lia. Qed.
Lemma nth_putq_other : forall i v out k, k <> i -> nth k (putq i v out) None = nth k out None.
Proof. induction i; intros v [|x r] k H; cbn; try reflexivity; destruct k; cbn; try congruence. apply IHi. congruence. Qed.

Definition eqn (ts : list Z) (a : nat) (u : Q) (b : nat) (v : Q) (i : nat) (x : Q) : Prop :=
  ((x - u) * inject_Z (nth b ts 0 - nth a ts 0)%Z == (v - u) * inject_Z (nth i ts 0 - nth a ts 0)%Z)%Q.

Lemma inj_nz z : z <> 0 -> ~ (inject_Z z == 0)%Q.
Proof. intros H E. apply H. unfold Qeq in E. cbn in E. lia. Qed.

Lemma line_eqn ts vs a u b v i : (valq vs a == u)%Q -> (valq vs b == v)%Q -> nth b ts 0 - nth a ts 0 <> 0 ->
  eqn ts a u b v i (line ts vs a b i).
Proof.
  intros Ha Hb Nz. unfold eqn, line, timeq. rewrite Ha, Hb. apply inj_nz in Nz.
  revert Nz. generalize (inject_Z (nth b ts 0 - nth a ts 0)%Z). generalize (inject_Z (nth i ts 0 - nth a ts 0)%Z).
  intros c d Nz. field. exact Nz.
Qed.
Lemma eqn_at_a ts a u b v x : nth b ts 0 - nth a ts 0 <> 0 -> eqn ts a u b v a x -> (x == u)%Q.
Proof.
  unfold eqn. intros Nz E. apply inj_nz in Nz. replace (nth a ts 0 - nth a ts 0) with 0 in E by lia.
  change (inject_Z 0) with 0%Q in E. rewrite Qmult_0_r in E.
  destruct (Qmult_integral _ _ E) as [H|H]; [|contradiction]. rewrite <- (Qplus_0_r u), <- H. ring.
Qed.
Lemma eqn_at_b ts a u b v x : nth b ts 0 - nth a ts 0 <> 0 -> eqn ts a u b v b x -> (x == v)%Q.
Proof.
  unfold eqn. intros Nz E. apply inj_nz in Nz. apply (proj1 (Qmult_inj_r _ _ _ Nz)) in E.
  rewrite <- (Qplus_0_r x). setoid_replace (x + 0)%Q with (u + (x - u))%Q by ring. rewrite E. ring.
Qed.

Lemma put_on_line_spec ts a u b v : nth b ts 0 - nth a ts 0 <> 0 -> forall n i vs,
  (valq vs a == u)%Q -> (valq vs b == v)%Q -> (a < length vs)%nat -> (b < length vs)%nat ->
  let vs' := put_on_line n i ts a b vs in
  length vs' = length vs
  /\ (forall k, (i <= k < i + n)%nat -> (k < length vs)%nat -> exists x, nth k vs' None = Some x /\ eqn ts a u b v k x)
  /\ (forall k, ~ (i <= k < i + n)%nat -> nth k vs' None = nth k vs None).
Proof.
  intros Nz. induction n as [|n IH]; intros i vs Ha Hb La Lb; cbv zeta; cbn [put_on_line].
  - repeat split; try lia; intros; lia.
  - assert (Lq := line_eqn ts vs a u b v i Ha Hb Nz). set (y := line ts vs a b i) in *.
    assert (V : forall k w, (valq vs k == w)%Q -> (k < length vs)%nat -> (k = i -> (y == w)%Q) -> (valq (putq i y vs) k == w)%Q).
    { intros k w Hk Lk Hy. unfold valq. destruct (Nat.eq_dec k i) as [->|Ne].
      - rewrite nth_putq_same by exact Lk. apply Hy. reflexivity.
      - rewrite nth_putq_other by exact Ne. exact Hk. }
    assert (Ha' : (valq (putq i y vs) a == u)%Q) by (apply V; auto; intros <-; apply (eqn_at_a ts a u b v y Nz Lq)).
    assert (Hb' : (valq (putq i y vs) b == v)%Q) by (apply V; auto; intros <-; apply (eqn_at_b ts a u b v y Nz Lq)).
    destruct (IH (S i) (putq i y vs) Ha' Hb') as (R1 & R2 & R3); [rewrite putq_length; assumption..|].
    rewrite putq_length in *. split; [exact R1|]. split.
    + intros k Hk Lk. destruct (Nat.eq_dec k i) as [->|Ne].
      * exists y. split; [|exact Lq]. rewrite R3 by lia. apply nth_putq_same. exact Lk.
      * apply R2; lia.
    + intros k Hk. rewrite R3 by lia. apply nth_putq_other. lia.
Qed.

Section Nan.
Variables (ts : list Z) (vs : list (option Q)).
Hypothesis Hlen : length ts = length vs.
Hypothesis Hasc : StronglySorted Z.lt ts.
Let n := length vs.

Lemma times_differ a b : (a < b < n)%nat -> nth b ts 0 - nth a ts 0 <> 0.
Proof.
  intros H. assert (G : forall l : list Z, StronglySorted Z.lt l -> forall x y, (x < y < length l)%nat -> nth x l 0 < nth y l 0).
  { induction 1 as [|z l S1 IH F]; intros x y Hxy; cbn in Hxy; [lia|]. destruct y as [|y]; [lia|]. destruct x as [|x]; cbn [nth].
    - rewrite Forall_forall in F. apply F. apply nth_In. lia.
    - apply IH. lia. }
  assert (Q1 := G ts Hasc a b ltac:(unfold n in H; lia)). lia.
Qed.
Lemma known_lt i q : known_at vs i q -> (i < n)%nat.
Proof. intros H. apply nth_error_Some. unfold known_at in H. congruence. Qed.
Lemma nth_known i q : nth i vs None = Some q <-> known_at vs i q.
Proof.
  unfold known_at. split.
  - intros H. assert (i < length vs)%nat.
    { destruct (Nat.lt_ge_cases i (length vs)); [assumption|]. rewrite nth_overflow in H by assumption. discriminate. }
    rewrite (nth_error_nth' vs None) by assumption. congruence.
  - intros H. apply nth_error_nth with (d := None) in H. exact H.
Qed.

(** the state of the second loop: [a], [b] are the last two values before [i], everything up to [b] is right, the rest is untouched *)
Definition state (i a b : nat) (cur : list (option Q)) : Prop :=
  length cur = n /\ (b < i)%nat /\ (exists u v, adjacent vs a u b v) /\ (forall k, (b < k < i)%nat -> null_at vs k)
  /\ (forall k, (k <= b)%nat -> exists x, nth k cur None = Some x /\ filled_in ts vs k x)
  /\ (forall k, (b < k)%nat -> nth k cur None = nth k vs None).

Lemma middle_state : forall m i a b cur, state i a b cur -> (i + m = n)%nat ->
  let '(a', b', cur') := middle m i ts a b cur in state n a' b' cur'.
Proof.
  induction m as [|m IH]; intros i a b cur St Hm; cbn [middle].
  - replace n with i by lia. exact St.
  - destruct St as (L & Hb & (u & v & Ad) & Nu & Ok & Rest).
    assert (Ei : nth i cur None = nth i vs None) by (apply Rest; lia). rewrite Ei.
    destruct (nth i vs None) as [w|] eqn:Ew.
    + assert (Kw : known_at vs i w) by (apply nth_known; exact Ew).
      destruct Ad as (Hab & Ka & Kb & Nab).
      assert (Vb : (valq cur b == v)%Q).
      { destruct (Ok b (Nat.le_refl b)) as (x & Ex & Fx & _). unfold valq. rewrite Ex. apply Fx. exact Kb. }
      assert (Vi : (valq cur i == w)%Q) by (unfold valq; rewrite Ei; reflexivity).
      destruct (put_on_line_spec ts b v i w ltac:(apply times_differ; lia) (i - S b) (S b) cur Vb Vi ltac:(lia) ltac:(lia)) as (R1 & R2 & R3).
      set (cur2 := put_on_line (i - S b) (S b) ts b i cur) in *.
      apply (IH (S i) b i cur2); [|lia].
      split; [lia|]. split; [lia|]. split; [|split; [intros; lia|split]].
      * exists v, w. split; [exact Hb|]. split; [exact Kb|]. split; [exact Kw|exact Nu].
      * intros k Hk. destruct (Nat.eq_dec k i) as [->|Ne].
        -- exists w. split; [rewrite R3 by lia; exact Ei|]. split.
           ++ intros q Kq. unfold known_at in *. assert (q = w) by congruence. subst. reflexivity.
           ++ intros N. unfold known_at, null_at in *. congruence.
        -- destruct (Nat.le_gt_cases k b) as [Le|Gt].
           ++ rewrite R3 by lia. apply Ok. exact Le.
           ++ destruct (R2 k ltac:(lia) ltac:(lia)) as (x & Ex & Lx). exists x. split; [exact Ex|]. split.
              ** intros q Kq. assert (N := Nu k ltac:(lia)). unfold known_at, null_at in *. congruence.
              ** intros _. exists b, v, i, w. split; [|split; [left; lia|exact Lx]].
                 split; [exact Hb|]. split; [exact Kb|]. split; [exact Kw|exact Nu].
      * intros k Hk. rewrite R3 by lia. apply Rest. lia.
    + apply (IH (S i) a b cur); [|lia]. split; [exact L|]. split; [lia|]. split; [exists u, v; exact Ad|]. split; [|split; assumption].
      intros k Hk. destruct (Nat.eq_dec k i) as [->|Ne]; [|apply Nu; lia].
      unfold null_at. rewrite (nth_error_nth' vs None) by (unfold n in Hm; lia). congruence.
Qed.

Lemma process_nan_right out : process_nan ts vs = Done out ->
  length out = n /\ forall i, (i < n)%nat -> filled_in ts vs i (nth i out 0%Q).
Proof.
  unfold process_nan. fold n.
  assert (H1 := find_known_spec vs 0 0). cbv zeta in H1. set (i1 := find_known vs 0 0) in *. cbn [Nat.add] in H1. fold n in H1.
  assert (H2 := find_known_spec vs (S i1) 0). cbv zeta in H2. set (i2 := find_known vs (S i1) 0) in *. cbn [Nat.add] in H2. fold n in H2.
  destruct H1 as (_ & N1 & K1 & _). destruct H2 as (G2 & N2 & K2 & _).
  destruct (n <? i2)%nat eqn:E1; [discriminate|]. apply Nat.ltb_ge in E1.
  destruct (i2 =? n)%nat eqn:E2; [discriminate|]. apply Nat.eqb_neq in E2.
  destruct K1 as [_ [u Ku]]; [lia|]. destruct K2 as [_ [v Kv]]; [lia|]. rewrite Nat.sub_0_r in Ku, Kv.
  assert (N1' : forall k, (k < i1)%nat -> null_at vs k).
  { intros k Hk. assert (Q1 := N1 k ltac:(lia) ltac:(lia) ltac:(lia)). rewrite Nat.sub_0_r in Q1. exact Q1. }
  assert (N2' : forall k, (i1 < k < i2)%nat -> null_at vs k).
  { intros k Hk. assert (Q1 := N2 k ltac:(lia) ltac:(lia) ltac:(lia)). rewrite Nat.sub_0_r in Q1. exact Q1. }
  assert (Ad : adjacent vs i1 u i2 v) by (split; [lia|split; [exact Ku|split; [exact Kv|exact N2']]]).
  assert (Vu : (valq vs i1 == u)%Q) by (unfold valq; rewrite (proj2 (nth_known i1 u) Ku); reflexivity).
  assert (Vv : (valq vs i2 == v)%Q) by (unfold valq; rewrite (proj2 (nth_known i2 v) Kv); reflexivity).
  assert (Nz : nth i2 ts 0 - nth i1 ts 0 <> 0) by (apply times_differ; lia).
  destruct (put_on_line_spec ts i1 u i2 v Nz i2 0 vs Vu Vv ltac:(fold n; lia) ltac:(fold n; lia)) as (R1 & R2 & R3).
  set (vs1 := put_on_line i2 0 ts i1 i2 vs) in *.
  assert (St : state (S i2) i1 i2 vs1).
  { split; [exact R1|]. split; [lia|]. split; [exists u, v; exact Ad|]. split; [intros; lia|]. split.
    - intros k Hk. destruct (Nat.eq_dec k i2) as [->|Ne].
      + exists v. split; [rewrite R3 by lia; apply nth_known; exact Kv|]. split.
        * intros q Kq. unfold known_at in *. assert (q = v) by congruence. subst. reflexivity.
        * intros N. unfold null_at in *. congruence.
      + destruct (R2 k ltac:(lia) ltac:(fold n; lia)) as (x & Ex & Lx). exists x. split; [exact Ex|].
        destruct (Nat.eq_dec k i1) as [->|Ne1].
        * split; [|intros N; unfold null_at in *; congruence].
          intros q Kq. unfold known_at in *. assert (q = u) by congruence. subst q. apply (eqn_at_a ts i1 u i2 v x Nz Lx).
        * assert (Nk : null_at vs k) by (destruct (Nat.lt_ge_cases k i1); [apply N1'|apply N2']; lia).
          split; [intros q Kq; unfold known_at, null_at in *; congruence|].
          intros _. exists i1, u, i2, v. split; [exact Ad|]. split; [|exact Lx].
          destruct (Nat.lt_ge_cases k i1); [right; left|left; lia]. split; [assumption|].
          intros k' q Hk' Kq. assert (Q1 := N1' k' Hk'). unfold known_at, null_at in *. congruence.
    - intros k Hk. apply R3. lia. }
  assert (M := middle_state (n - S i2) (S i2) i1 i2 vs1 St ltac:(lia)).
  destruct (middle (n - S i2) (S i2) ts i1 i2 vs1) as [[a b] cur].
  destruct M as (L & Hb & (u' & v' & Ad') & Nu & Ok & Rest). destruct Ad' as (Hab & Ka & Kb & Nab).
  assert (Va : (valq cur a == u')%Q).
  { destruct (Ok a ltac:(lia)) as (x & Ex & Fx & _). unfold valq. rewrite Ex. apply Fx. exact Ka. }
  assert (Vb : (valq cur b == v')%Q).
  { destruct (Ok b ltac:(lia)) as (x & Ex & Fx & _). unfold valq. rewrite Ex. apply Fx. exact Kb. }
  destruct (put_on_line_spec ts a u' b v' ltac:(apply times_differ; lia) (n - S b) (S b) cur Va Vb ltac:(lia) ltac:(lia)) as (T1 & T2 & T3).
  set (fin := put_on_line (n - S b) (S b) ts a b cur) in *.
  intros E. injection E as <-. split; [rewrite map_length; lia|].
  intros i Hi. set (g := fun x : option Q => match x with Some q => q | None => 0%Q end).
  assert (Em : nth i (map g fin) 0%Q = g (nth i fin None)) by (exact (map_nth g fin None i)).
  rewrite Em. destruct (Nat.le_gt_cases i b) as [Le|Gt].
  - rewrite T3 by lia. destruct (Ok i Le) as (x & Ex & Fx). rewrite Ex. exact Fx.
  - destruct (T2 i ltac:(lia) ltac:(lia)) as (x & Ex & Lx). rewrite Ex. cbn [g].
    assert (Ni : null_at vs i) by (apply Nu; lia).
    split; [intros q Kq; unfold known_at, null_at in *; congruence|].
    intros _. exists a, u', b, v'. split; [split; [exact Hab|split; [exact Ka|split; [exact Kb|exact Nab]]]|].
    split; [|exact Lx]. right. right. split; [exact Gt|]. intros k q Hk Kq.
    assert (k < n)%nat by (apply (known_lt k q); exact Kq). assert (Q1 := Nu k ltac:(lia)). unfold known_at, null_at in *. congruence.
Qed.

(** at least two values: the missing ones can be filled in *)
Lemma process_nan_two a u b v : known_at vs a u -> known_at vs b v -> (a < b)%nat -> exists out, process_nan ts vs = Done out.
Proof.
  intros Ka Kb Hab. unfold process_nan. fold n.
  assert (H1 := find_known_spec vs 0 0). cbv zeta in H1. set (i1 := find_known vs 0 0) in *. cbn [Nat.add] in H1. fold n in H1.
  assert (H2 := find_known_spec vs (S i1) 0). cbv zeta in H2. set (i2 := find_known vs (S i1) 0) in *. cbn [Nat.add] in H2. fold n in H2.
  destruct H1 as (_ & N1 & _ & _). destruct H2 as (_ & N2 & _ & _).
  assert (La := known_lt a u Ka). assert (Lb := known_lt b v Kb).
  assert (I1 : (i1 <= a)%nat).
  { destruct (Nat.le_gt_cases i1 a); [assumption|]. assert (Q1 := N1 a ltac:(lia) ltac:(lia) La). rewrite Nat.sub_0_r in Q1. unfold known_at in Ka. congruence. }
  assert (I2 : (i2 <= b)%nat).
  { destruct (Nat.le_gt_cases i2 b); [assumption|]. assert (Q1 := N2 b ltac:(lia) ltac:(lia) Lb). rewrite Nat.sub_0_r in Q1. unfold known_at in Kb. congruence. }
  replace (n <? i2)%nat with false by (symmetry; apply Nat.ltb_ge; lia).
  replace (i2 =? n)%nat with false by (symmetry; apply Nat.eqb_neq; lia).
  destruct (middle (n - S i2) (S i2) ts i1 i2 (put_on_line i2 0 ts i1 i2 vs)) as [[? ?] ?]. eauto.
Qed.
End Nan.

(** ** sorting and the middle of a list *)
Lemma insert_q_perm x : forall l, Permutation (insert_q x l) (x :: l).
Proof.
  induction l as [|y r IH]; cbn [insert_q]; [apply Permutation_refl|]. destruct (Qle_bool x y); [apply Permutation_refl|].
  eapply Permutation_trans; [apply perm_skip, IH|]. apply perm_swap.
Qed.
Lemma sort_q_perm : forall l, Permutation (sort_q l) l.
Proof.
  induction l as [|x l IH]; cbn [sort_q fold_right]; [apply Permutation_refl|].
  eapply Permutation_trans; [apply insert_q_perm|]. apply perm_skip. exact IH.
Qed.
Lemma insert_q_sorted x : forall l, StronglySorted Qle l -> StronglySorted Qle (insert_q x l).
Proof.
  induction l as [|y r IH]; intros Sl; cbn [insert_q].
  - constructor; constructor.
  - inversion Sl as [|? ? Sr F]; subst. destruct (Qle_bool x y) eqn:E.
    + apply Qle_bool_iff in E. constructor; [exact Sl|]. constructor; [exact E|].
      eapply Forall_impl; [|exact F]. intros z Hz. eapply Qle_trans; eassumption.
    + assert (L : (y <= x)%Q).
      { apply Qlt_le_weak. apply Qnot_le_lt. intros C. apply Qle_bool_iff in C. congruence. }
      constructor; [apply IH; exact Sr|]. eapply Permutation_Forall; [apply Permutation_sym, insert_q_perm|]. constructor; assumption.
Qed.
Lemma sort_q_sorted : forall l, StronglySorted Qle (sort_q l).
Proof. induction l as [|x l IH]; cbn [sort_q fold_right]; [constructor|]. apply insert_q_sorted. exact IH. Qed.
Lemma sort_q_length l : length (sort_q l) = length l.
Proof. apply Permutation_length, sort_q_perm. Qed.

Lemma filter_perm_length {A} (f : A -> bool) : forall a b, Permutation a b -> length (filter f a) = length (filter f b).
Proof.
  induction 1 as [| x a b P IH | x y a | a b c P1 IH1 P2 IH2]; cbn [filter]; try reflexivity.
  - destruct (f x); cbn [length]; lia.
  - destruct (f x), (f y); reflexivity.
  - lia.
Qed.
Lemma filter_all {A} (f : A -> bool) : forall l, (forall x, In x l -> f x = true) -> filter f l = l.
Proof. induction l as [|x l IH]; intros H; cbn; [reflexivity|]. rewrite (H x) by (left; reflexivity). f_equal. apply IH. intros y Hy. apply H. right. exact Hy. Qed.
Lemma filter_none {A} (f : A -> bool) : forall l, (forall x, In x l -> f x = false) -> filter f l = [].
Proof. induction l as [|x l IH]; intros H; cbn; [reflexivity|]. rewrite (H x) by (left; reflexivity). apply IH. intros y Hy. apply H. right. exact Hy. Qed.
Lemma filter_le {A} (f : A -> bool) : forall l, (length (filter f l) <= length l)%nat.
Proof. induction l as [|x l IH]; cbn; [lia|]. destruct (f x); cbn [length]; lia. Qed.

Definition ltq (a b : Q) : bool := negb (Qle_bool b a).
Lemma ltq_iff a b : ltq a b = true <-> (a < b)%Q.
Proof.
  unfold ltq. rewrite negb_true_iff. split.
  - intros H. apply Qnot_le_lt. intros C. apply Qle_bool_iff in C. congruence.
  - intros H. destruct (Qle_bool b a) eqn:E; [|reflexivity]. apply Qle_bool_iff in E. destruct (Qlt_not_le _ _ H E).
Qed.
Lemma sorted_le : forall l, StronglySorted Qle l -> forall i j, (i <= j < length l)%nat -> (nth i l 0 <= nth j l 0)%Q.
Proof.
  induction 1 as [|x l Sl IH F]; intros i j Hij; cbn in Hij; [lia|]. destruct i as [|i], j as [|j]; try lia; cbn [nth].
  - apply Qle_refl.
  - rewrite Forall_forall in F. apply F. apply nth_In. lia.
  - apply IH. lia.
Qed.

(** a value with as many values above as below it is in the middle *)
Lemma middle_is x la lb : length la = length lb -> (forall y, In y la -> (x <= y)%Q) -> (forall y, In y lb -> (y <= x)%Q) ->
  (nth (length la) (sort_q (x :: la ++ lb)) 0 == x)%Q.
Proof.
  intros Hl Ha Hb. set (s := sort_q (x :: la ++ lb)). set (m := length la).
  assert (P : Permutation s (x :: la ++ lb)) by apply sort_q_perm.
  assert (Sd : StronglySorted Qle s) by apply sort_q_sorted.
  assert (Ls : length s = (m + S m)%nat).
  { unfold s. rewrite sort_q_length. cbn [length]. rewrite app_length. unfold m. lia. }
  apply Qle_antisym; apply Qnot_lt_le; intros C.
  - (* the m-th is above x: so are the m places after it *)
    assert (Cnt := filter_perm_length (ltq x) _ _ P). cbn [filter] in Cnt.
    assert (E1 : ltq x x = false) by (destruct (ltq x x) eqn:E; [apply ltq_iff in E; destruct (Qlt_irrefl _ E)|reflexivity]).
    rewrite E1, filter_app, app_length in Cnt. rewrite (filter_none (ltq x) lb) in Cnt.
    2: { intros y Hy. destruct (ltq x y) eqn:E; [|reflexivity]. apply ltq_iff in E. destruct (Qlt_not_le _ _ E (Hb y Hy)). }
    assert (Q1 := filter_le (ltq x) la).
    assert (Q2 : (S m <= length (filter (ltq x) s))%nat).
    { rewrite <- (firstn_skipn m s), filter_app, app_length. rewrite (filter_all (ltq x) (skipn m s)).
      - rewrite skipn_length. lia.
      - intros y Hy. apply ltq_iff. apply (In_nth _ _ 0%Q) in Hy. destruct Hy as (k & Hk & <-). rewrite skipn_length in Hk.
        assert (En : nth k (skipn m s) 0%Q = nth (m + k) s 0%Q).
        { rewrite <- (firstn_skipn m s) at 2. rewrite app_nth2; rewrite firstn_length; [|lia]. f_equal. lia. }
        rewrite En. eapply Qlt_le_trans; [exact C|]. apply sorted_le; [exact Sd|lia]. }
    cbn [length] in Cnt. unfold m in *. lia.
  - assert (Cnt := filter_perm_length (fun y => ltq y x) _ _ P). cbn [filter] in Cnt.
    assert (E1 : ltq x x = false) by (destruct (ltq x x) eqn:E; [apply ltq_iff in E; destruct (Qlt_irrefl _ E)|reflexivity]).
    rewrite E1, filter_app, app_length in Cnt. rewrite (filter_none (fun y => ltq y x) la) in Cnt.
    2: { intros y Hy. destruct (ltq y x) eqn:E; [|reflexivity]. apply ltq_iff in E. destruct (Qlt_not_le _ _ E (Ha y Hy)). }
    assert (Q1 := filter_le (fun y => ltq y x) lb).
    assert (Q2 : (S m <= length (filter (fun y => ltq y x) s))%nat).
    { rewrite <- (firstn_skipn (S m) s), filter_app, app_length. rewrite (filter_all _ (firstn (S m) s)).
      - rewrite firstn_length. lia.
      - intros y Hy. apply ltq_iff. apply (In_nth _ _ 0%Q) in Hy. destruct Hy as (k & Hk & <-). rewrite firstn_length in Hk.
        assert (En : nth k (firstn (S m) s) 0%Q = nth k s 0%Q).
        { rewrite <- (firstn_skipn (S m) s) at 2. rewrite app_nth1; [reflexivity|]. rewrite firstn_length. lia. }
        rewrite En. eapply Qle_lt_trans; [|exact C]. apply sorted_le; [exact Sd|lia]. }
    cbn [length] in Cnt. unfold m in *. lia.
Qed.

(** ** the limits *)
Lemma inj_pos z : 0 < z -> (0 <= inject_Z z)%Q.
Proof. intros H. unfold Qle. cbn. lia. Qed.
Lemma maxq_l a b : (a <= maxq a b)%Q.
Proof. unfold maxq. destruct (Qle_bool a b) eqn:E; [apply Qle_bool_iff; exact E|apply Qle_refl]. Qed.
Lemma maxq_lub a b c : (a <= c)%Q -> (b <= c)%Q -> (maxq a b <= c)%Q.
Proof. unfold maxq. destruct (Qle_bool a b); auto. Qed.
Lemma minq_l a b : (minq a b <= a)%Q.
Proof.
  unfold minq. destruct (Qle_bool a b) eqn:E; [apply Qle_refl|]. apply Qlt_le_weak, Qnot_le_lt. intros C.
  apply Qle_bool_iff in C. congruence.
Qed.
Lemma screen_rows_fst w lo hi : forall rows p, map fst (screen_rows w lo hi p rows) = map fst rows.
Proof. induction rows as [|r rest IH]; intros p; cbn [screen_rows map]; [reflexivity|]. cbn [fst]. f_equal. apply IH. Qed.
Lemma screen_rows_within w lo hi : (lo <= hi)%Q -> forall rows p, StronglySorted Z.lt (fst p :: map fst rows) ->
  within lo hi (p :: screen_rows w lo hi (Some p) rows).
Proof.
  intros Hlh. induction rows as [|r rest IH]; intros p Sd; cbn [screen_rows]; [exact I|].
  cbn [map] in Sd. inversion Sd as [|? ? Sd' F]; subst. inversion F as [|? ? Hpr _]; subst.
  set (mid := middle_value r (in_window (fst r + w) rest) lo hi). set (x := repaired_value p r mid lo hi).
  specialize (IH (fst r, x) Sd'). change (within lo hi (p :: (fst r, x) :: screen_rows w lo hi (Some (fst r, x)) rest)).
  split; [|split; [|exact IH]]; cbn [fst snd].
  - assert (H := maxq_l (snd p + lo * inject_Z (fst r - fst p)) (minq (snd p + hi * inject_Z (fst r - fst p)) mid)).
    change (snd p + lo * inject_Z (fst r - fst p) <= x)%Q in H.
    apply (Qplus_le_l _ _ (snd p)). setoid_replace (x - snd p + snd p)%Q with x by ring. rewrite Qplus_comm. exact H.
  - assert (H : (x <= snd p + hi * inject_Z (fst r - fst p))%Q).
    { unfold x, repaired_value. apply maxq_lub; [|apply minq_l]. apply Qplus_le_r.
      apply Qmult_le_compat_r; [exact Hlh|]. apply inj_pos. lia. }
    apply (Qplus_le_l _ _ (snd p)). setoid_replace (x - snd p + snd p)%Q with x by ring. rewrite Qplus_comm. exact H.
Qed.
Lemma screen_within w lo hi rows : (lo <= hi)%Q -> StronglySorted Z.lt (map fst rows) -> within lo hi (screen_rows w lo hi None rows).
Proof.
  intros Hlh Sd. destruct rows as [|r rest]; cbn [screen_rows]; [exact I|]. apply screen_rows_within; [exact Hlh|exact Sd].
Qed.

(** ** rows within the limits stay *)
Lemma within_far lo hi : forall rows r, StronglySorted Z.lt (fst r :: map fst rows) -> within lo hi (r :: rows) -> forall q, In q rows ->
  (lo * inject_Z (fst q - fst r) <= snd q - snd r)%Q /\ (snd q - snd r <= hi * inject_Z (fst q - fst r))%Q.
Proof.
  induction rows as [|a rest IH]; intros r Sd W q Hq; [destruct Hq|]. destruct W as (W1 & W2 & W3).
  cbn [map] in Sd. inversion Sd as [|? ? Sd' F]; subst. destruct Hq as [<-|Hq]; [split; assumption|].
  destruct (IH a Sd' W3 q Hq) as [H1 H2].
  assert (E : (inject_Z (fst q - fst r) == inject_Z (fst q - fst a) + inject_Z (fst a - fst r))%Q).
  { rewrite <- inject_Z_plus. replace (fst q - fst a + (fst a - fst r)) with (fst q - fst r) by lia. reflexivity. }
  rewrite E. setoid_replace (snd q - snd r)%Q with ((snd q - snd a) + (snd a - snd r))%Q by ring.
  rewrite !Qmult_plus_distr_r. split; apply Qplus_le_compat; assumption.
Qed.
Lemma in_window_in lim : forall rows q, In q (in_window lim rows) -> In q rows.
Proof.
  induction rows as [|a r IH]; intros q H; cbn [in_window] in H; [destruct H|]. destruct (fst a <=? lim); [|destruct H].
  destruct H as [<-|H]; [left; reflexivity|right; apply IH; exact H].
Qed.
Lemma inj_flip a b : (inject_Z (a - b) == - inject_Z (b - a))%Q.
Proof. rewrite <- inject_Z_opp. replace (- (b - a)) with (a - b) by lia. reflexivity. Qed.
Lemma middle_same lo hi r rest lim : StronglySorted Z.lt (fst r :: map fst rest) -> within lo hi (r :: rest) ->
  (middle_value r (in_window lim rest) lo hi == snd r)%Q.
Proof.
  intros Sd W. unfold middle_value.
  set (la := map _ (in_window lim rest)). set (lb := map _ (in_window lim rest)).
  replace (length (in_window lim rest)) with (length la) by (unfold la; apply map_length).
  apply middle_is.
  - unfold la, lb. rewrite !map_length. reflexivity.
  - intros y Hy. unfold la in Hy. apply in_map_iff in Hy. destruct Hy as (q & <- & Hq). apply in_window_in in Hq.
    destruct (within_far lo hi rest r Sd W q Hq) as [H _]. rewrite inj_flip. apply (Qplus_le_l _ _ (lo * inject_Z (fst q - fst r) - snd r)).
    setoid_replace (snd r + (lo * inject_Z (fst q - fst r) - snd r))%Q with (lo * inject_Z (fst q - fst r))%Q by ring.
    setoid_replace (snd q + lo * - inject_Z (fst q - fst r) + (lo * inject_Z (fst q - fst r) - snd r))%Q with (snd q - snd r)%Q by ring. exact H.
  - intros y Hy. unfold lb in Hy. apply in_map_iff in Hy. destruct Hy as (q & <- & Hq). apply in_window_in in Hq.
    destruct (within_far lo hi rest r Sd W q Hq) as [_ H]. rewrite inj_flip. apply (Qplus_le_l _ _ (hi * inject_Z (fst q - fst r) - snd r)).
    setoid_replace (snd r + (hi * inject_Z (fst q - fst r) - snd r))%Q with (hi * inject_Z (fst q - fst r))%Q by ring.
    setoid_replace (snd q + hi * - inject_Z (fst q - fst r) + (hi * inject_Z (fst q - fst r) - snd r))%Q with (snd q - snd r)%Q by ring. exact H.
Qed.
Lemma same_rows_refl l : same_rows l l.
Proof. induction l; constructor; [split; reflexivity|assumption]. Qed.
Lemma within_sorted_tail lo hi r rest : within lo hi (r :: rest) -> within lo hi rest.
Proof. destruct rest; [intros _; exact I|intros (_ & _ & H); exact H]. Qed.
Lemma maxq_choice a b : maxq a b = a \/ maxq a b = b. Proof. unfold maxq. destruct (Qle_bool a b); auto. Qed.
Lemma minq_choice a b : minq a b = a \/ minq a b = b. Proof. unfold minq. destruct (Qle_bool a b); auto. Qed.
Lemma minq_right a b : (b <= a)%Q -> (minq a b == b)%Q.
Proof. unfold minq. destruct (Qle_bool a b) eqn:E; intros H; [|reflexivity]. apply Qle_bool_iff in E. apply Qle_antisym; assumption. Qed.
Lemma maxq_right a b : (a <= b)%Q -> (maxq a b == b)%Q.
Proof. unfold maxq. destruct (Qle_bool a b) eqn:E; intros H; [reflexivity|]. apply Qle_bool_iff in H. congruence. Qed.
Lemma screen_rows_same w lo hi : forall rows r x, StronglySorted Z.lt (fst r :: map fst rows) -> within lo hi (r :: rows) -> (x == snd r)%Q ->
  same_rows (screen_rows w lo hi (Some (fst r, x)) rows) rows.
Proof.
  induction rows as [|a rest IH]; intros r x Sd W Ex; cbn [screen_rows]; [constructor|].
  assert (W' := within_sorted_tail _ _ _ _ W). destruct W as (W1 & W2 & _). cbn [map] in Sd. inversion Sd as [|? ? Sd' _]; subst.
  assert (M := middle_same lo hi a rest (fst a + w) Sd' W').
  set (mid := middle_value a (in_window (fst a + w) rest) lo hi) in *.
  assert (V : (repaired_value (fst r, x) a mid lo hi == snd a)%Q).
  { unfold repaired_value. cbn [fst snd]. rewrite maxq_right; rewrite minq_right; try exact M.
    - rewrite M, Ex. apply (Qplus_le_l _ _ (- snd r)).
      setoid_replace (snd r + hi * inject_Z (fst a - fst r) + - snd r)%Q with (hi * inject_Z (fst a - fst r))%Q by ring. exact W2.
    - rewrite M, Ex. apply (Qplus_le_l _ _ (- snd r)).
      setoid_replace (snd r + lo * inject_Z (fst a - fst r) + - snd r)%Q with (lo * inject_Z (fst a - fst r))%Q by ring. exact W1.
    - rewrite M, Ex. apply (Qplus_le_l _ _ (- snd r)).
      setoid_replace (snd r + hi * inject_Z (fst a - fst r) + - snd r)%Q with (hi * inject_Z (fst a - fst r))%Q by ring. exact W2. }
  constructor; [split; [reflexivity|exact V]|]. cbn [fst]. apply IH; assumption.
Qed.
Lemma screen_same w lo hi rows : StronglySorted Z.lt (map fst rows) -> within lo hi rows -> same_rows (screen_rows w lo hi None rows) rows.
Proof.
  intros Sd W. destruct rows as [|r rest]; cbn [screen_rows]; [constructor|]. cbn [map] in Sd.
  assert (M := middle_same lo hi r rest (fst r + w) Sd W). constructor; [split; [reflexivity|exact M]|]. apply screen_rows_same; assumption.
Qed.

(** ** the median *)
Lemma median_q_right l : l <> [] -> median_of l (median_q l).
Proof.
  intros Ne. exists (sort_q l). split; [apply sort_q_perm|]. split; [apply sort_q_sorted|]. unfold median_q.
  destruct (Nat.even (length l)) eqn:E.
  - apply Nat.even_spec in E. destruct E as [k Ek]. destruct k as [|k]; [destruct l; [congruence|discriminate Ek]|].
    exists k. right. split; [lia|]. rewrite Ek, Nat.mul_comm, Nat.div_mul by lia. cbn [Nat.sub]. rewrite Nat.sub_0_r. field.
  - assert (O1 : Nat.odd (length l) = true) by (unfold Nat.odd; rewrite E; reflexivity).
    apply Nat.odd_spec in O1. destruct O1 as [k Ek]. exists k. left. split; [exact Ek|].
    replace (length l / 2)%nat with k; [reflexivity|]. rewrite Ek. apply (Nat.div_unique _ 2 k 1); lia.
Qed.
Lemma median_nonneg l m : (forall x, In x l -> (0 <= x)%Q) -> median_of l m -> (0 <= m)%Q.
Proof.
  intros Hl (s & P & _ & k & H).
  assert (N : forall i, (0 <= nth i s 0)%Q).
  { intros i. destruct (Nat.lt_ge_cases i (length s)) as [L|L]; [|rewrite nth_overflow by exact L; apply Qle_refl].
    apply Hl. eapply Permutation_in; [exact P|]. apply nth_In. exact L. }
  destruct H as [[_ H]|[_ H]]; [rewrite H; apply N|].
  apply (Qmult_le_r _ _ 2); [reflexivity|]. rewrite H, Qmult_0_l. apply (Qplus_le_compat 0 _ 0 _); apply N.
Qed.
Lemma speeds_rates : forall rows, speeds rows = rates rows.
Proof. reflexivity. Qed.
Lemma rates_length : forall rows, length (rates rows) = (length rows - 1)%nat.
Proof. induction rows as [|a [|b r] IH]; try reflexivity. change (S (length (rates (b :: r))) = (length (a :: b :: r) - 1)%nat). rewrite IH. cbn [length]. lia. Qed.

Lemma intervals_len : forall ts, length (intervals ts) = (length ts - 1)%nat.
Proof. induction ts as [|a [|b r] IH]; try reflexivity. change (S (length (intervals (b :: r))) = (length (a :: b :: r) - 1)%nat). rewrite IH. cbn [length]. lia. Qed.
Lemma insert_sorted_len x : forall l, length (insert_sorted x l) = S (length l).
Proof. induction l as [|y r IH]; cbn; [reflexivity|]. destruct (x <=? y); cbn; congruence. Qed.
Lemma sort_z_len : forall l, length (sort_z l) = length l.
Proof. induction l as [|x l IH]; [reflexivity|]. change (length (insert_sorted x (sort_z l)) = S (length l)). rewrite insert_sorted_len. congruence. Qed.
Lemma median_interval_done ts : (3 <= length ts)%nat -> exists d, median_interval ts = Done d.
Proof.
  intros L. unfold median_interval, interval_median. assert (Ls : length (sort_z (intervals ts)) = (length ts - 1)%nat) by (rewrite sort_z_len; apply intervals_len).
  assert (H2 : (length ts / 2 < length ts - 1)%nat) by (apply Nat.div_lt_upper_bound; lia).
  assert (G : forall i, (i < length ts - 1)%nat -> exists x, nth_error (sort_z (intervals ts)) i = Some x).
  { intros i Hi. destruct (nth_error (sort_z (intervals ts)) i) eqn:E; [eauto|]. apply nth_error_None in E. lia. }
  revert H2. generalize (length ts / 2)%nat. intros h H2.
  destruct (G h H2) as [b Eb]. destruct (G (h - 1)%nat ltac:(lia)) as [a Ea]. rewrite Ea, Eb.
  replace (length ts =? 0)%nat with false by (symmetry; apply Nat.eqb_neq; lia). destruct (Nat.even (length ts)); eauto.
Qed.
Lemma median_interval_many ts d : median_interval ts = Done d -> (3 <= length ts)%nat.
Proof.
  destruct ts as [|a [|b [|c r]]]; cbn [length]; try lia; intros H; exfalso; cbn in H; discriminate H.
Qed.

Lemma map_fst_combine {A B} : forall (a : list A) (b : list B), length a = length b -> map fst (combine a b) = a.
Proof. induction a as [|x a IH]; intros [|y b] H; cbn in *; try reflexivity; try discriminate. f_equal. apply IH. congruence. Qed.

Lemma screen_done smin smax rows out : StronglySorted Z.lt (map fst rows) -> screen smin smax rows = Done out ->
  map fst out = map fst rows /\ exists lo hi, limits smin smax rows lo hi
    /\ (smin = None -> smax = None -> (lo <= hi)%Q) /\ ((lo <= hi)%Q -> within lo hi out).
Proof.
  intros Sd. unfold screen. destruct (median_interval (map fst rows)) as [d| | |] eqn:Ed; cbn [bind]; try discriminate.
  apply median_interval_many in Ed. rewrite map_length in Ed. rewrite speeds_rates. set (m := median_q (rates rows)).
  intros E. injection E as <-. split; [apply screen_rows_fst|].
  assert (Ne : rates rows <> []) by (intros C; assert (Q1 := rates_length rows); rewrite C in Q1; cbn in Q1; lia).
  assert (M := median_q_right (rates rows) Ne). fold m in M. set (dl := map (fun r => Qabs (r - m)) (rates rows)).
  assert (Nd : dl <> []) by (unfold dl; destruct (rates rows); [congruence|discriminate]).
  assert (D := median_q_right dl Nd). assert (D0 : (0 <= median_q dl)%Q).
  { apply (median_nonneg dl); [|exact D]. intros x Hx. unfold dl in Hx. apply in_map_iff in Hx. destruct Hx as (r & <- & _). apply Qabs_nonneg. }
  set (lo := match smin with Some x => x | None => (m - 3 * mad (rates rows))%Q end).
  set (hi := match smax with Some x => x | None => (m + 3 * mad (rates rows))%Q end).
  exists lo, hi. split; [|split].
  - exists m, (median_q dl). split; [exact M|]. split; [exact D|].
    split; [destruct smin|destruct smax]; unfold lo, hi; try reflexivity; unfold mad; fold m; fold dl; ring.
  - intros -> ->. unfold lo, hi, mad. fold m. fold dl. apply (Qplus_le_l _ _ (3 * ((14826 # 10000) * median_q dl) - m)).
    setoid_replace (m - 3 * ((14826 # 10000) * median_q dl) + (3 * ((14826 # 10000) * median_q dl) - m))%Q with 0%Q by ring.
    setoid_replace (m + 3 * ((14826 # 10000) * median_q dl) + (3 * ((14826 # 10000) * median_q dl) - m))%Q with ((6 * (14826 # 10000)) * median_q dl)%Q by ring.
    apply Qmult_le_0_compat; [discriminate|exact D0].
  - intros Hlh. apply screen_within; assumption.
Qed.

Lemma select_done smin smax rows out : StronglySorted Z.lt (map fst rows) -> select_value_repair CFloat smin smax rows = Done out ->
  exists xs res lo hi, out = numbers res /\ map fst res = map fst rows /\ length xs = length rows
    /\ (forall i, (i < length rows)%nat -> filled_in (map fst rows) (map snd rows) i (nth i xs 0%Q))
    /\ limits smin smax (combine (map fst rows) xs) lo hi
    /\ (smin = None -> smax = None -> (lo <= hi)%Q) /\ ((lo <= hi)%Q -> within lo hi res).
Proof.
  intros Sd. unfold select_value_repair. destruct (process_nan (map fst rows) (map snd rows)) as [xs| | |] eqn:E; cbn [bind]; try discriminate.
  destruct (process_nan_right (map fst rows) (map snd rows) ltac:(rewrite !map_length; reflexivity) Sd xs E) as [L R].
  rewrite map_length in L, R.
  assert (Em : map fst (combine (map fst rows) xs) = map fst rows) by (apply map_fst_combine; rewrite map_length; congruence).
  destruct (screen smin smax (combine (map fst rows) xs)) as [res| | |] eqn:Es; cbn [bind]; try discriminate.
  intros H. injection H as <-. apply screen_done in Es; [|rewrite Em; exact Sd]. destruct Es as (F & lo & hi & Li & Lo & W).
  exists xs, res, lo, hi. split; [reflexivity|]. split; [congruence|]. split; [exact L|]. split; [exact R|]. auto.
Qed.

Lemma select_answers smin smax rows a u b v : (3 <= length rows)%nat ->
  known_at (map snd rows) a u -> known_at (map snd rows) b v -> (a < b)%nat -> StronglySorted Z.lt (map fst rows) ->
  exists out, select_value_repair CFloat smin smax rows = Done out.
Proof.
  intros L Ka Kb Hab Sd. unfold select_value_repair.
  destruct (process_nan_two (map fst rows) (map snd rows) ltac:(rewrite !map_length; reflexivity) a u b v Ka Kb Hab) as [xs E]. rewrite E. cbn [bind].
  destruct (process_nan_right (map fst rows) (map snd rows) ltac:(rewrite !map_length; reflexivity) Sd xs E) as [Lx _]. rewrite map_length in Lx.
  unfold screen. rewrite map_fst_combine by (rewrite map_length; congruence).
  destruct (median_interval_done (map fst rows) ltac:(rewrite map_length; exact L)) as [d ->]. cbn [bind]. eauto.
Qed.

Lemma within_same lo hi : forall a b, same_rows a b -> within lo hi a -> within lo hi b.
Proof.
  induction 1 as [|x y a b [Hf Hs] Hr IH]; intros W; [exact I|].
  inversion Hr as [|x2 y2 a2 b2 [Hf2 Hs2] Hr2]; subst; [exact I|]. destruct W as (W1 & W2 & W3).
  split; [|split; [|apply IH; exact W3]]; rewrite <- Hf, <- Hf2, <- Hs, <- Hs2; assumption.
Qed.
Lemma same_rows_sym a b : same_rows a b -> same_rows b a.
Proof. induction 1 as [|x y a b [Hf Hs] Hr IH]; constructor; [split; [congruence|symmetry; exact Hs]|exact IH]. Qed.
Lemma same_rows_trans a b c : same_rows a b -> same_rows b c -> same_rows a c.
Proof.
  intros H. revert c. induction H as [|x y a b [Hf Hs] Hr IH]; intros c Hc; inversion Hc as [|? z ? c' [Hf2 Hs2] Hr2]; subst; constructor.
  - split; [congruence|rewrite Hs; exact Hs2].
  - apply IH. exact Hr2.
Qed.
Lemma same_rows_combine : forall (rows : list (Z * Q)) xs, length xs = length rows ->
  (forall i, (i < length rows)%nat -> (nth i xs 0 == nth i (map snd rows) 0)%Q) -> same_rows (combine (map fst rows) xs) rows.
Proof.
  induction rows as [|r rows IH]; intros [|x xs] L H; cbn in L; try discriminate; cbn [map combine]; constructor.
  - split; [reflexivity|]. apply (H 0%nat). cbn. lia.
  - apply IH; [congruence|]. intros i Hi. apply (H (S i)). cbn. lia.
Qed.
Lemma select_same lo hi (rows : list (Z * Q)) : (3 <= length rows)%nat -> StronglySorted Z.lt (map fst rows) -> within lo hi rows ->
  exists res, select_value_repair CFloat (Some lo) (Some hi) (map (fun r => (fst r, Some (snd r))) rows) = Done (numbers res)
    /\ same_rows res rows.
Proof.
  intros L Sd W. set (rs := map (fun r => (fst r, Some (snd r))) rows).
  assert (E1 : map fst rs = map fst rows) by (unfold rs; rewrite map_map; reflexivity).
  assert (E2 : map snd rs = map Some (map snd rows)) by (unfold rs; rewrite !map_map; reflexivity).
  assert (K : forall i, (i < length rows)%nat -> known_at (map snd rs) i (nth i (map snd rows) 0%Q)).
  { intros i Hi. unfold known_at. rewrite E2. apply map_nth_error. apply nth_error_nth'. rewrite map_length. exact Hi. }
  unfold select_value_repair.
  destruct (process_nan_two (map fst rs) (map snd rs) ltac:(rewrite !map_length; reflexivity) 0 _ 1 _ (K 0%nat ltac:(lia)) (K 1%nat ltac:(lia)) ltac:(lia)) as [xs E].
  rewrite E. cbn [bind].
  destruct (process_nan_right (map fst rs) (map snd rs) ltac:(rewrite !map_length; reflexivity) ltac:(rewrite E1; exact Sd) xs E) as [Lx R].
  assert (Lr : length (map snd rs) = length rows) by (unfold rs; rewrite !map_length; reflexivity). rewrite Lr in Lx, R.
  rewrite E1. assert (Sm : same_rows (combine (map fst rows) xs) rows).
  { apply same_rows_combine; [exact Lx|]. intros i Hi. destruct (R i Hi) as [R1 _]. apply R1. apply K. exact Hi. }
  assert (Ef : map fst (combine (map fst rows) xs) = map fst rows) by (apply map_fst_combine; rewrite map_length; congruence).
  unfold screen. rewrite Ef.
  destruct (median_interval_done (map fst rows) ltac:(rewrite map_length; exact L)) as [d ->]. cbn [bind].
  eexists. split; [reflexivity|]. eapply same_rows_trans; [|exact Sm]. apply screen_same.
  - rewrite Ef. exact Sd.
  - apply (within_same lo hi rows); [apply same_rows_sym; exact Sm|exact W].
Qed.
