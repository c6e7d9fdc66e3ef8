(** Proofs about value domains. *)
From Verif Require Import Prelude DomainModel DomainSpec.

(** ** The order on scalars *)
Lemma str_cmp_eq : forall a b, str_cmp a b = Eq -> a = b.
Proof.
  induction a as [|x a IH]; intros [|y b]; cbn [str_cmp]; try discriminate; auto.
  destruct (x ?= y) eqn:E; try discriminate. intros H. apply Z.compare_eq in E. subst. f_equal. auto.
Qed.
Lemma str_cmp_refl : forall a, str_cmp a a = Eq.
Proof. induction a as [|x a IH]; cbn [str_cmp]; auto. rewrite Z.compare_refl. auto. Qed.
Lemma str_cmp_opp : forall a b, str_cmp b a = CompOpp (str_cmp a b).
Proof.
  induction a as [|x a IH]; intros [|y b]; cbn [str_cmp]; auto.
  rewrite (Z.compare_antisym x y). destruct (x ?= y); cbn [CompOpp]; auto.
Qed.
Lemma str_cmp_trans : forall a b c, str_cmp a b = Lt -> str_cmp b c = Lt -> str_cmp a c = Lt.
Proof.
  induction a as [|x a IH]; intros [|y b] [|z c]; cbn [str_cmp]; try discriminate; auto.
  destruct (x ?= y) eqn:E; destruct (y ?= z) eqn:F; try discriminate.
  - apply Z.compare_eq in E, F. subst. rewrite Z.compare_refl. apply IH.
  - apply Z.compare_eq in E. subst. rewrite F. auto.
  - apply Z.compare_eq in F. subst. rewrite E. auto.
  - replace (x ?= z) with Lt; auto. symmetry. rewrite Z.compare_lt_iff in *. lia.
Qed.
Lemma scmp_eq a b : scalar_cmp a b = Eq -> a = b.
Proof.
  destruct a as [k x|x|[]], b as [j y|y|[]]; cbn; try discriminate; auto.
  - destruct (k ?= j) eqn:E; try discriminate. intros F. apply Z.compare_eq in E, F. congruence.
  - intros F. apply str_cmp_eq in F. congruence.
Qed.
Lemma scmp_refl a : scalar_cmp a a = Eq.
Proof. destruct a as [k x|x|[]]; cbn; auto; [rewrite !Z.compare_refl; auto|apply str_cmp_refl]. Qed.
Lemma scmp_opp a b : scalar_cmp b a = CompOpp (scalar_cmp a b).
Proof.
  destruct a as [k x|x|[]], b as [j y|y|[]]; cbn; auto.
  - rewrite (Z.compare_antisym k j), (Z.compare_antisym x y). destruct (k ?= j); auto.
  - apply str_cmp_opp.
Qed.
Lemma scmp_trans a b c : scalar_cmp a b = Lt -> scalar_cmp b c = Lt -> scalar_cmp a c = Lt.
Proof.
  destruct a as [k x|x|[]], b as [j y|y|[]], c as [i z|z|[]]; cbn; try discriminate; auto.
  - destruct (k ?= j) eqn:E, (j ?= i) eqn:F; try discriminate; intros G H.
    + apply Z.compare_eq in E, F. subst. rewrite Z.compare_refl. rewrite Z.compare_lt_iff in *. lia.
    + apply Z.compare_eq in E. subst. rewrite F. auto.
    + apply Z.compare_eq in F. subst. rewrite E. auto.
    + replace (k ?= i) with Lt; auto. symmetry. rewrite Z.compare_lt_iff in *. lia.
  - apply str_cmp_trans.
Qed.
Lemma scalar_eqb_eq a b : scalar_eqb a b = true <-> a = b.
Proof.
  unfold scalar_eqb. split; [|intros ->; rewrite scmp_refl; auto].
  destruct (scalar_cmp a b) eqn:E; try discriminate. intros _. apply scmp_eq. auto.
Qed.
Lemma dtype_eqb_eq a b : dtype_eqb a b = true <-> a = b.
Proof. destruct a, b; cbn; split; intros H; try discriminate; try congruence; auto.
  - apply Z.eqb_eq in H. congruence.
  - injection H as ->. apply Z.eqb_refl.
Qed.

(** Any finite set of scalars embeds in the integers. *)
Definition ltb (a b : scalar) : bool := match scalar_cmp a b with Lt => true | _ => false end.
Definition rank (l : list scalar) (x : scalar) : Z := Z.of_nat (length (filter (fun y => ltb y x) l)).
Lemma rank_mono l a b : scalar_cmp a b = Lt -> rank l a <= rank l b.
Proof.
  intros H. unfold rank. induction l as [|y l IH]; cbn [filter]; [lia|].
  destruct (ltb y a) eqn:E.
  - replace (ltb y b) with true; [cbn [length]; lia|]. unfold ltb in *.
    destruct (scalar_cmp y a) eqn:F; try discriminate. rewrite (scmp_trans _ _ _ F H). auto.
  - destruct (ltb y b); cbn [length]; lia.
Qed.
Lemma rank_strict l a b : In a l -> scalar_cmp a b = Lt -> rank l a < rank l b.
Proof.
  intros I H. induction l as [|y l IH]; [destruct I|].
  assert (K : rank l a <= rank l b) by (apply rank_mono; auto).
  unfold rank in *. cbn [filter]. destruct I as [->|I].
  - replace (ltb a b) with true by (unfold ltb; rewrite H; auto).
    replace (ltb a a) with false by (unfold ltb; rewrite scmp_refl; auto). cbn [length]. lia.
  - specialize (IH I). destruct (ltb y a) eqn:E.
    + replace (ltb y b) with true; [cbn [length]; lia|]. unfold ltb in *.
      destruct (scalar_cmp y a) eqn:F; try discriminate. rewrite (scmp_trans _ _ _ F H). auto.
    + destruct (ltb y b); cbn [length]; lia.
Qed.
Lemma rank_cmp l a b : In a l -> In b l -> scalar_cmp a b = (rank l a ?= rank l b).
Proof.
  intros A B. destruct (scalar_cmp a b) eqn:E; symmetry.
  - apply scmp_eq in E. subst. apply Z.compare_refl.
  - apply Z.compare_lt_iff, rank_strict; auto.
  - apply Z.compare_gt_iff, rank_strict; auto. rewrite scmp_opp, E. auto.
Qed.
Lemma rank_bound l a : 0 <= rank l a <= Z.of_nat (length l).
Proof.
  unfold rank. split; [lia|]. apply inj_le. induction l as [|y l IH]; cbn [filter length]; auto.
  destruct (ltb y a); cbn [length]; lia.
Qed.

(** ** Markers as positions *)
Definition lowm (t : dtype) (m : marker) : Prop :=
  m_ty m = t /\ match m_val m with
                | None => m_bound m = Above
                | Some v => scalar_ty v = t /\ (m_bound m = Above \/ m_bound m = Exactly) end.
Definition highm (t : dtype) (m : marker) : Prop :=
  m_ty m = t /\ match m_val m with
                | None => m_bound m = Below
                | Some v => scalar_ty v = t /\ (m_bound m = Below \/ m_bound m = Exactly) end.
Definition opn (m : marker) : Z := match m_bound m with Exactly => 0 | _ => 1 end.
Definition vals (m : marker) : list scalar := match m_val m with Some v => [v] | None => [] end.
Definition mpos (l : list scalar) (m : marker) : Z :=
  match m_val m with
  | Some v => rank l v
  | None => match m_bound m with Below => Z.of_nat (length l) + 1 | _ => -1 end
  end.
Lemma mpos_cmp l t a b : (lowm t a \/ highm t a) -> (lowm t b \/ highm t b) ->
  incl (vals a) l -> incl (vals b) l -> mcmp a b = (mpos l a ?= mpos l b).
Proof.
  destruct a as [ta va ba], b as [tb vb bb]. unfold lowm, highm, vals, mpos, mcmp, is_upper_unbound, is_lower_unbound.
  cbn [m_ty m_val m_bound]. intros A B IA IB.
  destruct va as [x|], vb as [y|].
  - rewrite (rank_cmp l); [destruct ba, bb; auto|apply IA; left; auto|apply IB; left; auto].
  - pose proof (rank_bound l x).
    destruct B as [[_ ->]|[_ ->]]; destruct ba; symmetry;
      cbn beta iota; solve [apply Z.compare_lt_iff; lia | apply Z.compare_gt_iff; lia].
  - pose proof (rank_bound l y).
    destruct A as [[_ ->]|[_ ->]]; destruct bb; symmetry;
      cbn beta iota; solve [apply Z.compare_lt_iff; lia | apply Z.compare_gt_iff; lia].
  - clear IA IB. destruct A as [[_ ->]|[_ ->]], B as [[_ ->]|[_ ->]]; cbn beta iota.
    + reflexivity.
    + symmetry. apply Z.compare_lt_iff. lia.
    + symmetry. apply Z.compare_gt_iff. lia.
    + symmetry. apply Z.compare_refl.
Qed.
Lemma mpos_low l t m v : lowm t m -> incl (vals m) l -> In v l ->
  (above_low v m <-> 2 * mpos l m + opn m <= 2 * rank l v).
Proof.
  destruct m as [tm vm bm]. unfold lowm, vals, mpos, above_low, opn, sle, slt. cbn [m_ty m_val m_bound].
  intros [_ A] I V. pose proof (rank_bound l v). destruct vm as [x|].
  - assert (X : In x l) by (apply I; left; auto). rewrite !(rank_cmp l) by auto.
    destruct A as [_ [->| ->]]; destruct (Z.compare_spec (rank l x) (rank l v)); split; intros; try lia; congruence.
  - subst. split; auto. lia.
Qed.
Lemma mpos_high l t m v : highm t m -> incl (vals m) l -> In v l ->
  (below_high v m <-> 2 * rank l v <= 2 * mpos l m - opn m).
Proof.
  destruct m as [tm vm bm]. unfold highm, vals, mpos, below_high, opn, sle, slt. cbn [m_ty m_val m_bound].
  intros [_ A] I V. pose proof (rank_bound l v). destruct vm as [x|].
  - assert (X : In x l) by (apply I; left; auto). rewrite !(rank_cmp l) by auto.
    destruct A as [_ [->| ->]]; destruct (Z.compare_spec (rank l v) (rank l x)); split; intros; try lia; congruence.
  - subst. split; auto. lia.
Qed.
Lemma mpos_at l t m v : (lowm t m \/ highm t m) -> incl (vals m) l -> In v l ->
  (m_val m = Some v <-> mpos l m = rank l v).
Proof.
  destruct m as [tm vm bm]. unfold lowm, highm, vals, mpos. cbn [m_ty m_val m_bound].
  intros A I V. pose proof (rank_bound l v). destruct vm as [x|].
  - assert (X : In x l) by (apply I; left; auto). split; [congruence|]. intros E.
    f_equal. apply scmp_eq. rewrite (rank_cmp l) by auto. rewrite E. apply Z.compare_refl.
  - split; [discriminate|]. destruct A as [[_ ->]|[_ ->]]; lia.
Qed.

(** Well-formed ranges *)
Definition rok (t : dtype) (r : range) : Prop :=
  lowm t (low r) /\ highm t (high r) /\ mcmp (low r) (high r) <> Gt.
Lemma built_rok t r : range_built t r -> rok t r.
Proof.
  destruct 1; unfold rok, lowm, highm, r_all, r_eq, r_gt, r_ge, r_lt, r_le, r_gtlt, r_gelt, r_gtle, r_gele,
    lower_unbound, lower_bounded, exactly, upper_unbound, upper_bounded; cbn; sp; auto;
    try discriminate; try (rewrite scmp_refl; discriminate); auto.
Qed.

(** Two ranges and a value, placed on the integer line. *)
Lemma pair_pos t a b v : rok t a -> rok t b -> exists la ha lb hb x : Z,
  mcmp (low a) (low b) = (la ?= lb) /\ mcmp (low a) (high b) = (la ?= hb) /\
  mcmp (low b) (high a) = (lb ?= ha) /\ mcmp (high a) (low b) = (ha ?= lb) /\
  mcmp (high a) (high b) = (ha ?= hb) /\ la <= ha /\ lb <= hb /\
  (above_low v (low a) <-> 2 * la + opn (low a) <= 2 * x) /\
  (above_low v (low b) <-> 2 * lb + opn (low b) <= 2 * x) /\
  (below_high v (high a) <-> 2 * x <= 2 * ha - opn (high a)) /\
  (below_high v (high b) <-> 2 * x <= 2 * hb - opn (high b)) /\
  (m_val (low a) = Some v <-> la = x) /\ (m_val (low b) = Some v <-> lb = x) /\
  (m_val (high a) = Some v <-> ha = x) /\ (m_val (high b) = Some v <-> hb = x) /\
  0 <= opn (low a) <= 1 /\ 0 <= opn (low b) <= 1 /\ 0 <= opn (high a) <= 1 /\ 0 <= opn (high b) <= 1 /\
  overlaps a b = Some ((la <=? hb) && (lb <=? ha) &&
    negb ((ha =? lb) && (opn (high a) =? 1) && (opn (low b) =? 1))).
Proof.
  intros (LA & HA & OA) (LB & HB & OB).
  set (l := v :: vals (low a) ++ vals (high a) ++ vals (low b) ++ vals (high b)).
  assert (I1 : incl (vals (low a)) l) by (intros z Hz; right; rewrite !in_app_iff; auto).
  assert (I2 : incl (vals (high a)) l) by (intros z Hz; right; rewrite !in_app_iff; auto).
  assert (I3 : incl (vals (low b)) l) by (intros z Hz; right; rewrite !in_app_iff; auto).
  assert (I4 : incl (vals (high b)) l) by (intros z Hz; right; rewrite !in_app_iff; auto).
  assert (IV : In v l) by (left; auto). clearbody l.
  assert (C : forall x y, (lowm t x \/ highm t x) -> (lowm t y \/ highm t y) -> incl (vals x) l ->
     incl (vals y) l -> mcmp x y = (mpos l x ?= mpos l y)) by (intros; eapply mpos_cmp; eauto).
  exists (mpos l (low a)), (mpos l (high a)), (mpos l (low b)), (mpos l (high b)), (rank l v).
  rewrite C in OA, OB by auto.
  assert (OP : forall m, 0 <= opn m <= 1) by (intros m; unfold opn; destruct (m_bound m); lia).
  sp; try (apply OP); try (apply C; auto);
    try (intros; eapply mpos_low; eauto; fail); try (intros; eapply mpos_high; eauto; fail);
    try (eapply mpos_at; eauto; fail); try (rewrite Z.compare_gt_iff in OA; lia);
    try (rewrite Z.compare_gt_iff in OB; lia).
  unfold overlaps, r_same_ty, m_same_ty, mle, meq, m_same_ty.
  destruct LA as [TA LA'], HA as [TA2 HA'], LB as [TB LB'], HB as [TB2 HB'].
  rewrite TA, TB, TA2. replace (dtype_eqb t t) with true by (symmetry; apply dtype_eqb_eq; auto).
  cbn [negb andb]. f_equal.
  rewrite !C by (unfold lowm, highm; auto).
  assert (E1 : bound_eqb (m_bound (high a)) Below = (opn (high a) =? 1)).
  { unfold opn. destruct (m_val (high a)); [destruct HA' as [_ [-> | ->]]|rewrite HA']; reflexivity. }
  assert (E2 : bound_eqb (m_bound (low b)) Above = (opn (low b) =? 1)).
  { unfold opn. destruct (m_val (low b)); [destruct LB' as [_ [-> | ->]]|rewrite LB']; reflexivity. }
  rewrite E1, E2. match goal with |- ?a && ?b && ?c = ?d && ?e && ?f => assert (HH : a = d /\ b = e /\ c = f); [|destruct HH as (-> & -> & ->); reflexivity] end. sp.
  - destruct (Z.compare_spec (mpos l (low a)) (mpos l (high b))); lia.
  - destruct (Z.compare_spec (mpos l (low b)) (mpos l (high a))); lia.
  - destruct (Z.compare_spec (mpos l (high a)) (mpos l (low b))); lia.
Qed.
Lemma opn_bound t a b : lowm t a -> lowm t b -> (opn a = opn b <-> m_bound a = m_bound b).
Proof.
  unfold lowm, opn. intros [_ A] [_ B]. split; [|intros ->; auto].
  assert (A' : m_bound a = Above \/ m_bound a = Exactly) by (destruct (m_val a); tauto).
  assert (B' : m_bound b = Above \/ m_bound b = Exactly) by (destruct (m_val b); tauto).
  destruct A' as [-> | ->], B' as [-> | ->]; auto; lia.
Qed.
Lemma opn_bound_h t a b : highm t a -> highm t b -> (opn a = opn b <-> m_bound a = m_bound b).
Proof.
  unfold highm, opn. intros [_ A] [_ B]. split; [|intros ->; auto].
  assert (A' : m_bound a = Below \/ m_bound a = Exactly) by (destruct (m_val a); tauto).
  assert (B' : m_bound b = Below \/ m_bound b = Exactly) by (destruct (m_val b); tauto).
  destruct A' as [-> | ->], B' as [-> | ->]; auto; lia.
Qed.

Ltac pos_intro t a b v RA RB :=
  destruct (pair_pos t a b v RA RB) as
    (la & ha & lb & hb & xv & C1 & C2 & C3 & C4 & C5 & O1 & O2 & L1 & L2 & H1 & H2 & V1 & V2 & V3 & V4
     & P1 & P2 & P3 & P4 & OV).

(** span of overlapping ranges, the first starting no later *)
Lemma span_ok t a b : rok t a -> rok t b -> mcmp (low a) (low b) <> Gt -> overlaps a b = Some true ->
  exists r, r_span a b = Some r /\ rok t r /\ low r = low a /\ (high r = high a \/ high r = high b) /\
    forall v, (in_range v r -> in_range v a \/ in_range v b) /\
      (agree v [low a; low b] -> agree v [high a; high b] -> in_range v a \/ in_range v b -> in_range v r).
Proof.
  intros RA RB LE OT. unfold r_span. rewrite OT.
  exists (RG (mmin (low a) (low b)) (mmax (high a) (high b))). split; auto.
  assert (EL : mmin (low a) (low b) = low a) by (unfold mmin; destruct (mcmp (low a) (low b)); congruence).
  rewrite EL. split; [|split; [reflexivity|split]].
  - destruct RA as (LA & HA & OA), RB as (LB & HB & OB). unfold rok. cbn [low high]. split; auto.
    unfold mmax. destruct (mcmp (high a) (high b)) eqn:E; sp; auto.
    + pos_intro t a b (SBool true) (conj LA (conj HA OA)) (conj LB (conj HB OB)).
      rewrite C2. rewrite C5 in E. apply Z.compare_eq in E. rewrite Z.compare_gt_iff. clear - E O1. lia.
    + pos_intro t a b (SBool true) (conj LA (conj HA OA)) (conj LB (conj HB OB)).
      rewrite C2. rewrite C5 in E. rewrite Z.compare_lt_iff in E. rewrite Z.compare_gt_iff. clear - E O1. lia.
  - cbn [high]. unfold mmax. destruct (mcmp (high a) (high b)); auto.
  - intros v. pos_intro t a b v RA RB. rewrite C1 in LE. rewrite Z.compare_gt_iff in LE.
    rewrite OV in OT. injection OT as OT. apply andb_true_iff in OT as [OT G]. apply andb_true_iff in OT as [G1 G2].
    apply Z.leb_le in G1, G2. apply negb_true_iff in G.
    unfold in_range. cbn [low high]. unfold mmax. rewrite C5. split.
    + rewrite L1, L2, H1, H2. intros [X Y].
      destruct (Z.compare_spec ha hb) as [E|E|E].
      * destruct (m_bound (high b)) eqn:?; rewrite ?H2 in Y; lia.
      * rewrite H2 in Y. lia.
      * rewrite H1 in Y. lia.
    + intros AL AH W. unfold agree in AL, AH.
      assert (SL : la = xv -> lb = xv -> opn (low a) = opn (low b)).
      { intros E F. apply (opn_bound t); [apply RA|apply RB|]. apply AL; cbn; auto; [apply V1|apply V2]; auto. }
      assert (SH : ha = xv -> hb = xv -> opn (high a) = opn (high b)).
      { intros E F. apply (opn_bound_h t); [apply RA|apply RB|]. apply AH; cbn; auto; [apply V3|apply V4]; auto. }
      rewrite L1, L2, H1, H2 in W. rewrite L1. split; [lia|].
      destruct (Z.compare_spec ha hb) as [E|E|E]; rewrite ?H1, ?H2; lia.
Qed.
(** ranges that do not overlap, the first starting no later, are apart *)
Definition apart (a b : range) : Prop :=
  mcmp (high a) (low b) = Lt \/
  (mcmp (high a) (low b) = Eq /\ m_bound (high a) = Below /\ m_bound (low b) = Above).
Lemma not_overlap_apart t a b : rok t a -> rok t b -> mcmp (low a) (low b) <> Gt ->
  overlaps a b = Some false -> apart a b.
Proof.
  intros RA RB LE OT. pos_intro t a b (SBool true) RA RB. unfold apart. rewrite C4.
  rewrite C1 in LE. rewrite Z.compare_gt_iff in LE. rewrite OV in OT. injection OT as OT.
  destruct (Z.compare_spec ha lb) as [E|E|E]; [|auto|].
  - right. split; auto.
    assert (opn (high a) = 1 /\ opn (low b) = 1) as [X Y] by lia.
    destruct RA as (_ & [_ HA] & _), RB as ([_ LB] & _). unfold opn in X, Y. split.
    + destruct (m_val (high a)); [destruct HA as [_ [->|F]]; auto; rewrite F in X; lia|auto].
    + destruct (m_val (low b)); [destruct LB as [_ [->|F]]; auto; rewrite F in Y; lia|auto].
  - exfalso. lia.
Qed.
Lemma overlaps_typed t a b : rok t a -> rok t b -> overlaps a b <> None.
Proof. intros RA RB. pos_intro t a b (SBool true) RA RB. rewrite OV. discriminate. Qed.
(** intersection of overlapping ranges *)
Lemma inter_ok t a b : rok t a -> rok t b -> overlaps a b = Some true ->
  exists r, r_intersect a b = Some r /\ rok t r /\
    (low r = low a \/ low r = low b) /\ (high r = high a \/ high r = high b) /\
    forall v, (in_range v a -> in_range v b -> in_range v r) /\
      (agree v [low a; low b] -> agree v [high a; high b] -> in_range v r -> in_range v a /\ in_range v b).
Proof.
  intros RA RB OT. unfold r_intersect. rewrite OT.
  exists (RG (mmax (low a) (low b)) (mmin (high a) (high b))). split; auto.
  split; [|split; [|split]].
  - pos_intro t a b (SBool true) RA RB. rewrite OV in OT. injection OT as OT.
    destruct RA as (LA & HA & OA), RB as (LB & HB & OB). unfold rok. cbn [low high].
    unfold mmax, mmin. rewrite C1, C5.
    destruct (Z.compare_spec la lb), (Z.compare_spec ha hb); sp; auto;
      rewrite ?C2, ?C3, ?Z.compare_gt_iff; lia.
  - cbn [low]. unfold mmax. destruct (mcmp (low a) (low b)); auto.
  - cbn [high]. unfold mmin. destruct (mcmp (high a) (high b)); auto.
  - intros v. pos_intro t a b v RA RB. rewrite OV in OT. injection OT as OT.
    unfold in_range. cbn [low high]. unfold mmin, mmax. rewrite C1, C5. split.
    + intros [] []. destruct (Z.compare_spec la lb), (Z.compare_spec ha hb); split; assumption.
    + intros AL AH W. unfold agree in AL, AH.
      assert (SL : la = xv -> lb = xv -> opn (low a) = opn (low b)).
      { intros E F. apply (opn_bound t); [apply RA|apply RB|]. apply AL; cbn; auto; [apply V1|apply V2]; auto. }
      assert (SH : ha = xv -> hb = xv -> opn (high a) = opn (high b)).
      { intros E F. apply (opn_bound_h t); [apply RA|apply RB|]. apply AH; cbn; auto; [apply V3|apply V4]; auto. }
      rewrite L1, L2, H1, H2.
      destruct (Z.compare_spec la lb), (Z.compare_spec ha hb); rewrite ?L1, ?L2, ?H1, ?H2 in W; lia.
Qed.
Lemma not_overlap_empty t a b v : rok t a -> rok t b -> overlaps a b = Some false ->
  in_range v a -> in_range v b -> False.
Proof.
  intros RA RB OT [X Y] [Z W]. pos_intro t a b v RA RB. rewrite OV in OT. injection OT as OT.
  rewrite L1, L2, H1, H2 in *. lia.
Qed.

(** ** of_ranges *)
Definition anym t m := lowm t m \/ highm t m.
Lemma mcmp_pos3 t a b c : anym t a -> anym t b -> anym t c -> exists x y z : Z,
  mcmp a b = (x ?= y) /\ mcmp b c = (y ?= z) /\ mcmp a c = (x ?= z).
Proof.
  intros A B C. set (l := vals a ++ vals b ++ vals c).
  assert (I1 : incl (vals a) l) by (intros u Hu; unfold l; rewrite !in_app_iff; auto).
  assert (I2 : incl (vals b) l) by (intros u Hu; unfold l; rewrite !in_app_iff; auto).
  assert (I3 : incl (vals c) l) by (intros u Hu; unfold l; rewrite !in_app_iff; auto).
  exists (mpos l a), (mpos l b), (mpos l c). sp; eapply mpos_cmp; eauto.
Qed.
Lemma mcmp_opp t a b : anym t a -> anym t b -> mcmp b a = CompOpp (mcmp a b).
Proof.
  intros A B. destruct (mcmp_pos3 t a b a A B A) as (x & y & z & E1 & E2 & E3).
  assert (R : mcmp a a = Eq).
  { rewrite (mpos_cmp (vals a) t a a) by (auto using incl_refl). apply Z.compare_refl. }
  rewrite R in E3. symmetry in E3. apply Z.compare_eq in E3. subst z.
  rewrite E1, E2. apply Z.compare_antisym.
Qed.
Lemma mcmp_refl t a : anym t a -> mcmp a a = Eq.
Proof.
  intros A. pose proof (mcmp_opp t a a A A) as H. destruct (mcmp a a); auto; discriminate.
Qed.
Lemma mcmp_le_trans t a b c : anym t a -> anym t b -> anym t c ->
  mcmp a b <> Gt -> mcmp b c <> Gt -> mcmp a c <> Gt.
Proof.
  intros A B C. destruct (mcmp_pos3 t a b c A B C) as (x & y & z & -> & -> & ->).
  rewrite !Z.compare_gt_iff. lia.
Qed.
Definition lle (a b : range) : Prop := mcmp (low a) (low b) <> Gt.
Lemma rok_low t r : rok t r -> anym t (low r). Proof. intros (H & _). left; auto. Qed.
Lemma rok_high t r : rok t r -> anym t (high r). Proof. intros (_ & H & _). right; auto. Qed.
#[local] Hint Resolve rok_low rok_high : core.

Lemma sort_insert_perm r l : Permutation (sort_insert r l) (r :: l).
Proof.
  induction l as [|x l IH]; cbn [sort_insert]; auto.
  destruct (mcmp (low r) (low x)); auto. rewrite IH. apply perm_swap.
Qed.
Lemma sort_perm l : Permutation (sort_ranges l) l.
Proof. induction l as [|x l IH]; cbn [sort_ranges]; auto. rewrite sort_insert_perm. auto. Qed.
Lemma sort_insert_sorted t r l : rok t r -> Forall (rok t) l -> StronglySorted lle l ->
  StronglySorted lle (sort_insert r l).
Proof.
  intros R F S. induction S as [|x l S IH X]; cbn [sort_insert]; [repeat constructor|].
  inversion F as [|? ? Fx Fl]; subst.
  assert (K : mcmp (low r) (low x) <> Gt -> Forall (lle r) (x :: l)).
  { intros K. constructor; auto. rewrite Forall_forall in *. intros y Hy.
    unfold lle. eapply (mcmp_le_trans t _ (low x)); eauto. apply (X y Hy). }
  destruct (mcmp (low r) (low x)) eqn:E.
  - constructor; [constructor; auto|apply K; discriminate].
  - constructor; [constructor; auto|apply K; discriminate].
  - constructor; auto. eapply Permutation_Forall; [symmetry; apply sort_insert_perm|].
    constructor; auto. unfold lle. rewrite (mcmp_opp t (low r)), E by auto. discriminate.
Qed.
Lemma sort_sorted t l : Forall (rok t) l -> StronglySorted lle (sort_ranges l).
Proof.
  induction 1 as [|x l X F IH]; cbn [sort_ranges]; [constructor|].
  eapply sort_insert_sorted; eauto. eapply Permutation_Forall; [symmetry; apply sort_perm|auto].
Qed.

(** the ranges the coalescing loop emits *)
Fixpoint chain (cur : range) (rest : list range) : list range :=
  match rest with
  | [] => [cur]
  | n :: rest' =>
      match overlaps cur n, r_span cur n with
      | Some true, Some s => chain s rest'
      | _, _ => cur :: chain n rest'
      end
  end.
Definition ins_all (l : list range) (m : rmap) : rmap := fold_left (fun m r => rm_insert (low r) r m) l m.
Lemma coalesce_chain t : forall rest cur m, Forall (rok t) rest -> rok t cur ->
  StronglySorted lle (cur :: rest) -> coalesce cur rest m = Some (ins_all (chain cur rest) m).
Proof.
  induction rest as [|n rest IH]; intros cur m F R S; cbn [coalesce chain]; auto.
  inversion F as [|? ? Fn Fr]; subst. inversion S as [|? ? S' L]; subst. inversion S' as [|? ? S'' L']; subst.
  inversion L as [|? ? L1 L2]; subst.
  destruct (overlaps cur n) as [[]|] eqn:O.
  - destruct (span_ok t cur n R Fn L1 O) as (r & E & Rr & El & Eh & _). rewrite E. apply IH; auto.
    constructor; auto. unfold lle. rewrite El. exact L2.
  - rewrite IH by auto. reflexivity.
  - destruct (overlaps_typed t cur n R Fn O).
Qed.
Lemma chain_ok t : forall rest cur, Forall (rok t) rest -> rok t cur -> StronglySorted lle (cur :: rest) ->
  Forall (rok t) (chain cur rest) /\
  (exists h tl, chain cur rest = h :: tl /\ low h = low cur) /\
  incl (map low (chain cur rest)) (map low (cur :: rest)) /\
  incl (map high (chain cur rest)) (map high (cur :: rest)) /\
  StronglySorted apart (chain cur rest) /\
  forall v, (in_ranges v (chain cur rest) -> in_ranges v (cur :: rest)) /\
    (agree v (map low (cur :: rest)) -> agree v (map high (cur :: rest)) ->
     in_ranges v (cur :: rest) -> in_ranges v (chain cur rest)).
Proof.
  induction rest as [|n rest IH]; intros cur F R S; cbn [chain].
  { sp; auto; try apply incl_refl; [eauto|repeat constructor]. }
  inversion F as [|? ? Fn Fr]; subst. inversion S as [|? ? S' L]; subst. inversion S' as [|? ? S'' L']; subst.
  inversion L as [|? ? L1 L2]; subst.
  destruct (overlaps cur n) as [[]|] eqn:O; [| |destruct (overlaps_typed t cur n R Fn O)].
  - destruct (span_ok t cur n R Fn L1 O) as (r & E & Rr & El & Eh & M). rewrite E.
    destruct (IH r Fr Rr) as (I1 & (h & tl & I2 & I3) & I4 & I5 & I6 & I7).
    { constructor; auto. unfold lle. rewrite El. exact L2. }
    sp; auto.
    + exists h, tl. split; auto. congruence.
    + intros z Hz. apply I4 in Hz. cbn [map] in *. destruct Hz as [<-|Hz]; [left; auto|right; right; auto].
    + intros z Hz. apply I5 in Hz. cbn [map] in *. destruct Hz as [<-|Hz]; [destruct Eh as [-> | ->]; cbn; auto|right; right; auto].
    + intros v. destruct (I7 v) as [J1 J2]. destruct (M v) as [M1 M2]. split.
      * intros H. apply J1 in H as (q & [<-|Hq] & Iq).
        -- apply M1 in Iq as [Iq|Iq]; [exists cur|exists n]; cbn; auto.
        -- exists q; cbn; auto.
      * intros A B H. apply J2.
        -- intros x y Hx Hy. apply A; cbn [map] in *.
           ++ destruct Hx as [<-|Hx]; [left; auto|right; right; auto].
           ++ destruct Hy as [<-|Hy]; [left; auto|right; right; auto].
        -- intros x y Hx Hy. apply B; cbn [map] in *.
           ++ destruct Hx as [<-|Hx]; [destruct Eh as [-> | ->]; cbn; auto|right; right; auto].
           ++ destruct Hy as [<-|Hy]; [destruct Eh as [-> | ->]; cbn; auto|right; right; auto].
        -- destruct H as (q & Hq & Iq).
           assert (D : (q = cur \/ q = n) \/ In q rest) by (destruct Hq as [?|[?|?]]; auto).
           destruct D as [D|D]; [|exists q; cbn; auto].
           exists r. split; [left; auto|]. apply M2.
           ++ intros x y Hx Hy. apply A; cbn in *; tauto.
           ++ intros x y Hx Hy. apply B; cbn in *; tauto.
           ++ destruct D as [<- | <-]; auto.
  - destruct (IH n Fr Fn S') as (I1 & (h & tl & I2 & I3) & I4 & I5 & I6 & I7).
    pose proof (not_overlap_apart t cur n R Fn L1 O) as AP.
    sp; auto.
    + exists cur, (chain n rest). auto.
    + cbn [map]. intros z [<-|Hz]; [left; auto|right; apply I4; auto].
    + cbn [map]. intros z [<-|Hz]; [left; auto|right; apply I5; auto].
    + constructor; auto. rewrite I2 in *. constructor; [unfold apart in *; rewrite I3; auto|].
      assert (AH : apart cur h) by (unfold apart in *; rewrite I3; auto).
      inversion I6 as [|? ? S6 L6]; subst. inversion I1 as [|? ? Rh Ft]; subst.
      rewrite Forall_forall in *. intros c Hc. specialize (L6 c Hc). specialize (Ft c Hc).
      clear - AH L6 Ft Rh R. unfold apart in *.
      destruct (mcmp_pos3 t (high cur) (low h) (low c)) as (x & y & z & E1 & E2 & E3); auto.
      destruct (mcmp_pos3 t (low h) (high h) (low c)) as (x' & y' & z' & F1 & F2 & F3); auto.
      destruct Rh as (_ & _ & O). rewrite E1 in AH. rewrite F1 in O. rewrite F2 in L6. rewrite E3.
      rewrite E2 in F3. rewrite Z.compare_gt_iff in O.
      destruct (Z.compare_spec x y), (Z.compare_spec y' z'), (Z.compare_spec x z); auto;
        destruct (Z.compare_spec y z), (Z.compare_spec x' z'); try discriminate F3; try lia;
        destruct AH as [?|[? []]], L6 as [?|[? []]]; try discriminate; auto.
    + intros v. destruct (I7 v) as [J1 J2]. split.
      * intros (q & [<-|Hq] & Iq); [exists cur; cbn; auto|].
        destruct J1 as (p & Hp & Ip); [exists q; auto|]. exists p; cbn in *; tauto.
      * intros A B (q & [<-|Hq] & Iq); [exists cur; cbn; auto|].
        destruct J2 as (p & Hp & Ip).
        -- intros x y Hx Hy. apply A; right; auto.
        -- intros x y Hx Hy. apply B; right; auto.
        -- exists q; auto.
        -- exists p; cbn; auto.
Qed.

(** the map the loop builds *)
Definition mok (t : dtype) (m : rmap) : Prop :=
  Forall (fun e => rok t (snd e) /\ lowm t (fst e) /\ mcmp (fst e) (low (snd e)) = Eq) m /\
  StronglySorted (fun a b => mcmp (fst a) (fst b) = Lt /\ apart (snd a) (snd b)) m.
Lemma mcmp_lt_trans t a b c : anym t a -> anym t b -> anym t c ->
  mcmp a b = Lt -> mcmp b c = Lt -> mcmp a c = Lt.
Proof.
  intros A B C. destruct (mcmp_pos3 t a b c A B C) as (x & y & z & -> & -> & ->).
  rewrite !Z.compare_lt_iff. lia.
Qed.
Lemma mcmp_eq_l t a b c : anym t a -> anym t b -> anym t c -> mcmp a b = Eq -> mcmp a c = mcmp b c.
Proof.
  intros A B C. destruct (mcmp_pos3 t a b c A B C) as (x & y & z & -> & -> & ->).
  intros E. apply Z.compare_eq in E. congruence.
Qed.
Lemma rm_insert_ok t r : forall m, mok t m -> rok t r -> Forall (fun e => apart (snd e) r) m ->
  mok t (rm_insert (low r) r m) /\
  incl (rm_values (rm_insert (low r) r m)) (r :: rm_values m) /\
  (forall v, in_ranges v (rm_values (rm_insert (low r) r m)) <-> in_ranges v (rm_values m) \/ in_range v r).
Proof.
  intros m [F S] R A.
  induction S as [|[k x] m S IH X]; cbn [rm_insert].
  { sp.
    - split; [|repeat constructor]. constructor; [|constructor]. cbn [fst snd]. sp; auto; [apply R|].
      eapply mcmp_refl; eauto.
    - cbn. apply incl_refl.
    - intros v. unfold in_ranges. cbn. split; [intros (q & [<-|[]] & ?); auto|].
      intros [(q & [] & _)|?]; eauto. }
  inversion F as [|? ? (Rx & Lk & Ek) Fm]; subst. inversion A as [|? ? Ax Am]; subst. cbn [fst snd] in *.
  assert (Kk : anym t k) by (left; auto).
  (* the key of r is not below k *)
  assert (GE : mcmp (low r) k <> Lt).
  { rewrite (mcmp_opp t k (low r)) by auto. rewrite (mcmp_eq_l t k (low x) (low r)) by auto.
    destruct (mcmp_pos3 t (low x) (high x) (low r)) as (p & q & w & E1 & E2 & E3); auto.
    rewrite E3. destruct Rx as (_ & _ & O). rewrite E1 in O. rewrite Z.compare_gt_iff in O.
    unfold apart in Ax. rewrite E2 in Ax.
    destruct (Z.compare_spec p w) as [G|G|G]; cbn [CompOpp]; try discriminate.
    destruct (Z.compare_spec q w); try lia; destruct Ax as [?|[? ?]]; discriminate. }
  destruct (mcmp (low r) k) eqn:E; [|congruence|].
  - (* equal: m is empty and x denotes nothing *)
    assert (m = []) as ->.
    { destruct m as [|[k2 x2] m]; auto. exfalso.
      inversion X as [|? ? [X1 X2] X3]; subst. inversion Fm as [|? ? (R2 & L2 & E2) F2]; subst.
      inversion Am as [|? ? A2 A3]; subst. cbn [fst snd] in *.
      assert (KK : anym t k2) by (left; auto).
      destruct (mcmp_pos3 t (low x2) (high x2) (low r)) as (p & q & w & G1 & G2 & G3); auto.
      pose proof R2 as (R2a & R2b & O). rewrite G1 in O. rewrite Z.compare_gt_iff in O.
      unfold apart in A2. rewrite G2 in A2.
      assert (PW : p <= w) by (destruct (Z.compare_spec q w); try lia; destruct A2 as [?|[? ?]]; discriminate).
      assert (N : mcmp k2 (low r) <> Gt).
      { rewrite (mcmp_eq_l t k2 (low x2) (low r)) by auto. rewrite G3. rewrite Z.compare_gt_iff. lia. }
      assert (N2 : mcmp k2 k <> Gt).
      { eapply (mcmp_le_trans t _ (low r)); eauto. rewrite E. discriminate. }
      rewrite (mcmp_opp t k k2) in N2 by auto. rewrite X1 in N2. apply N2. reflexivity. }
    assert (NX : forall v, ~ in_range v x).
    { intros v [I1 I2]. pos_intro t x r v Rx R.
      assert (EK : mcmp (low x) (low r) = Eq).
      { rewrite <- (mcmp_eq_l t k (low x) (low r)) by auto. rewrite (mcmp_opp t (low r) k) by auto. rewrite E. auto. }
      rewrite C1 in EK. apply Z.compare_eq in EK. unfold apart in Ax. rewrite C4 in Ax.
      rewrite L1 in I1. rewrite H1 in I2.
      destruct Ax as [G|[G [B1 B2]]]; [rewrite Z.compare_lt_iff in G; lia|].
      apply Z.compare_eq in G. unfold opn in I2 at 1. rewrite B1 in I2. lia. }
    sp.
    + split; [|repeat constructor]. constructor; [|constructor]. cbn [fst snd]. sp; auto.
      rewrite (mcmp_opp t (low r) k) by auto. rewrite E. auto.
    + cbn. intros z [<-|[]]; left; auto.
    + intros v. unfold in_ranges. cbn. split.
      * intros (q & [<-|[]] & ?); auto.
      * intros [(q & [<-|[]] & Hq)|?]; [destruct (NX v Hq)|eauto].
  - destruct (IH Fm Am) as (M & I & V). sp.
    + destruct M as [M1 M2]. split; [constructor; cbn [fst snd]; auto|]. constructor; auto.
      assert (KR : mcmp k (low r) = Lt) by (rewrite (mcmp_opp t (low r) k) by auto; rewrite E; auto).
      clear - X Ax KR M1 I Fm Kk R V. (* every entry of the new tail is above k and apart from x *)
      assert (G : forall m', Forall (fun b => mcmp k (fst b) = Lt /\ apart x (snd b)) m' ->
        Forall (fun b => mcmp k (fst b) = Lt /\ apart x (snd b)) (rm_insert (low r) r m')).
      { intros m' H. induction H as [|[k2 x2] m' H1 H2 IH]; cbn [rm_insert].
        - constructor; [|constructor]. cbn. auto.
        - cbn [fst snd] in H1. destruct (mcmp (low r) k2).
          + constructor; auto. cbn [fst snd]. split; auto. apply H1.
          + constructor; cbn; auto.
          + constructor; auto. }
      apply G. exact X.
    + cbn [rm_values map snd]. intros z [<-|Hz]; [right; left; auto|].
      apply I in Hz as [<-|Hz]; [left; auto|right; right; auto].
    + intros v. specialize (V v). unfold in_ranges in *. cbn [rm_values map snd]. split.
      * intros (q & [<-|Hq] & Iq); [left; exists x; cbn; auto|].
        destruct V as [V _]. destruct V as [(p & Hp & Ip)|?]; eauto. left. exists p. cbn. auto.
      * intros [(q & [<-|Hq] & Iq)|Iq]; [exists x; cbn; auto| |].
        -- destruct V as [_ V]. destruct V as (p & Hp & Ip); [left; eauto|]. exists p; cbn; auto.
        -- destruct V as [_ V]. destruct V as (p & Hp & Ip); [right; eauto|]. exists p; cbn; auto.
Qed.

Lemma ins_all_ok t : forall l m, Forall (rok t) l -> StronglySorted apart l -> mok t m ->
  (forall e r, In e m -> In r l -> apart (snd e) r) ->
  mok t (ins_all l m) /\ incl (rm_values (ins_all l m)) (l ++ rm_values m) /\
  (forall v, in_ranges v (rm_values (ins_all l m)) <-> in_ranges v (rm_values m) \/ in_ranges v l).
Proof.
  induction l as [|r l IH]; intros m F S M A.
  { cbn. sp; auto; [apply incl_refl|]. intros v. split; auto. intros [?|(q & [] & _)]; auto. }
  inversion F as [|? ? Fr Fl]; subst. inversion S as [|? ? S' X]; subst.
  destruct (rm_insert_ok t r m M Fr) as (M' & I & V).
  { rewrite Forall_forall. intros e He. apply A; auto. left; auto. }
  change (ins_all (r :: l) m) with (ins_all l (rm_insert (low r) r m)).
  destruct (IH _ Fl S' M') as (M2 & I2 & V2).
  { intros e q He Hq. assert (In (snd e) (rm_values (rm_insert (low r) r m))) as G by (apply in_map; auto).
    apply I in G as [<-|G].
    - rewrite Forall_forall in X. auto.
    - unfold rm_values in G. apply in_map_iff in G as (e' & E & G). rewrite <- E. apply A; auto. right; auto. }
  sp; auto.
  - intros z Hz. apply I2 in Hz. apply in_app_iff in Hz. apply in_app_iff. cbn [In].
    destruct Hz as [Hz|Hz]; auto. apply I in Hz as [->|Hz]; auto.
  - intros v. rewrite V2, V. unfold in_ranges. split.
    + intros [[?|?]|(q & ? & ?)]; auto; right; [exists r|exists q]; cbn; auto.
    + intros [?|(q & [->|?] & ?)]; auto. right. eauto.
Qed.
Lemma agree_perm v l l' : (forall m, In m l' -> In m l) -> agree v l -> agree v l'.
Proof. unfold agree. auto. Qed.
Lemma of_ranges_ok t l : Forall (rok t) l -> l <> [] ->
  exists m, of_ranges l = Some (DRange m) /\ mok t m /\ m <> [] /\
    incl (map low (rm_values m)) (map low l) /\ incl (map high (rm_values m)) (map high l) /\
    forall v, (in_ranges v (rm_values m) -> in_ranges v l) /\
      (agree v (map low l) -> agree v (map high l) -> in_ranges v l -> in_ranges v (rm_values m)).
Proof.
  intros F NE. unfold of_ranges. pose proof (sort_perm l) as P. pose proof (sort_sorted t l F) as S.
  assert (F' : Forall (rok t) (sort_ranges l)) by (eapply Permutation_Forall; [symmetry; eauto|auto]).
  assert (IN : forall r, In r (sort_ranges l) <-> In r l).
  { intros r. split; apply Permutation_in; [|symmetry]; auto. }
  destruct (sort_ranges l) as [|x l'] eqn:E.
  { apply Permutation_nil in P. congruence. }
  inversion F' as [|? ? Fx Fl]; subst.
  rewrite (coalesce_chain t) by auto. set (m := ins_all (chain x l') []).
  destruct (chain_ok t l' x Fl Fx S) as (C1 & (h & tl & C2 & C2') & C3 & C4 & C5 & C6).
  destruct (ins_all_ok t (chain x l') [] C1 C5) as (M & I & V).
  { split; constructor. }
  { intros e r []. }
  fold m in M, I, V. exists m. sp; auto.
  - intros K. rewrite K in V. unfold m in K. rewrite C2 in K.
    assert (G : forall l m, m <> [] -> ins_all l m <> []).
    { clear. induction l as [|r l IH]; intros m H; auto. cbn. apply IH. destruct m as [|[k y] m]; [congruence|].
      cbn [rm_insert]. destruct (mcmp (low r) k); discriminate. }
    revert K. cbn. apply G. discriminate.
  - intros z Hz. apply in_map_iff in Hz as (r & <- & Hr). apply I in Hr. rewrite app_nil_r in Hr.
    assert (H : In (low r) (map low (x :: l'))) by (apply C3, in_map; auto).
    apply in_map_iff in H as (q & E1 & Hq). rewrite <- E1. apply in_map, IN. auto.
  - intros z Hz. apply in_map_iff in Hz as (r & <- & Hr). apply I in Hr. rewrite app_nil_r in Hr.
    assert (H : In (high r) (map high (x :: l'))) by (apply C4, in_map; auto).
    apply in_map_iff in H as (q & E1 & Hq). rewrite <- E1. apply in_map, IN. auto.
  - intros v. destruct (C6 v) as [K1 K2]. rewrite V. split.
    + intros [(q & [] & _)|H]. apply K1 in H as (q & Hq & Iq). exists q. split; auto. apply IN; auto.
    + intros A B (q & Hq & Iq). right. apply K2.
      * eapply agree_perm; [|exact A]. intros z Hz. apply in_map_iff in Hz as (r & <- & Hr). apply in_map, IN; auto.
      * eapply agree_perm; [|exact B]. intros z Hz. apply in_map_iff in Hz as (r & <- & Hr). apply in_map, IN; auto.
      * exists q. split; auto. apply IN; auto.
Qed.

(** ** range_intersect *)
Lemma apart_ord t a b v : rok t a -> rok t b -> apart a b -> in_range v b -> ~ below_high v (high a).
Proof.
  intros RA RB A [X Y] H. pos_intro t a b v RA RB. unfold apart in A. rewrite C4 in A.
  rewrite L2 in X. rewrite H1 in H. destruct A as [G|(G & B1 & B2)].
  - rewrite Z.compare_lt_iff in G. lia.
  - apply Z.compare_eq in G. unfold opn in H at 1. rewrite B1 in H. lia.
Qed.
Lemma isect_eq a xs b ys : isect (a :: xs) (b :: ys) =
  push_isect a b (match mcmp (high a) (high b) with Gt => isect (a :: xs) ys | _ => isect xs (b :: ys) end).
Proof.
  cbn [isect]. f_equal. destruct (mcmp (high a) (high b)).
  - destruct xs; reflexivity.
  - destruct xs; reflexivity.
  - destruct ys; reflexivity.
Qed.
Lemma isect_nil_r xs : isect xs [] = Some [].
Proof. destruct xs; reflexivity. Qed.
(** a value of both lists is not in the list element that is dropped *)
Lemma isect_ok t : forall xs, Forall (rok t) xs -> StronglySorted apart xs ->
  forall ys, Forall (rok t) ys -> StronglySorted apart ys ->
  exists l, isect xs ys = Some l /\ Forall (rok t) l /\
    incl (map low l) (map low xs ++ map low ys) /\ incl (map high l) (map high xs ++ map high ys) /\
    forall v, (in_ranges v xs -> in_ranges v ys -> in_ranges v l) /\
      (agree v (map low xs ++ map low ys) -> agree v (map high xs ++ map high ys) ->
       in_ranges v l -> in_ranges v xs /\ in_ranges v ys).
Proof.
  assert (NIL : forall v, in_ranges v [] -> False) by (intros v (q & [] & _)).
  induction xs as [|a xs IHx]; intros FX SX.
  { intros ys FY SY. exists []. cbn. sp; auto; try (intros z []). intros v. split; intros; exfalso; eauto. }
  induction ys as [|b ys IHy]; intros FY SY.
  { exists []. rewrite isect_nil_r. sp; auto; try (intros z []). intros v. split; intros; exfalso; eauto. }
  inversion FX as [|? ? Ra FX']; subst. inversion FY as [|? ? Rb FY']; subst.
  inversion SX as [|? ? SX' AX]; subst. inversion SY as [|? ? SY' AY]; subst.
  rewrite isect_eq.
  (* the rest of the loop *)
  assert (REST : exists l, (match mcmp (high a) (high b) with Gt => isect (a :: xs) ys | _ => isect xs (b :: ys) end) = Some l /\
     Forall (rok t) l /\ incl (map low l) (map low (a :: xs) ++ map low (b :: ys)) /\
     incl (map high l) (map high (a :: xs) ++ map high (b :: ys)) /\
     forall v, (in_ranges v (a :: xs) -> in_ranges v (b :: ys) -> in_ranges v l \/ (in_range v a /\ in_range v b)) /\
      (agree v (map low (a :: xs) ++ map low (b :: ys)) -> agree v (map high (a :: xs) ++ map high (b :: ys)) ->
       in_ranges v l -> in_ranges v (a :: xs) /\ in_ranges v (b :: ys))).
  { destruct (mcmp (high a) (high b)) eqn:E.
    1, 2: destruct (IHx FX' SX' (b :: ys) FY SY) as (l & N1 & N2 & N3 & N4 & N5); exists l; sp; auto;
      [intros z Hz; apply N3 in Hz; cbn in *; tauto|intros z Hz; apply N4 in Hz; cbn in *; tauto|];
      intros v; destruct (N5 v) as [M1 M2]; split;
      [|intros A B H; destruct M2 as [(q & ? & ?) ?]; auto;
        [eapply agree_perm; [|exact A]; intros z Hz; cbn in *; tauto
        |eapply agree_perm; [|exact B]; intros z Hz; cbn in *; tauto
        |split; auto; exists q; cbn; auto]];
      intros (q & [<-|Hq] & Iq) (p & [<-|Hp] & Ip); auto;
      [exfalso|left; apply M1; [exists q; auto|exists b; cbn; auto]|left; apply M1; [exists q; auto|exists p; cbn; auto]];
      rewrite Forall_forall in AY, FY'; apply (apart_ord t b p v) ; auto;
      destruct Iq as [_ Iq]; pos_intro t a b v Ra Rb; rewrite H1 in Iq; rewrite H2;
      rewrite C5 in E.
    - (* equal upper ends *)
      apply Z.compare_eq in E.
      assert (NB : ~ below_high v (high b)) by (apply (apart_ord t b p v); auto).
      rewrite H2 in NB. exfalso.
      (* then v = high a = high b, open in b; p starts above *)
      destruct Ip as [Ip _]. specialize (AY p Hp). specialize (FY' p Hp).
      clear - AY FY' Rb Ip Iq E NB P3 P4 H2 V4.
      assert (XE : hb = xv) by lia. apply V4 in XE.
      destruct (pair_pos t b p v Rb FY') as
        (la' & ha' & lb' & hb' & xv' & _ & _ & _ & D4 & _ & _ & _ & _ & D2 & _ & _ & _ & _ & D5 & _ & _ & D6 & _ & _ & _).
      apply D5 in XE. rewrite D2 in Ip. unfold apart in AY. rewrite D4 in AY.
      destruct AY as [G|(G & B1 & B2)].
      + rewrite Z.compare_lt_iff in G. lia.
      + apply Z.compare_eq in G. unfold opn in Ip at 1. rewrite B2 in Ip. lia.
    - rewrite Z.compare_lt_iff in E. lia.
    - destruct (IHy FY' SY') as (l & N1 & N2 & N3 & N4 & N5). exists l. sp; auto.
      + intros z Hz. apply N3 in Hz. rewrite in_app_iff in *. cbn in *. tauto.
      + intros z Hz. apply N4 in Hz. rewrite in_app_iff in *. cbn in *. tauto.
      + intros v. destruct (N5 v) as [M1 M2]. split.
        * intros (q & Hq & Iq) (p & [<-|Hp] & Ip).
          -- destruct Hq as [<-|Hq]; auto. exfalso. rewrite Forall_forall in AX, FX'.
             apply (apart_ord t a q v); auto. destruct Ip as [_ Ip].
             pos_intro t a b v Ra Rb. rewrite H2 in Ip. rewrite H1. rewrite C5 in E.
             rewrite Z.compare_gt_iff in E. lia.
          -- left. apply M1; [exists q; auto|exists p; auto].
        * intros A B H. destruct M2 as [? (q & ? & ?)]; auto.
          -- eapply agree_perm; [|exact A]. intros z Hz. rewrite in_app_iff in *. cbn in *. tauto.
          -- eapply agree_perm; [|exact B]. intros z Hz. rewrite in_app_iff in *. cbn in *. tauto.
          -- split; auto. exists q; cbn; auto. }
  destruct REST as (l & -> & R1 & R2 & R3 & R4). unfold push_isect.
  destruct (overlaps a b) as [[]|] eqn:O; [| |destruct (overlaps_typed t a b Ra Rb O)].
  - destruct (inter_ok t a b Ra Rb O) as (r & E & Rr & El & Eh & V). rewrite E.
    exists (r :: l). sp; auto.
    + cbn [map]. intros z [<-|Hz]; [|apply R2; auto]. rewrite in_app_iff. destruct El as [-> | ->]; cbn; auto.
    + cbn [map]. intros z [<-|Hz]; [|apply R3; auto]. rewrite in_app_iff. destruct Eh as [-> | ->]; cbn; auto.
    + intros v. destruct (R4 v) as [M1 M2]. destruct (V v) as [V1 V2]. split.
      * intros X Y. destruct (M1 X Y) as [(q & ? & ?)|[? ?]]; [exists q; cbn; auto|exists r; cbn; auto].
      * intros A B (q & [<-|Hq] & Iq); [|apply M2; auto; exists q; auto].
        destruct V2 as [? ?]; auto.
        -- eapply agree_perm; [|exact A]. intros z Hz. rewrite in_app_iff. cbn in *. tauto.
        -- eapply agree_perm; [|exact B]. intros z Hz. rewrite in_app_iff. cbn in *. tauto.
        -- split; [exists a|exists b]; cbn; auto.
  - exists l. sp; auto. intros v. destruct (R4 v) as [M1 M2]. split; auto.
    intros X Y. destruct (M1 X Y) as [?|[? ?]]; auto. exfalso. eapply (not_overlap_empty t a b); eauto.
Qed.

Lemma ss_pair {A} (R : A -> A -> Prop) l x y : StronglySorted R l -> In x l -> In y l -> x = y \/ R x y \/ R y x.
Proof.
  induction 1 as [|a l S IH F]; intros X Y; [destruct X|]. rewrite Forall_forall in F.
  destruct X as [<-|X], Y as [<-|Y]; auto.
Qed.
Lemma ss_map {A B} (f : A -> B) (R : B -> B -> Prop) l :
  StronglySorted (fun a b => R (f a) (f b)) l -> StronglySorted R (map f l).
Proof.
  induction 1 as [|a l S IH F]; cbn [map]; constructor; auto.
  rewrite Forall_forall in *. intros z Hz. apply in_map_iff in Hz as (q & <- & Hq). auto.
Qed.
Lemma ss_weak {A} (R R' : A -> A -> Prop) l : (forall a b, R a b -> R' a b) -> StronglySorted R l -> StronglySorted R' l.
Proof.
  intros H S. induction S as [|a l S IH F]; constructor; auto. eapply Forall_impl; [|exact F]. intros b. apply H.
Qed.
Lemma mok_vals t m : mok t m -> Forall (rok t) (rm_values m) /\ StronglySorted apart (rm_values m).
Proof.
  intros [F S]. split.
  - unfold rm_values. rewrite Forall_forall in *. intros r Hr. apply in_map_iff in Hr as (e & <- & He). apply F; auto.
  - unfold rm_values. apply ss_map. eapply ss_weak; [|exact S]. cbn. tauto.
Qed.
(** in a separated list, an end at a value of the set is closed *)
Lemma closed_ends t m v : mok t m -> in_ranges v (rm_values m) -> forall r, In r (rm_values m) ->
  (m_val (low r) = Some v -> m_bound (low r) = Exactly) /\ (m_val (high r) = Some v -> m_bound (high r) = Exactly).
Proof.
  intros [F S] (a & Ha & Ia) r Hr. unfold rm_values in *.
  apply in_map_iff in Ha as (ea & <- & Ha). apply in_map_iff in Hr as (er & <- & Hr).
  rewrite Forall_forall in F. destruct (F _ Ha) as (Ra & La & Ea). destruct (F _ Hr) as (Rr & Lr & Er).
  assert (KL : forall m1 : marker, lowm t m1 -> opn m1 = 0 -> m_bound m1 = Exactly).
  { intros m1 _. unfold opn. destruct (m_bound m1); auto; lia. }
  destruct Ia as [I1 I2].
  destruct (ss_pair _ _ ea er S Ha Hr) as [E|[[X Y]|[X Y]]].
  - subst er. pos_intro t (snd ea) (snd ea) v Ra Ra. rewrite L1 in I1. rewrite H1 in I2.
    split; intros Q; [apply V1 in Q|apply V3 in Q].
    + apply KL; [apply Ra|lia].
    + unfold opn in I2 at 1. destruct (m_bound (high (snd ea))); auto; lia.
  - pos_intro t (snd ea) (snd er) v Ra Rr. rewrite L1 in I1. rewrite H1 in I2. unfold apart in Y. rewrite C4 in Y.
    split; intros Q; [apply V2 in Q|apply V4 in Q]; exfalso; destruct Y as [G|(G & B1 & B2)];
      try (rewrite Z.compare_lt_iff in G; lia); apply Z.compare_eq in G; unfold opn in I2 at 1; rewrite B1 in I2; lia.
  - pos_intro t (snd er) (snd ea) v Rr Ra. rewrite L2 in I1. rewrite H2 in I2. unfold apart in Y. rewrite C4 in Y.
    split; intros Q; [apply V1 in Q|apply V3 in Q]; exfalso.
    + assert (XL : mcmp (low (snd er)) (low (snd ea)) = Lt).
      { rewrite <- (mcmp_eq_l t (fst er)) by (auto; left; auto).
        rewrite (mcmp_opp t (low (snd ea)) (fst er)) by (auto; left; auto).
        rewrite <- (mcmp_eq_l t (fst ea)) by (auto; left; auto).
        rewrite (mcmp_opp t (fst er) (fst ea)) by (left; auto). rewrite X. auto. }
      rewrite C1 in XL. rewrite Z.compare_lt_iff in XL. destruct Y as [G|(G & B1 & B2)].
      * rewrite Z.compare_lt_iff in G. lia.
      * apply Z.compare_eq in G. lia.
    + destruct Y as [G|(G & B1 & B2)].
      * rewrite Z.compare_lt_iff in G. lia.
      * apply Z.compare_eq in G. unfold opn in I1 at 1. rewrite B2 in I1. lia.
Qed.

(** ** Domains *)
Definition dok (t : dtype) (d : domain) : Prop :=
  match d with
  | DRange m => mok t m /\ m <> []
  | DEqutable s => v_ty s = t /\ Forall (fun e => fst e = t) (v_entries s)
  | _ => True
  end.
Lemma range_union_ok t a b : mok t a -> mok t b -> a <> [] -> exists d, range_union a b = Some d /\ dok t d /\
  incl (lows d) (lows (DRange a) ++ lows (DRange b)) /\ incl (highs d) (highs (DRange a) ++ highs (DRange b)) /\
  forall v, (in_domain v d -> in_domain v (DRange a) \/ in_domain v (DRange b)) /\
    (ends_agree v (DRange a) (DRange b) -> in_domain v (DRange a) \/ in_domain v (DRange b) -> in_domain v d).
Proof.
  intros A B NE. destruct (mok_vals t a A) as [FA SA]. destruct (mok_vals t b B) as [FB SB].
  unfold range_union. destruct (of_ranges_ok t (rm_values a ++ rm_values b)) as (m & E & M & N & L & H & V).
  { apply Forall_app; auto. }
  { destruct a; [congruence|discriminate]. }
  rewrite map_app in L, H.
  exists (DRange m). sp; auto; [split; auto|]. intros v. destruct (V v) as [V1 V2]. cbn [in_domain]. split.
  - intros X. apply V1 in X as (q & Hq & Iq). apply in_app_iff in Hq as [Hq|Hq]; [left|right]; exists q; auto.
  - intros [G1 G2] X. apply V2; rewrite ?map_app; auto.
    destruct X as [(q & ? & ?)|(q & ? & ?)]; exists q; rewrite in_app_iff; auto.
Qed.
Lemma range_intersect_ok t a b : mok t a -> mok t b -> a <> [] -> b <> [] -> exists d, range_intersect a b = Some d /\ dok t d /\
  incl (lows d) (lows (DRange a) ++ lows (DRange b)) /\ incl (highs d) (highs (DRange a) ++ highs (DRange b)) /\
  forall v, (in_domain v (DRange a) -> in_domain v (DRange b) -> in_domain v d) /\
    (ends_agree v (DRange a) (DRange b) -> in_domain v d -> in_domain v (DRange a) /\ in_domain v (DRange b)).
Proof.
  intros A B NA NB. destruct (mok_vals t a A) as [FA SA]. destruct (mok_vals t b B) as [FB SB].
  assert (EQ : range_intersect a b = match isect (rm_values a) (rm_values b) with Some l => of_ranges l | None => None end)
    by (destruct a, b; try congruence; reflexivity).
  rewrite EQ. clear EQ.
  destruct (isect_ok t _ FA SA _ FB SB) as (l & -> & Fl & IL & IH & V).
  destruct l as [|r l].
  - exists DNone. cbn. sp; auto; try (intros z []). intros v. destruct (V v) as [V1 _]. split; [|tauto].
    intros X Y. destruct (V1 X Y) as (q & [] & _).
  - destruct (of_ranges_ok t (r :: l) Fl) as (m & E & M & N & L & H & W); [discriminate|].
    exists (DRange m). split; auto. sp.
    + split; auto.
    + intros z Hz. apply IL, L. exact Hz.
    + intros z Hz. apply IH, H. exact Hz.
    + intros v. destruct (W v) as [W1 W2]. destruct (V v) as [V1 V2]. cbn [in_domain]. split.
      * intros X Y. pose proof (closed_ends t a v A X) as CA. pose proof (closed_ends t b v B Y) as CB.
        assert (KL : forall z, In z (map low (r :: l)) -> m_val z = Some v -> m_bound z = Exactly).
        { intros z Hz Q. apply IL in Hz. apply in_app_iff in Hz as [Hz|Hz];
            apply in_map_iff in Hz as (q & <- & Hq); [apply CA|apply CB]; auto. }
        assert (KH : forall z, In z (map high (r :: l)) -> m_val z = Some v -> m_bound z = Exactly).
        { intros z Hz Q. apply IH in Hz. apply in_app_iff in Hz as [Hz|Hz];
            apply in_map_iff in Hz as (q & <- & Hq); [apply CA|apply CB]; auto. }
        apply W2; auto.
        -- intros x y Hx Hy Qx Qy. rewrite (KL x Hx Qx), (KL y Hy Qy). auto.
        -- intros x y Hx Hy Qx Qy. rewrite (KH x Hx Qx), (KH y Hy Qy). auto.
      * intros [G1 G2] X. apply V2; auto.
Qed.

(** value sets *)
Lemma entry_eqb_eq a b : entry_eqb a b = true <-> a = b.
Proof.
  unfold entry_eqb. rewrite andb_true_iff, dtype_eqb_eq, scalar_eqb_eq. destruct a, b; cbn.
  split; [intros [-> ->]; auto|intros [= -> ->]; auto].
Qed.
Lemma has_entry_in l e : has_entry l e = true <-> In e l.
Proof.
  unfold has_entry. rewrite existsb_exists. split.
  - intros (x & H & E). apply entry_eqb_eq in E. subst. auto.
  - intros H. exists e. split; auto. apply entry_eqb_eq. auto.
Qed.
Definition vent (t : dtype) (l : list (dtype * scalar)) := Forall (fun e => fst e = t) l.
Lemma vent_in t l v : vent t l -> (In v (map snd l) <-> In (t, v) l).
Proof.
  intros H. unfold vent in H. rewrite Forall_forall in H. rewrite in_map_iff. split.
  - intros ([a b] & <- & X). pose proof (H _ X) as E. cbn in *. subst. auto.
  - intros X. exists (t, v). auto.
Qed.
Lemma inter_in t a b v : vent t a -> vent t b -> (In v (map snd (hs_inter a b)) <-> In v (map snd a) /\ In v (map snd b)).
Proof.
  intros A B. assert (C : vent t (hs_inter a b)).
  { unfold vent, hs_inter in *. rewrite Forall_forall in *. intros x X. apply filter_In in X. apply A, X. }
  rewrite !(vent_in t) by auto. unfold hs_inter. rewrite filter_In, has_entry_in. tauto.
Qed.
Lemma diff_in t a b v : vent t a -> vent t b -> (In v (map snd (hs_diff a b)) <-> In v (map snd a) /\ ~ In v (map snd b)).
Proof.
  intros A B. assert (C : vent t (hs_diff a b)).
  { unfold vent, hs_diff in *. rewrite Forall_forall in *. intros x X. apply filter_In in X. apply A, X. }
  rewrite !(vent_in t) by auto. unfold hs_diff. rewrite filter_In, negb_true_iff, <- not_true_iff_false, has_entry_in. tauto.
Qed.
Lemma scalar_in_dec (v : scalar) l : In v l \/ ~ In v l.
Proof.
  destruct (existsb (scalar_eqb v) l) eqn:E.
  - left. apply existsb_exists in E as (x & H & E). apply scalar_eqb_eq in E. subst; auto.
  - right. intros H. apply not_true_iff_false in E. apply E. apply existsb_exists. exists v. split; auto. apply scalar_eqb_eq; auto.
Qed.
Lemma union_in t a b v : vent t a -> vent t b -> (In v (map snd (hs_union a b)) <-> In v (map snd a) \/ In v (map snd b)).
Proof.
  intros A B. unfold hs_union. rewrite map_app, in_app_iff, (diff_in t) by auto.
  destruct (scalar_in_dec v (map snd a)); tauto.
Qed.
Lemma of_values_in t w vs v : in_domain v (of_values t w vs) <-> if w then In v vs else ~ In v vs.
Proof.
  unfold of_values, in_domain. cbn [v_white v_entries]. rewrite map_map. cbn [snd]. rewrite map_id. tauto.
Qed.
Lemma of_values_dok t w vs : dok t (of_values t w vs).
Proof. cbn. split; auto. rewrite Forall_forall. intros e He. apply in_map_iff in He as (v & <- & _). auto. Qed.
Lemma value_intersect_ok t a b : dok t (DEqutable a) -> dok t (DEqutable b) ->
  exists d, value_intersect a b = Some d /\ dok t d /\ lows d = [] /\ highs d = [] /\
  forall v, in_domain v d <-> in_domain v (DEqutable a) /\ in_domain v (DEqutable b).
Proof.
  intros [TA A] [TB B]. fold (vent t (v_entries a)) in A. fold (vent t (v_entries b)) in B.
  unfold value_intersect.
  destruct (v_white a) eqn:WA, (v_white b) eqn:WB; rewrite TA;
    (eexists; split; [reflexivity|]; split; [apply of_values_dok|]; split; [reflexivity|split; [reflexivity|]]);
    intros v; rewrite of_values_in; cbn [in_domain]; rewrite WA, WB;
    rewrite ?(inter_in t), ?(diff_in t), ?(union_in t) by auto; tauto.
Qed.
Lemma value_union_ok t a b : dok t (DEqutable a) -> dok t (DEqutable b) ->
  exists d, value_union a b = Some d /\ dok t d /\ lows d = [] /\ highs d = [] /\
  forall v, in_domain v d <-> in_domain v (DEqutable a) \/ in_domain v (DEqutable b).
Proof.
  intros [TA A] [TB B]. fold (vent t (v_entries a)) in A. fold (vent t (v_entries b)) in B.
  unfold value_union.
  destruct (v_white a) eqn:WA, (v_white b) eqn:WB; rewrite TA;
    (eexists; split; [reflexivity|]; split; [apply of_values_dok|]; split; [reflexivity|split; [reflexivity|]]);
    intros v; rewrite of_values_in; cbn [in_domain]; rewrite WA, WB;
    rewrite ?(inter_in t), ?(diff_in t), ?(union_in t) by auto;
    destruct (scalar_in_dec v (map snd (v_entries a))), (scalar_in_dec v (map snd (v_entries b))); tauto.
Qed.

Lemma d_union_ok t a b d : dok t a -> dok t b -> d_union a b = Some d -> dok t d /\
  incl (lows d) (lows a ++ lows b) /\ incl (highs d) (highs a ++ highs b) /\
  forall v, (in_domain v d -> in_domain v a \/ in_domain v b) /\
    (ends_agree v a b -> in_domain v a \/ in_domain v b -> in_domain v d).
Proof.
  intros A B E. destruct a as [ma|sa| |], b as [mb|sb| |]; cbn [d_union] in E;
    try discriminate; try (injection E as <-; cbn [in_domain lows highs]; rewrite ?app_nil_r; sp; auto using incl_refl; try (intros z []); intros; cbn in *; tauto).
  - destruct A as [A NA], B as [B NB]. destruct (range_union_ok t ma mb A B NA) as (d' & E' & H). rewrite E in E'. injection E' as <-. auto.
  - destruct (value_union_ok t sa sb A B) as (d' & E' & H1 & H2 & H3 & H4). rewrite E in E'. injection E' as <-.
    rewrite H2, H3. sp; auto; try (intros z []). intros v. rewrite (H4 v). tauto.
Qed.
Lemma d_intersect_ok t a b d : dok t a -> dok t b -> d_intersect a b = Some d -> dok t d /\
  incl (lows d) (lows a ++ lows b) /\ incl (highs d) (highs a ++ highs b) /\
  forall v, (in_domain v a -> in_domain v b -> in_domain v d) /\
    (ends_agree v a b -> in_domain v d -> in_domain v a /\ in_domain v b).
Proof.
  intros A B E. destruct a as [ma|sa| |], b as [mb|sb| |]; cbn [d_intersect] in E;
    try discriminate; try (injection E as <-; cbn [in_domain lows highs]; rewrite ?app_nil_r; sp; auto using incl_refl; try (intros z []); intros; cbn in *; tauto).
  - destruct A as [A NA], B as [B NB]. destruct (range_intersect_ok t ma mb A B NA NB) as (d' & E' & H). rewrite E in E'. injection E' as <-. auto.
  - destruct (value_intersect_ok t sa sb A B) as (d' & E' & H1 & H2 & H3 & H4). rewrite E in E'. injection E' as <-.
    rewrite H2, H3. sp; auto; try (intros z []). intros v. rewrite (H4 v). tauto.
Qed.
Lemma built_dok t d : domain_built t d -> dok t d.
Proof.
  induction 1 as [| |l d F E|w vs F|a b d A IHA B IHB E|a b d A IHA B IHB E]; [exact I|exact I| | | | ].
  - destruct l as [|r l]; [cbn in E; injection E as <-; cbn; auto|].
    destruct (of_ranges_ok t (r :: l)) as (m & E' & M & N & _); [|discriminate|].
    + eapply Forall_impl; [|exact F]. intros x. apply built_rok.
    + rewrite E in E'. injection E' as ->. exact (conj M N).
  - apply (of_values_dok t w vs).
  - apply (d_union_ok t a b d IHA IHB E).
  - apply (d_intersect_ok t a b d IHA IHB E).
Qed.
