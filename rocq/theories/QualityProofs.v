(** Proofs about the data quality functions. *)
From Coq Require Import QArith Qabs Qround.
From Verif Require Import Prelude RepairModel ScreenModel ScreenProofs QualityModel QualitySpec.
Open Scope Z_scope.

(** ** lengths *)
Lemma pute_length : forall i v out, length (pute i v out) = length out.
Proof. induction i; intros v [|x r]; cbn; auto. Qed.
Lemma put_line_e_length : forall n i ts a b vs, length (put_line_e n i ts a b vs) = length vs.
Proof. induction n; intros; cbn [put_line_e]; [reflexivity|]. rewrite IHn. apply pute_length. Qed.
Lemma middle_e_length : forall n i ts a b vs, length (snd (middle_e n i ts a b vs)) = length vs.
Proof. induction n; intros; cbn [middle_e]; [reflexivity|]. destruct (is_nan (nth i vs Nan)); rewrite IHn; [reflexivity|apply put_line_e_length]. Qed.
Lemma nan_process_length ts vs out : nan_process ts vs = Done out -> length out = length vs /\ (0 < length vs)%nat.
Proof.
  unfold nan_process. set (i2 := find_known vs (S (find_known vs 0 0)) 0). destruct (length vs <=? i2)%nat eqn:E; [discriminate|].
  apply Nat.leb_gt in E.
  assert (L := middle_e_length (length vs - S i2) (S i2) ts (find_known vs 0 0) i2 (put_line_e i2 0 ts (find_known vs 0 0) i2 (map cell vs))).
  destruct (middle_e _ _ _ _ _ _) as [[a b] cur]. cbn [snd] in L. intros H. injection H as <-.
  rewrite put_line_e_length, L, put_line_e_length, map_length. split; [reflexivity|lia].
Qed.

(** ** scores lie between zero and one *)
Lemma score a b : 0 <= a <= b -> 0 < b -> (0 <= 1 - inject_Z a / inject_Z b <= 1)%Q.
Proof.
  intros H Hb. assert (P : (0 < inject_Z b)%Q) by (unfold Qlt; cbn; lia).
  assert (U : (inject_Z a / inject_Z b <= 1)%Q) by (apply Qle_shift_div_r; [exact P|]; rewrite Qmult_1_l; rewrite <- Zle_Qle; lia).
  assert (L : (0 <= inject_Z a / inject_Z b)%Q) by (apply Qle_shift_div_l; [exact P|]; rewrite Qmult_0_l; change 0%Q with (inject_Z 0); rewrite <- Zle_Qle; lia).
  split.
  - apply (Qplus_le_l _ _ (inject_Z a / inject_Z b)). setoid_replace (1 - inject_Z a / inject_Z b + inject_Z a / inject_Z b)%Q with 1%Q by ring.
    rewrite Qplus_0_l. exact U.
  - apply (Qplus_le_l _ _ (inject_Z a / inject_Z b - 1)). setoid_replace (1 - inject_Z a / inject_Z b + (inject_Z a / inject_Z b - 1))%Q with 0%Q by ring.
    setoid_replace (1 + (inject_Z a / inject_Z b - 1))%Q with (inject_Z a / inject_Z b)%Q by ring. exact L.
Qed.

Lemma look_counts base want : forall ws temp prev, temp < want ->
  let '(t, r) := look base want temp prev ws in temp <= t <= want /\ t + Z.of_nat (length r) = temp + Z.of_nat (length ws).
Proof.
  induction ws as [|c r IH]; intros temp prev H; cbn [look]; [cbn; lia|].
  destruct (Qle_bool 2 _); [split; lia|]. destruct (Qle_bool _ (1 # 2)).
  - destruct (temp + 1 =? want) eqn:E; [apply Z.eqb_eq in E; cbn [length]; lia|]. apply Z.eqb_neq in E.
    specialize (IH (temp + 1) prev ltac:(lia)). destruct (look base want (temp + 1) prev r) as [t r']. cbn [length]. lia.
  - specialize (IH temp c H). destruct (look base want temp c r) as [t r']. cbn [length]. lia.
Qed.
Lemma round_want x : (2 <= x)%Q -> 1 <= round_q (x - 1).
Proof.
  intros H. unfold round_q. change 1 with (Qfloor 1). apply Qfloor_resp_le.
  apply (Qplus_le_l _ _ (1 # 2)). setoid_replace (x - 1 + (1 # 2) + (1 # 2))%Q with x by ring.
  eapply Qle_trans; [|exact H]. discriminate.
Qed.
Lemma refill_length w rest : (length (fst (refill w rest)) + length (snd (refill w rest)) = length w + length rest)%nat.
Proof. unfold refill. cbn [fst snd]. rewrite app_length, firstn_length, skipn_length. lia. Qed.

Definition ok_counts (c : counts) (left total : Z) : Prop := 0 <= c_miss c /\ 0 <= c_late c /\ 0 <= c_red c /\ c_late c + c_red c + left <= total.
Lemma round_of_counts base a b ws c left total : ok_counts c (Z.of_nat (length (a :: b :: ws)) + left) total ->
  let '(w', c') := round_of base a b ws c in ok_counts c' (Z.of_nat (length w') + left) total.
Proof.
  unfold ok_counts, round_of. cbn [length]. intros (H1 & H2 & H3 & H4). destruct (Qeq_bool base 0); [cbn [length]; lia|].
  destruct (Qle_bool _ (1 # 2)) eqn:E0; [cbn [length c_miss c_late c_red]; lia|].
  destruct (Qle_bool 2 (inject_Z (b - a) / base) && Qle_bool (inject_Z (b - a) / base) 9)%bool eqn:E; [|cbn [length]; lia].
  apply andb_true_iff in E. destruct E as [E _]. apply Qle_bool_iff in E. apply round_want in E.
  assert (L := look_counts base (round_q (inject_Z (b - a) / base - 1)) ws 0 b ltac:(lia)).
  destruct (look base _ 0 b ws) as [t r]. cbn [length c_miss c_late c_red]. lia.
Qed.
Lemma detect_counts base : forall fuel w rest c total, ok_counts c (Z.of_nat (length w) + Z.of_nat (length rest)) total ->
  ok_counts (detect fuel base w rest c) 0 total.
Proof.
  assert (Weak : forall c l total, 0 <= l -> ok_counts c l total -> ok_counts c 0 total) by (unfold ok_counts; intros; lia).
  induction fuel as [|fuel IH]; intros w rest c total H; cbn [detect]; [eapply Weak; [|exact H]; lia|].
  destruct w as [|a [|b ws]]; [eapply Weak; [|exact H]; lia..|].
  assert (R := round_of_counts base a b ws c (Z.of_nat (length rest)) total H).
  destruct (round_of base a b ws c) as [w' c']. assert (L := refill_length (tl w') rest).
  destruct (refill (tl w') rest) as [w2 rest2]. cbn [fst snd] in L. apply IH.
  assert (length (tl w') <= length w')%nat by (destruct w'; cbn; lia). unfold ok_counts in *. lia.
Qed.
Lemma time_detect_counts ts : ok_counts (time_detect ts) 0 (Z.of_nat (length ts)).
Proof.
  unfold time_detect. apply detect_counts. unfold ok_counts. cbn [c_miss c_late c_red]. rewrite firstn_length, skipn_length. lia.
Qed.
Lemma specials_le vs : 0 <= specials vs <= Z.of_nat (length vs).
Proof. unfold specials. assert (H := filter_le (fun v : option Q => match v with None => true | _ => false end) vs). lia. Qed.

Lemma bind_done {A B} (x : outcome A) (f : A -> outcome B) y : bind x f = Done y -> exists a, x = Done a /\ f a = Done y.
Proof. destruct x; cbn; try discriminate. eauto. Qed.
Lemma outliers_le l a : find_outliers l = Done a -> 0 <= a <= Z.of_nat (length l).
Proof.
  unfold find_outliers. intros H. apply bind_done in H. destruct H as (m & _ & H). apply bind_done in H. destruct H as (s & _ & H).
  injection H as <-. match goal with |- context [filter ?f l] => assert (Q1 := filter_le f l) end. lia.
Qed.
Lemma steps_e_length : forall l, (length (steps_e l) <= length l)%nat.
Proof. induction l as [|a [|b r] IH]; try (cbn; lia). change (S (length (steps_e (b :: r))) <= S (length (b :: r)))%nat. lia. Qed.
Lemma speeds_e_length : forall ts vs, (length (speeds_e ts vs) <= length ts)%nat.
Proof.
  induction ts as [|t [|u ts] IH]; intros vs; try (cbn; lia). destruct vs as [|a [|b vs]]; try (cbn; lia).
  change (S (length (speeds_e (u :: ts) (b :: vs))) <= S (length (u :: ts)))%nat. specialize (IH (b :: vs)). lia.
Qed.
Lemma validity_score ts vs q : length vs = length ts -> (0 < length ts)%nat -> validity ts vs = Done q -> (0 <= q <= 1)%Q.
Proof.
  intros L P H. unfold validity in H. apply bind_done in H. destruct H as (a & Ha & H). apply bind_done in H. destruct H as (b & Hb & H).
  apply bind_done in H. destruct H as (c & Hc & H). apply bind_done in H. destruct H as (d & Hd & H). injection H as <-.
  apply outliers_le in Ha, Hb, Hc, Hd. assert (L1 := steps_e_length vs). assert (L2 := speeds_e_length ts vs). assert (L3 := steps_e_length (speeds_e ts vs)).
  assert (E : ((1 # 4) * inject_Z (a + b + c + d) / inject_Z (Z.of_nat (length ts)) == inject_Z (a + b + c + d) / inject_Z (4 * Z.of_nat (length ts)))%Q).
  { assert (N : ~ (inject_Z (Z.of_nat (length ts)) == 0)%Q) by (apply inj_nz; lia). rewrite (inject_Z_mult 4). change (inject_Z 4) with 4%Q. field. exact N. }
  rewrite E. apply score; lia.
Qed.
Lemma evaluate_score f s q : evaluate f s = Done q -> (0 <= q <= 1)%Q.
Proof.
  unfold evaluate. intros H. apply bind_done in H. destruct H as (fl & Hn & H). apply nan_process_length in Hn. rewrite map_length in Hn.
  destruct Hn as [L P]. assert (C := time_detect_counts (map fst s)). rewrite map_length in C. destruct C as (C1 & C2 & C3 & C4).
  assert (Sp := specials_le (map snd s)). rewrite map_length in Sp.
  destruct f; try (injection H as <-; apply score; lia). apply (validity_score (map fst s) fl); rewrite ?map_length; auto.
Qed.

(** ** rows of different times have one order *)
Lemma sorted_unique {A} (key : A -> Z) : forall s s', Permutation s s' -> NoDup (map key s) ->
  StronglySorted (fun a b => key a <= key b) s -> StronglySorted (fun a b => key a <= key b) s' -> s = s'.
Proof.
  induction s as [|x s IH]; intros s' P N H H'; [apply Permutation_nil in P; congruence|].
  destruct s' as [|y s']; [apply Permutation_sym, Permutation_nil in P; discriminate|].
  inversion H as [|? ? Hs Fx]; subst. inversion H' as [|? ? Hs' Fy]; subst. cbn [map] in N. inversion N as [|? ? Nx Ns]; subst.
  assert (E : x = y).
  { assert (Iy : In y (x :: s)) by (eapply Permutation_in; [apply Permutation_sym; exact P|left; reflexivity]).
    assert (Ix : In x (y :: s')) by (eapply Permutation_in; [exact P|left; reflexivity]).
    destruct Iy as [E|Iy]; [exact E|]. destruct Ix as [E|Ix]; [congruence|]. exfalso.
    rewrite Forall_forall in Fx, Fy. specialize (Fx y Iy). specialize (Fy x Ix). apply Nx.
    replace (key x) with (key y) by lia. apply in_map. exact Iy. }
  subst y. f_equal. apply IH; auto. eapply Permutation_cons_inv. exact P.
Qed.
Lemma quality_order ty f rows rows' o o' : Permutation rows rows' -> NoDup (map fst rows) ->
  select_quality ty f rows o -> select_quality ty f rows' o' -> o = o'.
Proof.
  intros P N (s & (Ps & Ss) & <-) (s' & (Ps' & Ss') & <-). f_equal. apply (sorted_unique fst); auto.
  - eapply Permutation_trans; [exact Ps|]. eapply Permutation_trans; [|apply Permutation_sym; exact Ps']. apply Permutation_map. exact P.
  - eapply Permutation_NoDup; [apply Permutation_sym, Permutation_map; exact Ps|]. rewrite map_map. exact N.
Qed.

(** ** rows missing from a regular series *)
Lemma intervals_steps : forall ts, intervals ts = steps_of ts.
Proof. induction ts as [|a [|b r] IH]; try reflexivity. Qed.
Lemma steps_length : forall ts, length (steps_of ts) = (length ts - 1)%nat.
Proof. induction ts as [|a [|b r] IH]; try reflexivity. change (S (length (steps_of (b :: r))) = (length (a :: b :: r) - 1)%nat). rewrite IH. cbn [length]. lia. Qed.

Lemma sorted_count : forall (s : list Q) (d : Q) (k : nat), StronglySorted Qle s -> (k < length (filter (fun x => Qle_bool x d) s))%nat ->
  (nth k s 0 <= d)%Q.
Proof.
  intros s d k Sd H. apply Qnot_lt_le. intros C. set (p := fun x => Qle_bool x d) in *.
  rewrite <- (firstn_skipn k s), filter_app, app_length in H. rewrite (filter_none p (skipn k s)) in H.
  - assert (Q1 := filter_le p (firstn k s)). rewrite firstn_length in Q1. cbn [length] in H. lia.
  - intros x Hx. apply (In_nth _ _ 0%Q) in Hx. destruct Hx as (j & Hj & <-). rewrite skipn_length in Hj.
    assert (En : nth j (skipn k s) 0%Q = nth (k + j) s 0%Q).
    { rewrite <- (firstn_skipn k s) at 2. rewrite app_nth2; rewrite firstn_length; [|lia]. f_equal. lia. }
    rewrite En. unfold p. destruct (Qle_bool (nth (k + j) s 0%Q) d) eqn:E; [|reflexivity]. apply Qle_bool_iff in E. exfalso.
    assert (Q2 : (nth k s 0 <= nth (k + j) s 0)%Q) by (apply sorted_le; [exact Sd|lia]).
    apply (Qlt_not_le _ _ C). eapply Qle_trans; eassumption.
Qed.
Lemma majority_median (l : list Q) (d : Q) : (forall x, In x l -> (d <= x)%Q) ->
  (length l < 2 * length (filter (fun x => Qle_bool x d) l))%nat -> (median_q l == d)%Q.
Proof.
  intros Lo Maj. assert (P := sort_q_perm l). assert (Sd := sort_q_sorted l). assert (Ls := sort_q_length l).
  rewrite <- (filter_perm_length _ _ _ P) in Maj.
  assert (G : forall k, (k <= length l / 2)%nat -> (nth k (sort_q l) 0 == d)%Q).
  { intros k Hk. assert (Hd : (2 * (length l / 2) <= length l)%nat) by (apply Nat.mul_div_le; lia).
    assert (Fl := filter_le (fun x => Qle_bool x d) (sort_q l)).
    assert (Hk2 : (k < length (filter (fun x => Qle_bool x d) (sort_q l)))%nat) by lia.
    apply Qle_antisym.
    - apply sorted_count; assumption.
    - apply Lo. eapply Permutation_in; [exact P|]. apply nth_In. lia. }
  unfold median_q. destruct (Nat.even (length l)).
  - rewrite (G (length l / 2 - 1)%nat) by lia. rewrite (G (length l / 2)%nat) by lia. field.
  - apply G. lia.
Qed.
Lemma filter_map_length {A B} (f : A -> B) (p : B -> bool) (q : A -> bool) : (forall x, q x = true -> p (f x) = true) ->
  forall l, (length (filter q l) <= length (filter p (map f l)))%nat.
Proof.
  intros H. induction l as [|x l IH]; cbn; [lia|]. destruct (q x) eqn:E; [rewrite (H x E); cbn; lia|]. destruct (p (f x)); cbn; lia.
Qed.
Lemma base_is d ts : spaced d ts -> (median_q (gaps_q ts) == inject_Z d)%Q.
Proof.
  intros (Hd & Hc & Hm). unfold gaps_q. rewrite intervals_steps. apply majority_median.
  - intros x Hx. apply in_map_iff in Hx. destruct Hx as (g & <- & Hg). destruct (Hc g Hg) as (c & Hc1 & ->). rewrite <- Zle_Qle. nia.
  - rewrite map_length. assert (F := filter_map_length inject_Z (fun x => Qle_bool x (inject_Z d)) (Z.eqb d)
      ltac:(intros x E; apply Z.eqb_eq in E; subst; apply Qle_bool_iff; apply Qle_refl) (steps_of ts)). lia.
Qed.

Lemma round_whole c : round_q (inject_Z c) = c.
Proof. unfold round_q, Qfloor, Qplus, inject_Z. cbn. symmetry. apply (Z.div_unique _ 2 c 1); lia. Qed.

Section Spaced.
Variables (d : Z) (base : Q).
Hypothesis Hd : 0 < d.
Hypothesis Hb : (base == inject_Z d)%Q.
Definition good (ts : list Z) : Prop := forall g, In g (steps_of ts) -> exists c, 1 <= c <= 9 /\ g = c * d.
Lemma good_tl a ts : good (a :: ts) -> good ts.
Proof. intros H g Hg. apply H. destruct ts as [|b r]; [destruct Hg|]. right. exact Hg. Qed.
Lemma good_hd a b ts : good (a :: b :: ts) -> exists c, 1 <= c <= 9 /\ b - a = c * d.
Proof. intros H. apply H. left. reflexivity. Qed.
Lemma ratio c a b : b - a = c * d -> (inject_Z (b - a) / base == inject_Z c)%Q.
Proof.
  intros ->. rewrite Hb, inject_Z_mult. assert (N : ~ (inject_Z d == 0)%Q) by (apply inj_nz; lia). field. exact N.
Qed.
Lemma le_whole_l a c x : (x == inject_Z c)%Q -> Qle_bool (inject_Z a) x = (a <=? c).
Proof.
  intros E. destruct (Qle_bool (inject_Z a) x) eqn:E1; symmetry.
  - apply Qle_bool_iff in E1. rewrite E in E1. apply Z.leb_le. rewrite Zle_Qle. exact E1.
  - apply Z.leb_gt. apply Z.nle_gt. intros C. rewrite Zle_Qle, <- E in C. apply Qle_bool_iff in C. congruence.
Qed.
Lemma le_whole_r a c x : (x == inject_Z c)%Q -> Qle_bool x (inject_Z a) = (c <=? a).
Proof.
  intros E. destruct (Qle_bool x (inject_Z a)) eqn:E1; symmetry.
  - apply Qle_bool_iff in E1. rewrite E in E1. apply Z.leb_le. rewrite Zle_Qle. exact E1.
  - apply Z.leb_gt. apply Z.nle_gt. intros C. rewrite Zle_Qle, <- E in C. apply Qle_bool_iff in C. congruence.
Qed.
Lemma not_half c x : 1 <= c -> (x == inject_Z c)%Q -> Qle_bool x (1 # 2) = false.
Proof.
  intros H E. destruct (Qle_bool x (1 # 2)) eqn:E1; [|reflexivity]. apply Qle_bool_iff in E1. rewrite E in E1. unfold Qle in E1. cbn in E1. lia.
Qed.
Lemma look_good want : forall ws temp prev, good (prev :: ws) -> look base want temp prev ws = (temp, ws).
Proof.
  induction ws as [|c r IH]; intros temp prev G; cbn [look]; [reflexivity|].
  destruct (good_hd _ _ _ G) as (k & Hk & E). assert (R := ratio k prev c E).
  destruct (Qle_bool 2 (inject_Z (c - prev) / base)); [reflexivity|]. rewrite (not_half k _ (proj1 Hk) R).
  rewrite (IH temp c (good_tl _ _ G)). reflexivity.
Qed.
Definition lost (ts : list Z) : Z := fold_right (fun g s => g / d - 1 + s) 0 (steps_of ts).
Lemma round_good a b ws c : good (a :: b :: ws) ->
  round_of base a b ws c = (a :: b :: ws, mkC (c_miss c + ((b - a) / d - 1)) (c_late c) (c_red c)).
Proof.
  intros G. destruct (good_hd _ _ _ G) as (k & Hk & E). assert (R := ratio k a b E). unfold round_of.
  assert (Nz : Qeq_bool base 0 = false).
  { destruct (Qeq_bool base 0) eqn:E0; [|reflexivity]. apply Qeq_bool_iff in E0. rewrite Hb in E0. apply inj_nz in E0; [destruct E0|lia]. }
  rewrite Nz, (not_half k _ (proj1 Hk) R). change 2%Q with (inject_Z 2). change 9%Q with (inject_Z 9).
  rewrite (le_whole_l 2 k _ R), (le_whole_r 9 k _ R). rewrite E, Z.div_mul by lia. rewrite <- E.
  destruct (2 <=? k) eqn:E2; cbn [andb].
  - apply Z.leb_le in E2. replace (k <=? 9) with true by (symmetry; apply Z.leb_le; lia).
    assert (W : round_q (inject_Z (b - a) / base - 1) = k - 1).
    { unfold round_q. assert (Eq : (inject_Z (b - a) / base - 1 + (1 # 2) == inject_Z (k - 1) + (1 # 2))%Q).
      { rewrite R. unfold Z.sub. rewrite inject_Z_plus. reflexivity. }
      rewrite Eq. apply round_whole. }
    rewrite W, (look_good (k - 1) ws 0 b (good_tl _ _ G)). do 2 f_equal; lia.
  - apply Z.leb_gt in E2. destruct c as [m l r]. cbn [c_miss c_late c_red]. do 2 f_equal. lia.
Qed.
Lemma refill_app w rest : fst (refill w rest) ++ snd (refill w rest) = w ++ rest.
Proof. unfold refill. cbn [fst snd]. rewrite <- app_assoc, firstn_skipn. reflexivity. Qed.
Lemma refill_full w rest : snd (refill w rest) = [] \/ (10 <= length (fst (refill w rest)))%nat.
Proof.
  unfold refill. cbn [fst snd]. destruct (Nat.le_gt_cases (length rest) (10 - length w)) as [L|L].
  - left. apply skipn_all2. exact L.
  - right. rewrite app_length, firstn_length. lia.
Qed.
Lemma detect_good : forall fuel w rest c, good (w ++ rest) -> (rest = [] \/ (2 <= length w)%nat) -> (length (w ++ rest) <= fuel)%nat ->
  detect fuel base w rest c = mkC (c_miss c + lost (w ++ rest)) (c_late c) (c_red c).
Proof.
  induction fuel as [|fuel IH]; intros w rest c G F L.
  - destruct (w ++ rest) eqn:E; [|cbn in L; lia]. unfold lost. cbn. destruct c as [m l r]. cbn [c_miss c_late c_red]. rewrite Z.add_0_r. reflexivity.
  - cbn [detect]. destruct w as [|a [|b ws]].
    + destruct F as [-> | F]; [|cbn in F; lia]. unfold lost. cbn. destruct c as [m l r]. cbn [c_miss c_late c_red]. rewrite Z.add_0_r. reflexivity.
    + destruct F as [-> | F]; [|cbn in F; lia]. unfold lost. cbn. destruct c as [m l r]. cbn [c_miss c_late c_red]. rewrite Z.add_0_r. reflexivity.
    + cbn [app] in G, L. assert (Gw : good (a :: b :: ws)).
      { intros g Hg. apply G. clear - Hg. revert a b Hg. induction ws as [|x ws IH]; intros a b Hg.
        - destruct Hg as [<-|[]]. destruct rest; left; reflexivity.
        - destruct Hg as [<-|Hg]; [left; reflexivity|]. right. apply (IH b x). exact Hg. }
      rewrite (round_good a b ws c Gw). cbn [tl].
      assert (A := refill_app (b :: ws) rest). assert (U := refill_full (b :: ws) rest).
      destruct (refill (b :: ws) rest) as [w2 rest2]. cbn [fst snd] in A, U. rewrite IH.
      * rewrite A. cbn [c_miss c_late c_red app]. f_equal. unfold lost. cbn [steps_of fold_right].
        assert (Q1 : forall x y : Z, x = y -> c_miss c + ((b - a) / d - 1) + x = c_miss c + ((b - a) / d - 1 + y)) by (intros; subst; lia).
        apply Q1. reflexivity.
      * rewrite A. apply (good_tl a). exact G.
      * destruct U as [U|U]; [left; exact U|right; lia].
      * rewrite A. cbn [app length] in *. lia.
Qed.
Lemma lost_total : forall ts a, good (a :: ts) -> (lost (a :: ts) + Z.of_nat (length ts)) * d = last (a :: ts) 0 - a.
Proof.
  induction ts as [|b ts IH]; intros a G; [cbn; lia|].
  destruct (good_hd _ _ _ G) as (k & Hk & E). specialize (IH b (good_tl _ _ G)).
  assert (El : lost (a :: b :: ts) = (b - a) / d - 1 + lost (b :: ts)) by reflexivity. rewrite El, E, Z.div_mul by lia.
  change (last (a :: b :: ts) 0) with (last (b :: ts) 0). cbn [length]. nia.
Qed.
End Spaced.

Lemma time_detect_spaced d ts : spaced d ts -> time_detect ts = mkC (lost d ts) 0 0.
Proof.
  intros Sp. assert (B := base_is d ts Sp). destruct Sp as (Hd & Hc & _). unfold time_detect.
  rewrite (detect_good d (median_q (gaps_q ts)) Hd B).
  - rewrite firstn_skipn. reflexivity.
  - rewrite firstn_skipn. exact Hc.
  - destruct (Nat.le_gt_cases (length ts) 10) as [L|L]; [left; apply skipn_all2; exact L|right; rewrite firstn_length; lia].
  - rewrite firstn_skipn. lia.
Qed.
Lemma present_specials : forall vs, present vs + specials vs = Z.of_nat (length vs).
Proof.
  intros vs. unfold present, specials. induction vs as [|[q|] vs IH]; cbn [flat_map filter length app]; [reflexivity|lia..].
Qed.

Lemma steps_sorted : forall ts, (forall g, In g (steps_of ts) -> 0 < g) -> StronglySorted Z.lt ts.
Proof.
  induction ts as [|a ts IH]; intros H; [constructor|]. assert (Hs : StronglySorted Z.lt ts).
  { apply IH. intros g Hg. apply H. destruct ts; [destruct Hg|right; exact Hg]. }
  constructor; [exact Hs|]. destruct ts as [|b r]; [constructor|]. assert (a < b) by (assert (Q1 := H (b - a) (or_introl eq_refl)); lia).
  inversion Hs as [|? ? _ F]; subst. constructor; [assumption|]. eapply Forall_impl; [|exact F]. cbn. intros; lia.
Qed.
Lemma lt_le_rows {A} : forall s : list (Z * A), StronglySorted Z.lt (map fst s) -> StronglySorted (fun a b => fst a <= fst b) s.
Proof.
  induction s as [|x s IH]; intros H; [constructor|]. cbn in H. inversion H as [|? ? Hs F]; subst. constructor; [apply IH; exact Hs|].
  rewrite Forall_map in F. eapply Forall_impl; [|exact F]. cbn. intros; lia.
Qed.
Lemma column_same ty (rows : list (Z * option Q)) : ty <> CUInt -> map (fun r => (fst r, column_value ty (snd r))) rows = rows.
Proof.
  intros H. rewrite <- (map_id rows) at 2. apply map_ext. intros [t v]. destruct ty; try reflexivity. congruence.
Qed.

(** two values are enough for nan_process *)
Lemma two_known : forall vs a u b v, nth_error vs a = Some (Some u) -> nth_error vs b = Some (Some v) -> (a < b)%nat ->
  (find_known vs (S (find_known vs 0 0)) 0 < length vs)%nat.
Proof.
  intros vs a u b v Ka Kb Hab.
  assert (H1 := find_known_spec vs 0 0). cbv zeta in H1. set (i1 := find_known vs 0 0) in *. cbn [Nat.add] in H1.
  assert (H2 := find_known_spec vs (S i1) 0). cbv zeta in H2. set (i2 := find_known vs (S i1) 0) in *. cbn [Nat.add] in H2.
  destruct H1 as (_ & N1 & _ & _). destruct H2 as (_ & N2 & _ & _).
  assert (La : (a < length vs)%nat) by (apply nth_error_Some; congruence). assert (Lb : (b < length vs)%nat) by (apply nth_error_Some; congruence).
  assert (I1 : (i1 <= a)%nat).
  { destruct (Nat.le_gt_cases i1 a); [assumption|]. assert (Q1 := N1 a ltac:(lia) ltac:(lia) La). rewrite Nat.sub_0_r in Q1. congruence. }
  destruct (Nat.le_gt_cases i2 b); [lia|]. assert (Q1 := N2 b ltac:(lia) ltac:(lia) Lb). rewrite Nat.sub_0_r in Q1. congruence.
Qed.
Lemma present_two : forall vs, 2 <= present vs -> exists a u b v, nth_error vs a = Some (Some u) /\ nth_error vs b = Some (Some v) /\ (a < b)%nat.
Proof.
  assert (One : forall vs, 1 <= present vs -> exists a u, nth_error vs a = Some (Some u)).
  { induction vs as [|[q|] vs IH]; intros H; [unfold present in H; cbn [flat_map length] in H; lia|exists 0%nat, q; reflexivity|].
    destruct IH as (a & u & E); [exact H|]. exists (S a), u. exact E. }
  induction vs as [|[q|] vs IH]; intros H; [unfold present in H; cbn [flat_map length] in H; lia| |].
  - destruct (One vs) as (b & v & E). { unfold present in *. cbn [flat_map app length] in H. lia. }
    exists 0%nat, q, (S b), v. split; [reflexivity|]. split; [exact E|lia].
  - destruct IH as (a & u & b & v & E1 & E2 & L); [exact H|]. exists (S a), u, (S b), v. split; [exact E1|]. split; [exact E2|lia].
Qed.
Lemma nan_process_answers ts vs : 2 <= present vs -> exists out, nan_process ts vs = Done out.
Proof.
  intros H. apply present_two in H. destruct H as (a & u & b & v & Ka & Kb & L). assert (T := two_known vs a u b v Ka Kb L).
  unfold nan_process. replace (length vs <=? find_known vs (S (find_known vs 0 0)) 0)%nat with false by (symmetry; apply Nat.leb_gt; exact T).
  destruct (middle_e _ _ _ _ _ _) as [[? ?] ?]. eauto.
Qed.

Lemma spaced_sorted d ts : spaced d ts -> StronglySorted Z.lt ts.
Proof. intros (Hd & Hc & _). apply steps_sorted. intros g Hg. destruct (Hc g Hg) as (c & H1 & ->). nia. Qed.

Lemma spaced_scores ty rows d n : ty <> CUInt -> spaced d (map fst rows) -> expected d (map fst rows) n -> 2 <= present (map snd rows) ->
  (exists q, select_quality ty Completeness rows (Done q) /\ (q * inject_Z n == inject_Z (present (map snd rows)))%Q)
  /\ (exists q, select_quality ty Consistency rows (Done q) /\ (q == 1)%Q)
  /\ (exists q, select_quality ty Timeliness rows (Done q) /\ (q == 1)%Q).
Proof.
  intros Ht Sp Ex Pr. assert (Ps := present_specials (map snd rows)). rewrite map_length in Ps.
  assert (Sr : sorted_rows (map (fun r => (fst r, column_value ty (snd r))) rows) rows).
  { rewrite column_same by exact Ht. split; [apply Permutation_refl|]. apply lt_le_rows. apply (spaced_sorted d). exact Sp. }
  destruct (nan_process_answers (map fst rows) (map snd rows) Pr) as [fl En].
  assert (T := time_detect_spaced d (map fst rows) Sp).
  assert (Sl := specials_le (map snd rows)). rewrite map_length in Sl.
  assert (Nn : n = Z.of_nat (length rows) + lost d (map fst rows) /\ 0 < n).
  { destruct Sp as (Hd & Hc & _). unfold expected in Ex.
    assert (Lp : 0 <= lost d (map fst rows)).
    { unfold lost. clear - Hd Hc. induction (steps_of (map fst rows)) as [|g l IH]; cbn [fold_right]; [lia|].
      destruct (Hc g (or_introl eq_refl)) as (c & Hc1 & ->). rewrite Z.div_mul by lia.
      assert (0 <= fold_right (fun g s => g / d - 1 + s) 0 l) by (apply IH; intros x Hx; apply Hc; right; exact Hx). lia. }
    destruct rows as [|[t v] rows]; [exfalso; unfold present in Pr; cbn [map flat_map length] in Pr; lia|]. cbn [map hd] in *.
    assert (Q1 := lost_total d Hd (map fst rows) t Hc). rewrite map_length in Q1. cbn [fst] in *. rewrite Ex in Q1.
    apply Z.mul_reg_r in Q1; [|lia]. cbn [length]. lia. }
  destruct Nn as [En2 Np].
  assert (Nz : ~ (inject_Z n == 0)%Q) by (apply inj_nz; lia).
  assert (Nr : ~ (inject_Z (Z.of_nat (length rows)) == 0)%Q) by (apply inj_nz; lia).
  split; [|split].
  - eexists. split; [exists rows; split; [exact Sr|]; unfold evaluate; rewrite En; cbn [bind]; rewrite T; cbn [c_miss]; reflexivity|].
    rewrite <- En2. replace (present (map snd rows)) with (n - (lost d (map fst rows) + specials (map snd rows))) by lia.
    unfold Z.sub. rewrite (inject_Z_plus n), inject_Z_opp. field. exact Nz.
  - eexists. split; [exists rows; split; [exact Sr|]; unfold evaluate; rewrite En; cbn [bind]; rewrite T; cbn [c_red]; reflexivity|].
    change (inject_Z 0) with 0%Q. field. exact Nr.
  - eexists. split; [exists rows; split; [exact Sr|]; unfold evaluate; rewrite En; cbn [bind]; rewrite T; cbn [c_late]; reflexivity|].
    change (inject_Z 0) with 0%Q. field. exact Nr.
Qed.

(** ** a constant series is valid *)
Definition near (c : Q) (x : ext) : Prop := exists q, x = Fin q /\ (q == c)%Q.
Lemma near_forall_nth c l i : Forall (near c) l -> (i < length l)%nat -> near c (nth i l Nan).
Proof. intros H L. rewrite Forall_forall in H. apply H. apply nth_In. exact L. Qed.
Lemma line_near c ts vs a b i : Forall (near c) vs -> (a < length vs)%nat -> (b < length vs)%nat -> nth b ts 0 - nth a ts 0 <> 0 ->
  near c (line_e ts vs a b i).
Proof.
  intros H La Lb N. destruct (near_forall_nth c vs a H La) as (u & Eu & Hu). destruct (near_forall_nth c vs b H Lb) as (v & Ev & Hv).
  unfold line_e. rewrite Eu, Ev. cbn [sub_e neg_e add_e div_e]. apply inj_nz in N.
  destruct (Qeq_bool (inject_Z (nth b ts 0 - nth a ts 0)) 0) eqn:E; [apply Qeq_bool_iff in E; contradiction|].
  cbn [mul_e add_e]. eexists. split; [reflexivity|]. rewrite Hu, Hv. ring.
Qed.
Lemma pute_near c : forall i v l, near c v -> Forall (near c) l -> Forall (near c) (pute i v l).
Proof.
  induction i; intros v [|x r] Hv H; cbn; auto; inversion H; subst; constructor; auto.
Qed.
Lemma put_line_near c ts a b : nth b ts 0 - nth a ts 0 <> 0 -> forall n i vs, Forall (near c) vs -> (a < length vs)%nat -> (b < length vs)%nat ->
  Forall (near c) (put_line_e n i ts a b vs).
Proof.
  intros N. induction n; intros i vs H La Lb; cbn [put_line_e]; [exact H|]. apply IHn; rewrite ?pute_length; try assumption.
  apply pute_near; [apply line_near; assumption|exact H].
Qed.
Lemma middle_near c ts : (forall x y, (x < y < length ts)%nat -> nth y ts 0 - nth x ts 0 <> 0) -> forall n i a b vs, length vs = length ts ->
  Forall (near c) vs -> (a < b < i)%nat -> (i + n <= length ts)%nat -> (b < length ts)%nat ->
  let '(a', b', vs') := middle_e n i ts a b vs in Forall (near c) vs' /\ (a' < b' < length ts)%nat /\ length vs' = length ts.
Proof.
  intros Df. induction n as [|n IH]; intros i a b vs L H Hab Hn Hb; cbn [middle_e]; [repeat split; auto; lia|].
  destruct (is_nan (nth i vs Nan)); [apply IH; auto; lia|]. apply IH; rewrite ?put_line_e_length; auto; try lia.
  apply put_line_near; try assumption; try lia. apply Df. lia.
Qed.
Lemma sorted_differ ts : StronglySorted Z.lt ts -> forall x y, (x < y < length ts)%nat -> nth y ts 0 - nth x ts 0 <> 0.
Proof.
  intros Sd x y H. assert (G : nth x ts 0 < nth y ts 0); [|lia]. revert x y H. induction Sd as [|z l S1 IH F]; intros x y Hxy; cbn in Hxy; [lia|].
  destruct y as [|y]; [lia|]. destruct x as [|x]; cbn [nth].
  - rewrite Forall_forall in F. apply F. apply nth_In. lia.
  - apply IH. lia.
Qed.
Lemma nan_process_near c ts vs : StronglySorted Z.lt ts -> length vs = length ts -> (2 <= length vs)%nat ->
  Forall (fun v => exists q, v = Some q /\ (q == c)%Q) vs -> exists out, nan_process ts vs = Done out /\ Forall (near c) out /\ length out = length ts.
Proof.
  intros Sd L L2 H. assert (Df := sorted_differ ts Sd). unfold nan_process.
  assert (E1 : find_known vs 0 0 = 0%nat).
  { destruct vs as [|x r]; [cbn in L2; lia|]. inversion H as [|? ? (q & -> & _) _]; subst. reflexivity. }
  assert (E2 : find_known vs 1 0 = 1%nat).
  { destruct vs as [|x [|y r]]; [cbn in L2; lia..|]. inversion H as [|? ? (q & -> & _) H2]; subst. inversion H2 as [|? ? (q2 & -> & _) _]; subst. reflexivity. }
  rewrite E1, E2. replace (length vs <=? 1)%nat with false by (symmetry; apply Nat.leb_gt; lia).
  assert (Hc : Forall (near c) (map cell vs)).
  { rewrite Forall_map. eapply Forall_impl; [|exact H]. intros v (q & -> & Hq). exists q. split; [reflexivity|exact Hq]. }
  assert (H1 : Forall (near c) (put_line_e 1 0 ts 0 1 (map cell vs))) by (apply put_line_near; rewrite ?map_length; try assumption; try lia; apply Df; lia).
  assert (M := middle_near c ts Df (length vs - 2) 2 0 1 (put_line_e 1 0 ts 0 1 (map cell vs))
    ltac:(rewrite put_line_e_length, map_length; exact L) H1 ltac:(lia) ltac:(lia) ltac:(lia)).
  destruct (middle_e (length vs - 2) 2 ts 0 1 (put_line_e 1 0 ts 0 1 (map cell vs))) as [[a b] cur]. destruct M as (M1 & M2 & M3).
  eexists. split; [reflexivity|]. split; [apply put_line_near; try assumption; try lia; apply Df; lia|]. rewrite put_line_e_length. exact M3.
Qed.
Lemma insert_e_perm x : forall l, Permutation (insert_e x l) (x :: l).
Proof.
  induction l as [|y r IH]; cbn [insert_e]; [apply Permutation_refl|]. destruct (le_e x y); [apply Permutation_refl|].
  eapply Permutation_trans; [apply perm_skip, IH|]. apply perm_swap.
Qed.
Lemma sort_e_perm : forall l, Permutation (sort_e l) l.
Proof.
  induction l as [|x l IH]; cbn [sort_e fold_right]; [apply Permutation_refl|].
  eapply Permutation_trans; [apply insert_e_perm|]. apply perm_skip. exact IH.
Qed.
Lemma median_near c l : l <> [] -> Forall (near c) l -> exists m, median_e l = Done (Fin m) /\ (m == c)%Q.
Proof.
  intros Ne H. destruct l as [|x [|y r]]; [congruence| |].
  - inversion H as [|? ? (q & -> & Hq) _]; subst. exists q. split; [reflexivity|exact Hq].
  - unfold median_e. set (l := x :: y :: r) in *.
    assert (E : existsb is_nan l = false).
    { clear - H. induction H as [|z l (q & -> & _) _ IH]; [reflexivity|]. exact IH. }
    rewrite E. assert (Hs : Forall (near c) (sort_e l)) by (eapply Permutation_Forall; [apply Permutation_sym, sort_e_perm|exact H]).
    assert (Ls : length (sort_e l) = length l) by (apply Permutation_length, sort_e_perm).
    assert (Hl : (2 <= length l)%nat) by (unfold l; cbn; lia).
    assert (Hh : (length l / 2 < length l)%nat) by (apply Nat.div_lt; lia).
    destruct (near_forall_nth c (sort_e l) (length l / 2) Hs ltac:(lia)) as (u & Eu & Hu).
    destruct (near_forall_nth c (sort_e l) (length l / 2 - 1) Hs ltac:(lia)) as (v & Ev & Hv).
    rewrite Eu, Ev. destruct (Nat.even (length l)); eexists; split; try reflexivity; [|exact Hu].
    rewrite Hu, Hv. field.
Qed.
Lemma outliers_near c l : l <> [] -> Forall (near c) l -> find_outliers l = Done 0.
Proof.
  intros Ne H. unfold find_outliers, mad_e. destruct (median_near c l Ne H) as (m & -> & Hm). cbn [bind].
  assert (H0 : Forall (near 0) (map (fun v => abs_e (sub_e v (Fin m))) l)).
  { rewrite Forall_map. eapply Forall_impl; [|exact H]. intros x (q & -> & Hq). cbn [abs_e sub_e neg_e add_e]. eexists. split; [reflexivity|].
    assert (E0 : (q + - m == 0)%Q) by (rewrite Hq, Hm; ring). rewrite E0. reflexivity. }
  assert (Ne2 : map (fun v => abs_e (sub_e v (Fin m))) l <> []) by (destruct l; [congruence|discriminate]).
  destruct (median_near 0 _ Ne2 H0) as (s & -> & Hs). cbn [bind].
  rewrite filter_none; [reflexivity|]. intros x Hx. rewrite Forall_forall in H. destruct (H x Hx) as (q & -> & Hq).
  unfold gt_e. cbn [abs_e sub_e neg_e add_e mul_e is_nan negb andb le_e]. assert (E : Qle_bool (Qabs (q + - m)) (3 * ((14826 # 10000) * s)) = true).
  { apply Qle_bool_iff. assert (E0 : (q + - m == 0)%Q) by (rewrite Hq, Hm; ring). rewrite E0, Hs. discriminate. }
  rewrite E. reflexivity.
Qed.
Lemma steps_near c : forall l, Forall (near c) l -> Forall (near 0) (steps_e l).
Proof.
  induction l as [|x [|y r] IH]; intros H; try constructor.
  - inversion H as [|? ? (q & -> & Hq) H2]; subst. inversion H2 as [|? ? (q2 & -> & Hq2) _]; subst. cbn [sub_e neg_e add_e]. eexists. split; [reflexivity|].
    rewrite Hq, Hq2. ring.
  - apply IH. inversion H. assumption.
Qed.
Lemma speeds_near c : forall ts vs, StronglySorted Z.lt ts -> Forall (near c) vs -> Forall (near 0) (speeds_e ts vs).
Proof.
  induction ts as [|t [|u ts] IH]; intros vs Sd H; try constructor. destruct vs as [|x [|y r]]; try constructor.
  - inversion H as [|? ? (q & -> & Hq) H2]; subst. inversion H2 as [|? ? (q2 & -> & Hq2) _]; subst.
    inversion Sd as [|? ? _ F]; subst. inversion F as [|? ? Htu _]; subst. cbn [sub_e neg_e add_e div_e].
    assert (N : ~ (inject_Z (u - t) == 0)%Q) by (apply inj_nz; lia).
    destruct (Qeq_bool (inject_Z (u - t)) 0) eqn:E; [apply Qeq_bool_iff in E; contradiction|].
    eexists. split; [reflexivity|]. rewrite Hq, Hq2. field. exact N.
  - change (Forall (near 0) (speeds_e (u :: ts) (y :: r))). apply IH; [inversion Sd; assumption|inversion H; assumption].
Qed.
Lemma constant_valid ty c rows : ty <> CUInt -> (3 <= length rows)%nat -> StronglySorted Z.lt (map fst rows) ->
  (forall t v, In (t, v) rows -> exists q, v = Some q /\ (q == c)%Q) -> exists q, select_quality ty Validity rows (Done q) /\ (q == 1)%Q.
Proof.
  intros Ht L Sd H.
  assert (Sr : sorted_rows (map (fun r => (fst r, column_value ty (snd r))) rows) rows).
  { rewrite column_same by exact Ht. split; [apply Permutation_refl|]. apply lt_le_rows. exact Sd. }
  destruct (nan_process_near c (map fst rows) (map snd rows) Sd ltac:(rewrite !map_length; reflexivity) ltac:(rewrite map_length; lia)) as (fl & En & Hn & Ln).
  { rewrite Forall_map. apply Forall_forall. intros [t v] Hi. apply (H t v Hi). }
  assert (Nr : ~ (inject_Z (Z.of_nat (length rows)) == 0)%Q) by (apply inj_nz; lia).
  assert (V : exists q, validity (map fst rows) fl = Done q /\ (q == 1)%Q).
  { unfold validity. rewrite map_length in Ln.
    assert (H3 := speeds_near c (map fst rows) fl Sd Hn).
    destruct rows as [|r1 [|r2 [|r3 rest]]]; cbn [length] in L; try lia. destruct fl as [|f1 [|f2 [|f3 frest]]]; cbn [length] in Ln; try discriminate.
    rewrite (outliers_near c) by (try discriminate; exact Hn). cbn [bind].
    rewrite (outliers_near 0) by (try discriminate; apply (steps_near c); exact Hn). cbn [bind].
    rewrite (outliers_near 0) by (try discriminate; exact H3). cbn [bind].
    rewrite (outliers_near 0) by (try discriminate; apply (steps_near 0); exact H3). cbn [bind].
    eexists. split; [reflexivity|]. rewrite map_length. change (inject_Z (0 + 0 + 0 + 0)) with 0%Q. field. exact Nr. }
  destruct V as (q & Ev & Hq). exists q. split; [|exact Hq]. exists rows. split; [exact Sr|]. unfold evaluate. rewrite En. exact Ev.
Qed.

(** ** missing values of a line *)
Section Line.
Variables (a0 b0 : Q) (ts : list Z).
Definition lin (i : nat) : Q := (a0 + b0 * inject_Z (nth i ts 0%Z))%Q.
Definition half_line (vs : list ext) : Prop := forall i, nth i vs Nan = Nan \/ near (lin i) (nth i vs Nan).
Lemma nth_pute : forall i v l j, nth j (pute i v l) Nan = if (j =? i)%nat && (j <? length l)%nat then v else nth j l Nan.
Proof.
  assert (Nil : forall i v j, nth j (@nil ext) Nan = if (j =? i)%nat && (j <? @length ext [])%nat then v else nth j [] Nan).
  { intros. replace (j <? @length ext [])%nat with false by (destruct j; reflexivity). rewrite andb_false_r. reflexivity. }
  induction i; intros v [|x r] j; [apply (Nil 0%nat v j)|destruct j; reflexivity|apply (Nil (S i) v j)|].
  destruct j; [reflexivity|]. cbn [pute nth]. rewrite IHi. reflexivity.
Qed.
Lemma line_lin vs a b i : near (lin a) (nth a vs Nan) -> near (lin b) (nth b vs Nan) -> nth b ts 0 - nth a ts 0 <> 0 ->
  near (lin i) (line_e ts vs a b i).
Proof.
  intros (u & Eu & Hu) (v & Ev & Hv) N. unfold line_e. rewrite Eu, Ev. cbn [sub_e neg_e add_e div_e]. apply inj_nz in N.
  destruct (Qeq_bool (inject_Z (nth b ts 0 - nth a ts 0)) 0) eqn:E; [apply Qeq_bool_iff in E; contradiction|].
  cbn [mul_e add_e]. eexists. split; [reflexivity|]. rewrite Hu, Hv. unfold lin. unfold Z.sub in *. rewrite !inject_Z_plus, !inject_Z_opp in *.
  field. exact N.
Qed.
Lemma put_line_lin a b : nth b ts 0 - nth a ts 0 <> 0 -> forall n i vs, half_line vs -> near (lin a) (nth a vs Nan) -> near (lin b) (nth b vs Nan) ->
  half_line (put_line_e n i ts a b vs) /\ (forall j, near (lin j) (nth j vs Nan) -> near (lin j) (nth j (put_line_e n i ts a b vs) Nan))
  /\ (forall j, (i <= j < i + n)%nat -> (j < length vs)%nat -> near (lin j) (nth j (put_line_e n i ts a b vs) Nan)).
Proof.
  intros N. induction n as [|n IH]; intros i vs H Ha Hb; cbn [put_line_e]; [split; [exact H|]; split; [auto|intros; lia]|].
  assert (K := line_lin vs a b i Ha Hb N).
  assert (P : forall j, near (lin j) (nth j vs Nan) -> near (lin j) (nth j (pute i (line_e ts vs a b i) vs) Nan)).
  { intros j Hj. rewrite nth_pute. destruct ((j =? i)%nat && (j <? length vs)%nat) eqn:E; [|exact Hj].
    apply andb_true_iff in E as [E _]. apply Nat.eqb_eq in E. subst j. exact K. }
  destruct (IH (S i) (pute i (line_e ts vs a b i) vs)) as (A & B & C); [| apply P; exact Ha | apply P; exact Hb |].
  { intros j. destruct (H j) as [E|E]; [|right; apply P; exact E]. rewrite nth_pute.
    destruct ((j =? i)%nat && (j <? length vs)%nat) eqn:F; [|left; exact E]. right. apply andb_true_iff in F as [F _]. apply Nat.eqb_eq in F. subst j. exact K. }
  split; [exact A|]. split; [intros j Hj; apply B, P, Hj|]. intros j Hj L. destruct (Nat.eq_dec j i) as [-> |D].
  - apply B. rewrite nth_pute, Nat.eqb_refl. apply Nat.ltb_lt in L. rewrite L. exact K.
  - apply C; [lia|]. rewrite pute_length. exact L.
Qed.
Hypothesis Df : forall x y, (x < y < length ts)%nat -> nth y ts 0 - nth x ts 0 <> 0.
Lemma middle_lin : forall n i a b vs, length vs = length ts -> half_line vs -> (a < b < i)%nat -> (i + n = length ts)%nat ->
  (forall j, (j <= b)%nat -> near (lin j) (nth j vs Nan)) ->
  let '(a', b', vs') := middle_e n i ts a b vs in half_line vs' /\ (a' < b' < length ts)%nat /\ length vs' = length ts
    /\ (forall j, (j <= b')%nat -> near (lin j) (nth j vs' Nan)).
Proof.
  induction n as [|n IH]; intros i a b vs L H Hab Hn Hb; cbn [middle_e]; [repeat split; auto; lia|].
  destruct (is_nan (nth i vs Nan)) eqn:E; [apply IH; auto; lia|].
  assert (Hi : near (lin i) (nth i vs Nan)) by (destruct (H i) as [F|F]; [rewrite F in E; discriminate|exact F]).
  destruct (put_line_lin b i ltac:(apply Df; lia) (i - S b) (S b) vs H (Hb b ltac:(lia)) Hi) as (A & B & C).
  apply IH; rewrite ?put_line_e_length; auto; try lia. intros j Hj.
  destruct (Nat.le_gt_cases j b); [apply B, Hb; assumption|]. destruct (Nat.eq_dec j i) as [-> |D]; [apply B; exact Hi|]. apply C; lia.
Qed.
End Line.
Lemma nan_process_lin a0 b0 ts vs : StronglySorted Z.lt ts -> length vs = length ts -> 2 <= present vs ->
  (forall i q, nth_error vs i = Some (Some q) -> (q == a0 + b0 * inject_Z (nth i ts 0%Z))%Q) ->
  exists out, nan_process ts vs = Done out /\ length out = length ts /\
    forall i, (i < length ts)%nat -> near (a0 + b0 * inject_Z (nth i ts 0%Z))%Q (nth i out Nan).
Proof.
  intros Sd L P H. assert (Df := sorted_differ ts Sd). apply present_two in P. destruct P as (a & u & b & v & Ka & Kb & Lab).
  assert (T := two_known vs a u b v Ka Kb Lab). unfold nan_process.
  replace (length vs <=? find_known vs (S (find_known vs 0 0)) 0)%nat with false by (symmetry; apply Nat.leb_gt; exact T).
  assert (H1 := find_known_spec vs 0 0). cbv zeta in H1. set (i1 := find_known vs 0 0) in *. cbn [Nat.add] in H1.
  assert (H2 := find_known_spec vs (S i1) 0). cbv zeta in H2. set (i2 := find_known vs (S i1) 0) in *. cbn [Nat.add] in H2.
  destruct H1 as (_ & _ & K1 & _). destruct H2 as (I12 & _ & K2 & _). destruct (K2 T) as (_ & q2 & E2). destruct (K1 ltac:(lia)) as (_ & q1 & E1).
  rewrite Nat.sub_0_r in E1, E2.
  assert (HC : forall i, nth i (map cell vs) Nan = match nth_error vs i with Some x => cell x | None => Nan end).
  { intros i. destruct (nth_error vs i) eqn:E; [apply nth_error_nth, (map_nth_error cell _ _ E)|]. apply nth_overflow. rewrite map_length. apply nth_error_None. exact E. }
  assert (HK : forall i q, nth_error vs i = Some (Some q) -> near (lin a0 b0 ts i) (nth i (map cell vs) Nan)).
  { intros i q E. rewrite HC, E. exists q. split; [reflexivity|]. apply (H i q E). }
  assert (HL : half_line a0 b0 ts (map cell vs)).
  { intros i. destruct (nth_error vs i) as [[q|]|] eqn:E; [right; apply (HK i q E)| |]; left; rewrite HC, E; reflexivity. }
  destruct (put_line_lin a0 b0 ts i1 i2 ltac:(apply Df; lia) i2 0 (map cell vs) HL (HK _ _ E1) (HK _ _ E2)) as (A & B & C).
  assert (M := middle_lin a0 b0 ts Df (length vs - S i2) (S i2) i1 i2 (put_line_e i2 0 ts i1 i2 (map cell vs))).
  destruct (middle_e _ _ _ _ _ _) as [[a' b'] cur]. destruct M as (M1 & M2 & M3 & M4).
  - rewrite put_line_e_length, map_length. exact L.
  - exact A.
  - lia.
  - lia.
  - intros j Hj. destruct (Nat.eq_dec j i2) as [-> |D]; [apply B, (HK _ _ E2)|]. apply C; [lia|]. rewrite map_length. lia.
  - destruct (put_line_lin a0 b0 ts a' b' ltac:(apply Df; lia) (length vs - S b') (S b') cur M1 (M4 a' ltac:(lia)) (M4 b' ltac:(lia))) as (_ & B2 & C2).
    eexists. split; [reflexivity|]. split; [rewrite put_line_e_length; exact M3|]. intros i Hi.
    destruct (Nat.le_gt_cases i b'); [apply B2, M4; assumption|]. apply C2; lia.
Qed.
Lemma validity_near c ts fl : StronglySorted Z.lt ts -> (3 <= length ts)%nat -> length fl = length ts -> Forall (near c) fl ->
  exists q, validity ts fl = Done q /\ (q == 1)%Q.
Proof.
  intros Sd L Ln Hn. assert (Nr : ~ (inject_Z (Z.of_nat (length ts)) == 0)%Q) by (apply inj_nz; lia). unfold validity.
  assert (H3 := speeds_near c ts fl Sd Hn).
  destruct ts as [|r1 [|r2 [|r3 rest]]]; cbn [length] in L; try lia. destruct fl as [|f1 [|f2 [|f3 frest]]]; cbn [length] in Ln; try discriminate.
  rewrite (outliers_near c) by (try discriminate; exact Hn). cbn [bind].
  rewrite (outliers_near 0) by (try discriminate; apply (steps_near c); exact Hn). cbn [bind].
  rewrite (outliers_near 0) by (try discriminate; exact H3). cbn [bind].
  rewrite (outliers_near 0) by (try discriminate; apply (steps_near 0); exact H3). cbn [bind].
  eexists. split; [reflexivity|]. change (inject_Z (0 + 0 + 0 + 0)) with 0%Q. field. exact Nr.
Qed.
Lemma constant_missing_valid ty c rows : ty <> CUInt -> (3 <= length rows)%nat -> StronglySorted Z.lt (map fst rows) -> 2 <= present (map snd rows) ->
  (forall t q, In (t, Some q) rows -> (q == c)%Q) -> exists q, select_quality ty Validity rows (Done q) /\ (q == 1)%Q.
Proof.
  intros Ht L Sd Pr H.
  assert (Sr : sorted_rows (map (fun r => (fst r, column_value ty (snd r))) rows) rows).
  { rewrite column_same by exact Ht. split; [apply Permutation_refl|]. apply lt_le_rows. exact Sd. }
  destruct (nan_process_lin c 0 (map fst rows) (map snd rows) Sd ltac:(rewrite !map_length; reflexivity) Pr) as (fl & En & Ln & Hn).
  { intros i q E. rewrite Qmult_0_l, Qplus_0_r. destruct (nth_error rows i) as [[t v]|] eqn:F.
    - rewrite (map_nth_error snd _ _ F) in E. injection E as E. cbn in E. subst v. apply (H t q). apply nth_error_In with i. exact F.
    - exfalso. apply nth_error_None in F. assert (G : nth_error (map snd rows) i = None) by (apply nth_error_None; rewrite map_length; exact F). congruence. }
  destruct (validity_near c (map fst rows) fl Sd ltac:(rewrite map_length; exact L) Ln) as (q & Ev & Hq).
  { apply Forall_forall. intros x Hx. apply In_nth with (d := Nan) in Hx. destruct Hx as (i & Hi & <-). rewrite Ln in Hi.
    destruct (Hn i Hi) as (q & Eq & Hq). exists q. split; [exact Eq|]. rewrite Hq. ring. }
  exists q. split; [|exact Hq]. exists rows. split; [exact Sr|]. unfold evaluate. rewrite En. exact Ev.
Qed.

(** ** no change of speed *)
Lemma median_e_or l : (exists m, median_e l = Done m) \/ median_e l = Panic.
Proof. destruct l as [|x [|y r]]; cbn [median_e]; [right; reflexivity|left; eauto|]. destruct (existsb is_nan (x :: y :: r)); [right; reflexivity|left; eauto]. Qed.
Lemma outliers_or l : (exists a, find_outliers l = Done a) \/ find_outliers l = Panic.
Proof.
  unfold find_outliers, mad_e. destruct (median_e_or l) as [[m ->]| ->]; cbn [bind]; [|right; reflexivity].
  destruct (median_e_or (map (fun v => abs_e (sub_e v m)) l)) as [[s ->]| ->]; cbn [bind]; [left; eauto|right; reflexivity].
Qed.
Lemma validity_panics ts vs : steps_e (speeds_e ts vs) = [] -> validity ts vs = Panic.
Proof.
  intros E. unfold validity. rewrite E. destruct (outliers_or vs) as [[a ->]| ->]; cbn [bind]; [|reflexivity].
  destruct (outliers_or (steps_e vs)) as [[b ->]| ->]; cbn [bind]; [|reflexivity].
  destruct (outliers_or (speeds_e ts vs)) as [[c ->]| ->]; reflexivity.
Qed.
