(** Proofs about the metrics. *)
From Verif Require Import Prelude MetricModel MetricSpec.
From Coq Require Import Lia Permutation Sorted.
Open Scope Z_scope.

Lemma wadd_l a b : wadd (a mod W64) b = wadd a b.
Proof. unfold wadd. apply Zplus_mod_idemp_l. Qed.
Lemma wadd_r a b : wadd a (b mod W64) = wadd a b.
Proof. unfold wadd. apply Zplus_mod_idemp_r. Qed.
Lemma wadd_mod a b : wadd a b = (a + b) mod W64. Proof. reflexivity. Qed.

(** sorting *)
Lemma insert_perm x l : Permutation (insert_le x l) (x :: l).
Proof. induction l as [|y r IH]; cbn [insert_le]; [reflexivity|]. destruct (x <=? y); [reflexivity|]. rewrite IH. apply perm_swap. Qed.
Lemma sort_perm l : Permutation (sort_le l) l.
Proof. induction l as [|x r IH]; cbn [sort_le]; [reflexivity|]. rewrite insert_perm, IH. reflexivity. Qed.
Lemma insert_sorted x l : StronglySorted Z.le l -> StronglySorted Z.le (insert_le x l).
Proof.
  induction l as [|y r IH]; intros H; cbn [insert_le]; [repeat constructor|]. inversion H as [|? ? S0 F]; subst.
  destruct (x <=? y) eqn:E.
  - apply Z.leb_le in E. constructor; [exact H|]. constructor; [exact E|]. eapply Forall_impl; [|exact F]. cbn. intros; lia.
  - apply Z.leb_gt in E. constructor; [apply IH; exact S0|]. apply Forall_forall. intros z I.
    apply (Permutation_in _ (insert_perm x r)) in I. destruct I as [<- |I]; [lia|]. rewrite Forall_forall in F. apply F. exact I.
Qed.
Lemma sort_sorted l : StronglySorted Z.le (sort_le l).
Proof. induction l as [|x r IH]; cbn [sort_le]; [constructor|]. apply insert_sorted. exact IH. Qed.

(** one observation *)
Definition cums (f : Z -> Z) (les : list Z) : list (option Z * Z) := map (fun le => (upper le, f le mod W64)) les.
Definition les (bs : list bucket) : list Z := map b_le bs.
Lemma bump_les v n bs bs' : bump v n bs = Some bs' -> les bs' = les bs.
Proof.
  revert bs'. induction bs as [|b r IH]; intros bs'; cbn [bump]; [discriminate|]. destruct (v <=? b_le b).
  - intros H. injection H as <-. reflexivity.
  - destruct (bump v n r) as [r'|]; [|discriminate]. intros H. injection H as <-. unfold les in *. cbn [map]. rewrite (IH r' eq_refl). reflexivity.
Qed.
Lemma bump_some v n bs : (exists bs', bump v n bs = Some bs') <-> covered (les bs) v = true.
Proof.
  induction bs as [|b r IH]; cbn [bump les map covered existsb].
  - split; [intros (? & H); discriminate | discriminate].
  - destruct (v <=? b_le b); cbn [orb]; [split; [reflexivity | intros _; eexists; reflexivity]|].
    unfold covered, les in IH. rewrite <- IH. destruct (bump v n r) as [r'|]; split; intros (x & H); try discriminate; eexists; reflexivity.
Qed.
Lemma cumulate_shift bs : forall acc n f, cumulate acc bs = cums f (les bs) -> cumulate (wadd acc n) bs = cums (fun le => f le + n) (les bs).
Proof.
  induction bs as [|b r IH]; intros acc n f H; [reflexivity|].
  assert (X : forall g l, cums g l = map (fun le => (upper le, g le mod W64)) l) by reflexivity.
  rewrite X in *. cbn [cumulate les map] in *. injection H as H1 H2.
  assert (E : wadd (wadd acc n) (b_count b) = wadd (wadd acc (b_count b)) n).
  { unfold wadd. rewrite !Zplus_mod_idemp_l. f_equal. lia. }
  rewrite E. f_equal.
  - f_equal. rewrite H1. apply wadd_l.
  - specialize (IH (wadd acc (b_count b)) n f). rewrite !X in IH. apply IH. exact H2.
Qed.
Lemma cums_map f l : cums f l = map (fun le => (upper le, f le mod W64)) l. Proof. reflexivity. Qed.
Lemma bump_cums v n bs : forall acc f bs', StronglySorted Z.le (les bs) -> cumulate acc bs = cums f (les bs) -> bump v n bs = Some bs' ->
  cumulate acc bs' = cums (fun le => f le + if v <=? le then n else 0) (les bs).
Proof.
  induction bs as [|b r IH]; intros acc f bs' S0 H B; [discriminate|]. cbn [bump] in B.
  inversion S0 as [|? ? S1 F]; subst. pose proof H as H0. rewrite cums_map in H. cbn [cumulate les map] in H. injection H as H1 H2.
  destruct (v <=? b_le b) eqn:E.
  - injection B as <-. rewrite cums_map. cbn [cumulate les map b_le b_count]. rewrite E.
    assert (A : wadd acc (wadd (b_count b) n) = wadd (wadd acc (b_count b)) n).
    { unfold wadd. rewrite Zplus_mod_idemp_r, Zplus_mod_idemp_l. f_equal. lia. }
    rewrite A. f_equal; [f_equal; rewrite H1; apply wadd_l|].
    rewrite (cumulate_shift r _ n f) by (rewrite cums_map; exact H2). rewrite cums_map. apply map_ext_in. intros le I.
    rewrite Forall_forall in F. specialize (F le I). replace (v <=? le) with true by (symmetry; apply Z.leb_le; apply Z.leb_le in E; lia). reflexivity.
  - destruct (bump v n r) as [r'|] eqn:Q; [|discriminate]. injection B as <-. rewrite cums_map. cbn [cumulate les map]. rewrite E, Z.add_0_r.
    f_equal; [f_equal; exact H1|]. rewrite (IH (wadd acc (b_count b)) f r' S1) by (rewrite ?cums_map; auto). apply cums_map.
Qed.

Definition state_ok (ts : list Z) (f : Z -> Z) (t : Z) (h : hist) : Prop :=
  les (h_buckets h) = ts /\ cumulate 0 (h_buckets h) = cums f ts /\ h_total h = t mod W64.
Lemma record_ok ts f t h v n : StronglySorted Z.le ts -> state_ok ts f t h ->
  state_ok ts (fun le => f le + if v <=? le then n else 0) (t + if covered ts v then v * n else 0) (record h (v, n)).
Proof.
  intros S0 (L & C & T). unfold record. cbn [fst snd]. destruct (bump v n (h_buckets h)) as [bs|] eqn:B.
  - assert (K : covered ts v = true) by (rewrite <- L; apply (bump_some v n); eexists; exact B). rewrite K.
    split; [|split]; cbn [h_buckets h_total].
    + rewrite (bump_les _ _ _ _ B). exact L.
    + rewrite <- L in *. eapply bump_cums; eauto.
    + rewrite T. unfold wmul. rewrite wadd_r, wadd_l. apply wadd_mod.
  - assert (K : covered ts v = false).
    { destruct (covered ts v) eqn:K; [|reflexivity]. rewrite <- L in K. apply (bump_some v n) in K. destruct K as (x & K). congruence. }
    rewrite K. split; [exact L|]. split; [|rewrite Z.add_0_r; exact T]. rewrite C, !cums_map. apply map_ext_in. intros le I. f_equal. f_equal.
    destruct (v <=? le) eqn:E; [|lia]. exfalso. unfold covered in K. assert (X : existsb (fun t => v <=? t) ts = true) by (apply existsb_exists; exists le; auto). congruence.
Qed.
Lemma records_ok ts : StronglySorted Z.le ts -> forall xs f t h, state_ok ts f t h ->
  state_ok ts (fun le => f le + how_many (fun v => v <=? le) xs) (t + their_sum (covered ts) xs) (records h xs).
Proof.
  intros S0. induction xs as [|[v n] xs IH]; intros f t h H.
  - destruct H as (A & B & C). split; [exact A|]. split; cbn [records fold_left]; [rewrite B, !cums_map; apply map_ext; intros le; f_equal; f_equal; unfold how_many; cbn; lia|].
    unfold their_sum. cbn. rewrite Z.add_0_r. exact C.
  - apply (record_ok ts f t h v n S0) in H. apply IH in H. cbn [records fold_left]. destruct H as (A & B & C). split; [exact A|]. split.
    + unfold records in B. rewrite B, !cums_map. apply map_ext. intros le. f_equal. f_equal. unfold how_many. cbn [filter fst].
      destruct (v <=? le); cbn [map sum fold_right snd]; unfold sum; lia.
    + unfold records in C. rewrite C. f_equal. unfold their_sum. cbn [filter fst]. destruct (covered ts v); cbn [map sum fold_right fst snd]; unfold sum; lia.
Qed.
Lemma new_ok ts : state_ok (sort_le ts) (fun _ => 0) 0 (hist_new ts).
Proof.
  unfold hist_new. split; [|split]; cbn [h_buckets h_total].
  - unfold les. rewrite map_map. apply map_id.
  - rewrite cums_map. generalize (sort_le ts). intros l. induction l as [|x l IH]; [reflexivity|]. cbn [map cumulate b_le b_count].
    change (wadd 0 0) with 0. rewrite IH. reflexivity.
  - reflexivity.
Qed.
Lemma last_cons {A} (x : A) l d : last (x :: l) d = last l x.
Proof. revert x. induction l as [|y l IH]; intros x; [reflexivity|]. change (last (x :: y :: l) d) with (last (y :: l) d). rewrite IH. symmetry. destruct l; [reflexivity|]. rewrite <- IH. clear IH. revert y a. induction l as [|z l IH]; intros y a; [reflexivity|]. apply (IH a z). Qed.
Lemma final_count bs : forall acc, fold_left (fun a b => wadd a (b_count b)) bs acc = last (map snd (cumulate acc bs)) acc.
Proof.
  induction bs as [|b r IH]; intros acc; [reflexivity|]. cbn [fold_left cumulate map snd]. rewrite IH, last_cons. reflexivity.
Qed.
Lemma covered_perm a b v : Permutation a b -> covered a v = covered b v.
Proof.
  intros P. unfold covered. apply eq_true_iff_eq. rewrite !existsb_exists. split; intros (x & I & H); exists x; split; auto.
  - apply (Permutation_in _ P I).
  - apply (Permutation_in _ (Permutation_sym P) I).
Qed.
Lemma last_covers ts : StronglySorted Z.le ts -> ts <> [] -> forall v d, covered ts v = (v <=? last ts d).
Proof.
  intros S0 N v d. induction S0 as [|x r S1 IH F]; [contradiction|]. destruct r as [|y r]; [cbn; apply orb_false_r|].
  specialize (IH ltac:(discriminate)). change (covered (x :: y :: r) v) with ((v <=? x) || covered (y :: r) v).
  change (last (x :: y :: r) d) with (last (y :: r) d). rewrite IH.
  destruct (v <=? x) eqn:E; [|reflexivity]. cbn [orb]. symmetry. apply Z.leb_le. apply Z.leb_le in E.
  assert (I : In (last (y :: r) d) (y :: r)). { clear. revert y. induction r as [|z r IH]; intros y; [left; reflexivity|]. right. apply (IH z). }
  rewrite Forall_forall in F. specialize (F _ I). lia.
Qed.
Lemma how_many_ext p q xs : (forall v n, In (v, n) xs -> p v = q v) -> how_many p xs = how_many q xs.
Proof.
  intros H. unfold how_many. f_equal. f_equal. induction xs as [|[v n] xs IH]; [reflexivity|]. cbn [filter fst].
  rewrite (H v n (or_introl eq_refl)), IH; [reflexivity|]. intros v' n' I. apply (H v' n'). right. exact I.
Qed.
Lemma sum_nonneg l : (forall x, In x l -> 0 <= x) -> 0 <= sum l.
Proof. intros H. induction l as [|x l IH]; cbn; [lia|]. assert (0 <= x) by (apply H; left; reflexivity). assert (0 <= sum l) by (apply IH; intros; apply H; right; assumption). unfold sum in *. lia. Qed.
Lemma how_many_bounds p xs : observed xs -> 0 <= how_many p xs <= how_many (fun _ => true) xs.
Proof.
  intros H. induction xs as [|[v n] xs IH]; [cbn; lia|].
  assert (B : 0 <= n) by (apply (H v n); left; reflexivity).
  assert (O1 : observed xs) by (intros a b I; apply H; right; exact I). specialize (IH O1).
  unfold how_many in *. cbn [filter fst]. destruct (p v); cbn [map snd sum fold_right]; unfold sum in *; lia.
Qed.
Lemma their_sum_bounds p xs : observed xs -> 0 <= their_sum p xs <= their_sum (fun _ => true) xs.
Proof.
  intros H. induction xs as [|[v n] xs IH]; [cbn; lia|].
  assert (B : 0 <= v * n). { destruct (H v n ltac:(left; reflexivity)). apply Z.mul_nonneg_nonneg; lia. }
  assert (O1 : observed xs) by (intros a b I; apply H; right; exact I). specialize (IH O1).
  unfold their_sum in *. cbn [filter fst]. remember (v * n) as m. destruct (p v); cbn [map fst snd sum fold_right]; unfold sum in *; rewrite <- ?Heqm; lia.
Qed.
Lemma last_map {A B} (f : A -> B) l d : last (map f l) (f d) = f (last l d).
Proof. induction l as [|x l IH]; [reflexivity|]. destruct l as [|y l]; [reflexivity|]. exact IH. Qed.

Lemma histogram_exact ts xs : observed xs -> how_many (fun _ => true) xs < 2 ^ 64 -> their_sum (fun _ => true) xs < 2 ^ 64 ->
  let r := report (records (hist_new ts) xs) in
  (exists srt, Permutation srt ts /\ StronglySorted Z.le srt /\
     r_buckets r = map (fun le => (upper le, how_many (fun v => v <=? le) xs)) srt) /\
  r_count r = how_many (covered ts) xs /\ r_sum r = their_sum (covered ts) xs.
Proof.
  intros O1 C1 T1 r. destruct (records_ok (sort_le ts) (sort_sorted ts) xs _ _ _ (new_ok ts)) as (L & C & T).
  assert (CP : forall v, covered (sort_le ts) v = covered ts v) by (intros v; apply covered_perm, sort_perm).
  assert (B : cumulate 0 (h_buckets (records (hist_new ts) xs)) = map (fun le => (upper le, how_many (fun v => v <=? le) xs)) (sort_le ts)).
  { rewrite C, cums_map. apply map_ext. intros le. f_equal. rewrite Z.add_0_l. apply Z.mod_small. unfold W64.
    pose proof (how_many_bounds (fun v => v <=? le) xs O1). lia. }
  split; [|split].
  - exists (sort_le ts). split; [apply sort_perm|]. split; [apply sort_sorted|]. exact B.
  - unfold r, report. cbn [r_count]. rewrite final_count, B, map_map. cbn [snd].
    destruct (sort_le ts) as [|t0 tr] eqn:E.
    + cbn. assert (ts = []) by (apply Permutation_nil; rewrite <- E; apply sort_perm). subst ts. symmetry. clear.
      unfold how_many. replace (filter (fun x => covered [] (fst x)) xs) with (@nil (Z * Z)); [reflexivity|]. induction xs; cbn; auto.
    + assert (NE : t0 :: tr <> []) by discriminate. rewrite <- E in *.
      assert (D : last (map (fun le => how_many (fun v => v <=? le) xs) (sort_le ts)) 0 = how_many (fun v => v <=? last (sort_le ts) 0) xs).
      { rewrite E. cbn [map]. rewrite !last_cons. apply (last_map (fun le => how_many (fun v => v <=? le) xs)). }
      rewrite D. apply how_many_ext. intros v n _. rewrite <- CP. symmetry. apply last_covers; [apply sort_sorted | exact NE].
  - unfold r, report. cbn [r_sum]. rewrite T, Z.add_0_l. replace (their_sum (covered (sort_le ts)) xs) with (their_sum (covered ts) xs).
    + apply Z.mod_small. unfold W64. pose proof (their_sum_bounds (covered ts) xs O1). lia.
    + unfold their_sum. f_equal. f_equal. apply filter_ext. intros [v n]. cbn [fst]. symmetry. apply CP.
Qed.
Lemma counter_sum incs : forall a, fold_left wadd incs (a mod W64) = (a + sum incs) mod W64.
Proof.
  induction incs as [|x r IH]; intros a; cbn [fold_left sum fold_right]; [f_equal; lia|].
  rewrite wadd_l. unfold wadd. rewrite IH. f_equal. unfold sum. lia.
Qed.

Lemma av_adds vs : forall c t lc lt r, (forall v, In v vs -> 0 <= v) -> 0 <= c -> 0 <= t -> c + Z.of_nat (length vs) < W64 -> t + sum vs < W64 ->
  av_run (AV c t lc lt) (add_calls vs ++ r) = av_run (AV (c + Z.of_nat (length vs)) (t + sum vs) lc lt) r.
Proof.
  induction vs as [|v vs IH]; intros c t lc lt r P C T C1 T1.
  - cbn. f_equal. f_equal; lia.
  - cbn [add_calls flat_map app av_run av_step a_count a_total a_lcount a_ltotal]. fold (add_calls vs).
    assert (V : 0 <= v) by (apply P; left; reflexivity).
    assert (SN : 0 <= sum vs) by (apply sum_nonneg; intros x I; apply P; right; exact I).
    cbn [length sum fold_right] in C1, T1 |- *. fold (sum vs) in T1 |- *. rewrite Nat2Z.inj_succ in *.
    unfold wadd. rewrite (Z.mod_small (c + 1)), (Z.mod_small (t + v)) by lia.
    rewrite IH; [f_equal; f_equal; lia | intros x I; apply P; right; exact I | lia | lia | lia | lia].
Qed.

(** the rows of the system tables *)
Definition all_counts (bs : list bucket) : Z := sum (map b_count bs).
Definition upto (le : Z) (bs : list bucket) : Z := sum (map b_count (filter (fun b => b_le b <=? le) bs)).
Lemma bump_exact v n bs : forall bs' le, 0 <= n -> StronglySorted Z.le (les bs) -> Forall (fun b => 0 <= b_count b) bs -> all_counts bs + n < W64 ->
  In le (les bs) -> bump v n bs = Some bs' ->
  Forall (fun b => 0 <= b_count b) bs' /\ all_counts bs' = all_counts bs + n /\ upto le bs' = upto le bs + (if v <=? le then n else 0).
Proof.
  induction bs as [|b r IH]; intros bs' le N S0 P L I B; [discriminate|]. cbn [bump] in B.
  inversion S0 as [|? ? S1 F]; subst. inversion P as [|? ? P1 P2]; subst.
  assert (R0 : 0 <= all_counts r) by (apply sum_nonneg; intros x J; apply in_map_iff in J; destruct J as (y & <- & J); rewrite Forall_forall in P2; auto).
  unfold all_counts in *. cbn [map sum fold_right] in *. fold (sum (map b_count r)) in *.
  destruct (v <=? b_le b) eqn:E.
  - injection B as <-. assert (X : wadd (b_count b) n = b_count b + n) by (apply Z.mod_small; lia). rewrite X.
    apply Z.leb_le in E. assert (LE : b_le b <= le) by (destruct I as [<- |I]; [lia | rewrite Forall_forall in F; apply F; exact I]).
    split; [constructor; [cbn; lia | exact P2]|]. cbn [map sum fold_right b_count]. fold (sum (map b_count r)). split; [lia|].
    unfold upto. cbn [filter b_le]. replace (b_le b <=? le) with true by (symmetry; apply Z.leb_le; exact LE).
    replace (v <=? le) with true by (symmetry; apply Z.leb_le; lia). cbn [map sum fold_right b_count]. unfold sum. lia.
  - destruct (bump v n r) as [r'|] eqn:Q; [|discriminate]. injection B as <-.
    apply Z.leb_gt in E. destruct (in_dec Z.eq_dec le (les r)) as [J|J].
    + destruct (IH r' le N S1 P2 ltac:(lia) J eq_refl) as (A & C & D). split; [constructor; assumption|].
      cbn [map sum fold_right]. fold (sum (map b_count r')). split; [lia|]. unfold upto in *. cbn [filter]. destruct (b_le b <=? le); cbn [map sum fold_right]; unfold sum in *; lia.
    + destruct I as [<- |I]; [|contradiction]. assert (NE : les r <> []) by (destruct r; [discriminate | cbn; discriminate]).
      assert (J1 : exists le1, In le1 (les r)) by (destruct (les r) as [|x ?]; [contradiction | exists x; left; reflexivity]).
      destruct J1 as (le1 & J1). destruct (IH r' le1 N S1 P2 ltac:(lia) J1 eq_refl) as (A & C & _). split; [constructor; assumption|].
      cbn [map sum fold_right]. fold (sum (map b_count r')). split; [lia|].
      assert (Z0 : forall q, les q = les r -> filter (fun x => b_le x <=? b_le b) q = []).
      { intros q EQ. assert (K : forall x, In x q -> b_le b < b_le x).
        { intros x K. assert (K1 : In (b_le x) (les r)) by (rewrite <- EQ; apply in_map; exact K). rewrite Forall_forall in F. pose proof (F _ K1).
          assert (b_le x <> b_le b) by (intros W; rewrite W in K1; contradiction). lia. }
        clear - K. induction q as [|x q IHq]; [reflexivity|]. cbn [filter]. assert (X := K x (or_introl eq_refl)).
        replace (b_le x <=? b_le b) with false by (symmetry; apply Z.leb_gt; lia). apply IHq. intros y I. apply K. right. exact I. }
      unfold upto. cbn [filter]. rewrite (Z0 r eq_refl), (Z0 r' (bump_les v n r r' Q)). replace (v <=? b_le b) with false by (symmetry; apply Z.leb_gt; lia).
      unfold sum. lia.
Qed.
Lemma tables_run ts : StronglySorted Z.le ts -> forall le, In le ts -> forall xs h,
  observed xs -> les (h_buckets h) = ts -> Forall (fun b => 0 <= b_count b) (h_buckets h) -> all_counts (h_buckets h) + how_many (fun _ => true) xs < W64 ->
  upto le (h_buckets (records h xs)) = upto le (h_buckets h) + how_many (fun v => v <=? le) xs.
Proof.
  intros S0 le I. induction xs as [|[v n] xs IH]; intros h O1 L P B; [unfold how_many; cbn; lia|].
  assert (N0 : 0 <= n) by (apply (O1 v n); left; reflexivity). assert (O2 : observed xs) by (intros a b J; apply O1; right; exact J).
  pose proof (how_many_bounds (fun _ => true) xs O2) as HB.
  assert (B1 : how_many (fun _ => true) ((v, n) :: xs) = n + how_many (fun _ => true) xs) by reflexivity. rewrite B1 in B.
  assert (H1 : how_many (fun w => w <=? le) ((v, n) :: xs) = (if v <=? le then n else 0) + how_many (fun w => w <=? le) xs).
  { unfold how_many. cbn [filter fst]. destruct (v <=? le); cbn [map snd sum fold_right]; unfold sum; lia. }
  rewrite H1. cbn [records fold_left]. fold (records (record h (v, n)) xs). unfold record. cbn [fst snd].
  destruct (bump v n (h_buckets h)) as [bs|] eqn:Q.
  - destruct (bump_exact v n (h_buckets h) bs le N0 ltac:(rewrite L; exact S0) P ltac:(lia) ltac:(rewrite L; exact I) Q) as (A & C & D).
    rewrite IH; cbn [h_buckets]; [lia | exact O2 | rewrite (bump_les _ _ _ _ Q); exact L | exact A | lia].
  - rewrite IH; [| exact O2 | exact L | exact P | lia]. replace (v <=? le) with false; [lia|]. symmetry.
    destruct (v <=? le) eqn:E; [|reflexivity]. exfalso.
    assert (K : covered (les (h_buckets h)) v = true) by (rewrite L; apply existsb_exists; exists le; auto).
    apply (bump_some v n) in K. destruct K as (x & K). congruence.
Qed.
Lemma tables_exact ts xs le : observed xs -> how_many (fun _ => true) xs < 2 ^ 64 -> In le ts ->
  upto le (h_buckets (records (hist_new ts) xs)) = how_many (fun v => v <=? le) xs.
Proof.
  intros O1 C1 I. destruct (new_ok ts) as (L & _).
  assert (Z0 : forall b, In b (h_buckets (hist_new ts)) -> b_count b = 0) by (intros b J; apply in_map_iff in J; destruct J as (x & <- & _); reflexivity).
  assert (ZS : forall l : list bucket, (forall b, In b l -> b_count b = 0) -> sum (map b_count l) = 0).
  { clear. induction l as [|b l IH]; intros H; [reflexivity|]. cbn [map sum fold_right]. rewrite (H b (or_introl eq_refl)).
    assert (X := IH (fun x J => H x (or_intror J))). unfold sum in X. lia. }
  rewrite (tables_run (sort_le ts) (sort_sorted ts) le); [| apply (Permutation_in _ (Permutation_sym (sort_perm ts)) I) | exact O1 | exact L | |].
  - unfold upto. rewrite ZS; [lia|]. intros b J. apply filter_In in J. apply Z0. apply J.
  - apply Forall_forall. intros b J. rewrite (Z0 b J). lia.
  - unfold all_counts. rewrite ZS by exact Z0. unfold W64. lia.
Qed.
