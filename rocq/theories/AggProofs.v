(** Proofs about the aggregate functions. *)
From Verif Require Import Prelude AggModel AggSpec.
From Coq Require Import Permutation.

(** ** FIRST, LAST *)
Definition ord (desc : bool) (a b : Z) : Prop := if desc then b <= a else a <= b.
Lemma ord_trans d a b c : ord d a b -> ord d b c -> ord d a c. Proof. destruct d; cbn; lia. Qed.
Lemma ord_refl d a : ord d a a. Proof. destruct d; cbn; lia. Qed.
Lemma earlier_ord d a b : if earlier d a b then ord d a b else ord d b a.
Proof. destruct d; cbn. - destruct (Z.ltb_spec b a); lia. - destruct (Z.ltb_spec a b); lia. Qed.
Definition good (d : bool) (acc : trow) (R : list trow) : Prop :=
  (acc = null_row /\ forall r, In r R -> ~ counts r) \/
  exists t x, acc = TR (Some t) (Some x) /\ In acc R /\ forall t' x', In (TR (Some t') (Some x')) R -> ord d t t'.
Definition stands (d : bool) (B R : list trow) : Prop :=
  (forall t x, In (TR (Some t) (Some x)) B -> In (TR (Some t) (Some x)) R) /\
  (forall t x, In (TR (Some t) (Some x)) R -> exists t' x', In (TR (Some t') (Some x')) B /\ ord d t' t).
Lemma no_counts R : (forall t x, ~ In (TR (Some t) (Some x)) R) -> forall r, In r R -> ~ counts r.
Proof. intros H [[t|] [x|]] Hr [A B]; cbn in *; try congruence. exact (H t x Hr). Qed.
Lemma good_none d R t x : good d null_row R -> ~ In (TR (Some t) (Some x)) R.
Proof. intros [[_ H]|(t' & x' & E & _)] I; [|discriminate]. apply (H _ I). split; discriminate. Qed.
Lemma edge_step pick d acc R B R' : picks d pick -> Forall valued B -> good d acc R -> stands d B R' -> good d (edge_update pick d acc B) (R ++ R').
Proof.
  intros P V G [S1 S2]. unfold edge_update. specialize (P B).
  assert (K : (forall t x, ~ In (TR (Some t) (Some x)) R') -> good d acc (R ++ R')).
  { intro N. destruct G as [[-> H]|(t & x & -> & I & H)].
    - left. split; [reflexivity|]. intros r Hr. apply in_app_iff in Hr. destruct Hr as [Hr|Hr]; [now apply H|]. now apply (no_counts R').
    - right. exists t, x. split; [reflexivity|]. split; [apply in_app_iff; now left|]. intros t' x' Hr. apply in_app_iff in Hr. destruct Hr as [Hr|Hr]; [eauto|]. destruct (N _ _ Hr). }
  destruct (pick B) as [r|].
  2: { subst B. apply K. intros t x I. destruct (S2 t x I) as (? & ? & [] & _). }
  destruct P as [Pi Pm]. rewrite Forall_forall in V. destruct r as [[t|] v]; unfold edge_inner; cbn [t_ts t_val].
  2: { apply K. intros t x I. destruct (S2 t x I) as (t' & x' & J & _). exact (Pm _ J). }
  destruct v as [x|]; [|exfalso; exact (V _ Pi ltac:(discriminate) eq_refl)].
  assert (M : forall t' x', In (TR (Some t') (Some x')) R' -> ord d t t').
  { intros t' x' I. destruct (S2 t' x' I) as (t2 & x2 & J & O). specialize (Pm _ J). cbn [t_ts] in Pm. eapply ord_trans; [|exact O]. unfold ord. destruct d; exact Pm. }
  assert (Q : In (TR (Some t) (Some x)) R') by auto.
  destruct G as [[-> H]|(t0 & x0 & -> & I & H)]; cbn [null_row t_ts].
  - right. exists t, x. split; [reflexivity|]. split; [apply in_app_iff; now right|]. intros t' x' Hr. apply in_app_iff in Hr. destruct Hr as [Hr|Hr]; [|eauto].
    exfalso. apply (H _ Hr). split; discriminate.
  - pose proof (earlier_ord d t t0) as E. destruct (earlier d t t0); right.
    + exists t, x. split; [reflexivity|]. split; [apply in_app_iff; now right|]. intros t' x' Hr. apply in_app_iff in Hr. destruct Hr as [Hr|Hr]; [|eauto]. eapply ord_trans; [exact E|eauto].
    + exists t0, x0. split; [reflexivity|]. split; [apply in_app_iff; now left|]. intros t' x' Hr. apply in_app_iff in Hr. destruct Hr as [Hr|Hr]; [eauto|]. eapply ord_trans; [exact E|eauto].
Qed.
Lemma stands_self d B : stands d B B.
Proof. split; [auto|]. intros t x I. exists t, x. split; [exact I|apply ord_refl]. Qed.
Lemma edge_fold pick d : picks d pick -> forall bs acc R, Forall valued (concat bs) -> good d acc R -> good d (fold_left (edge_update pick d) bs acc) (R ++ concat bs).
Proof.
  intro P. induction bs as [|b bs IH]; intros acc R V G; cbn [concat fold_left]; [now rewrite app_nil_r|]. cbn [concat] in V. rewrite Forall_app in V. destruct V as [V1 V2].
  rewrite app_assoc. apply IH; [exact V2|]. apply edge_step; auto. apply stands_self.
Qed.
Lemma edge_part pick d p : picks d pick -> Forall valued (concat p) -> good d (partition null_row (edge_update pick d) p) (concat p).
Proof. intros P V. apply (edge_fold pick d P p null_row [] V). left. split; [reflexivity|intros r []]. Qed.
Lemma stands_states d l : Forall (fun sR => good d (fst sR) (snd sR)) l -> stands d (map fst l) (concat (map snd l)) /\ Forall valued (map fst l).
Proof.
  induction l as [|[s R] l IH]; intro F; cbn [map concat fst snd].
  - split; [split; [intros ? ? []|intros ? ? []]|constructor].
  - inversion F as [|? ? G F']; subst. cbn [fst snd] in G. destruct (IH F') as [[I1 I2] I3]. split; [split|].
    + intros t x [E|I]; apply in_app_iff; [left|right; auto]. subst s. destruct G as [[E _]|(t' & x' & E & I & _)]; [discriminate|]. exact I.
    + intros t x I. apply in_app_iff in I. destruct I as [I|I].
      * destruct G as [[-> H]|(t' & x' & -> & _ & H)]; [exfalso; apply (H _ I); split; discriminate|]. exists t', x'. split; [now left|]. exact (H _ _ I).
      * destruct (I2 t x I) as (t' & x' & J & O). exists t', x'. split; [now right|exact O].
    + constructor; [|exact I3]. destruct G as [[-> _]|(t' & x' & -> & _)]; intro Q; [exfalso; apply Q; reflexivity|cbn; discriminate].
Qed.
Lemma Forall_concat {A} (P : A -> Prop) ls : Forall P (concat ls) <-> Forall (fun l => Forall P l) ls.
Proof. induction ls as [|l ls IH]; cbn [concat]; [split; constructor|]. rewrite Forall_app, IH. split; [intros []; now constructor|intro H; inversion H; auto]. Qed.
(** The states that arrive, paired with the rows they stand for. *)
Lemma arrive {A B} (f : B -> A) (l : list B) (arr : list (list A)) : Permutation (concat arr) (map f l) ->
  exists arr' : list (list B), Permutation (concat arr') l /\ map (map f) arr' = arr.
Proof.
  intro P. apply Permutation_sym in P. assert (exists k, Permutation l k /\ map f k = concat arr) as (k & Pk & E).
  { destruct (Permutation_map_inv f l (Permutation_sym P)) as (k & E & Pk). exists k. split; [exact Pk|now symmetry]. }
  clear P. revert k Pk E. revert l. induction arr as [|a arr IH]; intros l k Pk E.
  - cbn in E. destruct k; [|discriminate]. exists []. split; [cbn; now apply Permutation_sym|reflexivity].
  - cbn [concat] in E. assert (exists k1 k2, k = k1 ++ k2 /\ map f k1 = a /\ map f k2 = concat arr) as (k1 & k2 & -> & E1 & E2).
    { exists (firstn (length a) k), (skipn (length a) k). split; [symmetry; apply firstn_skipn|]. rewrite <- firstn_map, <- skipn_map, E, firstn_app, skipn_app, Nat.sub_diag, firstn_all, skipn_all. cbn. now rewrite app_nil_r. }
    destruct (IH k2 k2 (Permutation_refl _) E2) as (arr' & P' & E'). exists (k1 :: arr'). split; [|cbn; now rewrite E1, E'].
    cbn [concat]. apply Permutation_sym. eapply perm_trans; [exact Pk|]. now apply Permutation_app_head, Permutation_sym.
Qed.
Lemma edge_final pick d : picks d pick -> forall arr (arr' : list (list (trow * list trow))) acc R, map (map fst) arr' = arr ->
  Forall (fun sR => good d (fst sR) (snd sR)) (concat arr') -> good d acc R ->
  good d (fold_left (edge_merge pick d) arr acc) (R ++ concat (map snd (concat arr'))).
Proof.
  intros P arr arr'. revert arr. induction arr' as [|a arr' IH]; intros arr acc R <- F G; cbn [map fold_left concat]; [now rewrite app_nil_r|].
  cbn [concat] in F. rewrite Forall_app in F. destruct F as [F1 F2]. rewrite map_app, concat_app, app_assoc. apply (IH (map (map fst) arr')); [reflexivity|exact F2|].
  destruct (stands_states d a F1) as [S V]. now apply edge_step.
Qed.
Lemma perm_in_rows {A} (l : list (A * list trow)) k : Permutation l k -> forall r, In r (concat (map snd l)) <-> In r (concat (map snd k)).
Proof. intros P r. rewrite !in_concat. split; intros (x & Hx & Hr); exists x; (split; [|exact Hr]); apply in_map_iff in Hx; destruct Hx as (y & <- & Hy); apply in_map; [now apply (Permutation_in _ P)|now apply (Permutation_in _ (Permutation_sym P))]. Qed.
Lemma edge_two pick d parts result : picks d pick -> Forall valued (all_rows parts) ->
  two_stage null_row (edge_update pick d) (fun s => s) (edge_merge pick d) parts result -> edge_of d (all_rows parts) (edge_eval result).
Proof.
  intros P V (arr & Pa & ->). unfold all_rows in *. set (pr := map (fun p => (partition null_row (edge_update pick d) p, concat p)) parts).
  assert (E : map (fun p => partition null_row (edge_update pick d) p) parts = map fst pr) by (unfold pr; rewrite map_map; reflexivity).
  assert (ER : concat (map (fun p => concat p) parts) = concat (map snd pr)) by (unfold pr; rewrite map_map; reflexivity).
  assert (F : Forall (fun sR => good d (fst sR) (snd sR)) pr).
  { unfold pr. apply Forall_map. rewrite Forall_concat in V. rewrite Forall_map in V. eapply Forall_impl; [|exact V]. intros p Vp. cbn. now apply edge_part. }
  rewrite E in Pa. destruct (arrive fst pr arr Pa) as (arr' & P' & E').
  pose proof (edge_final pick d P arr arr' null_row [] E' ltac:(eapply Permutation_Forall; [apply Permutation_sym; exact P'|exact F]) ltac:(left; split; [reflexivity|intros r []])) as G.
  cbn [app] in G. set (res := fold_left (edge_merge pick d) arr null_row) in *. rewrite ER.
  pose proof (perm_in_rows _ _ P') as Q. unfold edge_eval, edge_of. destruct G as [[-> H]|(t & x & -> & I & H)]; cbn [null_row t_val].
  - intros r Hr. apply H, Q, Hr.
  - exists t. split; [now apply Q|]. intros t' x' I'. apply Q in I'. specialize (H _ _ I'). unfold ord in H. destruct d; exact H.
Qed.
Lemma edge_one pick d p : picks d pick -> Forall valued (concat p) -> edge_of d (concat p) (edge_eval (partition null_row (edge_update pick d) p)).
Proof.
  intros P V. destruct (edge_part pick d p P V) as [[-> H]|(t & x & -> & I & H)]; unfold edge_eval, edge_of; cbn [null_row t_val]; [exact H|].
  exists t. split; [exact I|]. intros t' x' I'. specialize (H _ _ I'). unfold ord in H. destruct d; exact H.
Qed.

(** ** MODE *)
Definition inv (m : list (Z * Z)) (f : Z -> Z) : Prop :=
  NoDup (map fst m) /\ (forall k, 0 <= f k) /\ forall k c, In (k, c) m <-> c = f k /\ 0 < c.
Lemma inv_ext m f g : (forall k, f k = g k) -> inv m f -> inv m g.
Proof. intros E (A & B & C). split; [exact A|]. split; [intro; rewrite <- E; apply B|]. intros k c. rewrite C, E. tauto. Qed.
Lemma inv_perm m m' f : Permutation m m' -> inv m f -> inv m' f.
Proof.
  intros P (A & B & C). split; [eapply Permutation_NoDup; [apply Permutation_map; exact P|exact A]|]. split; [exact B|]. intros k c. rewrite <- C.
  split; intro I; [exact (Permutation_in _ (Permutation_sym P) I)|exact (Permutation_in _ P I)].
Qed.
Lemma inv_nil : inv [] (fun _ => 0).
Proof. split; [constructor|]. split; [intro; lia|]. intros k c. cbn. split; [tauto|]. intros [-> H]. lia. Qed.
Lemma wrap32_id x : 0 <= x < 2 ^ 32 -> wrap32 x = x. Proof. intro H. apply Z.mod_small, H. Qed.
Lemma tally_keys v n m k : In k (map fst (tally v n m)) <-> k = v \/ In k (map fst m).
Proof.
  induction m as [|[a c] m IH]; cbn [tally map fst In]; [cbn; intuition congruence|]. destruct (Z.eqb_spec a v) as [->|N]; cbn [map fst In]; [intuition congruence|]. rewrite IH. tauto.
Qed.
Lemma tally_ok v n m f : inv m f -> 0 < n -> f v + n < 2 ^ 32 -> inv (tally v n m) (fun k => if k =? v then f k + n else f k).
Proof.
  intros (A & B & C) Hn Hb. split; [|split].
  - clear - A. induction m as [|[a c] m IH]; cbn [tally map fst]; [constructor; [intros []|constructor]|]. inversion A; subst. destruct (Z.eqb_spec a v) as [->|N]; cbn [map fst]; [now constructor|].
    constructor; [|auto]. rewrite tally_keys. intuition congruence.
  - intro k. specialize (B k). destruct (k =? v); lia.
  - assert (T : forall k c, In (k, c) (tally v n m) <-> (k <> v /\ In (k, c) m) \/ (k = v /\ ((exists c0, In (v, c0) m /\ c = wrap32 (c0 + n)) \/ (~ In v (map fst m) /\ c = n)))).
    { clear - A. induction m as [|[a c0] m IH]; intros k c; cbn [tally In map fst].
      - split; [intros [[= <- <-]|[]]; right; tauto|]. intros [[_ []]|[-> [(c1 & [] & _)|[_ ->]]]]. now left.
      - inversion A; subst. destruct (Z.eqb_spec a v) as [->|N]; cbn [In].
        + split.
          * intros [[= <- <-]|I]; [right; split; [reflexivity|left; exists c0; tauto]|]. left. split; [|tauto]. intros ->. apply H1. apply in_map_iff. now exists (v, c).
          * intros [[Nk [[= -> ->]|I]]|[-> [(c1 & [[= ->]|I] & ->)|[Q _]]]]; try tauto.
            exfalso. apply H1. apply in_map_iff. now exists (v, c1).
        + rewrite (IH H2). split.
          * intros [[= <- <-]|[[Nk I]|[-> [(c1 & I & ->)|[Q ->]]]]]; [left; tauto|left; tauto|right; split; [reflexivity|left; exists c1; tauto]|right; split; [reflexivity|right; split; [|reflexivity]; intuition congruence]].
          * intros [[Nk [[= -> ->]|I]]|[-> [(c1 & [[= -> ->]|I] & ->)|[Q ->]]]]; [tauto|tauto|congruence|right; right; split; [reflexivity|left; exists c1; tauto]|right; right; split; [reflexivity|right; tauto]]. }
    intros k c. rewrite T. destruct (Z.eqb_spec k v) as [->|N].
    + assert (Fv : In v (map fst m) <-> 0 < f v).
      { rewrite in_map_iff. split; [intros ([k c1] & E & I); cbn in E; subst k; apply C in I; lia|]. intro P. exists (v, f v). split; [reflexivity|]. apply C. lia. }
      specialize (B v). split.
      * intros [[Q _]|[_ [(c0 & I & ->)|[Q ->]]]]; [congruence| |].
        -- apply C in I. destruct I as [-> I]. rewrite wrap32_id by lia. lia.
        -- rewrite Fv in Q. lia.
      * intros [-> H]. right. split; [reflexivity|]. destruct (Z_lt_le_dec 0 (f v)) as [P|P].
        -- left. exists (f v). split; [apply C; lia|]. rewrite wrap32_id; lia.
        -- right. rewrite Fv. lia.
    + rewrite C. tauto.
Qed.
Definition occ (k : Z) (rows : list (option Z)) : Z := Z.of_nat (occurrences k rows).
Lemma occ_cons k x rows : occ k (x :: rows) = (match x with Some y => if y =? k then 1 else 0 | None => 0 end) + occ k rows.
Proof. unfold occ, occurrences. cbn [filter]. destruct x as [y|]; [destruct (y =? k); cbn [length]; lia|lia]. Qed.
Lemma occ_app k a b : occ k (a ++ b) = occ k a + occ k b.
Proof. induction a as [|x a IH]; [reflexivity|]. cbn [app]. rewrite !occ_cons, IH. lia. Qed.
Lemma occ_pos k rows : 0 <= occ k rows. Proof. unfold occ. lia. Qed.
Lemma occ_concat_in k (b : list (option Z)) bs : In b bs -> occ k b <= occ k (concat bs).
Proof. induction bs as [|c bs IH]; [intros []|]. cbn [concat]. rewrite occ_app. pose proof (occ_pos k c). pose proof (occ_pos k (concat bs)). intros [->|I]; [lia|]. specialize (IH I). lia. Qed.
Lemma mode_update_ok batch : forall m f, inv m f -> (forall k, f k + occ k batch < 2 ^ 32) -> inv (mode_update m batch) (fun k => f k + occ k batch).
Proof.
  unfold mode_update. induction batch as [|x batch IH]; intros m f I H; cbn [fold_left].
  - eapply inv_ext; [|exact I]. intro k. unfold occ, occurrences. cbn. lia.
  - destruct x as [v|].
    + pose proof (H v) as Hv. rewrite occ_cons, Z.eqb_refl in Hv. pose proof (occ_pos v batch).
      pose proof (tally_ok v 1 m f I ltac:(lia) ltac:(lia)) as I1. apply IH in I1.
      * eapply inv_ext; [|exact I1]. intro k. cbn. rewrite occ_cons. rewrite (Z.eqb_sym v k). destruct (k =? v); lia.
      * intro k. specialize (H k). rewrite occ_cons, (Z.eqb_sym v k) in H. destruct (k =? v); lia.
    + apply IH in I; [eapply inv_ext; [|exact I]; intro k; now rewrite occ_cons|]. intro k. specialize (H k). rewrite occ_cons in H. lia.
Qed.
Lemma mode_part_ok p : (forall k, occ k (concat p) < 2 ^ 32) -> inv (partition [] mode_update p) (fun k => occ k (concat p)).
Proof.
  unfold partition. assert (G : forall bs m f, inv m f -> (forall k, f k + occ k (concat bs) < 2 ^ 32) -> inv (fold_left mode_update bs m) (fun k => f k + occ k (concat bs))).
  { induction bs as [|b bs IH]; intros m f I H; cbn [fold_left concat].
    - eapply inv_ext; [|exact I]. intro k. unfold occ, occurrences. cbn. lia.
    - cbn [concat] in H. apply (mode_update_ok b) in I; [|intro k; specialize (H k); rewrite occ_app in H; pose proof (occ_pos k (concat bs)); lia].
      apply IH in I; [|intro k; specialize (H k); rewrite occ_app in H; lia]. eapply inv_ext; [|exact I]. intro k. cbn. rewrite occ_app. lia. }
  intro H. specialize (G p [] (fun _ => 0) inv_nil). eapply inv_ext; [|apply G]; [intro; cbn; lia|]. intro k. cbn. apply H.
Qed.
Fixpoint sumf (k : Z) (s : list (Z * Z)) : Z := match s with [] => 0 | (a, c) :: s' => (if a =? k then c else 0) + sumf k s' end.
Lemma sumf_none k s : ~ In k (map fst s) -> sumf k s = 0.
Proof. induction s as [|[a c] s IH]; cbn; [reflexivity|]. intro H. destruct (Z.eqb_spec a k); [tauto|]. rewrite IH; tauto. Qed.
Lemma sumf_inv s g : inv s g -> forall k, sumf k s = g k.
Proof.
  intros (A & B & C) k. destruct (in_dec Z.eq_dec k (map fst s)) as [I|I].
  - apply in_map_iff in I. destruct I as ([k' c] & E & I). cbn in E. subst k'. pose proof I as I0. apply C in I0. destruct I0 as [-> P]. clear - A I. induction s as [|[a c] s IH]; [destruct I|].
    inversion A; subst. cbn [sumf]. destruct I as [[= -> ->]|I].
    + rewrite Z.eqb_refl, sumf_none by assumption. lia.
    + destruct (Z.eqb_spec a k) as [->|]; [exfalso; apply H1; apply in_map_iff; now exists (k, g k)|]. rewrite IH by assumption. reflexivity.
  - rewrite sumf_none by exact I. specialize (B k). destruct (Z_lt_le_dec 0 (g k)) as [P|P]; [|lia]. exfalso. apply I. apply in_map_iff. exists (k, g k). split; [reflexivity|]. apply C. lia.
Qed.
Lemma merge_one s : forall m f, Forall (fun e => 0 < snd e) s -> inv m f -> (forall k, f k + sumf k s < 2 ^ 32) ->
  inv (fold_left (fun m e => tally (fst e) (snd e) m) s m) (fun k => f k + sumf k s).
Proof.
  induction s as [|[a c] s IH]; intros m f P I H; cbn [fold_left fst snd].
  - eapply inv_ext; [|exact I]. intro. cbn. lia.
  - inversion P as [|? ? Pc Ps]; subst. cbn in Pc. assert (S0 : forall k, 0 <= sumf k s) by (clear - Ps; intro k; induction s as [|[b d] s IH]; cbn; [lia|]; inversion Ps; subst; cbn in *; specialize (IH H2); destruct (b =? k); lia).
    pose proof (H a) as Ha. cbn [sumf] in Ha. rewrite Z.eqb_refl in Ha. specialize (S0 a). pose proof (tally_ok a c m f I Pc ltac:(lia)) as I1. apply IH in I1; [|exact Ps|].
    + eapply inv_ext; [|exact I1]. intro k. cbn [sumf]. rewrite (Z.eqb_sym a k). destruct (k =? a); lia.
    + intro k. specialize (H k). cbn [sumf] in H. rewrite (Z.eqb_sym a k) in H. destruct (k =? a); lia.
Qed.
Definition total (l : list (list (Z * Z) * list (option Z))) : list (option Z) := concat (map snd l).
Lemma merge_states l : forall m f, Forall (fun sR => inv (fst sR) (fun k => occ k (snd sR))) l -> inv m f -> (forall k, f k + occ k (total l) < 2 ^ 32) ->
  inv (mode_merge m (map fst l)) (fun k => f k + occ k (total l)).
Proof.
  unfold mode_merge, total. induction l as [|[s R] l IH]; intros m f F I H; cbn [map fold_left concat fst snd].
  - eapply inv_ext; [|exact I]. intro k. unfold occ, occurrences. cbn. lia.
  - inversion F as [|? ? F1 F2]; subst. cbn [fst snd] in F1. cbn [map concat snd] in H. pose proof (sumf_inv _ _ F1) as SF.
    assert (P : Forall (fun e => 0 < snd e) s) by (apply Forall_forall; intros [k c] Hk; destruct F1 as (_ & _ & C); apply C in Hk; cbn; lia).
    assert (I1 : inv (fold_left (fun m e => tally (fst e) (snd e) m) s m) (fun k => f k + sumf k s)).
    { apply merge_one; [exact P|exact I|]. intro k. rewrite SF. specialize (H k). rewrite occ_app in H. pose proof (occ_pos k (concat (map snd l))). lia. }
    apply (IH _ _ F2) in I1; [|intro k; rewrite SF; specialize (H k); rewrite occ_app in H; lia].
    eapply inv_ext; [|exact I1]. intro k. cbn. rewrite SF, occ_app. lia.
Qed.
Lemma merge_all arr : forall m f, Forall (fun sR => inv (fst sR) (fun k => occ k (snd sR))) (concat arr) -> inv m f -> (forall k, f k + occ k (total (concat arr)) < 2 ^ 32) ->
  inv (fold_left mode_merge (map (map fst) arr) m) (fun k => f k + occ k (total (concat arr))).
Proof.
  induction arr as [|a arr IH]; intros m f F I H; cbn [map fold_left concat].
  - eapply inv_ext; [|exact I]. intro k. unfold occ, occurrences, total. cbn. lia.
  - cbn [concat] in *. rewrite Forall_app in F. destruct F as [F1 F2]. assert (T : forall k, occ k (total (a ++ concat arr)) = occ k (total a) + occ k (total (concat arr))) by (intro k; unfold total; now rewrite map_app, concat_app, occ_app).
    pose proof (merge_states a m f F1 I ltac:(intro k; specialize (H k); rewrite T in H; pose proof (occ_pos k (total (concat arr))); lia)) as I1.
    apply (IH _ _ F2) in I1; [|intro k; specialize (H k); rewrite T in H; lia]. eapply inv_ext; [|exact I1]. intro k. cbn. rewrite T. lia.
Qed.
Lemma max_ok l : match max_by_count l with None => l = [] | Some b => In b l /\ forall e, In e l -> snd e <= snd b end.
Proof.
  unfold max_by_count. assert (G : forall l (best : option (Z * Z)) seen, match best with None => seen = [] | Some b => In b seen /\ forall e, In e seen -> snd e <= snd b end ->
    match fold_left (fun best e => match best with Some b => if snd e <? snd b then Some b else Some e | None => Some e end) l best with
    | None => seen ++ l = [] | Some b => In b (seen ++ l) /\ forall e, In e (seen ++ l) -> snd e <= snd b end).
  { clear l. induction l as [|e l IH]; intros best seen H; cbn [fold_left]; [now rewrite app_nil_r|].
    replace (seen ++ e :: l) with ((seen ++ [e]) ++ l) by now rewrite <- app_assoc. apply IH. destruct best as [b|].
    - destruct H as [H1 H2]. destruct (Z.ltb_spec (snd e) (snd b)).
      + split; [apply in_app_iff; now left|]. intros x Hx. apply in_app_iff in Hx. destruct Hx as [Hx|[<-|[]]]; [auto|lia].
      + split; [apply in_app_iff; right; now left|]. intros x Hx. apply in_app_iff in Hx. destruct Hx as [Hx|[<-|[]]]; [specialize (H2 x Hx); lia|lia].
    - subst seen. split; [now left|]. intros x [<-|[]]. lia. }
  exact (G l None [] eq_refl).
Qed.
Lemma eval_ok entries rows : inv entries (fun k => occ k rows) -> most_frequent rows (mode_eval entries).
Proof.
  intros (A & B & C). pose proof (max_ok entries) as M. unfold mode_eval, most_frequent. destruct (max_by_count entries) as [[k c]|]; cbn [option_map fst].
  - destruct M as [I M]. apply C in I. destruct I as [-> P]. split.
    + unfold occ, occurrences in P. destruct (filter _ rows) as [|[y|] l] eqn:E; [cbn in P; lia| |].
      * assert (J : In (Some y) (filter (fun x => match x with Some z => z =? k | None => false end) rows)) by (rewrite E; now left). rewrite filter_In in J. destruct J as [J1 J2]. apply Z.eqb_eq in J2. now subst.
      * assert (J : In (@None Z) (filter (fun x => match x with Some z => z =? k | None => false end) rows)) by (rewrite E; now left). rewrite filter_In in J. destruct J; discriminate.
    + intro y. destruct (Z_lt_le_dec 0 (occ y rows)) as [Q|Q]; [|unfold occ in *; lia]. specialize (M (y, occ y rows)). cbn [snd] in M. assert (I : In (y, occ y rows) entries) by (apply C; split; [reflexivity|exact Q]). specialize (M I). unfold occ in M. lia.
  - subst entries. intros x I. assert (Q : 0 < occ x rows). { unfold occ, occurrences. assert (J : In (Some x) (filter (fun y => match y with Some z => z =? x | None => false end) rows)) by (rewrite filter_In; split; [exact I|apply Z.eqb_refl]). destruct (filter _ rows); [destruct J|cbn; lia]. }
    assert (F : In (x, occ x rows) []) by (apply C; split; [reflexivity|exact Q]). destruct F.
Qed.
Lemma occ_le_length k rows : occ k rows <= Z.of_nat (length rows).
Proof. induction rows as [|x rows IH]; [unfold occ, occurrences; cbn; lia|]. rewrite occ_cons. cbn [length]. destruct x as [y|]; [destruct (y =? k)|]; lia. Qed.
Lemma total_perm k l l' : Permutation l l' -> occ k (total l) = occ k (total l').
Proof. unfold total. induction 1 as [|x l l' P IH|x y l|l a b P1 IH1 P2 IH2]; cbn [map concat]; rewrite ?occ_app; lia. Qed.
Lemma mode_two parts result : Z.of_nat (length (all_rows parts)) < 2 ^ 32 -> mode_stage parts result -> most_frequent (all_rows parts) result.
Proof.
  intros Hl (states & arr & entries & F & Pa & Pe & ->). unfold all_rows in *.
  assert (X : exists l, map fst l = states /\ map snd l = map (fun p => concat p) parts /\ ((forall k, occ k (concat (map (fun p => concat p) parts)) < 2 ^ 32) -> Forall (fun sR => inv (fst sR) (fun k => occ k (snd sR))) l)).
  { clear - F. induction F as [|p s parts states P F (l & E1 & E2 & E3)]; [exists []; cbn; repeat split; constructor|].
    exists ((s, concat p) :: l). cbn [map fst snd]. split; [now rewrite E1|]. split; [now rewrite E2|]. cbn [map concat]. intro H. constructor; cbn [fst snd].
    - eapply inv_perm; [exact P|]. apply mode_part_ok. intro k. specialize (H k). rewrite occ_app in H. pose proof (occ_pos k (concat (map (fun p => concat p) parts))). lia.
    - apply E3. intro k. specialize (H k). rewrite occ_app in H. pose proof (occ_pos k (concat p)). lia. }
  destruct X as (l & E1 & E2 & E3).
  assert (Hk : forall k, occ k (concat (map (fun p => concat p) parts)) < 2 ^ 32) by (intro k; pose proof (occ_le_length k (concat (map (fun p => concat p) parts))); lia).
  specialize (E3 Hk). rewrite <- E1 in Pa. destruct (arrive fst l arr Pa) as (arr' & P' & E').
  assert (T : forall k, occ k (total (concat arr')) = occ k (concat (map (fun p => concat p) parts))) by (intro k; rewrite (total_perm k _ _ P'); unfold total; now rewrite E2).
  pose proof (merge_all arr' [] (fun _ => 0) ltac:(eapply Permutation_Forall; [apply Permutation_sym; exact P'|exact E3]) inv_nil ltac:(intro k; rewrite T; cbn; apply Hk)) as I.
  rewrite E' in I. apply eval_ok. eapply inv_ext; [|eapply inv_perm; [exact Pe|exact I]]. intro k. cbn. apply T.
Qed.

(** ** INCREASE *)
Lemma inc_app s a b : inc_update s (a ++ b) = match inc_update s a with Some s' => inc_update s' b | None => None end.
Proof. revert s. induction a as [|p a IH]; intro s; cbn [app inc_update]; [reflexivity|]. destruct (inc_inner s p); [apply IH|reflexivity]. Qed.
Lemma inc_concat bs : forall s, inc_updates s bs = inc_update s (concat bs).
Proof. induction bs as [|b bs IH]; intro s; cbn [inc_updates concat]; [reflexivity|]. rewrite inc_app. destruct (inc_update s b); [apply IH|reflexivity]. Qed.
Lemma inc_from rows : forall a t v, match inc_update (IN a (Some (t, v))) rows with
  | Some s => in_time_order ((t, v) :: complete rows) /\ i_sum s = a + counter_increase ((t, v) :: complete rows)
  | None => ~ in_time_order ((t, v) :: complete rows) end.
Proof.
  induction rows as [|[[t'|] [v'|]] rows IH]; intros a t v; cbn [inc_update inc_inner t_ts t_val i_last i_sum complete]; try apply IH.
  - cbn. split; [repeat constructor|lia].
  - destruct (Z.ltb_spec t' t) as [L|L].
    + intro S. apply StronglySorted_inv in S. destruct S as [_ S]. inversion S; subst. cbn in *. lia.
    + specialize (IH (if v' >? v then a + (v' - v) else if v' <? v then a + v' else a) t' v'). destruct (inc_update _ rows) as [s|].
      * destruct IH as [I1 I2]. split.
        -- constructor; [exact I1|]. constructor; [cbn; lia|]. apply StronglySorted_inv in I1. destruct I1 as [_ I1]. eapply Forall_impl; [|exact I1]. intros x Hx. cbn in *. lia.
        -- rewrite I2. change (counter_increase ((t, v) :: (t', v') :: complete rows)) with ((if v' >=? v then v' - v else v') + counter_increase ((t', v') :: complete rows)).
           rewrite Z.gtb_ltb, Z.geb_leb. destruct (Z.ltb_spec v v'), (Z.leb_spec v v'), (Z.ltb_spec v' v); lia.
      * intro S. apply IH. now apply StronglySorted_inv in S.
Qed.
Lemma inc_ok batches : match inc_updates inc_new batches with
  | Some s => in_time_order (complete (concat batches)) /\ i_sum s = counter_increase (complete (concat batches))
  | None => ~ in_time_order (complete (concat batches)) end.
Proof.
  rewrite inc_concat. generalize (concat batches) as rows. unfold inc_new. induction rows as [|[[t|] [v|]] rows IH]; cbn [inc_update inc_inner t_ts t_val i_last i_sum complete]; try exact IH.
  - cbn. split; [constructor|reflexivity].
  - exact (inc_from rows 0 t v).
Qed.

(** ** GAUGE_AGG: [s] is 1 for the earliest readings and -1 for the latest *)
Definition below (s : Z) (x : Z * Z) (l : list (Z * Z)) : nat := length (filter (fun y => s * fst y <? s * fst x) l).
Definition covers (k l : list (Z * Z)) : Prop :=
  NoDup (map fst k) /\ incl k l /\ forall s x, s = 1 \/ s = -1 -> In x l -> (below s x l <= 1)%nat -> In x k.
Definition up (s : Z) (l : list (Z * Z)) : Prop := StronglySorted (fun a b => s * fst a < s * fst b) l.
Lemma below_app s x a b : below s x (a ++ b) = (below s x a + below s x b)%nat.
Proof. unfold below. now rewrite filter_app, app_length. Qed.
Lemma below_perm s x a b : Permutation a b -> below s x a = below s x b.
Proof. unfold below. induction 1; cbn [filter]; try congruence; repeat match goal with |- context [if ?c then _ else _] => destruct c end; cbn [length]; lia. Qed.
Lemma covers_nil : covers [] []. Proof. split; [constructor|]. split; [intros x []|]. intros s x _ []. Qed.
Lemma covers_perm k k' l l' : Permutation k k' -> Permutation l l' -> covers k l -> covers k' l'.
Proof.
  intros P Q (A & B & C). split; [eapply Permutation_NoDup; [apply Permutation_map; exact P|exact A]|]. split.
  - intros x I. exact (Permutation_in _ Q (B x (Permutation_in _ (Permutation_sym P) I))).
  - intros s x Hs I H. apply (Permutation_in _ P). apply (C s x Hs); [exact (Permutation_in _ (Permutation_sym Q) I)|]. rewrite (below_perm s x l l' Q). exact H.
Qed.
Lemma nodup_app_parts {A} (a b : list A) : NoDup (a ++ b) -> NoDup a /\ NoDup b /\ forall x, In x a -> In x b -> False.
Proof.
  induction a as [|x a IH]; cbn [app]; intro H; [split; [constructor|]; split; [exact H|intros ? []]|]. inversion H; subst. destruct (IH H3) as (P & Q & R).
  split; [constructor; [intro I; apply H2, in_app_iff; now left|exact P]|]. split; [exact Q|]. intros y [<-|I] J; [apply H2, in_app_iff; now right|eauto].
Qed.
Lemma nodup_app_join {A} (a b : list A) : NoDup a -> NoDup b -> (forall x, In x a -> In x b -> False) -> NoDup (a ++ b).
Proof.
  induction a as [|x a IH]; cbn [app]; intros P Q R; [exact Q|]. inversion P; subst. constructor.
  - intro I. apply in_app_iff in I. destruct I as [I|I]; [contradiction|]. apply (R x); [now left|exact I].
  - apply IH; [assumption|assumption|]. intros y I J. apply (R y); [now right|exact J].
Qed.
Lemma covers_app k1 l1 k2 l2 : NoDup (map fst (l1 ++ l2)) -> covers k1 l1 -> covers k2 l2 -> covers (k1 ++ k2) (l1 ++ l2).
Proof.
  intros N (A1 & B1 & C1) (A2 & B2 & C2). rewrite map_app in N. apply nodup_app_parts in N. destruct N as (N1 & N2 & N3). split; [|split].
  - rewrite map_app. apply nodup_app_join; [exact A1|exact A2|]. intros x I J. apply (N3 x); [exact (incl_map fst B1 x I)|exact (incl_map fst B2 x J)].
  - intros x I. apply in_app_iff in I. apply in_app_iff. destruct I as [I|I]; [left; auto|right; auto].
  - intros s x Hs I H. rewrite below_app in H. apply in_app_iff in I. apply in_app_iff. destruct I as [I|I]; [left; apply (C1 s x Hs I); lia|right; apply (C2 s x Hs I); lia].
Qed.
Lemma two_least s a b l x : up s (a :: b :: l) -> In x (a :: b :: l) -> (below s x (a :: b :: l) <= 1)%nat -> x = a \/ x = b.
Proof.
  intros U I H. destruct I as [<-|[<-|I]]; [now left|now right|]. exfalso. apply StronglySorted_inv in U. destruct U as [U1 U2]. apply StronglySorted_inv in U1. destruct U1 as [_ U3].
  rewrite Forall_forall in U2, U3. pose proof (U2 x (or_intror I)) as X2. pose proof (U3 x I) as X3. unfold below in H. cbn [filter] in H.
  destruct (Z.ltb_spec (s * fst a) (s * fst x)); [|lia]. destruct (Z.ltb_spec (s * fst b) (s * fst x)); [|lia]. cbn [length] in H. lia.
Qed.
Lemma up_nodup s l : up s l -> NoDup (map fst l).
Proof.
  induction 1 as [|a l U IH F]; cbn [map]; constructor; [|exact IH]. intro I. apply in_map_iff in I. destruct I as (x & E & I). rewrite Forall_forall in F. specialize (F x I). rewrite E in F. lia.
Qed.
Lemma sorted_up l : NoDup (map fst l) -> in_time_order l -> up 1 l.
Proof.
  intros N O. unfold up, in_time_order in *. induction O as [|a l O IH F]; constructor; [apply IH; now inversion N|]. rewrite Forall_forall in *. intros x I. specialize (F x I). cbn [map] in N. inversion N; subst.
  assert (fst a <> fst x) by (intro E; apply H1; rewrite E; now apply in_map). lia.
Qed.
Lemma sorted_app {A} (R : A -> A -> Prop) a b : StronglySorted R a -> StronglySorted R b -> (forall x y, In x a -> In y b -> R x y) -> StronglySorted R (a ++ b).
Proof.
  induction 1 as [|x a S IH F]; intros Sb H; [exact Sb|]. cbn [app]. constructor; [apply IH; [exact Sb|]; intros; apply H; [now right|assumption]|].
  apply Forall_app. split; [exact F|]. apply Forall_forall. intros y I. apply H; [now left|exact I].
Qed.
Lemma up_rev s l : up s l -> up (- s) (rev l).
Proof.
  induction 1 as [|a l U IH F]; [constructor|]. cbn [rev]. apply sorted_app; [exact IH|constructor; constructor|]. intros x y I [<-|[]]. apply in_rev in I. rewrite Forall_forall in F. specialize (F x I). lia.
Qed.
Lemma below_rev s x l : below s x (rev l) = below s x l.
Proof. apply below_perm, Permutation_sym, Permutation_rev. Qed.
Lemma keep4_form l : (length l <= 4)%nat /\ keep4 l = l \/ exists a b m c d, l = a :: b :: m ++ [c; d] /\ keep4 l = [a; b; c; d].
Proof.
  unfold keep4. destruct (Nat.leb_spec (length l) 4) as [L|L]; [left; split; [lia|reflexivity]|]. right. destruct l as [|a [|b l]]; cbn [length] in L; try lia.
  destruct (exists_last (l := l)) as (l1 & d & ->); [intro; subst; cbn in L; lia|]. destruct (exists_last (l := l1)) as (m & c & ->); [intro; subst; cbn in L; lia|].
  exists a, b, m, c, d. rewrite <- app_assoc. cbn [app]. split; [reflexivity|]. cbn [length]. rewrite app_length. cbn [length].
  replace (S (S (length m + 2)) - 2)%nat with (S (S (length m))) by lia. replace (S (S (length m + 2)) - 1)%nat with (S (S (S (length m)))) by lia.
  cbn [nth]. rewrite app_nth2 by lia. rewrite app_nth2 by lia. rewrite Nat.sub_diag. now replace (S (length m) - length m)%nat with 1%nat by lia.
Qed.
Lemma keep4_covers l : NoDup (map fst l) -> in_time_order l -> covers (keep4 l) l.
Proof.
  intros N O. pose proof (sorted_up l N O) as U. destruct (keep4_form l) as [[_ ->]|(a & b & m & c & d & E & ->)].
  - split; [exact N|]. split; [apply incl_refl|]. auto.
  - rewrite E in *. clear E. split; [|split].
    + cbn [map] in N |- *. rewrite map_app in N. cbn [map] in N. inversion N as [|? ? N1 N2]; subst. inversion N2 as [|? ? N3 N4]; subst. apply nodup_app_parts in N4. destruct N4 as (_ & N5 & _).
      cbn [In] in N1. rewrite in_app_iff in N1, N3. cbn [In] in N1, N3. constructor; [cbn [In]; tauto|]. constructor; [cbn [In]; tauto|exact N5].
    + intros x I. cbn [In] in *. rewrite in_app_iff. cbn [In]. tauto.
    + intros s x [->| ->] I H.
      * destruct (two_least 1 a b _ x U I H) as [->| ->]; cbn; tauto.
      * apply up_rev in U. cbn [rev] in U. rewrite rev_app_distr in U. cbn [rev app] in U.
        assert (R : rev (a :: b :: m ++ [c; d]) = d :: c :: (rev m ++ [b]) ++ [a]) by (cbn [rev]; rewrite rev_app_distr; reflexivity).
        destruct (two_least (-1) d c ((rev m ++ [b]) ++ [a]) x) as [->| ->]; [exact U| | |cbn; tauto|cbn; tauto].
        -- rewrite <- R. apply -> in_rev. exact I.
        -- rewrite <- R, below_rev. exact H.
Qed.
Definition ginv (g : gauge) (l : list (Z * Z)) : Prop := covers (g_points g) l /\ g_num g = wrap_u64 (Z.of_nat (length l)).
Lemma wrap_add a b : wrap_u64 (wrap_u64 a + wrap_u64 b) = wrap_u64 (a + b).
Proof. unfold wrap_u64. symmetry. apply Zplus_mod. Qed.
Lemma wrap_add_l a b : wrap_u64 (wrap_u64 a + b) = wrap_u64 (a + b).
Proof. unfold wrap_u64. apply Zplus_mod_idemp_l. Qed.
Lemma ginv_new : ginv gauge_new []. Proof. split; [exact covers_nil|reflexivity]. Qed.
Lemma complete_app a b : complete (a ++ b) = complete a ++ complete b.
Proof. induction a as [|[[t|] [v|]] a IH]; cbn [app complete t_ts t_val]; [reflexivity| | | |]; rewrite IH; reflexivity. Qed.
Section GAUGE.
  Variable sort : list (Z * Z) -> list (Z * Z).
  Hypothesis Hs : sorts sort.
  Lemma ginv_update g l batch : NoDup (map fst (l ++ complete batch)) -> ginv g l -> ginv (gauge_update sort g batch) (l ++ complete batch).
  Proof.
    intros N [A B]. destruct (Hs (complete batch)) as [P O]. split; cbn [gauge_update g_points g_num].
    - apply covers_app; [exact N|exact A|]. eapply covers_perm; [apply Permutation_refl|apply Permutation_sym; exact P|]. apply keep4_covers; [|exact O].
      eapply Permutation_NoDup; [apply Permutation_map; exact P|]. rewrite map_app in N. now apply nodup_app_parts in N.
    - rewrite B, wrap_add_l, app_length, <- (Permutation_length P). f_equal. lia.
  Qed.
  Lemma ginv_part p : NoDup (map fst (complete (concat p))) -> ginv (partition gauge_new (gauge_update sort) p) (complete (concat p)).
  Proof.
    unfold partition. assert (G : forall bs g l, ginv g l -> NoDup (map fst (l ++ complete (concat bs))) -> ginv (fold_left (gauge_update sort) bs g) (l ++ complete (concat bs))).
    { induction bs as [|b bs IH]; intros g l I N; cbn [fold_left concat] in *; [cbn [complete]; now rewrite app_nil_r|]. rewrite complete_app, app_assoc in *. apply IH; [|exact N]. apply ginv_update; [|exact I].
      rewrite map_app in N. now apply nodup_app_parts in N. }
    intro N. apply (G p gauge_new []); [exact ginv_new|exact N].
  Qed.
  Definition greads (l : list (gauge * list (Z * Z))) : list (Z * Z) := concat (map snd l).
  Lemma ginv_merge l : forall g r, Forall (fun x => ginv (fst x) (snd x)) l -> ginv g r -> NoDup (map fst (r ++ greads l)) -> ginv (gauge_merge g (map fst l)) (r ++ greads l).
  Proof.
    unfold gauge_merge, greads. induction l as [|[g' r'] l IH]; intros g r F I N; cbn [map fold_left concat fst snd] in *; [now rewrite app_nil_r|].
    inversion F as [|? ? F1 F2]; subst. cbn [fst snd] in F1. rewrite app_assoc in *. apply IH; [exact F2| |exact N]. destruct I as [I1 I2], F1 as [J1 J2]. split; cbn [g_points g_num].
    - apply covers_app; [|exact I1|exact J1]. rewrite map_app in N. now apply nodup_app_parts in N.
    - rewrite I2, J2, wrap_add, app_length. f_equal. lia.
  Qed.
  Lemma ginv_merges arr : forall g r, Forall (fun x => ginv (fst x) (snd x)) (concat arr) -> ginv g r -> NoDup (map fst (r ++ greads (concat arr))) -> ginv (fold_left gauge_merge (map (map fst) arr) g) (r ++ greads (concat arr)).
  Proof.
    induction arr as [|a arr IH]; intros g r F I N; cbn [map fold_left concat] in *; [unfold greads; cbn; now rewrite app_nil_r|]. rewrite Forall_app in F. destruct F as [F1 F2].
    assert (E : greads (a ++ concat arr) = greads a ++ greads (concat arr)) by (unfold greads; now rewrite map_app, concat_app). rewrite E, app_assoc in *. apply IH; [exact F2| |exact N].
    apply ginv_merge; [exact F1|exact I|]. rewrite map_app in N. now apply nodup_app_parts in N.
  Qed.
  Lemma greads_perm l l' : Permutation l l' -> Permutation (greads l) (greads l').
  Proof. unfold greads. induction 1 as [|x l l' P IH|x y l|l a b P1 IH1 P2 IH2]; cbn [map concat]; [constructor|now apply Permutation_app_head|rewrite !app_assoc; apply Permutation_app_tail, Permutation_app_comm|eapply Permutation_trans; eassumption]. Qed.
  Lemma complete_all parts : complete (all_rows parts) = concat (map (fun p => complete (concat p)) parts).
  Proof. unfold all_rows. induction parts as [|p parts IH]; cbn [map concat]; [reflexivity|]. now rewrite complete_app, IH. Qed.
  Lemma gauge_stage parts g : NoDup (map fst (complete (all_rows parts))) -> two_stage gauge_new (gauge_update sort) (fun g => g) gauge_merge parts g -> ginv g (complete (all_rows parts)).
  Proof.
    intros N (arr & P & ->).
    set (l := map (fun p => (partition gauge_new (gauge_update sort) p, complete (concat p))) parts).
    assert (E1 : map fst l = map (fun p => partition gauge_new (gauge_update sort) p) parts) by (unfold l; now rewrite map_map).
    assert (E2 : greads l = complete (all_rows parts)) by (unfold l, greads; rewrite map_map; cbn [snd]; symmetry; apply complete_all).
    assert (F : Forall (fun x => ginv (fst x) (snd x)) l).
    { rewrite complete_all in N. clear - N Hs. subst l. induction parts as [|p parts IH]; cbn [map]; constructor; cbn [map concat] in N; rewrite map_app in N; apply nodup_app_parts in N; destruct N as (N1 & N2 & _); [cbn [fst snd]; now apply ginv_part|now apply IH]. }
    rewrite <- E1 in P. destruct (arrive fst l arr P) as (arr' & P' & E'). pose proof (greads_perm _ _ P') as Q. rewrite E2 in Q.
    rewrite <- E'. assert (I : ginv (fold_left gauge_merge (map (map fst) arr') gauge_new) ([] ++ greads (concat arr'))).
    { apply ginv_merges; [eapply Permutation_Forall; [apply Permutation_sym; exact P'|exact F]|exact ginv_new|]. cbn [app]. eapply Permutation_NoDup; [apply Permutation_map, Permutation_sym; exact Q|exact N]. }
    cbn [app] in I. destruct I as [I1 I2]. split; [eapply covers_perm; [apply Permutation_refl|exact Q|exact I1]|]. rewrite I2. now rewrite (Permutation_length Q).
  Qed.
  Lemma same_time l (x y : Z * Z) : NoDup (map fst l) -> In x l -> In y l -> fst x = fst y -> x = y.
  Proof.
    induction l as [|a l IH]; cbn [map]; [intros _ []|]. intros N [->|I] [->|J] E; [reflexivity| | |]; inversion N; subst.
    - exfalso. apply H1. rewrite E. now apply in_map.
    - exfalso. apply H1. rewrite <- E. now apply in_map.
    - now apply IH.
  Qed.
  Lemma up_min s a l x : up s (a :: l) -> In x (a :: l) -> s * fst a <= s * fst x.
  Proof. intros U [->|I]; [lia|]. apply StronglySorted_inv in U. destruct U as [_ F]. rewrite Forall_forall in F. specialize (F x I). lia. Qed.
  Lemma below_first s a l : up s (a :: l) -> below s a (a :: l) = 0%nat.
  Proof.
    intro U. unfold below. destruct (filter _ (a :: l)) as [|y f] eqn:E; [reflexivity|]. assert (I : In y (filter (fun y => s * fst y <? s * fst a) (a :: l))) by (rewrite E; now left).
    rewrite filter_In in I. destruct I as [I H]. apply Z.ltb_lt in H. pose proof (up_min s a l y U I). lia.
  Qed.
  (** the two first of the kept readings are the two first of all *)
  Lemma heads s k l : s = 1 \/ s = -1 -> up s k -> up s l -> covers k l -> l <> [] ->
    k <> [] /\ hd (0, 0) k = hd (0, 0) l /\ hd (hd (0, 0) k) (tl k) = hd (hd (0, 0) l) (tl l) /\ (length k = 1%nat <-> length l = 1%nat).
  Proof.
    intros Hsg Uk Ul (A & B & C) Nl. destruct l as [|a l]; [congruence|]. pose proof (up_nodup s _ Ul) as Nd.
    assert (Ia : In a k) by (apply (C s a Hsg); [now left|]; rewrite below_first by exact Ul; lia).
    destruct k as [|c k]; [destruct Ia|]. split; [discriminate|]. assert (Ec : c = a).
    { apply (same_time (a :: l)); [exact Nd|apply B; now left|now left|]. pose proof (up_min s c k a Uk Ia). pose proof (up_min s a l c Ul (B c (or_introl eq_refl))). destruct Hsg as [->| ->]; lia. }
    subst c. split; [reflexivity|]. cbn [hd tl]. destruct l as [|b l].
    - assert (k = []) as ->; [|split; [reflexivity|cbn; tauto]]. destruct k as [|d k]; [reflexivity|]. exfalso. destruct (B d (or_intror (or_introl eq_refl))) as [<-|[]]. cbn [map] in A. inversion A; subst. apply H1. now left.
    - assert (Ib : In b (a :: k)).
      { apply (C s b Hsg); [right; now left|]. apply StronglySorted_inv in Ul. destruct Ul as [Ul F]. change (a :: b :: l) with ([a] ++ b :: l). rewrite below_app, (below_first s b l Ul). unfold below. cbn [filter]. destruct (_ <? _); cbn; lia. }
      assert (Nab : b <> a) by (intros ->; cbn [map] in Nd; inversion Nd; subst; apply H1; now left). destruct Ib as [Ib|Ib]; [congruence|].
      destruct k as [|d k]; [destruct Ib|]. cbn [hd length]. split; [|split; discriminate].
      assert (Id : In d (a :: b :: l)) by (apply B; right; now left).
      assert (Nda : d <> a) by (intros ->; cbn [map] in A; inversion A; subst; apply H1; now left).
      destruct Id as [Id|Id]; [congruence|]. apply (same_time (a :: b :: l)); [exact Nd|now right|right; now left|].
      apply StronglySorted_inv in Uk. destruct Uk as [Uk _]. apply StronglySorted_inv in Ul. destruct Ul as [Ul _]. pose proof (up_min s d k b Uk Ib). pose proof (up_min s b l d Ul Id). destruct Hsg as [->| ->]; lia.
  Qed.
  Lemma last_rev {A} (l : list A) d : last l d = hd d (rev l).
  Proof. induction l as [|x l IH] using rev_ind; [reflexivity|]. rewrite last_last, rev_app_distr. reflexivity. Qed.
  Lemma removelast_rev {A} (l : list A) : removelast l = rev (tl (rev l)).
  Proof. induction l as [|x l IH] using rev_ind; [reflexivity|]. rewrite removelast_last, rev_app_distr. cbn [rev app tl]. now rewrite rev_involutive. Qed.
  Lemma nth_from_end {A} (l : list A) i d : (i < length l)%nat -> nth (length l - S i) l d = nth i (rev l) d.
  Proof. intro H. rewrite rev_nth by exact H. reflexivity. Qed.
  Lemma gauge_two parts g : NoDup (map fst (complete (all_rows parts))) -> Z.of_nat (length (complete (all_rows parts))) < 2 ^ 64 ->
    two_stage gauge_new (gauge_update sort) (fun g => g) gauge_merge parts g -> gauge_of (complete (all_rows parts)) (gauge_build sort g).
  Proof.
    intros N Hl T. pose proof (gauge_stage parts g N T) as [Cv Nu]. set (L := complete (all_rows parts)) in *. clearbody L. clear T parts.
    unfold gauge_build, gauge_of. destruct (Hs L) as [PL OL]. assert (UL : up 1 (sort L)) by (apply sorted_up; [eapply Permutation_NoDup; [apply Permutation_map; exact PL|exact N]|exact OL]).
    destruct (Hs (g_points g)) as [PK OK]. assert (UK : up 1 (sort (g_points g))) by (apply sorted_up; [eapply Permutation_NoDup; [apply Permutation_map; exact PK|exact (proj1 Cv)]|exact OK]).
    assert (Cs : covers (sort (g_points g)) (sort L)) by (eapply covers_perm; eassumption).
    destruct L as [|x0 L0].
    - destruct Cv as (_ & B & _). destruct (g_points g) as [|p ps]; [reflexivity|]. destruct (B p (or_introl eq_refl)).
    - assert (NL : sort (x0 :: L0) <> []) by (intro E; rewrite E in PL; now apply Permutation_sym, Permutation_nil in PL).
      destruct (heads 1 _ _ (or_introl eq_refl) UK UL Cs NL) as (H1 & H2 & H3 & H4).
      assert (Cr : covers (rev (sort (g_points g))) (rev (sort (x0 :: L0)))) by (eapply covers_perm; [apply Permutation_rev|apply Permutation_rev|exact Cs]).
      assert (NR : rev (sort (x0 :: L0)) <> []) by (intro E; apply NL; rewrite <- (rev_involutive (sort _)), E; reflexivity).
      destruct (heads (-1) _ _ (or_intror eq_refl) (up_rev 1 _ UK) (up_rev 1 _ UL) Cr NR) as (R1 & R2 & R3 & _).
      destruct (g_points g) as [|p ps] eqn:Eg; [exfalso; apply H1; destruct (Hs []) as [P0 _]; now apply Permutation_nil in P0|]. rewrite <- Eg in *. clear Eg p ps.
      set (k := sort (g_points g)) in *. set (l := sort (x0 :: L0)) in *. exists l.
      split; [exact PL|]. split; [exact OL|]. split; [exact NL|]. cbn [gd_first gd_last gd_num gd_second gd_penult].
      assert (K0 : (1 <= length k)%nat) by (destruct k; [congruence|cbn; lia]).
      split; [rewrite <- H2; destruct k; [congruence|reflexivity]|].
      split; [rewrite last_rev, <- R2; replace (length k - 1)%nat with (length k - S 0)%nat by lia; rewrite nth_from_end by lia; destruct (rev k); reflexivity|].
      split; [rewrite Nu; unfold wrap_u64; rewrite <- (Permutation_length PL); apply Z.mod_small; lia|].
      rewrite removelast_rev, last_rev, rev_involutive. destruct (Nat.ltb_spec 1 (length k)) as [K|K].
      + split; [rewrite <- H3; destruct k as [|? [|? ?]]; cbn [length] in K; try lia; reflexivity|].
        rewrite nth_from_end by lia. assert (LR : (1 < length (rev k))%nat) by now rewrite rev_length. assert (Ll : length (rev l) <> 1%nat) by (rewrite rev_length; lia).
        destruct (rev k) as [|x [|y r]] eqn:Ek; cbn [length] in LR; try lia. cbn [nth hd tl] in *. rewrite R3. destruct (rev l) as [|x' [|y' r']]; cbn [length] in Ll; try lia; [congruence|reflexivity].
      + assert (length k = 1%nat) as K1 by lia. assert (length l = 1%nat) as L1 by (now apply H4). destruct k as [|x [|? ?]]; cbn in K1; try lia. destruct l as [|y [|? ?]]; cbn in L1; try lia. cbn in H2. subst y. cbn. split; reflexivity.
  Qed.
End GAUGE.

(** ** Data quality *)
Lemma dq_merges arr : forall s, fold_left dq_merge arr s = s ++ concat (concat arr).
Proof. unfold dq_merge. induction arr as [|a arr IH]; intro s; cbn [fold_left concat]; [now rewrite app_nil_r|]. rewrite IH, concat_app, app_assoc. reflexivity. Qed.
Lemma dq_two parts series : Forall (fun p => length p = 1%nat) parts -> two_stage [] dq_update (fun s => s) dq_merge parts series -> Permutation series (all_rows parts).
Proof.
  intros F (arr & P & ->). rewrite dq_merges. cbn [app]. assert (E : map (fun p => partition [] dq_update p) parts = map (fun p => concat p) parts).
  { clear P. induction F as [|p parts Hp F IH]; [reflexivity|]. cbn [map]. rewrite IH. destruct p as [|b [|? ?]]; cbn in Hp; try lia. cbn. now rewrite app_nil_r. }
  rewrite E in P. unfold all_rows. clear - P. induction P as [|x l l' P IH|x y l|l a b P1 IH1 P2 IH2]; cbn [concat]; [constructor|now apply Permutation_app_head|rewrite !app_assoc; apply Permutation_app_tail, Permutation_app_comm|eapply Permutation_trans; eassumption].
Qed.
