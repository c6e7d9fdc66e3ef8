(** Proofs about filters. *)
From Verif Require Import Prelude TimeRangeModel TimeRangeSpec TimeRangeProofs DomainModel DomainSpec DomainProofs FilterModel FilterSpec.

(** ** Ascending lists of time ranges, some possibly empty *)
Definition sep (a b : trange) : Prop :=
  tmin a <= tmin b /\ tmax a < tmin b.
Definition esep (a b : Z * Z) : Prop := fst a < fst b /\ (fst a <= snd a -> snd a < fst b).
Definition toTR (e : Z * Z) : trange := TR (fst e) (snd e).
Definition i64r (r : trange) : Prop := is_i64 (tmin r) /\ is_i64 (tmax r).
Definition covered (m : btree) (t : Z) : Prop := exists e, In e m /\ fst e <= t <= snd e.

Lemma bt_insert_last k v : forall m, (forall e, In e m -> fst e <= k) -> StronglySorted esep m ->
  exists m', (m = m' \/ exists v', m = m' ++ [(k, v')]) /\ (forall e, In e m' -> fst e < k) /\
             bt_insert k v m = m' ++ [(k, v)].
Proof.
  induction m as [|[k' v'] m IH]; intros L S.
  - exists []. sp; auto. intros e [].
  - inversion S as [|? ? S' F]; subst. cbn [bt_insert].
    pose proof (L (k', v') (or_introl eq_refl)) as L1. cbn [fst] in L1.
    destruct (Z.ltb_spec k k'); [lia|]. destruct (Z.eqb_spec k k') as [->|NE].
    + assert (m = []) as ->.
      { destruct m as [|e m]; auto. inversion F as [|? ? [F1 _] _]; subst. cbn [fst] in F1.
        pose proof (L e (or_intror (or_introl eq_refl))). lia. }
      exists []. sp; [right; exists v'; auto|intros e []|auto].
    + destruct IH as (m' & E & Lt & B); [intros e He; apply L; right; auto|auto|].
      exists ((k', v') :: m'). sp.
      * destruct E as [->|(w & ->)]; [left; auto|right; exists w; auto].
      * intros e [<-|He]; [cbn; lia|auto].
      * rewrite B. auto.
Qed.
Lemma ss_app_last {A} (R : A -> A -> Prop) l x : StronglySorted R l -> (forall y, In y l -> R y x) ->
  StronglySorted R (l ++ [x]).
Proof.
  induction l as [|y l IH]; intros S F; cbn [app]; [repeat constructor|].
  inversion S as [|? ? S' F']; subst. constructor.
  - apply IH; auto. intros z Hz. apply F; right; auto.
  - apply Forall_app. split; auto. constructor; auto. apply F; left; auto.
Qed.
Lemma ss_app_inv {A} (R : A -> A -> Prop) l l' : StronglySorted R (l ++ l') ->
  StronglySorted R l /\ StronglySorted R l' /\ (forall x y, In x l -> In y l' -> R x y).
Proof.
  induction l as [|z l IH]; cbn [app]; intros S; [sp; auto; [constructor|intros x y []]|].
  inversion S as [|? ? S' F]; subst. destruct (IH S') as (S1 & S2 & S3). apply Forall_app in F as [F1 F2]. sp; auto.
  - constructor; auto.
  - intros x y [<-|Hx] Hy; auto. rewrite Forall_forall in F2. auto.
Qed.
Definition ASC (m : btree) (r : trange) : Prop := forall e, In e m -> sep (toTR e) r.
Lemma filter_all {A} (p : A -> bool) l : (forall x, In x l -> p x = true) -> filter p l = l.
Proof. induction l as [|x l IH]; intros H; cbn; auto. rewrite (H x) by (left; auto). f_equal. apply IH. intros y Hy. apply H; right; auto. Qed.


Lemma upto_prefix hi : forall m, StronglySorted esep m -> exists suf, m = bt_upto hi m ++ suf /\ forall e, In e suf -> hi < fst e.
Proof.
  induction 1 as [|x l S IH F]; [exists []; split; auto; intros e []|].
  unfold bt_upto in *. cbn [filter]. destruct (Z.leb_spec (fst x) hi).
  - destruct IH as (suf & E & H'). exists suf. split; auto. cbn [app]. congruence.
  - assert (filter (fun e => fst e <=? hi) l = []) as ->.
    { rewrite Forall_forall in F. clear - F H. induction l as [|y l IH]; auto. cbn [filter].
      destruct (F y) as [? _]; [left; auto|]. destruct (Z.leb_spec (fst y) hi); [lia|]. apply IH. intros; apply F; right; auto. }
    exists (x :: l). split; auto. rewrite Forall_forall in F. intros e [<-|He]; auto. destruct (F e He). lia.
Qed.
Lemma covered_app m m' t : covered (m ++ m') t <-> covered m t \/ covered m' t.
Proof.
  unfold covered. split.
  - intros (e & He & H). apply in_app_iff in He as [He|He]; eauto.
  - intros [(e & He & H)|(e & He & H)]; exists e; rewrite in_app_iff; auto.
Qed.
Lemma covered_one k v t : covered [(k, v)] t <-> k <= t <= v.
Proof. unfold covered. split; [intros (e & [<-|[]] & H); auto|intros H; exists (k, v); split; [left|]; auto]. Qed.
Lemma take_while_split {A} (p : A -> bool) (l : list A) : exists r, l = take_while p l ++ r /\ forall x, In x (take_while p l) -> p x = true.
Proof.
  induction l as [|x l (r & E & H)]; cbn [take_while]; [exists []; split; auto; intros ? []|].
  destruct (p x) eqn:P; [|exists (x :: l); split; auto; intros ? []].
  exists r. split; [cbn [app]; congruence|]. intros y [<-|Hy]; auto.
Qed.
Lemma fold_remove_sel ks m : fold_left (fun m k => bt_remove k m) ks m = filter (fun e => negb (existsb (Z.eqb (fst e)) ks)) m.
Proof.
  revert m. induction ks as [|k ks IH]; intros m; cbn [fold_left existsb].
  - symmetry. apply filter_all. auto.
  - rewrite IH. unfold bt_remove. induction m as [|e m IHm]; auto. cbn [filter].
    destruct (Z.eqb_spec (fst e) k); cbn [negb orb filter]; [auto|]. destruct (existsb _ ks); cbn [negb]; rewrite IHm; auto.
Qed.
Lemma ss_fst_inj m e e' : StronglySorted esep m -> In e m -> In e' m -> fst e = fst e' -> e = e'.
Proof.
  intros S H H' E. destruct (ss_pair esep m e e' S H H') as [?|[[? _]|[? _]]]; auto; lia.
Qed.
Lemma add_asc s r : StronglySorted esep (inner s) -> (forall e, In e (inner s) -> is_i64 (fst e) /\ is_i64 (snd e)) ->
  i64r r -> ASC (inner s) r ->
  let s' := add_time_range s r in
  StronglySorted esep (inner s') /\ (forall e, In e (inner s') -> is_i64 (fst e) /\ is_i64 (snd e)) /\
  (forall r', sep r r' -> ASC (inner s) r' -> ASC (inner s') r') /\
  forall t, covered (inner s') t <-> covered (inner s) t \/ tmin r <= t <= tmax r.
Proof.
  intros S I R A. cbn zeta. destruct R as [R1 R2]. unfold add_time_range. cbn zeta.
  destruct (upto_prefix (succ_or_self (tmax r)) _ S) as (suf & E & SUF).
  set (pre := bt_upto (succ_or_self (tmax r)) (inner s)) in *.
  destruct (take_while_split (fun e : Z * Z => snd e >=? pred_or_self (tmin r)) (rev pre)) as (rest & ER & TW).
  set (ts := take_while _ _) in *. clearbody ts pre.
  assert (EP : pre = rev rest ++ rev ts) by (rewrite <- rev_app_distr, <- ER, rev_involutive; auto).
  assert (SN : forall e, In e ts -> snd e = tmin r - 1).
  { intros e He. pose proof (TW e He) as Q. rewrite Z.geb_leb, Z.leb_le in Q.
    assert (Hi : In e (inner s)) by (rewrite E, EP, !in_app_iff, <- !in_rev; auto).
    destruct (A e Hi) as [A1 A2]. cbn [toTR tmin tmax] in A1, A2. destruct (I e Hi) as [I1 I2].
    unfold pred_or_self in Q. destruct (Z.eqb_spec (tmin r) I64_MIN) as [EM|NM]; [exfalso; clear - EM A2 I2; i64; lia|lia]. }
  destruct ts as [|tp ts']; cbn [map].
  - cbn [inner]. destruct (bt_insert_last (tmin r) (tmax r) (inner s)) as (m' & Em & Lt & ->); auto.
    { intros e He. apply (A e He). }
    assert (SM : StronglySorted esep m').
    { destruct Em as [<-|(v' & Em)]; auto. rewrite Em in S. apply ss_app_inv in S as (? & _); auto. }
    assert (IN : forall e, In e m' -> In e (inner s)).
    { intros e He. destruct Em as [<-|(v' & Em)]; auto. rewrite Em. apply in_app_iff; auto. }
    sp.
    + apply ss_app_last; auto. intros y Hy. split; [apply Lt; auto|]. intros _. apply (A y (IN y Hy)).
    + intros e He. apply in_app_iff in He as [He|[<-|[]]]; auto.
    + intros r' SR AR e He. apply in_app_iff in He as [He|[<-|[]]]; auto.
    + intros t. rewrite covered_app, covered_one. destruct Em as [<-|(v' & Em)]; [tauto|].
      rewrite Em, covered_app, covered_one.
      assert (DD : v' < tmin r).
      { destruct (A (tmin r, v')) as [_ B]; [rewrite Em; apply in_app_iff; right; left; auto|]. exact B. }
      split; [tauto|]. intros [[?|?]|?]; auto. lia.
  - (* the selected entries [sel] are adjacent to the new range *)
    change (map fst (tp :: ts')) with (fst tp :: map fst ts'). cbv iota.
    set (ts := tp :: ts') in *.
    assert (NE : rev ts <> []) by (intros X; apply (f_equal (@length _)) in X; rewrite rev_length in X; discriminate).
    destruct (rev ts) as [|hd sel'] eqn:RT; [congruence|]. clear NE.
    assert (LST : last (fst tp :: map fst ts') (fst tp) = fst hd).
    { change (fst tp :: map fst ts') with (map fst ts). rewrite <- (rev_involutive ts), RT. cbn [rev].
      apply last_map_fst. }
    cbn [map] in *. rewrite LST. set (m0 := rev rest) in *. clearbody m0.
    assert (E' : inner s = m0 ++ (hd :: sel') ++ suf) by (rewrite E, EP, <- app_assoc; auto).
    assert (SEL : forall e, In e (hd :: sel') <-> In e ts) by (intros e; rewrite <- RT, <- in_rev; tauto).
    pose proof S as S'. rewrite E' in S'. apply ss_app_inv in S' as (S1 & S2 & S3).
    apply ss_app_inv in S2 as (S4 & S5 & S6).
    assert (GE : bt_get (fst tp) (inner s) = Some (tmin r - 1)).
    { rewrite <- (SN tp) by (left; auto).
      assert (Ht : In tp (inner s)) by (rewrite E'; rewrite !in_app_iff; right; left; apply SEL; left; auto).
      clear - S Ht. induction S as [|[k v] l S IH F]; [destruct Ht|]. cbn [bt_get]. destruct Ht as [<-|Ht].
      - cbn [fst snd]. rewrite Z.eqb_refl. auto.
      - rewrite Forall_forall in F. destruct (F tp Ht) as [F1 _]. cbn in F1.
        destruct (Z.eqb_spec (fst tp) k); [lia|auto]. }
    rewrite GE.
    assert (FR : fold_left (fun m k => bt_remove k m) (fst tp :: map fst ts') (inner s) = m0 ++ suf).
    { rewrite fold_remove_sel. change (fst tp :: map fst ts') with (map fst ts).
      assert (K : forall e, In e (inner s) -> existsb (Z.eqb (fst e)) (map fst ts) = true <-> In e (hd :: sel')).
      { intros e He. rewrite existsb_exists. split.
        - intros (k & Hk & Q). apply Z.eqb_eq in Q. apply in_map_iff in Hk as (e' & <- & He').
          apply SEL in He'. rewrite (ss_fst_inj (inner s) e e' S He); auto. rewrite E', !in_app_iff. auto.
        - intros H. apply SEL in H. exists (fst e). split; [apply in_map; auto|apply Z.eqb_refl]. }
      rewrite E', !filter_app.
      assert (F0 : filter (fun e => negb (existsb (Z.eqb (fst e)) (map fst ts))) m0 = m0).
      { apply filter_all. intros e He. destruct (existsb _ _) eqn:X; auto. exfalso.
        apply K in X; [|rewrite E', !in_app_iff; auto]. destruct (S3 e e He) as [Q _]; [rewrite in_app_iff; auto|lia]. }
      assert (F2 : filter (fun e => negb (existsb (Z.eqb (fst e)) (map fst ts))) suf = suf).
      { apply filter_all. intros e He. destruct (existsb _ _) eqn:X; auto. exfalso.
        apply K in X; [|rewrite E', !in_app_iff; auto]. destruct (S6 e e X He) as [Q _]. lia. }
      assert (F1 : filter (fun e => negb (existsb (Z.eqb (fst e)) (map fst ts))) (hd :: sel') = []).
      { assert (G : forall l, incl l (hd :: sel') -> filter (fun e => negb (existsb (Z.eqb (fst e)) (map fst ts))) l = []).
        { induction l as [|x l IH]; auto. intros G. cbn [filter].
          assert (existsb (Z.eqb (fst x)) (map fst ts) = true) as ->.
          { apply K; [|apply G; left; auto]. rewrite E', !in_app_iff. right; left; apply G; left; auto. }
          cbn [negb]. apply IH. intros y Hy. apply G. right; auto. }
        apply G, incl_refl. }
      rewrite F0, F1, F2. auto. }
    rewrite FR. cbn [inner].
    assert (Hh : In hd (inner s)) by (rewrite E', !in_app_iff; right; left; left; auto).
    destruct (A hd Hh) as [HA1 HA2]. cbn [toTR tmin tmax] in HA1, HA2. destruct (I hd Hh) as [HI1 HI2].
    assert (HS : snd hd = tmin r - 1) by (apply SN, SEL; left; auto).
    replace (Z.min (tmin r) (fst hd)) with (fst hd) by lia.
    rewrite (insert_mid (fst hd) (Z.max (tmax r) (tmin r - 1)) m0 suf); cycle 1.
    { intros a b Hb. destruct (S3 (a, b) hd Hb); auto. left; auto. }
    { intros a b Hb. destruct (S6 hd (a, b)); auto. left; auto. }
    assert (SUFL : tmin r <= tmax r -> suf = []).
    { intros LR. destruct suf as [|y suf]; auto. exfalso. pose proof (SUF y (or_introl eq_refl)) as X.
      destruct (A y) as [B _]; [rewrite E', !in_app_iff; right; right; left; auto|]. cbn [toTR tmin] in B.
      unfold succ_or_self in X. destruct (tmax r =? I64_MAX); lia. }
    sp.
    + replace (m0 ++ (fst hd, Z.max (tmax r) (tmin r - 1)) :: suf) with (m0 ++ [(fst hd, Z.max (tmax r) (tmin r - 1))] ++ suf) by auto.
      clear - S1 S3 S5 S6 HS SUFL HA2.
      assert (G : StronglySorted esep ((fst hd, Z.max (tmax r) (tmin r - 1)) :: suf)).
      { constructor; auto. apply Forall_forall. intros y Hy. destruct (S6 hd y (or_introl eq_refl) Hy) as [Q1 Q2].
        split; cbn [fst snd]; auto. intros L. destruct (Z.leb_spec (tmin r) (tmax r)) as [LR|LR].
        - rewrite (SUFL LR) in Hy. destruct Hy.
        - rewrite <- HS in *. lia. }
      cbn [app]. clear S5 S6 SUFL. induction S1 as [|x l S1 IH F]; auto. cbn [app]. constructor.
      * apply IH. intros a b Ha. apply S3. right; auto.
      * apply Forall_app. split; auto. constructor.
        -- destruct (S3 x hd) as [Q1 Q2]; [left; auto|left; auto|]. split; auto.
        -- apply Forall_forall. intros y Hy. apply S3; [left; auto|right; apply in_app_iff; auto].
    + intros y Hy. apply in_app_iff in Hy as [Hy|[<-|Hy]].
      * apply I. rewrite E', !in_app_iff. auto.
      * cbn [fst snd]. split; auto. rewrite <- HS. destruct (Z.max_spec (tmax r) (snd hd)) as [[_ ->]|[_ ->]]; auto.
      * apply I. rewrite E', !in_app_iff. auto.
    + intros r' SR AR y Hy. apply in_app_iff in Hy as [Hy|[<-|Hy]].
      * apply AR. rewrite E', !in_app_iff. auto.
      * destruct (AR hd Hh) as [Q1 Q2]. destruct SR as [Q3 Q4]. unfold sep. cbn [toTR tmin tmax fst snd] in *. lia.
      * apply AR. rewrite E', !in_app_iff. auto.
    + intros t. rewrite E'. change ((fst hd, Z.max (tmax r) (tmin r - 1)) :: suf) with ([(fst hd, Z.max (tmax r) (tmin r - 1))] ++ suf).
      rewrite !covered_app, covered_one.
      assert (CS : covered (hd :: sel') t <-> fst hd <= t <= tmin r - 1).
      { unfold covered. split.
        - intros (e & He & Q). rewrite (SN e) in Q by (apply SEL; auto).
          assert (fst hd <= fst e); [|lia]. destruct He as [<-|He]; [lia|].
          inversion S4 as [|? ? _ F]; subst. rewrite Forall_forall in F. destruct (F e He). lia.
        - intros Q. exists hd. split; [left; auto|lia]. }
      rewrite CS. destruct (Z.leb_spec (tmin r) (tmax r)) as [LR|LR].
      * rewrite Z.max_l by lia. rewrite (SUFL LR). split.
        -- intros [?|[?|?]]; auto. destruct (Z.lt_ge_cases t (tmin r)); [left; right; left; lia|right; lia].
        -- intros [[?|[?|?]]|?]; auto; right; left; lia.
      * rewrite Z.max_r by lia. split; [tauto|]. intros [?|?]; [tauto|lia].
Qed.
Lemma fold_asc : forall l s, StronglySorted esep (inner s) -> (forall e, In e (inner s) -> is_i64 (fst e) /\ is_i64 (snd e)) ->
  Forall i64r l -> StronglySorted sep l -> (forall r, In r l -> ASC (inner s) r) ->
  let s' := fold_left add_time_range l s in
  StronglySorted esep (inner s') /\ forall t, covered (inner s') t <-> covered (inner s) t \/ exists r, In r l /\ tmin r <= t <= tmax r.
Proof.
  induction l as [|r l IH]; intros s S I F SS A; cbn [fold_left].
  - cbn zeta. split; auto. intros t. split; auto. intros [?|(r & [] & _)]; auto.
  - inversion F; subst. inversion SS as [|? ? SS' SF]; subst.
    destruct (add_asc s r S I) as (S1 & I1 & A1 & C1); auto; [apply A; left; auto|].
    destruct (IH (add_time_range s r) S1 I1) as (S2 & C2); auto.
    + intros r' Hr. apply A1; [rewrite Forall_forall in SF; auto|]. apply A; right; auto.
    + split; auto. intros t. rewrite C2, C1. split.
      * intros [[?|?]|(q & ? & ?)]; auto; right; [exists r|exists q]; cbn; auto.
      * intros [?|(q & [<-|?] & ?)]; auto. right; eauto.
Qed.
Lemma contains_asc s t : StronglySorted esep (inner s) -> (trs_contains s t = true <-> covered (inner s) t).
Proof.
  intros S. unfold trs_contains, trs_includes. cbn [tmin tmax].
  destruct (upto_prefix t _ S) as (suf & E & SUF). set (pre := bt_upto t (inner s)) in *.
  assert (PK : forall e, In e pre -> fst e <= t).
  { unfold pre, bt_upto. intros e He. apply filter_In in He as [_ He]. lia. }
  assert (C1 : covered (inner s) t <-> covered pre t).
  { rewrite E, covered_app. split; auto. intros [?|(e & He & ?)]; auto. apply SUF in He. lia. }
  rewrite C1. rewrite E in S. apply ss_app_inv in S as (S1 & _). clear E C1. clearbody pre.
  destruct pre as [|e p _] using rev_ind; cbn [rev].
  - split; [discriminate|]. intros (e & [] & _).
  - rewrite rev_app_distr. cbn [rev app]. destruct e as [a b]. split.
    + intros H. exists (a, b). split; [apply in_app_iff; right; left; auto|]. cbn. lia.
    + intros (e & He & H). apply in_app_iff in He as [He|[<-|[]]]; [|cbn in H; lia].
      apply ss_app_inv in S1 as (_ & _ & S3). destruct (S3 e (a, b) He) as [Q1 Q2]; [left; auto|]. cbn in Q1, Q2.
      assert (PA : a <= t) by (apply (PK (a, b)); apply in_app_iff; right; left; auto). lia.
Qed.
Lemma trs_new_asc l t : Forall i64r l -> StronglySorted sep l ->
  (trs_contains (trs_new l) t = true <-> exists r, In r l /\ tmin r <= t <= tmax r).
Proof.
  intros F S. unfold trs_new, trs_extend. replace (trs_is_boundless trs_empty) with false by reflexivity.
  destruct (fold_asc l trs_empty) as (S1 & C1); auto.
  - constructor.
  - intros e [].
  - intros r _ e [].
  - rewrite contains_asc by exact S1. rewrite C1. split; auto. intros [(e & [] & _)|?]; auto.
Qed.

(** ** From a range domain over timestamps to time ranges *)
Definition inside (m : marker) : Prop := forall v, m_val m = Some v -> I64_MIN < ts_of v < I64_MAX.
Definition rinside (r : range) : Prop := inside (low r) /\ inside (high r).
Lemma ts_scalar v : scalar_ty v = DNum TSK -> v = SNum TSK (ts_of v).
Proof. destruct v; cbn; intros E; try discriminate. injection E as ->. auto. Qed.
Lemma ts_cmp a b : scalar_cmp (SNum TSK a) (SNum TSK b) = (a ?= b).
Proof. reflexivity. Qed.
Lemma range_tr_ok r : rok (DNum TSK) r -> rinside r -> i64r (range_tr r) /\
  forall t, is_i64 t -> (tmin (range_tr r) <= t <= tmax (range_tr r) <-> in_range (SNum TSK t) r).
Proof.
  destruct r as [[lt lv lb] [ht hv hb]]. intros (L & H & O) (IL & IH). unfold inside in *. cbn [low high m_val m_bound m_ty] in *.
  unfold lowm, highm in L, H. cbn [low high m_val m_bound m_ty] in *. destruct L as [-> L], H as [-> H].
  unfold range_tr, marker_bnd, in_range, above_low, below_high, i64r. cbn [low high m_val m_bound].
  assert (XL : exists p, (match (match lv with None => Unbounded | Some v => match lb with Exactly => Included (ts_of v) | _ => Excluded (ts_of v) end end) with
     Excluded v => wrap_i64 (v + 1) | Included v => v | Unbounded => I64_MIN end) = p /\ is_i64 p /\
     forall t, is_i64 t -> (p <= t <-> match lv with None => True | Some a => match lb with Exactly => sle a (SNum TSK t) | _ => slt a (SNum TSK t) end end)).
  { destruct lv as [v|].
    - destruct L as [Tv B]. specialize (IL v eq_refl). rewrite (ts_scalar v Tv) in *. cbn [ts_of] in *.
      destruct B as [->| ->]; eexists; (split; [reflexivity|]); unfold sle, slt; rewrite ?wrap_i64_id by (i64; lia);
        (split; [i64; lia|]); intros t It; rewrite ts_cmp; [rewrite Z.compare_lt_iff|rewrite Z.compare_gt_iff]; lia.
    - eexists; split; [reflexivity|]. split; [i64; lia|]. intros t It. i64. split; auto; lia. }
  assert (XH : exists p, (match (match hv with None => Unbounded | Some v => match hb with Exactly => Included (ts_of v) | _ => Excluded (ts_of v) end end) with
     Excluded v => wrap_i64 (v - 1) | Included v => v | Unbounded => I64_MAX end) = p /\ is_i64 p /\
     forall t, is_i64 t -> (t <= p <-> match hv with None => True | Some a => match hb with Exactly => sle (SNum TSK t) a | _ => slt (SNum TSK t) a end end)).
  { destruct hv as [v|].
    - destruct H as [Tv B]. specialize (IH v eq_refl). rewrite (ts_scalar v Tv) in *. cbn [ts_of] in *.
      destruct B as [->| ->]; eexists; (split; [reflexivity|]); unfold sle, slt; rewrite ?wrap_i64_id by (i64; lia);
        (split; [i64; lia|]); intros t It; rewrite ts_cmp; [rewrite Z.compare_lt_iff|rewrite Z.compare_gt_iff]; lia.
    - eexists; split; [reflexivity|]. split; [i64; lia|]. intros t It. i64. split; auto; lia. }
  destruct XL as (p & E1 & P1 & P2), XH as (q & E2 & Q1 & Q2). unfold tr_of_bounds. cbn [tmin tmax].
  rewrite E1, E2. sp; auto. intros t It. rewrite <- P2, <- Q2 by auto. tauto.
Qed.
Lemma apart_sep a b : rok (DNum TSK) a -> rok (DNum TSK) b -> rinside a -> rinside b ->
  mcmp (low a) (low b) <> Gt -> apart a b -> sep (range_tr a) (range_tr b).
Proof.
  destruct a as [[lt lv lb] [ht hv hb]], b as [[lt' lv' lb'] [ht' hv' hb']].
  intros (L & H & O) (L' & H' & O') (IL & IH) (IL' & IH') LL AP.
  unfold inside, lowm, highm, apart in *. unfold mcmp, is_upper_unbound, is_lower_unbound in *. cbn [low high m_val m_bound m_ty] in *.
  destruct L as [-> L], H as [-> H], L' as [-> L'], H' as [-> H'].
  unfold range_tr, marker_bnd, sep, tr_of_bounds. cbn [low high m_val m_bound m_ty tmin tmax].
  destruct hv as [v|]; [|subst hb; exfalso; destruct lv' as [w'|]; [destruct lb'|subst lb']; destruct AP as [?|(? & ? & ?)]; discriminate].
  destruct lv' as [w'|]; [|subst lb'; exfalso; destruct hb; destruct AP as [?|(? & ? & ?)]; discriminate].
  destruct H as [Tv Bv], L' as [Tw Bw]. specialize (IH v eq_refl). specialize (IL' w' eq_refl).
  assert (AP' : ts_of v < ts_of w' \/ (ts_of v = ts_of w' /\ hb = Below /\ lb' = Above)).
  { rewrite (ts_scalar v Tv), (ts_scalar w' Tw) in AP. clear - AP.
    destruct hb, lb'; cbv beta iota in AP; rewrite ts_cmp in AP; rewrite Z.compare_lt_iff, Z.compare_eq_iff in AP; cbn [ts_of] in AP; tauto. }
  destruct lv as [u|].
  - destruct L as [Tu Bu]. specialize (IL u eq_refl).
    assert (OO : ts_of u <= ts_of v).
    { rewrite (ts_scalar v Tv), (ts_scalar u Tu) in O. clear - O lb hb.
      destruct lb, hb; cbv beta iota in O; rewrite ts_cmp in O; rewrite Z.compare_gt_iff in O; cbn [ts_of] in O; lia. }
    clear - OO AP' IL IH IL' Bu Bv Bw. revert OO AP' IL IH IL'.
    generalize (ts_of u), (ts_of v), (ts_of w'). intros x y z.
    destruct Bu as [->| ->], Bv as [->| ->], Bw as [->| ->]; cbn [bound_eqb]; intros;
      rewrite ?(wrap_i64_id (x + 1)), ?(wrap_i64_id (y - 1)), ?(wrap_i64_id (z + 1)) by (i64; lia);
      (destruct AP' as [?|(? & ? & ?)]; try discriminate);
      lia.
  - subst lb. clear - AP' IH IL' Bv Bw. revert AP' IH IL'.
    generalize (ts_of v), (ts_of w'). intros y z.
    destruct Bv as [->| ->], Bw as [->| ->]; intros;
      rewrite ?(wrap_i64_id (y - 1)), ?(wrap_i64_id (z + 1)) by (i64; lia);
      (destruct AP' as [?|(? & ? & ?)]; try discriminate);
      i64; lia.
Qed.
Lemma domain_tr m t : mok (DNum TSK) m -> (forall k, In k (lows (DRange m) ++ highs (DRange m)) -> inside k) -> is_i64 t ->
  (trs_contains (trs_new (map range_tr (rm_values m))) t = true <-> in_domain (SNum TSK t) (DRange m)).
Proof.
  intros M I It. destruct (mok_vals _ m M) as [F _]. destruct M as [F0 S0].
  assert (RI : forall r, In r (rm_values m) -> rinside r).
  { intros r Hr. split; apply I; apply in_app_iff; cbn [lows highs]; [left|right]; apply in_map; auto. }
  rewrite Forall_forall in F. rewrite trs_new_asc.
  - cbn [in_domain]. unfold in_ranges. split.
    + intros (r & Hr & H). apply in_map_iff in Hr as (q & <- & Hq). exists q. split; auto.
      apply range_tr_ok in H; auto.
    + intros (q & Hq & H). exists (range_tr q). split; [apply in_map; auto|]. apply range_tr_ok; auto.
  - apply Forall_forall. intros r Hr. apply in_map_iff in Hr as (q & <- & Hq). apply range_tr_ok; auto.
  - unfold rm_values in *. rewrite map_map. clear I It.
    induction S0 as [|x l S0 IH F1]; cbn [map]; constructor.
    + apply IH; [|intros; apply F; right; auto|intros; apply RI; right; auto]. inversion F0; auto.
    + apply Forall_forall. intros r Hr. apply in_map_iff in Hr as (q & <- & Hq).
      rewrite Forall_forall in F1. destruct (F1 q Hq) as [K A]. inversion F0 as [|? ? (RX & LX & EX) F0']; subst.
      rewrite Forall_forall in F0'. destruct (F0' q Hq) as (RQ & LQ & EQ).
      apply apart_sep; auto; [apply RI; left; auto|apply RI; right; apply in_map; auto|].
      pose proof (rok_low _ _ RX) as AX. pose proof (rok_low _ _ RQ) as AQ.
      assert (AX' : anym (DNum TSK) (fst x)) by (left; exact LX). assert (AQ' : anym (DNum TSK) (fst q)) by (left; exact LQ).
      rewrite <- (mcmp_eq_l (DNum TSK) (fst x)) by assumption.
      rewrite (mcmp_opp (DNum TSK) (low (snd q)) (fst x)) by assumption.
      rewrite <- (mcmp_eq_l (DNum TSK) (fst q)) by assumption.
      rewrite (mcmp_opp (DNum TSK) (fst x) (fst q)) by assumption. rewrite K. discriminate.
Qed.

(** ** Column maps *)
Lemma upsert_get c c' f d : forall m, cm_get c (cm_upsert c' f d m) =
  if c' =? c then Some (match cm_get c m with Some x => f x | None => d end) else cm_get c m.
Proof.
  induction m as [|[k x] m IH]; cbn [cm_upsert cm_get].
  - destruct (c' =? c); auto.
  - destruct (Z.eqb_spec k c') as [->|N]; cbn [cm_get].
    + destruct (c' =? c); auto.
    + rewrite IH. destruct (Z.eqb_spec k c) as [->|N2]; auto. destruct (Z.eqb_spec c' c); auto. congruence.
Qed.
Lemma upsert_keys c f d : forall m k, In k (map fst (cm_upsert c f d m)) <-> k = c \/ In k (map fst m).
Proof.
  induction m as [|[k' x] m IH]; intros k; cbn [cm_upsert map fst In].
  - intuition.
  - destruct (Z.eqb_spec k' c) as [->|N]; cbn [map fst In]; [intuition|]. rewrite IH. intuition.
Qed.
Lemma upsert_nodup c f d : forall m, NoDup (map fst m) -> NoDup (map fst (cm_upsert c f d m)).
Proof.
  induction m as [|[k' x] m IH]; intros N; cbn [cm_upsert map fst].
  - constructor; auto.
  - inversion N as [|? ? N1 N2]; subst. destruct (Z.eqb_spec k' c) as [->|NE]; cbn [map fst]; constructor; auto.
    rewrite upsert_keys. intros [->|?]; auto.
Qed.
Lemma get_none c m : ~ In c (map fst m) -> cm_get c m = None.
Proof.
  induction m as [|[k x] m IH]; auto. cbn [map fst In cm_get]. intros N. destruct (Z.eqb_spec k c); [subst; tauto|].
  apply IH. tauto.
Qed.
Lemma get_keys c m d : cm_get c m = Some d -> In c (map fst m).
Proof.
  induction m as [|[k x] m IH]; cbn [map fst In cm_get]; [discriminate|]. destruct (Z.eqb_spec k c); auto.
Qed.
Lemma inter_get m1 m2 m : cd_intersect (Some m1) (Some m2) = Some m -> NoDup (map fst m1) -> NoDup (map fst m2) ->
  NoDup (map fst m) /\ forall c, cm_get c m = match cm_get c m1, cm_get c m2 with
    | Some a, Some b => Some (or_none (d_intersect a b)) | Some a, None => Some a | None, o => o end.
Proof.
  cbn [cd_intersect]. intros E N1 N2. injection E as <-. revert m1 N1.
  induction m2 as [|[k x] m2 IH]; intros m1 N1; cbn [fold_left fst snd].
  - split; auto. intros c. cbn [cm_get]. destruct (cm_get c m1); auto.
  - inversion N2 as [|? ? N3 N4]; subst. destruct (IH N4 _ (upsert_nodup k (fun v1 => or_none (d_intersect v1 x)) x m1 N1)) as [IH1 IH2].
    split; auto. intros c. rewrite IH2, upsert_get. cbn [cm_get]. destruct (Z.eqb_spec k c) as [->|NE]; auto.
    rewrite (get_none c m2) by auto. destruct (cm_get c m1); auto.
Qed.
Lemma union_get m1 m2 m : cd_union (Some m1) (Some m2) = Some m -> NoDup (map fst m2) ->
  NoDup (map fst m) /\ forall c, cm_get c m = match cm_get c m1, cm_get c m2 with
    | Some a, Some b => Some (or_all (d_union a b)) | _, _ => None end.
Proof.
  cbn [cd_union]. intros E N2. injection E as <-.
  assert (KS : forall l k, In k (map fst (flat_map (fun e => match cm_get (fst e) m1 with
                               | Some v1 => [(fst e, or_all (d_union v1 (snd e)))]
                               | None => [] end) l)) -> In k (map fst l)).
  { induction l as [|[k x] l IH]; intros k'; cbn [flat_map map fst snd In]; auto. rewrite map_app, in_app_iff.
    destruct (cm_get k m1); cbn [map fst In]; intuition. }
  induction m2 as [|[k x] m2 IH]; cbn [flat_map fst snd].
  - split; [constructor|]. intros c. cbn. destruct (cm_get c m1); auto.
  - inversion N2 as [|? ? N3 N4]; subst. destruct (IH N4) as [IH1 IH2]. destruct (cm_get k m1) as [v1|] eqn:G; cbn [app map fst].
    + split; [constructor; auto|]. intros c. cbn [cm_get]. destruct (Z.eqb_spec k c) as [->|NE]; auto. rewrite G. auto.
    + split; auto. intros c. rewrite IH2. cbn [cm_get]. destruct (Z.eqb_spec k c) as [->|NE]; auto. rewrite G. auto.
Qed.

(** ** The domain of one comparison *)
Definition rangeish (d : domain) : Prop := match d with DRange _ | DNone => True | _ => False end.
Lemma of_ranges_rangeish l d : of_ranges l = Some d -> rangeish d.
Proof.
  unfold of_ranges. destruct (sort_ranges l); [intros E; injection E as <-; exact I|].
  destruct (coalesce _ _ _); [|discriminate]. intros E. injection E as <-. exact I.
Qed.
Definition tied (open closed : cop -> bool) (c : Z) (l : list (Z * cop * scalar)) (m : marker) : Prop :=
  forall v, m_val m = Some v -> exists o, In (c, o, v) l /\ match m_bound m with Exactly => closed o | _ => open o end = true.
Definition ends_tied (c : Z) (l : list (Z * cop * scalar)) (d : domain) : Prop :=
  Forall (tied low_open low_closed c l) (lows d) /\ Forall (tied high_open high_closed c l) (highs d).
Lemma tied_incl op cl c l l' m : incl l l' -> tied op cl c l m -> tied op cl c l' m.
Proof. intros I T v E. destruct (T v E) as (o & H & B). exists o. auto. Qed.
Lemma ends_tied_incl c l l' d : incl l l' -> ends_tied c l d -> ends_tied c l' d.
Proof. intros I [A B]. split; eapply Forall_impl; try (intros x; apply tied_incl; eauto); auto. Qed.

Lemma nsc_ok c o v : is_orderable v = true ->
  dok (scalar_ty v) (nsc_domain o v) /\ rangeish (nsc_domain o v) /\ ends_tied c [(c, o, v)] (nsc_domain o v) /\
  forall x, in_domain x (nsc_domain o v) <-> cmp_holds o (scalar_cmp x v) = true.
Proof.
  intros O. unfold nsc_domain. rewrite O.
  set (l := get_range_fn o (scalar_ty v) v).
  assert (F : Forall (range_built (scalar_ty v)) l).
  { unfold l. destruct o; cbn [get_range_fn]; unfold r_ne; repeat constructor. }
  assert (F' : Forall (rok (scalar_ty v)) l) by (eapply Forall_impl; [|exact F]; intros r; apply built_rok).
  destruct (of_ranges_ok (scalar_ty v) l F') as (m & E & M & NE & IL & IH & V); [unfold l; destruct o; discriminate|].
  rewrite E.
  assert (TL : Forall (tied low_open low_closed c [(c, o, v)]) (map low l)).
  { unfold l; destruct o; cbn [get_range_fn map r_ne]; repeat constructor; intros w Hw; cbn in Hw; try discriminate;
      injection Hw as <-; eexists; split; try (left; reflexivity); reflexivity. }
  assert (TH : Forall (tied high_open high_closed c [(c, o, v)]) (map high l)).
  { unfold l; destruct o; cbn [get_range_fn map r_ne]; repeat constructor; intros w Hw; cbn in Hw; try discriminate;
      injection Hw as <-; eexists; split; try (left; reflexivity); reflexivity. }
  sp.
  - exact (conj M NE).
  - exact I.
  - split; cbn [lows highs]; apply Forall_forall; intros k Hk; [apply IL in Hk|apply IH in Hk];
      [rewrite Forall_forall in TL; auto|rewrite Forall_forall in TH; auto].
  - intros x. cbn [in_domain]. destruct (V x) as [V1 V2].
    assert (AL : agree x (map low l)).
    { unfold l; intros a b Ha Hb; destruct o; cbn [get_range_fn map r_ne In] in Ha, Hb;
        repeat (destruct Ha as [<-|Ha] || destruct Ha); repeat (destruct Hb as [<-|Hb] || destruct Hb); cbn; congruence. }
    assert (AH : agree x (map high l)).
    { unfold l; intros a b Ha Hb; destruct o; cbn [get_range_fn map r_ne In] in Ha, Hb;
        repeat (destruct Ha as [<-|Ha] || destruct Ha); repeat (destruct Hb as [<-|Hb] || destruct Hb); cbn; congruence. }
    transitivity (in_ranges x l); [split; auto|].
    assert (SO : scalar_cmp v x = CompOpp (scalar_cmp x v)) by apply scmp_opp.
    unfold in_ranges, l. destruct o; cbn [get_range_fn r_ne In];
      (split; [intros (r & Hr & Ir); repeat (destruct Hr as [<-|Hr] || destruct Hr); destruct Ir as [I1 I2];
               unfold above_low, below_high, sle, slt in I1, I2; cbn in I1, I2; rewrite ?SO in *;
               destruct (scalar_cmp x v); cbn in *; congruence
              |intros H]).
    + eexists; split; [left; reflexivity|]. unfold in_range, above_low, below_high, sle, slt. cbn. rewrite ?SO. destruct (scalar_cmp x v); cbn in *; try discriminate. split; discriminate.
    + destruct (scalar_cmp x v) eqn:C; cbn in H; try discriminate.
      * exists (r_lt (scalar_ty v) v). split; auto. split; [exact I|]. exact C.
      * exists (r_gt (scalar_ty v) v). split; auto. split; [|exact I]. unfold above_low. cbn. unfold slt. rewrite SO. auto.
    + eexists; split; [left; reflexivity|]. split; [exact I|]. unfold below_high, slt. cbn. destruct (scalar_cmp x v); cbn in H; try discriminate; auto.
    + eexists; split; [left; reflexivity|]. split; [exact I|]. unfold below_high, sle. cbn. destruct (scalar_cmp x v); cbn in H; try discriminate; discriminate.
    + eexists; split; [left; reflexivity|]. split; [|exact I]. unfold above_low, slt. cbn. rewrite SO. destruct (scalar_cmp x v); cbn in H; try discriminate; auto.
    + eexists; split; [left; reflexivity|]. split; [|exact I]. unfold above_low, sle. cbn. rewrite SO. destruct (scalar_cmp x v); cbn in H; try discriminate; discriminate.
Qed.

Lemma inter_rangeish t a b : dok t a -> dok t b -> rangeish a -> rangeish b ->
  exists d, d_intersect a b = Some d /\ rangeish d.
Proof.
  intros A B RA RB. destruct a as [ma|sa| |], b as [mb|sb| |]; cbn in RA, RB; try tauto; try (exists DNone; split; [reflexivity|exact I]).
  destruct A as [A NA], B as [B NB]. destruct (range_intersect_ok t ma mb A B NA NB) as (d & E & _). exists d. split; auto.
  unfold range_intersect in E. destruct ma, mb; try discriminate. destruct (isect _ _); [|discriminate]. eapply of_ranges_rangeish; eauto.
Qed.
Lemma union_rangeish t a b : dok t a -> dok t b -> rangeish a -> rangeish b ->
  exists d, d_union a b = Some d /\ rangeish d.
Proof.
  intros A B RA RB. destruct a as [ma|sa| |], b as [mb|sb| |]; cbn in RA, RB; try tauto;
    try (eexists; split; [reflexivity|exact I]).
  destruct A as [A NA], B as [B NB]. destruct (range_union_ok t ma mb A B NA) as (d & E & _). exists d. split; auto.
  eapply of_ranges_rangeish. exact E.
Qed.
Lemma ends_tied_app c l a b d : incl (lows d) (lows a ++ lows b) -> incl (highs d) (highs a ++ highs b) ->
  ends_tied c l a -> ends_tied c l b -> ends_tied c l d.
Proof.
  intros IL IH [A1 A2] [B1 B2]. rewrite Forall_forall in A1, A2, B1, B2.
  split; apply Forall_forall; intros x Hx; [apply IL in Hx|apply IH in Hx]; apply in_app_iff in Hx as [?|?]; auto.
Qed.
Lemma dok_lows t d : dok t d -> (forall m, In m (lows d) -> lowm t m) /\ (forall m, In m (highs d) -> highm t m).
Proof.
  destruct d as [m| | |]; cbn [lows highs]; try (intros; split; intros ? []).
  intros [M _]. destruct (mok_vals t m M) as [F _]. rewrite Forall_forall in F.
  split; intros x Hx; apply in_map_iff in Hx as (r & <- & Hr); apply F; auto.
Qed.
Lemma tied_agree t c l a b v : dok t a -> dok t b -> ends_tied c l a -> ends_tied c l b -> no_clash l -> ends_agree v a b.
Proof.
  intros A B [A1 A2] [B1 B2] N. destruct (dok_lows t a A) as [LA HA]. destruct (dok_lows t b B) as [LB HB].
  rewrite Forall_forall in A1, A2, B1, B2. split; intros x y Hx Hy Ex Ey.
  - assert (X : tied low_open low_closed c l x /\ lowm t x) by (apply in_app_iff in Hx as [?|?]; auto).
    assert (Y : tied low_open low_closed c l y /\ lowm t y) by (apply in_app_iff in Hy as [?|?]; auto).
    destruct X as [TX LX], Y as [TY LY]. destruct (TX v Ex) as (o1 & I1 & O1), (TY v Ey) as (o2 & I2 & O2).
    unfold lowm in LX, LY. rewrite Ex in LX. rewrite Ey in LY. destruct LX as (_ & _ & [E1|E1]), LY as (_ & _ & [E2|E2]);
      rewrite E1 in *; rewrite E2 in *; auto; exfalso.
    + destruct (N c o1 o2 v I1 I2) as [Q _]. rewrite O1, O2 in Q. discriminate.
    + destruct (N c o2 o1 v I2 I1) as [Q _]. rewrite O1, O2 in Q. discriminate.
  - assert (X : tied high_open high_closed c l x /\ highm t x) by (apply in_app_iff in Hx as [?|?]; auto).
    assert (Y : tied high_open high_closed c l y /\ highm t y) by (apply in_app_iff in Hy as [?|?]; auto).
    destruct X as [TX LX], Y as [TY LY]. destruct (TX v Ex) as (o1 & I1 & O1), (TY v Ey) as (o2 & I2 & O2).
    unfold highm in LX, LY. rewrite Ex in LX. rewrite Ey in LY. destruct LX as (_ & _ & [E1|E1]), LY as (_ & _ & [E2|E2]);
      rewrite E1 in *; rewrite E2 in *; auto; exfalso.
    + destruct (N c o1 o2 v I1 I2) as [_ Q]. rewrite O1, O2 in Q. discriminate.
    + destruct (N c o2 o1 v I2 I1) as [_ Q]. rewrite O1, O2 in Q. discriminate.
Qed.
Lemma and3_true a b : and3 a b = Some (SBool true) <-> a = Some (SBool true) /\ b = Some (SBool true).
Proof.
  split.
  - destruct a as [[| |[]]|], b as [[| |[]]|]; cbn; intros; try discriminate; auto.
  - intros [-> ->]. reflexivity.
Qed.
Lemma or3_true a b : or3 a b = Some (SBool true) -> a = Some (SBool true) \/ b = Some (SBool true).
Proof. destruct a as [[| |[]]|], b as [[| |[]]|]; cbn; intros; try discriminate; auto. Qed.
Lemma cmp_reverse o x y : cmp_holds o (scalar_cmp y x) = cmp_holds (reverse_op o) (scalar_cmp x y).
Proof. rewrite (scmp_opp x y). destruct o, (scalar_cmp x y); reflexivity. Qed.

(** ** The query visitor *)
Section Query.
Variable pushed : Z -> bool.
Variable cty : Z -> dtype.
Hypothesis ordered : forall c, pushed c = true -> cty c <> DBool.
Definition CM (e : expr) := filter (fun n => pushed (fst (fst n))) (comparisons e).
Definition dsound (e : expr) (m : cmap) : Prop := NoDup (map fst m) /\
  forall c d, pushed c = true -> cm_get c m = Some d ->
    dok (cty c) d /\ rangeish d /\ ends_tied c (CM e) d /\
    forall r tm, row_ok cty r tm -> selected e r -> exists v, r c = Some v /\ in_domain v d.
Fixpoint complete (e : expr) : bool :=
  match e with
  | ECol _ | ELit _ | ECast _ _ | EOpaque _ => false
  | EAnd a b | EOr a b => complete a && complete b
  | _ => true
  end.
Lemma dsound_all e : dsound e [].
Proof. split; [constructor|]. intros c d _ E. discriminate. Qed.
Lemma CM_and a b : CM (EAnd a b) = CM a ++ CM b. Proof. unfold CM. cbn [comparisons]. apply filter_app. Qed.
Lemma CM_or a b : CM (EOr a b) = CM a ++ CM b. Proof. unfold CM. cbn [comparisons]. apply filter_app. Qed.
Lemma dsound_and a b ma mb : dsound a ma -> dsound b mb -> exists m, cd_intersect (Some mb) (Some ma) = Some m /\ dsound (EAnd a b) m.
Proof.
  intros [NA A] [NB B]. eexists. split; [reflexivity|].
  destruct (inter_get mb ma _ eq_refl NB NA) as [N G]. split; [exact N|].
  intros c d P E. rewrite G in E. rewrite CM_and.
  assert (T1 : forall x, ends_tied c (CM a) x -> ends_tied c (CM a ++ CM b) x) by (intros x; apply ends_tied_incl; intros z; rewrite in_app_iff; auto).
  assert (T2 : forall x, ends_tied c (CM b) x -> ends_tied c (CM a ++ CM b) x) by (intros x; apply ends_tied_incl; intros z; rewrite in_app_iff; auto).
  destruct (cm_get c mb) as [db|] eqn:GB, (cm_get c ma) as [da|] eqn:GA; try discriminate.
  - destruct (A c da P GA) as (A1 & A2 & A3 & A4). destruct (B c db P GB) as (B1 & B2 & B3 & B4).
    destruct (inter_rangeish _ _ _ B1 A1 B2 A2) as (d' & E' & R'). rewrite E' in E. cbn [or_none] in E. injection E as <-.
    destruct (d_intersect_ok _ _ _ _ B1 A1 E') as (D & IL & IH & V). sp; auto.
    + eapply ends_tied_app; eauto.
    + intros r tm RO SE. unfold selected in SE. cbn [eval] in SE. apply and3_true in SE as [SA SB].
      destruct (A4 r tm RO SA) as (v & Ev & Iv). destruct (B4 r tm RO SB) as (w & Ew & Iw).
      assert (v = w) as -> by congruence. exists w. split; auto. apply V; auto.
  - injection E as <-. destruct (B c db P GB) as (B1 & B2 & B3 & B4). sp; auto.
    intros r tm RO SE. unfold selected in SE. cbn [eval] in SE. apply and3_true in SE as [SA SB]. apply (B4 r tm); auto.
  - injection E as <-. destruct (A c da P GA) as (A1 & A2 & A3 & A4). sp; auto.
    intros r tm RO SE. unfold selected in SE. cbn [eval] in SE. apply and3_true in SE as [SA SB]. apply (A4 r tm); auto.
Qed.
Lemma dsound_or a b ma mb : no_clash (CM a ++ CM b) -> dsound a ma -> dsound b mb ->
  exists m, cd_union (Some mb) (Some ma) = Some m /\ dsound (EOr a b) m.
Proof.
  intros NC [NA A] [NB B]. eexists. split; [reflexivity|].
  destruct (union_get mb ma _ eq_refl NA) as [N G]. split; [exact N|].
  intros c d P E. rewrite G in E. rewrite CM_or.
  assert (T1 : forall x, ends_tied c (CM a) x -> ends_tied c (CM a ++ CM b) x) by (intros x; apply ends_tied_incl; intros z; rewrite in_app_iff; auto).
  assert (T2 : forall x, ends_tied c (CM b) x -> ends_tied c (CM a ++ CM b) x) by (intros x; apply ends_tied_incl; intros z; rewrite in_app_iff; auto).
  destruct (cm_get c mb) as [db|] eqn:GB, (cm_get c ma) as [da|] eqn:GA; try discriminate.
  destruct (A c da P GA) as (A1 & A2 & A3 & A4). destruct (B c db P GB) as (B1 & B2 & B3 & B4).
  destruct (union_rangeish _ _ _ B1 A1 B2 A2) as (d' & E' & R'). rewrite E' in E. cbn [or_all] in E. injection E as <-.
  destruct (d_union_ok _ _ _ _ B1 A1 E') as (D & IL & IH & V). sp; auto.
  - eapply ends_tied_app; eauto.
  - intros r tm RO SE. unfold selected in SE. cbn [eval] in SE. apply or3_true in SE as [SA|SB].
    + destruct (A4 r tm RO SA) as (v & Ev & Iv). exists v. split; auto. apply V; auto. apply (tied_agree (cty c) c (CM a ++ CM b)); auto.
    + destruct (B4 r tm RO SB) as (v & Ev & Iv). exists v. split; auto. apply V; auto. apply (tied_agree (cty c) c (CM a ++ CM b)); auto.
Qed.
Lemma ty_ordered c v : pushed c = true -> scalar_ty v = cty c -> is_orderable v = true.
Proof. intros P T. pose proof (ordered c P). destruct v; cbn in T |- *; congruence. Qed.
Lemma dsound_one e c o v : (pushed c = true -> CM e = [(c, o, v)] /\ scalar_ty v = cty c /\
    forall r, selected e r -> exists x, r c = Some x /\ cmp_holds o (scalar_cmp x v) = true) ->
  dsound e [(c, nsc_domain o v)].
Proof.
  intros H. split; [repeat constructor; intros []|]. intros c' d P E. cbn [cm_get] in E.
  destruct (Z.eqb_spec c c') as [<-|NE]; [|discriminate]. injection E as <-.
  destruct (H P) as (CE & T & S). destruct (nsc_ok c o v (ty_ordered c v P T)) as (D & R & TI & V).
  rewrite <- T. sp; auto; [rewrite CE; auto|]. intros r tm _ SE. destruct (S r SE) as (x & Ex & Cx). exists x. split; auto.
  apply V; auto.
Qed.
Lemma dsound_cmp o a b : simple pushed (ECmp o a b) -> lits_ok pushed cty (ECmp o a b) ->
  exists m, cmp_domains a o b = Some m /\ dsound (ECmp o a b) m.
Proof.
  intros (QA & QB & CO) L. unfold cmp_domains.
  destruct (norm a o b) as [[[c o'] v]|] eqn:NO; [|exists []; split; [reflexivity|apply dsound_all]].
  exists [(c, nsc_domain o' v)]. split; [reflexivity|]. apply dsound_one. intros P.
  assert (K : (exists f, a = ECast f (ECol c)) \/ (exists f, b = ECast f (ECol c)) \/
              (a = ECol c /\ b = ELit (Some v) /\ o' = o) \/ (a = ELit (Some v) /\ b = ECol c /\ o' = reverse_op o)).
  { destruct a as [ca|[va|]|fa [ca| | | | | | | |]| | | | | | ], b as [cb|[vb|]|fb [cb| | | | | | | |]| | | | | | ]; cbn [norm] in NO; try discriminate;
      injection NO as <- <- <-; eauto 10. }
  destruct K as [(f & ->)|[(f & ->)|[(-> & -> & ->)|(-> & -> & ->)]]].
  - exfalso. rewrite (CO c) in P by (left; reflexivity). discriminate.
  - exfalso. rewrite (CO c) in P by (right; reflexivity). discriminate.
  - unfold lits_ok in L. unfold CM. cbn [comparisons filter fst] in *. rewrite P in *. inversion L as [|? ? L1 _]; subst. sp; auto; [apply L1|].
    intros r SE. unfold selected in SE. cbn [eval] in SE. destruct (r c) as [x|]; [|discriminate]. exists x. split; auto. congruence.
  - unfold lits_ok in L. unfold CM. cbn [comparisons filter fst] in *. rewrite P in *. inversion L as [|? ? L1 _]; subst. sp; auto; [apply L1|].
    intros r SE. unfold selected in SE. cbn [eval] in SE. destruct (r c) as [x|]; [|discriminate]. exists x. split; auto.
    rewrite <- cmp_reverse. congruence.
Qed.
Lemma quiet_visit e s : quiet e = true -> qvisit e s = s.
Proof. destruct e; cbn; intros; try discriminate; auto. Qed.
Lemma lits_and a b : lits_ok pushed cty (EAnd a b) -> lits_ok pushed cty a /\ lits_ok pushed cty b.
Proof. unfold lits_ok. cbn [comparisons]. rewrite filter_app. apply Forall_app. Qed.
Lemma lits_or a b : lits_ok pushed cty (EOr a b) -> lits_ok pushed cty a /\ lits_ok pushed cty b.
Proof. unfold lits_ok. cbn [comparisons]. rewrite filter_app. apply Forall_app. Qed.
Lemma qvisit_ok : forall e, simple pushed e -> or_ok pushed e -> lits_ok pushed cty e -> forall s,
  if complete e then exists m, qvisit e s = Some m :: s /\ dsound e m
  else (length (qvisit e s) <= length s)%nat.
Proof.
  induction e as [c|v|f e IH|o a IHa b IHb|a IHa b IHb|a IHa b IHb|f a IHa b IHb|f|f]; intros S O L s; cbn [complete qvisit]; auto.
  - destruct (dsound_cmp o a b S L) as (m & E & D). destruct S as (QA & QB & _). rewrite !quiet_visit by auto. rewrite E. eauto.
  - destruct S as [SA SB], O as [OA OB]. apply lits_and in L as [LA LB].
    specialize (IHa SA OA LA s). destruct (complete a) eqn:CA; cbn [andb].
    + destruct IHa as (ma & -> & DA). specialize (IHb SB OB LB (Some ma :: s)). destruct (complete b).
      * destruct IHb as (mb & -> & DB). destruct (dsound_and a b ma mb DA DB) as (m & E & D). rewrite E. eauto.
      * destruct (qvisit b _) as [|x [|y q]]; cbn [length] in *; lia.
    + specialize (IHb SB OB LB (qvisit a s)). destruct (complete b).
      * destruct IHb as (mb & -> & DB). destruct (qvisit a s) as [|y q]; cbn [length] in *; lia.
      * destruct (qvisit b _) as [|x [|y q]]; cbn [length] in *; lia.
  - destruct S as [SA SB], O as (OA & OB & NC). apply lits_or in L as [LA LB].
    specialize (IHa SA OA LA s). destruct (complete a) eqn:CA; cbn [andb].
    + destruct IHa as (ma & -> & DA). specialize (IHb SB OB LB (Some ma :: s)). destruct (complete b).
      * destruct IHb as (mb & -> & DB). rewrite filter_app in NC. destruct (dsound_or a b ma mb NC DA DB) as (m & E & D). rewrite E. eauto.
      * destruct (qvisit b _) as [|x [|y q]]; cbn [length] in *; lia.
    + specialize (IHb SB OB LB (qvisit a s)). destruct (complete b).
      * destruct IHb as (mb & -> & DB). destruct (qvisit a s) as [|y q]; cbn [length] in *; lia.
      * destruct (qvisit b _) as [|x [|y q]]; cbn [length] in *; lia.
  - exists []. split; [reflexivity|apply dsound_all].
  - exists []. split; [reflexivity|apply dsound_all].
Qed.
Lemma query_domains e : simple pushed e -> or_ok pushed e -> lits_ok pushed cty e ->
  exists m, expr_to_column_domains e = Some m /\ dsound e m.
Proof.
  intros S O L. pose proof (qvisit_ok e S O L []) as H. unfold expr_to_column_domains. destruct (complete e).
  - destruct H as (m & -> & D). eauto.
  - destruct (qvisit e []); cbn [length] in H; [|lia]. exists []. split; [reflexivity|apply dsound_all].
Qed.
End Query.

Lemma keep_get p c m : cm_get c (filter (fun e => p (fst e)) m) = if p c then cm_get c m else None.
Proof.
  induction m as [|[k d] m IH]; cbn [filter cm_get fst]; [destruct (p c); auto|].
  destruct (p k) eqn:P; cbn [cm_get]; rewrite IH; destruct (Z.eqb_spec k c) as [->|]; auto; rewrite ?P; auto.
Qed.
Lemma all_contains t : is_i64 t -> trs_contains (trs_new [tr_all]) t = true.
Proof.
  intros H. assert (F : Forall i64r [tr_all]).
  { constructor; [|constructor]. unfold i64r, tr_all, is_i64, I64_MIN, I64_MAX. cbn [tmin tmax]. rewrite two63. lia. }
  apply (trs_new_asc _ t F); [repeat constructor|]. exists tr_all. split; [left; auto|exact H].
Qed.
(** time domains to time ranges *)
Lemma time_ranges_of m t : is_i64 t ->
  (forall d, cm_get TIME m = Some d -> dok (DNum TSK) d /\ rangeish d /\ forall k, In k (lows d ++ highs d) -> inside k) ->
  (trs_contains (trs_new (filter_to_time_ranges (Some m))) t = true <->
   forall d, cm_get TIME m = Some d -> in_domain (SNum TSK t) d).
Proof.
  intros It H. assert (G : filter_to_time_ranges (Some m) = match cm_get TIME m with
      | None => [tr_all] | Some (DRange rs) => map range_tr (rm_values rs)
      | Some (DEqutable s) => if v_white s then map (fun e => TR (ts_of (snd e)) (ts_of (snd e))) (v_entries s) else [tr_all]
      | Some DAll => [tr_all] | Some DNone => [] end) by (destruct m; reflexivity).
  rewrite G. clear G. destruct (cm_get TIME m) as [d|].
  - destruct (H d eq_refl) as (D & R & I). destruct d as [rs| | |]; cbn in R; try tauto.
    + destruct D as [M NE]. rewrite domain_tr by auto. split; [intros X d E; injection E as <-; auto|auto].
    + split; [intros X; exfalso; cbv in X; discriminate|]. intros X. destruct (X DNone eq_refl).
  - split; [intros _ d E; discriminate|]. intros _. apply all_contains. auto.
Qed.
Lemma tied_inside (l : list (Z * cop * scalar)) cty d : Forall (lit_ok cty) l -> ends_tied TIME l d -> forall k, In k (lows d ++ highs d) -> inside k.
Proof.
  intros L [T1 T2] k Hk v E. rewrite Forall_forall in L, T1, T2.
  assert (X : exists o, In (TIME, o, v) l).
  { apply in_app_iff in Hk as [Hk|Hk]; [destruct (T1 k Hk v E) as (o & ? & _)|destruct (T2 k Hk v E) as (o & ? & _)]; eauto. }
  destruct X as (o & X). apply L in X as [_ X]. auto.
Qed.

(** ** The delete visitor *)
Section Delete.
Variable cty : Z -> dtype.
Definition dexact (k : bool) (e : expr) (m : cmap) : Prop := NoDup (map fst m) /\
  (forall c d, cm_get c m = Some d -> (c =? TIME) = k /\ dok (cty c) d /\ rangeish d /\ ends_tied c (comparisons e) d) /\
  forall r tm, row_ok cty r tm -> (row_in (Some m) r <-> selected e r).
Definition push_kind (k : bool) (x : dctx) (m : cmap) : dctx := dc_push x (Some m) k.
Lemma dvisit_kind k : forall e, all_kind k e -> Forall (fun n => lit_ok cty n /\ is_orderable (snd n) = true) (comparisons e) -> no_clash (comparisons e) ->
  forall x, exists m, dvisit e x = Some (push_kind k x m) /\ dexact k e m.
Proof.
  assert (ONE : forall e c o v, comparisons e = [(c, o, v)] -> (c =? TIME) = k -> scalar_ty v = cty c -> is_orderable v = true ->
    (forall r, selected e r <-> exists x, r c = Some x /\ cmp_holds o (scalar_cmp x v) = true) -> dexact k e [(c, nsc_domain o v)]).
  { intros e c o v CE K T OV S.
    destruct (nsc_ok c o v OV) as (D & R & TI & V). split; [repeat constructor; intros []|split].
    - intros c' d E. cbn [cm_get] in E. destruct (Z.eqb_spec c c') as [<-|NE]; [|discriminate]. injection E as <-.
      rewrite <- T, CE. auto.
    - intros r tm _. rewrite S. cbn [row_in]. split.
      + intros H. destruct (H c (nsc_domain o v)) as (x & Ex & Ix); [cbn; rewrite Z.eqb_refl; auto|]. exists x. split; auto. apply V; auto.
      + intros (x & Ex & Cx) c' d E. cbn [cm_get] in E. destruct (Z.eqb_spec c c') as [<-|NE]; [|discriminate]. injection E as <-.
        exists x. split; auto. apply V; auto. }
  induction e as [c|v|f e IH|o a IHa b IHb|a IHa b IHb|a IHa b IHb|f a IHa b IHb|f|f]; intros K L N x; cbn [all_kind] in K; try tauto.
  - clear IHa IHb. destruct a as [ca|[va|]| | | | | | |], b as [cb|[vb|]| | | | | | |]; try tauto.
    + cbn [comparisons] in *. inversion L as [|? ? L1 _]; subst. unfold lit_ok in L1. destruct L1 as [[T _] OV]. cbn [dvisit]. eexists. split.
      * unfold push_kind. reflexivity.
      * apply ONE; auto. intros r. unfold selected. cbn [eval]. split.
        -- destruct (r ca) as [y|]; [|discriminate]. intros E. exists y. split; auto. congruence.
        -- intros (y & -> & E). rewrite E. auto.
    + cbn [comparisons] in *. inversion L as [|? ? L1 _]; subst. unfold lit_ok in L1. destruct L1 as [[T _] OV]. cbn [dvisit]. eexists. split.
      * unfold push_kind. reflexivity.
      * apply ONE; auto. intros r. unfold selected. cbn [eval]. split.
        -- destruct (r cb) as [y|]; [|discriminate]. intros E. exists y. split; auto. rewrite <- cmp_reverse. congruence.
        -- intros (y & -> & E). rewrite cmp_reverse, E. auto.
  - destruct K as [KA KB]. cbn [comparisons] in L, N. apply Forall_app in L as [LA LB].
    destruct (IHa KA LA) with (x := x) as (ma & EA & DA).
    { intros c o1 o2 v H1 H2. apply (N c o1 o2 v); apply in_app_iff; auto. }
    destruct (IHb KB LB) with (x := push_kind k x ma) as (mb & EB & DB).
    { intros c o1 o2 v H1 H2. apply (N c o1 o2 v); apply in_app_iff; auto. }
    cbn [dvisit]. rewrite EA, EB. destruct DA as (NA & A & VA), DB as (NB & B & VB).
    destruct (inter_get mb ma _ eq_refl NB NA) as [NM G].
    set (m := fold_left _ _ _) in *. exists m. split.
    + unfold push_kind, dc_push, try_intersect. destruct k; cbn [d_flags d_tags d_times Bool.eqb]; reflexivity.
    + assert (T1 : forall c z, ends_tied c (comparisons a) z -> ends_tied c (comparisons a ++ comparisons b) z) by (intros c z; apply ends_tied_incl; intros y; rewrite in_app_iff; auto).
      assert (T2 : forall c z, ends_tied c (comparisons b) z -> ends_tied c (comparisons a ++ comparisons b) z) by (intros c z; apply ends_tied_incl; intros y; rewrite in_app_iff; auto).
      split; [exact NM|]. split.
      * intros c d E. rewrite G in E. cbn [comparisons].
        destruct (cm_get c mb) as [db|] eqn:GB, (cm_get c ma) as [da|] eqn:GA; try discriminate.
        -- destruct (A c da GA) as (A1 & A2 & A3 & A4). destruct (B c db GB) as (B1 & B2 & B3 & B4).
           destruct (inter_rangeish _ _ _ B2 A2 B3 A3) as (d' & E' & R'). rewrite E' in E. cbn [or_none] in E. injection E as <-.
           destruct (d_intersect_ok _ _ _ _ B2 A2 E') as (D & IL & IH & V). sp; auto. eapply ends_tied_app; eauto.
        -- injection E as <-. destruct (B c db GB) as (B1 & B2 & B3 & B4). sp; auto.
        -- injection E as <-. destruct (A c da GA) as (A1 & A2 & A3 & A4). sp; auto.
      * intros r tm RO. unfold selected. cbn [eval]. rewrite and3_true. fold (selected a r) (selected b r).
        rewrite <- (VA r tm RO), <- (VB r tm RO). cbn [row_in]. split.
        -- intros H. split.
           ++ intros c da GA. destruct (A c da GA) as (A1 & A2 & A3 & A4). destruct (cm_get c mb) as [db|] eqn:GB.
              ** destruct (B c db GB) as (B1 & B2 & B3 & B4). destruct (inter_rangeish _ _ _ B2 A2 B3 A3) as (d' & E' & R').
                 destruct (H c d') as (v & Ev & Iv); [rewrite G, GB, GA, E'; reflexivity|].
                 exists v. split; auto. destruct (d_intersect_ok _ _ _ _ B2 A2 E') as (_ & _ & _ & V).
                 apply V; auto. apply (tied_agree (cty c) c (comparisons a ++ comparisons b)); auto.
              ** apply H. rewrite G, GB, GA. reflexivity.
           ++ intros c db GB. destruct (B c db GB) as (B1 & B2 & B3 & B4). destruct (cm_get c ma) as [da|] eqn:GA.
              ** destruct (A c da GA) as (A1 & A2 & A3 & A4). destruct (inter_rangeish _ _ _ B2 A2 B3 A3) as (d' & E' & R').
                 destruct (H c d') as (v & Ev & Iv); [rewrite G, GB, GA, E'; reflexivity|].
                 exists v. split; auto. destruct (d_intersect_ok _ _ _ _ B2 A2 E') as (_ & _ & _ & V).
                 apply V; auto. apply (tied_agree (cty c) c (comparisons a ++ comparisons b)); auto.
              ** apply H. rewrite G, GB, GA. reflexivity.
        -- intros [HA HB] c d E. rewrite G in E.
           destruct (cm_get c mb) as [db|] eqn:GB, (cm_get c ma) as [da|] eqn:GA; try discriminate.
           ++ destruct (A c da GA) as (A1 & A2 & A3 & A4). destruct (B c db GB) as (B1 & B2 & B3 & B4).
              destruct (inter_rangeish _ _ _ B2 A2 B3 A3) as (d' & E' & R'). rewrite E' in E. cbn [or_none] in E. injection E as <-.
              destruct (d_intersect_ok _ _ _ _ B2 A2 E') as (_ & _ & _ & V).
              destruct (HA c da GA) as (v & Ev & Iv), (HB c db GB) as (w & Ew & Iw). assert (v = w) as -> by congruence.
              exists w. split; auto. apply V; auto.
           ++ injection E as <-. apply HB; auto.
           ++ injection E as <-. apply HA; auto.
Qed.
End Delete.
