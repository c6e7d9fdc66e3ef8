From Verif Require Import Prelude TimeRangeModel TimeRangeSpec.

(** Representation invariant: sorted, non-empty, not touching, cached bounds exact. *)
Fixpoint wfl (lo : option Z) (m : btree) : Prop :=
  match m with
  | [] => True
  | (a, b) :: m' => is_i64 a /\ is_i64 b /\ a <= b /\
      match lo with Some l => l + 1 < a | None => True end /\ wfl (Some b) m'
  end.
Definition bt_in (m : btree) (t : Z) : Prop := exists a b, In (a, b) m /\ a <= t <= b.

Record WF (s : tranges) : Prop := {
  wf_l : wfl None (inner s);
  wf_cov : forall a b, In (a, b) (inner s) -> rs_min s <= a /\ b <= rs_max s;
  wf_mm : is_i64 (rs_min s) /\ is_i64 (rs_max s) }.

Lemma wfl_weaken lo lo' m : wfl (Some lo) m -> lo' <= lo -> wfl (Some lo') m.
Proof. destruct m as [|[a b] m]; cbn [wfl]; intuition lia. Qed.
Lemma wfl_none lo m : wfl (Some lo) m -> wfl None m.
Proof. destruct m as [|[a b] m]; cbn [wfl]; intuition lia. Qed.
Lemma wfl_in lo m a b : wfl (Some lo) m -> In (a, b) m -> lo + 1 < a /\ a <= b /\ is_i64 a /\ is_i64 b.
Proof.
  revert lo; induction m as [|[x y] m IH]; cbn [wfl In]; intros lo H Hin; [tauto|].
  destruct Hin as [Hin|Hin].
  - inversion Hin; subst; intuition lia.
  - destruct H as (?&?&?&?&H'). apply IH in H'; auto. intuition lia.
Qed.
Lemma wfl_in0 lo m a b : wfl lo m -> In (a, b) m -> a <= b /\ is_i64 a /\ is_i64 b.
Proof.
  destruct lo as [l|].
  - intros H Hin. destruct (wfl_in _ _ _ _ H Hin); intuition.
  - destruct m as [|[x y] m]; cbn [wfl In]; intros H Hin; [tauto|].
    destruct Hin as [Hin|Hin].
    + inversion Hin; subst; intuition.
    + destruct H as (?&?&?&?&H'). destruct (wfl_in _ _ _ _ H' Hin); intuition.
Qed.

(** split of a well formed map around a range [lo,hi] *)
Lemma wfl_app lo m1 m2 : wfl lo (m1 ++ m2) ->
  wfl lo m1 /\ wfl None m2 /\ (forall a b c d, In (a,b) m1 -> In (c,d) m2 -> b + 1 < c).
Proof.
  revert lo; induction m1 as [|[x y] m1 IH]; cbn [app wfl In]; intros lo H.
  - split; auto. split; [destruct lo; eauto using wfl_none|tauto].
  - destruct H as (?&?&?&?&H'). pose proof H' as Hkeep. apply IH in H' as (A&B&C).
    split; [tauto|]. split; auto.
    intros a b c d [E|Hin] Hc; [inversion E; subst; clear E|eauto].
    assert (Hc' : In (c,d) (m1 ++ m2)) by (apply in_or_app; auto).
    apply (wfl_in _ _ _ _ Hkeep) in Hc'. lia.
Qed.
Lemma wfl_join lo m1 m2 : wfl lo m1 -> wfl None m2 ->
  match lo with Some l => forall c d, In (c,d) m2 -> l + 1 < c | None => True end ->
  (forall a b c d, In (a,b) m1 -> In (c,d) m2 -> b + 1 < c) -> wfl lo (m1 ++ m2).
Proof.
  revert lo; induction m1 as [|[x y] m1 IH]; cbn [app wfl In]; intros lo H1 H2 Hlo Hc.
  - destruct m2 as [|[c d] m2]; cbn [wfl] in *; auto. destruct H2 as (?&?&?&?&?).
    sp; auto. destruct lo; auto. apply (Hlo c d). left; auto.
  - destruct H1 as (?&?&?&?&?). sp; auto.
    apply IH; auto.
    intros c d Hin. apply (Hc x y c d); auto.
    intros a b c d Ha Hb. apply (Hc a b c d); auto.
Qed.

Lemma split_hi lo m hi : wfl lo m ->
  exists m1 m2, m = m1 ++ m2 /\ bt_upto hi m = m1 /\
    (forall a b, In (a,b) m1 -> a <= hi) /\ (forall a b, In (a,b) m2 -> hi < a).
Proof.
  revert lo; induction m as [|[x y] m IH]; cbn [wfl]; intros lo H.
  - exists [], []; cbn; intuition.
  - destruct H as (?&?&?&?&H').
    destruct (Z.leb_spec x hi).
    + destruct (IH _ H') as (m1&m2&E&F&G&K). exists ((x,y)::m1), m2. subst m. cbn [bt_upto filter fst].
      unfold bt_upto in *. cbn [fst]. destruct (x <=? hi) eqn:E1; [|lia]. rewrite F.
      sp; auto. intros a b [E|Hin]; [inversion E; subst; lia|eauto].
    + exists [], ((x,y)::m). sp; auto.
      * unfold bt_upto. cbn [filter fst]. destruct (x <=? hi) eqn:E1; [lia|].
        clear - H' H3 H1. revert y H' H1. induction m as [|[u v] m IH]; cbn [filter fst]; auto; intros y H' Hy.
        cbn [wfl] in H'. destruct H' as (?&?&?&?&H'). destruct (u <=? hi) eqn:E; [lia|]. eapply IH; [exact H'|lia].
      * intros a b [].
      * intros a b [E|Hin]; [inversion E; subst; lia|]. apply (wfl_in _ _ _ _ H') in Hin. lia.
Qed.

Lemma take_while_app {A} (p : A -> bool) l1 l2 :
  Forall (fun x => p x = true) l1 -> (match l2 with [] => True | x :: _ => p x = false end) ->
  take_while p (l1 ++ l2) = l1.
Proof.
  induction 1; cbn [app take_while]; intros.
  - destruct l2; cbn; auto. rewrite H; auto.
  - rewrite H. f_equal; auto.
Qed.

Lemma split_lo lo m l : wfl lo m ->
  exists m1 m2, m = m1 ++ m2 /\ take_while (fun e => snd e >=? l) (rev m) = rev m2 /\
    (forall a b, In (a,b) m1 -> b < l) /\ (forall a b, In (a,b) m2 -> l <= b).
Proof.
  revert lo. induction m as [|[x y] m IH]; cbn [wfl]; intros lo H.
  - exists [], []; cbn; intuition.
  - destruct H as (?&?&?&?&H'). destruct (Z.ltb_spec y l).
    + destruct (IH _ H') as (m1&m2&E&F&G&K). exists ((x,y)::m1), m2. subst m. sp; auto.
      * cbn [rev]. rewrite rev_app_distr, <- app_assoc. apply take_while_app.
        -- apply Forall_rev, Forall_forall. intros [a b] Hin. cbn [snd]. apply K in Hin. lia.
        -- destruct (rev m1) as [|[u v] r] eqn:Er; cbn [app snd]; [lia|].
           assert (In (u,v) m1) by (apply in_rev; rewrite Er; left; auto). apply G in H4. lia.
      * intros a b [E|Hin]; [inversion E; subst; lia|eauto].
    + exists [], ((x,y)::m). assert (K : forall a b, In (a,b) ((x,y)::m) -> l <= b).
      { intros a b [E|Hin]; [inversion E; subst; lia|]. apply (wfl_in _ _ _ _ H') in Hin. lia. }
      sp; auto.
      * rewrite <- (app_nil_r (rev _)) at 1. apply take_while_app; auto.
        apply Forall_rev, Forall_forall. intros [a b] Hin. cbn [snd]. apply K in Hin. lia.
      * intros a b [].
Qed.

Lemma remove_notin k m : (forall b, ~ In (k, b) m) -> bt_remove k m = m.
Proof.
  induction m as [|[x y] m IH]; cbn [bt_remove filter fst]; intros H; auto.
  destruct (x =? k) eqn:E; cbn [negb].
  - exfalso. apply (H y). left. f_equal; lia.
  - f_equal. apply IH. intros b Hb. apply (H b). right; auto.
Qed.
Lemma remove_app k m1 m2 : bt_remove k (m1 ++ m2) = bt_remove k m1 ++ bt_remove k m2.
Proof. unfold bt_remove. apply filter_app. Qed.

Lemma fold_remove_app ks m1 m2 :
  fold_left (fun m k => bt_remove k m) ks (m1 ++ m2) =
  fold_left (fun m k => bt_remove k m) ks m1 ++ fold_left (fun m k => bt_remove k m) ks m2.
Proof. revert m1 m2; induction ks; cbn [fold_left]; intros; auto. rewrite remove_app. apply IHks. Qed.
Lemma fold_remove_notin ks m : (forall k b, In k ks -> ~ In (k, b) m) ->
  fold_left (fun m k => bt_remove k m) ks m = m.
Proof.
  induction ks as [|k ks IH]; cbn [fold_left]; intros H; auto.
  rewrite remove_notin. apply IH. intros; apply H; right; auto.
  intros b; apply H; left; auto.
Qed.
Lemma fold_remove_all ks m : (forall a b, In (a, b) m -> In a ks) ->
  fold_left (fun m k => bt_remove k m) ks m = [].
Proof.
  revert m. induction ks as [|k ks IH]; cbn [fold_left]; intros m H.
  - destruct m as [|[a b] m]; auto. destruct (H a b); left; auto.
  - apply IH. intros a b Hin. unfold bt_remove in Hin. apply filter_In in Hin as [Hin Hk]. cbn [fst] in Hk.
    destruct (H _ _ Hin); auto. subst. rewrite Z.eqb_refl in Hk. discriminate.
Qed.

Lemma insert_mid k v m1 m2 : (forall a b, In (a,b) m1 -> a < k) -> (forall a b, In (a,b) m2 -> k < a) ->
  bt_insert k v (m1 ++ m2) = m1 ++ (k, v) :: m2.
Proof.
  induction m1 as [|[x y] m1 IH]; cbn [app bt_insert]; intros H1 H2.
  - destruct m2 as [|[c d] m2]; cbn [bt_insert]; auto. specialize (H2 c d (or_introl eq_refl)).
    destruct (k <? c) eqn:E; auto. lia.
  - specialize (H1 x y (or_introl eq_refl)) as Hx.
    destruct (k <? x) eqn:E; [lia|]. destruct (k =? x) eqn:E2; [lia|].
    f_equal. apply IH; auto. intros; eapply H1; right; eauto.
Qed.

Lemma bt_get_in a b m lo : wfl lo m -> In (a,b) m -> bt_get a m = Some b.
Proof.
  revert lo. induction m as [|[x y] m IH]; cbn [wfl In bt_get]; intros lo H Hin; [tauto|].
  destruct H as (?&?&?&?&H'). destruct Hin as [E|Hin].
  - inversion E; subst. rewrite Z.eqb_refl. auto.
  - pose proof (wfl_in _ _ _ _ H' Hin). destruct (a =? x) eqn:E; [lia|]. eauto.
Qed.

Lemma last_in {A} (l : list A) d : l <> [] -> In (last l d) l.
Proof. induction l as [|x [|y l] IH]; intros; [congruence|left; auto|]. right. apply IH. congruence. Qed.
Lemma last_map_fst (m : btree) x d : last (map fst (m ++ [x])) d = fst x.
Proof. rewrite map_app. cbn. apply last_last. Qed.

(** The shape of the result of [add_time_range]. *)
Lemma add_shape s r : WF s -> i64_range r -> nonempty r ->
  exists m1 m2 m3 lo hi,
    inner s = m1 ++ m2 ++ m3 /\
    inner (add_time_range s r) = m1 ++ (lo, hi) :: m3 /\
    (forall a b, In (a,b) m1 -> b + 1 < tmin r) /\
    (forall a b, In (a,b) m3 -> tmax r + 1 < a) /\
    (forall a b, In (a,b) m2 -> tmin r - 1 <= b /\ a <= tmax r + 1) /\
    lo = fold_right (fun e acc => Z.min (fst e) acc) (tmin r) m2 /\
    hi = fold_right (fun e acc => Z.max (snd e) acc) (tmax r) m2.
Proof.
  intros [W _ _] [Hi1 Hi2] Hne. unfold nonempty in Hne. unfold add_time_range.
  set (hi0 := succ_or_self (tmax r)). set (lo0 := pred_or_self (tmin r)).
  destruct (split_hi _ _ hi0 W) as (mm&m3&E&F&G&K). rewrite F. clear F.
  rewrite E in W. pose proof (wfl_app _ _ _ W) as (W12&W3&C12_3).
  destruct (split_lo _ _ lo0 W12) as (m1&m2&E'&F'&G'&K'). rewrite F'. subst mm.
  pose proof (wfl_app _ _ _ W12) as (W1&W2&C1_2).
  assert (A1 : forall a b, In (a,b) m1 -> b + 1 < tmin r).
  { intros a b Hin. specialize (G' a b Hin). pose proof (wfl_in0 _ _ _ _ W1 Hin) as (_&_&?).
    unfold lo0, pred_or_self in G'. destruct (_ =? _) eqn:Em in G'; i64; lia. }
  assert (A3 : forall a b, In (a,b) m3 -> tmax r + 1 < a).
  { intros a b Hin. specialize (K a b Hin). pose proof (wfl_in0 _ _ _ _ W3 Hin) as (_&?&_).
    unfold hi0, succ_or_self in K. destruct (_ =? _) eqn:Em in K; i64; lia. }
  assert (A2 : forall a b, In (a,b) m2 -> tmin r - 1 <= b /\ a <= tmax r + 1).
  { intros a b Hin. specialize (K' a b Hin). assert (Hin' : In (a,b) (m1++m2)) by (apply in_or_app; auto).
    specialize (G _ _ Hin'). unfold lo0, pred_or_self, hi0, succ_or_self in *.
    repeat match goal with H : context [if ?c then _ else _] |- _ => destruct c end; lia. }
  exists m1, m2, m3.
  exists (fold_right (fun e acc => Z.min (fst e) acc) (tmin r) m2).
  exists (fold_right (fun e acc => Z.max (snd e) acc) (tmax r) m2).
  split; [rewrite E, <- app_assoc; reflexivity|].
  split; [|sp; auto].
  destruct m2 as [|[x y] m2].
  - cbn [rev map inner fold_right]. rewrite E, app_nil_r. apply insert_mid.
    + intros a b Hin. specialize (A1 a b Hin). pose proof (wfl_in0 _ _ _ _ W1 Hin). lia.
    + intros a b Hin. specialize (A3 a b Hin). lia.
  - destruct (@exists_last _ ((x,y)::m2)) as (m2'&[p q]&E2); [congruence|].
    rewrite E2. rewrite rev_app_distr. cbn [rev app map fst inner].
    assert (Hlast : last (p :: map fst (rev m2')) p = x).
    { destruct m2' as [|e m2'].
      - cbn in E2. inversion E2; subst. reflexivity.
      - cbn [app] in E2. injection E2 as <- _. cbn [rev]. rewrite map_app. cbn [map fst].
        rewrite app_comm_cons. apply last_last. }
    rewrite Hlast.
    assert (Hget : bt_get p (inner s) = Some q).
    { rewrite E. eapply bt_get_in; eauto. apply in_or_app. left. apply in_or_app. right. rewrite E2.
      apply in_or_app; right; left; auto. }
    rewrite Hget.
    assert (Hlo : Z.min (tmin r) x = fold_right (fun e acc => Z.min (fst e) acc) (tmin r) (m2' ++ [(p,q)])).
    { rewrite <- E2. cbn [fold_right fst].
      cbn [wfl] in W2. destruct W2 as (_&_&Hxy&_&W2).
      assert (x <= fold_right (fun e acc => Z.min (fst e) acc) (tmin r) m2 \/
              fold_right (fun e acc => Z.min (fst e) acc) (tmin r) m2 = tmin r).
      { clear -W2 Hxy. revert y W2 Hxy. induction m2 as [|[u v] m2 IH]; intros y W2 Hxy; auto.
        cbn [wfl] in W2. destruct W2 as (?&?&?&?&W2). cbn [fold_right fst]. specialize (IH _ W2). lia. }
      assert (fold_right (fun e acc => Z.min (fst e) acc) (tmin r) m2 <= tmin r).
      { clear. induction m2; cbn [fold_right]; lia. }
      lia. }
    assert (Hhi : Z.max (tmax r) q = fold_right (fun e acc => Z.max (snd e) acc) (tmax r) (m2' ++ [(p,q)])).
    { rewrite E2 in W2. apply wfl_app in W2 as (W2'&Wl&C). rewrite fold_right_app. cbn [fold_right snd].
      cbn [wfl] in Wl. destruct Wl as (_&_&Hpq&_).
      rewrite (Z.max_comm (tmax r) q).
      assert (Hall : forall a b, In (a,b) m2' -> b <= q). { intros a b Hin. specialize (C a b p q Hin (or_introl eq_refl)). lia. }
      clear -Hall. induction m2' as [|[a b] m2' IH]; cbn [fold_right snd]; auto.
      rewrite <- IH. specialize (Hall a b (or_introl eq_refl)). lia.
      intros; eapply Hall; right; eauto. }
    rewrite Hlo, Hhi. rewrite E.
    replace (p :: map fst (rev m2')) with (map fst (rev ((x,y)::m2))) by (rewrite E2, rev_app_distr; reflexivity).
    rewrite fold_remove_app, fold_remove_app.
    rewrite (fold_remove_notin _ m1), (fold_remove_all _ ((x,y)::m2)), (fold_remove_notin _ m3), app_nil_r.
    + assert (Wlo : Z.min (tmin r) x <= tmin r) by lia.
      apply insert_mid.
      * intros a b Hin. specialize (A1 a b Hin). specialize (C1_2 a b x y Hin (or_introl eq_refl)).
        pose proof (wfl_in0 _ _ _ _ W1 Hin). lia.
      * intros a b Hin. specialize (A3 a b Hin). lia.
    + intros k b Hk. apply in_map_iff in Hk as ([k' c]&<-&Hk). apply in_rev in Hk. intros Hb. cbn [fst] in Hb.
      assert (In (k',c) (m1 ++ (x,y)::m2)) by (apply in_or_app; auto).
      specialize (C12_3 k' c k' b H Hb). pose proof (wfl_in0 _ _ _ _ W12 H). lia.
    + intros a b Hin. apply in_map_iff. exists (a,b). split; auto. apply in_rev in Hin; auto.
    + intros k b Hk. apply in_map_iff in Hk as ([k' c]&<-&Hk). apply in_rev in Hk. intros Hb. cbn [fst] in Hb.
      specialize (C1_2 k' b k' c Hb Hk). pose proof (wfl_in0 _ _ _ _ W1 Hb). lia.
Qed.

Lemma min_fold_le (m : btree) r : fold_right (fun e acc => Z.min (fst e) acc) r m <= r /\
  (forall a b, In (a,b) m -> fold_right (fun e acc => Z.min (fst e) acc) r m <= a) /\
  (fold_right (fun e acc => Z.min (fst e) acc) r m = r \/ exists a b, In (a,b) m /\ a = fold_right (fun e acc => Z.min (fst e) acc) r m).
Proof.
  induction m as [|[x y] m (I1&I2&I3)]; cbn [fold_right fst In].
  - split; [lia|]. split; [tauto|auto].
  - split; [lia|]. split.
    + intros a b [E|Hin]; [inversion E; subst; lia|]. specialize (I2 a b Hin). lia.
    + destruct (Z.min_spec x (fold_right (fun e acc => Z.min (fst e) acc) r m)) as [[? ->]|[? ->]].
      * right. exists x, y. auto.
      * destruct I3 as [->|(a&b&?&?)]; auto. right. exists a, b. auto.
Qed.
Lemma max_fold_le (m : btree) r : r <= fold_right (fun e acc => Z.max (snd e) acc) r m /\
  (forall a b, In (a,b) m -> b <= fold_right (fun e acc => Z.max (snd e) acc) r m) /\
  (fold_right (fun e acc => Z.max (snd e) acc) r m = r \/ exists a b, In (a,b) m /\ b = fold_right (fun e acc => Z.max (snd e) acc) r m).
Proof.
  induction m as [|[x y] m (I1&I2&I3)]; cbn [fold_right snd In].
  - split; [lia|]. split; [tauto|auto].
  - split; [lia|]. split.
    + intros a b [E|Hin]; [inversion E; subst; lia|]. specialize (I2 a b Hin). lia.
    + destruct (Z.max_spec y (fold_right (fun e acc => Z.max (snd e) acc) r m)) as [[? ->]|[? ->]].
      * destruct I3 as [->|(a&b&?&?)]; auto. right. exists a, b. auto.
      * right. exists x, y. auto.
Qed.

Lemma add_WF s r : WF s -> i64_range r -> nonempty r -> WF (add_time_range s r).
Proof.
  intros W Hi Hne. destruct (add_shape s r W Hi Hne) as (m1&m2&m3&lo&hi&E&F&A1&A3&A2&Elo&Ehi).
  destruct W as [W Cov [Mi Ma]].
  pose proof (min_fold_le m2 (tmin r)) as (L1&L2&L3). pose proof (max_fold_le m2 (tmax r)) as (H1&H2&H3).
  rewrite <- Elo in *. rewrite <- Ehi in *.
  assert (Hin : forall a b, In (a,b) m2 -> In (a,b) (inner s)) by (intros; rewrite E; apply in_or_app; right; apply in_or_app; auto).
  unfold nonempty, i64_range in *.
  assert (Ilo : is_i64 lo). { destruct L3 as [->|(a&b&Ha&<-)]; [tauto|]. apply (wfl_in0 _ _ _ _ W (Hin _ _ Ha)). }
  assert (Ihi : is_i64 hi). { destruct H3 as [->|(a&b&Ha&<-)]; [tauto|]. apply (wfl_in0 _ _ _ _ W (Hin _ _ Ha)). }
  rewrite E in W. apply wfl_app in W as (W1&W23&C1). pose proof W23 as W23'. apply wfl_app in W23 as (W2&W3&C23).
  assert (Hlo1 : forall a b, In (a,b) m1 -> b + 1 < lo).
  { intros a b Ha. destruct L3 as [->|(c&d&Hc&<-)]; [eauto|]. eapply (C1 a b c d); eauto. apply in_or_app; auto. }
  assert (Hhi3 : forall a b, In (a,b) m3 -> hi + 1 < a).
  { intros a b Ha. destruct H3 as [->|(c&d&Hc&<-)]; [eauto|]. eapply (C23 c d a b); eauto. }
  split.
  - rewrite F. apply wfl_join; auto.
    + cbn [wfl]. sp; auto; try lia.
      destruct m3 as [|[c d] m3]; cbn [wfl] in *; auto. destruct W3 as (?&?&?&?&?). sp; auto; try lia.
      specialize (Hhi3 c d (or_introl eq_refl)). lia.
    + intros a b c d Ha [Ec|Hc]; [inversion Ec; subst; eauto|]. eapply (C1 a b c d); eauto. apply in_or_app; auto.
  - intros a b Hab. rewrite F in Hab. 
    assert (Emin : rs_min (add_time_range s r) = Z.min (rs_min s) (tmin r)).
    { unfold add_time_range. destruct (map _ _); reflexivity. }
    assert (Emax : rs_max (add_time_range s r) = Z.max (rs_max s) (tmax r)).
    { unfold add_time_range. destruct (map _ _); reflexivity. }
    rewrite Emin, Emax. apply in_app_or in Hab as [Hab|[Hab|Hab]].
    + assert (In (a,b) (inner s)) by (rewrite E; apply in_or_app; auto). apply Cov in H. lia.
    + inversion Hab; subst a b. split.
      * destruct L3 as [->|(a&b&Ha&<-)]; [lia|]. apply Hin, Cov in Ha. lia.
      * destruct H3 as [->|(a&b&Ha&<-)]; [lia|]. apply Hin, Cov in Ha. lia.
    + assert (In (a,b) (inner s)) by (rewrite E; apply in_or_app; right; apply in_or_app; auto). apply Cov in H. lia.
  - assert (Emin : rs_min (add_time_range s r) = Z.min (rs_min s) (tmin r)).
    { unfold add_time_range. destruct (map _ _); reflexivity. }
    assert (Emax : rs_max (add_time_range s r) = Z.max (rs_max s) (tmax r)).
    { unfold add_time_range. destruct (map _ _); reflexivity. }
    rewrite Emin, Emax. i64. lia.
Qed.

Lemma add_in s r t : WF s -> i64_range r -> nonempty r ->
  (bt_in (inner (add_time_range s r)) t <-> bt_in (inner s) t \/ instants r t).
Proof.
  intros W Hi Hne. destruct (add_shape s r W Hi Hne) as (m1&m2&m3&lo&hi&E&F&A1&A3&A2&Elo&Ehi).
  destruct W as [W Cov [Mi Ma]].
  pose proof (min_fold_le m2 (tmin r)) as (L1&L2&L3). pose proof (max_fold_le m2 (tmax r)) as (H1&H2&H3).
  rewrite <- Elo in *. rewrite <- Ehi in *. unfold bt_in, instants, nonempty in *. rewrite F, E.
  split.
  - intros (a&b&Hab&Ht). apply in_app_or in Hab as [Hab|[Hab|Hab]].
    + left. exists a, b. split; auto. apply in_or_app; auto.
    + inversion Hab; subst a b.
      destruct (Z.ltb_spec t (tmin r)).
      * destruct L3 as [->|(a&b&Ha&Ea)]; [lia|]. left. exists a, b. split.
        apply in_or_app; right; apply in_or_app; auto. subst a. destruct (A2 _ _ Ha); lia.
      * destruct (Z.ltb_spec (tmax r) t); [|right; lia].
        destruct H3 as [->|(a&b&Ha&Ea)]; [lia|]. left. exists a, b. split.
        apply in_or_app; right; apply in_or_app; auto. subst b. destruct (A2 _ _ Ha); lia.
    + left. exists a, b. split; auto. apply in_or_app; right; apply in_or_app; auto.
  - intros [(a&b&Hab&Ht)|Ht].
    + apply in_app_or in Hab as [Hab|Hab]; [|apply in_app_or in Hab as [Hab|Hab]].
      * exists a, b. split; auto. apply in_or_app; auto.
      * exists lo, hi. split. apply in_or_app; right; left; auto. specialize (L2 _ _ Hab). specialize (H2 _ _ Hab). lia.
      * exists a, b. split; auto. apply in_or_app; right; right; auto.
    + exists lo, hi. split. apply in_or_app; right; left; auto. lia.
Qed.

(** contains agrees with membership *)
Lemma includes_spec s r : WF s -> nonempty r ->
  (trs_includes s r = true <-> exists a b, In (a,b) (inner s) /\ a <= tmin r /\ tmax r <= b).
Proof.
  intros [W _ _] Hne. unfold nonempty in Hne. unfold trs_includes.
  destruct (split_hi _ _ (tmax r) W) as (m1&m2&E&F&G&K). rewrite F.
  rewrite E in *. apply wfl_app in W as (W1&W2&C).
  destruct (rev m1) as [|[x y] q] eqn:Er.
  - assert (m1 = []) by (rewrite <- (rev_involutive m1), Er; reflexivity). subst m1.
    split; [discriminate|]. intros (a&b&Hin&?&?). cbn [app] in Hin. apply K in Hin. lia.
  - assert (Em : m1 = rev q ++ [(x,y)]) by (rewrite <- (rev_involutive m1), Er; reflexivity).
    rewrite Bool.andb_true_iff. split.
    + intros [? ?]. exists x, y. split; [|lia]. apply in_or_app; left. rewrite Em. apply in_or_app; right; left; auto.
    + intros (a&b&Hin&Ha&Hb). apply in_app_or in Hin as [Hin|Hin]; [|apply K in Hin; lia].
      rewrite Em in Hin, W1. apply wfl_app in W1 as (_&W1&C1).
      apply in_app_or in Hin as [Hin|Hin].
      * specialize (C1 a b x y Hin (or_introl eq_refl)). specialize (G x y).
        rewrite Em in G. assert (Gi : In (x,y) (rev q ++ [(x,y)])) by (apply in_or_app; right; left; auto).
        specialize (G Gi). lia.
      * destruct Hin as [Hin|[]]. inversion Hin; subst. lia.
Qed.
Lemma contains_spec s t : WF s -> (holds s t <-> bt_in (inner s) t).
Proof.
  intros W. unfold holds, trs_contains, bt_in. rewrite includes_spec; auto; [|unfold nonempty; cbn; lia].
  cbn [tmin tmax]. split; intros (a&b&?&?); exists a, b; intuition.
Qed.

(** [includes] is set inclusion because adjacent ranges are always merged. *)
Lemma chain_cover lo m a b : wfl lo m -> a <= b -> (forall t, a <= t <= b -> bt_in m t) ->
  exists x y, In (x,y) m /\ x <= a /\ b <= y.
Proof.
  intros W Hab H. destruct (H a) as (x&y&Hin&Hx); [lia|].
  destruct (Z.leb_spec b y). { exists x, y. intuition. }
  destruct (H (y+1)) as (u&v&Hin2&Hu); [lia|].
  exfalso.
  assert (Hdis : forall lo m, wfl lo m -> forall a b c d, In (a,b) m -> In (c,d) m -> a = c \/ b + 1 < c \/ d + 1 < a).
  { clear. intros lo m. revert lo. induction m as [|[p q] m IH]; cbn [wfl In]; intros lo W a b c d Ha Hc; [tauto|].
    destruct W as (?&?&?&?&W'). destruct Ha as [Ha|Ha]; destruct Hc as [Hc|Hc].
    - inversion Ha; inversion Hc; subst. lia.
    - inversion Ha; subst. apply (wfl_in _ _ _ _ W') in Hc. lia.
    - inversion Hc; subst. apply (wfl_in _ _ _ _ W') in Ha. lia.
    - eauto. }
  destruct (Hdis _ _ W _ _ _ _ Hin Hin2) as [E|[E|E]]; [|lia|lia].
  subst u. pose proof (bt_get_in _ _ _ _ W Hin) as G1. pose proof (bt_get_in _ _ _ _ W Hin2) as G2. rewrite G1 in G2.
  inversion G2; subst. lia.
Qed.

Lemma WF_empty : WF trs_empty.
Proof. split; cbn; auto; [tauto|i64; lia]. Qed.
Lemma WF_all : WF trs_all.
Proof. split; cbn; auto. i64; lia. intros a b [E|[]]; inversion E; i64; lia. i64; lia. Qed.
Lemma WF_bounds lo hi : is_i64 lo -> is_i64 hi -> lo <= hi -> WF (trs_of_bounds lo hi).
Proof. intros; split; cbn; auto. intros a b [E|[]]; inversion E; lia. Qed.

Lemma instants_of_nil t : instants_of [] t <-> False.
Proof. split; [intros (?&[]&_)|tauto]. Qed.
Lemma instants_of_cons r l t : instants_of (r :: l) t <-> instants r t \/ instants_of l t.
Proof.
  unfold instants_of. cbn [In]. split.
  - intros (q&[<-|Hin]&Hq); [left; auto|right; eauto].
  - intros [H|(q&Hin&Hq)]; [exists r; auto|exists q; auto].
Qed.

Lemma fold_add l s : WF s -> Forall (fun r => i64_range r /\ nonempty r) l ->
  WF (fold_left add_time_range l s) /\
  forall t, bt_in (inner (fold_left add_time_range l s)) t <-> bt_in (inner s) t \/ instants_of l t.
Proof.
  revert s. induction l as [|r l IH]; cbn [fold_left]; intros s W F.
  - split; auto. intros t. rewrite instants_of_nil. tauto.
  - inversion F as [|? ? [Hi Hn] F']; subst. destruct (IH (add_time_range s r)) as [W' I]; auto using add_WF.
    split; auto. intros t. rewrite I, add_in; auto. rewrite instants_of_cons. tauto.
Qed.

Lemma reachable_WF s : reachable s -> WF s.
Proof.
  induction 1; auto using WF_empty, WF_all, WF_bounds.
  - unfold trs_push. destruct (trs_is_boundless s); auto using add_WF.
  - unfold trs_extend. destruct (trs_is_boundless s); auto. apply fold_add; auto.
Qed.

Lemma bt_in_empty t : ~ bt_in (inner trs_empty) t.
Proof. intros (a&b&[]&_). Qed.

(** ** property lemmas *)
Lemma new_set l : Forall (fun r => i64_range r /\ nonempty r) l ->
  forall t, holds (trs_new l) t <-> instants_of l t.
Proof.
  intros F t. unfold trs_new, trs_extend. cbn [trs_is_boundless rs_min rs_max trs_empty].
  replace (trs_is_boundless trs_empty) with false by reflexivity.
  destruct (fold_add l trs_empty WF_empty F) as [W I].
  rewrite contains_spec; auto. rewrite I. pose proof (bt_in_empty t). tauto.
Qed.
Lemma push_set s r t : reachable s -> i64_range r -> nonempty r -> trs_is_boundless s = false ->
  (holds (trs_push s r) t <-> holds s t \/ instants r t).
Proof.
  intros R Hi Hn B. apply reachable_WF in R. unfold trs_push. rewrite B.
  rewrite !contains_spec; auto using add_WF. apply add_in; auto.
Qed.
Lemma extend_set s l t : reachable s -> Forall (fun r => i64_range r /\ nonempty r) l -> trs_is_boundless s = false ->
  (holds (trs_extend s l) t <-> holds s t \/ instants_of l t).
Proof.
  intros R F B. apply reachable_WF in R. unfold trs_extend. rewrite B.
  destruct (fold_add l s R F) as [W I]. rewrite !contains_spec; auto.
Qed.
Lemma includes_set s r : reachable s -> nonempty r ->
  (trs_includes s r = true <-> forall t, instants r t -> holds s t).
Proof.
  intros R Hn. apply reachable_WF in R. rewrite includes_spec; auto. split.
  - intros (a&b&Hin&?&?) t Ht. apply contains_spec; auto. exists a, b. unfold instants in Ht. intuition lia.
  - intros H. destruct R as [W C M]. eapply chain_cover; eauto. intros t Ht. apply contains_spec. split; auto. apply H. auto.
Qed.
Lemma overlaps_set s r : reachable s -> nonempty r ->
  (trs_overlaps s r = true <-> exists t, instants r t /\ holds s t).
Proof.
  intros R Hn. apply reachable_WF in R. unfold trs_overlaps. rewrite Bool.andb_true_iff, existsb_exists.
  unfold nonempty, instants in *. split.
  - intros (_&[x y]&Hin&Ho). unfold trs_ranges in Hin. apply in_map_iff in Hin as ([a b]&E&Hin). inversion E; subst x y. clear E.
    cbn [fst snd] in *. pose proof (wfl_in0 _ _ _ _ (wf_l _ R) Hin) as (?&?&?).
    unfold tr_overlaps in Ho. cbn [tmin tmax] in Ho.
    exists (Z.max a (tmin r)). split; [lia|]. apply contains_spec; auto. exists a, b. split; auto. lia.
  - intros (t&Ht&Hh). apply contains_spec in Hh; auto. destruct Hh as (a&b&Hin&Hab).
    pose proof (wf_cov _ R _ _ Hin). split.
    + unfold tr_overlaps, trs_max_range. cbn [tmin tmax]. lia.
    + exists (TR a b). split. unfold trs_ranges. apply in_map_iff. exists (a,b); auto.
      unfold tr_overlaps; cbn [tmin tmax]. lia.
Qed.

Lemma flat_opt_in {A} (l : list (option A)) x : In x (flat_opt l) <-> In (Some x) l.
Proof.
  unfold flat_opt. rewrite in_flat_map. split.
  - intros ([y|]&H&Hin); cbn in Hin; intuition; subst; auto.
  - intros H. exists (Some x). cbn; auto.
Qed.

Lemma intersect_pieces s r t : WF s ->
  (instants_of (flat_opt (map (fun x => tr_intersect x r) (trs_ranges s))) t <-> bt_in (inner s) t /\ instants r t).
Proof.
  intros W. unfold instants_of, bt_in. split.
  - intros (q&Hin&Ht). apply flat_opt_in, in_map_iff in Hin as ([x y]&E&Hin).
    unfold trs_ranges in Hin. apply in_map_iff in Hin as ([a b]&E2&Hin). inversion E2; subst x y; clear E2.
    unfold tr_intersect in E. destruct (tr_overlaps _ _) eqn:Eo; [|discriminate]. inversion E; subst q; clear E.
    unfold instants in *. cbn [tmin tmax fst snd] in *. split; [|lia]. exists a, b. intuition lia.
  - intros ((a&b&Hin&Hab)&Ht). unfold instants in *.
    exists (TR (Z.max a (tmin r)) (Z.min b (tmax r))). cbn [tmin tmax]. split; [|lia].
    apply flat_opt_in, in_map_iff. exists (TR a b). split.
    + unfold tr_intersect, tr_overlaps. cbn [tmin tmax].
      destruct (negb _) eqn:E; auto. lia.
    + unfold trs_ranges. apply in_map_iff. exists (a,b); auto.
Qed.
Lemma intersect_ok s r : WF s -> nonempty r -> i64_range r ->
  Forall (fun q => i64_range q /\ nonempty q) (flat_opt (map (fun x => tr_intersect x r) (trs_ranges s))).
Proof.
  intros W Hn [I1 I2]. apply Forall_forall. intros q Hin. apply flat_opt_in, in_map_iff in Hin as ([x y]&E&Hin).
  unfold trs_ranges in Hin. apply in_map_iff in Hin as ([a b]&E2&Hin). inversion E2; subst x y; clear E2.
  pose proof (wfl_in0 _ _ _ _ (wf_l _ W) Hin) as (?&?&?). cbn [fst snd] in *.
  unfold tr_intersect in E. destruct (tr_overlaps _ _) eqn:Eo; [|discriminate]. inversion E; subst q; clear E.
  unfold i64_range, nonempty, tr_overlaps in *. cbn [tmin tmax] in *. i64. lia.
Qed.
Lemma intersect_set s r t : reachable s -> i64_range r -> nonempty r ->
  ((exists s', trs_intersect s r = Some s' /\ holds s' t) <-> holds s t /\ instants r t).
Proof.
  intros R Hi Hn. pose proof (reachable_WF _ R) as W. rewrite contains_spec; auto.
  pose proof (intersect_pieces s r t W) as P. pose proof (intersect_ok s r W Hn Hi) as F.
  unfold trs_intersect. destruct (trs_overlaps s r) eqn:Eo.
  - destruct (flat_opt _) as [|q l] eqn:El.
    + rewrite <- P. split; [intros (?&?&?); discriminate|]. intros (?&[]&_).
    + rewrite <- P. split.
      * intros (s'&E&H). inversion E; subst s'. apply new_set in H; auto.
      * intros H. exists (trs_new (q::l)). split; auto. apply new_set; auto.
  - split; [intros (?&?&?); discriminate|]. intros [H1 H2].
    assert (trs_overlaps s r = true); [|congruence]. apply overlaps_set; auto. exists t. split; auto. apply contains_spec; auto.
Qed.

Lemma wrap_pred o x : is_i64 o -> is_i64 x -> x < o -> wrap_i64 (o - 1) = o - 1.
Proof. intros. apply wrap_i64_id. i64; lia. Qed.
Lemma wrap_succ o x : is_i64 o -> is_i64 x -> o < x -> wrap_i64 (o + 1) = o + 1.
Proof. intros. apply wrap_i64_id. i64; lia. Qed.

Lemma tr_exclude_set a o t : i64_range a -> i64_range o ->
  ((exists q, (fst (tr_exclude a o) = Some q \/ snd (tr_exclude a o) = Some q) /\ instants q t) <->
   instants a t /\ ~ instants o t).
Proof.
  intros [A1 A2] [O1 O2]. unfold tr_exclude, instants. cbn [fst snd].
  destruct (Z.ltb_spec (tmin a) (tmin o)) as [L|L].
  all: destruct (tmax a >? tmax o) eqn:Rr.
  all: try rewrite (wrap_pred (tmin o) (tmin a)) by (auto; lia).
  all: try rewrite (wrap_succ (tmax o) (tmax a)) by (auto; lia).
  - split.
    + intros (q&[E|E]&H); inversion E; subst q; cbn [tmin tmax] in *; lia.
    + intros [H1 H2]. destruct (Z.ltb_spec t (tmin o)).
      * eexists. split; [left; reflexivity|]. cbn [tmin tmax]. lia.
      * eexists. split; [right; reflexivity|]. cbn [tmin tmax]. lia.
  - split.
    + intros (q&[E|E]&H); inversion E; subst q; cbn [tmin tmax] in *; lia.
    + intros [H1 H2]. eexists. split; [left; reflexivity|]. cbn [tmin tmax]. lia.
  - split.
    + intros (q&[E|E]&H); inversion E; subst q; cbn [tmin tmax] in *; lia.
    + intros [H1 H2]. eexists. split; [right; reflexivity|]. cbn [tmin tmax]. lia.
  - split.
    + intros (q&[E|E]&H); inversion E.
    + lia.
Qed.
Lemma tr_exclude_ok a o q : i64_range a -> i64_range o -> nonempty a ->
  (fst (tr_exclude a o) = Some q \/ snd (tr_exclude a o) = Some q) -> i64_range q /\ nonempty q.
Proof.
  intros [A1 A2] [O1 O2] Hn. unfold tr_exclude, nonempty, i64_range in *. cbn [fst snd].
  destruct (Z.ltb_spec (tmin a) (tmin o)) as [L|L].
  all: destruct (tmax a >? tmax o) eqn:Rr.
  all: try rewrite (wrap_pred (tmin o) (tmin a)) by (auto; lia).
  all: try rewrite (wrap_succ (tmax o) (tmax a)) by (auto; lia).
  all: intros [E|E]; inversion E; subst q; cbn [tmin tmax]; i64; lia.
Qed.
Lemma exclude_pieces_ok s r : WF s -> i64_range r ->
  Forall (fun q => i64_range q /\ nonempty q)
    (flat_opt (flat_map (fun x => [fst (tr_exclude x r); snd (tr_exclude x r)]) (trs_ranges s))).
Proof.
  intros W Hr. apply Forall_forall. intros q Hin. apply flat_opt_in, in_flat_map in Hin as ([x y]&Hin&E).
  unfold trs_ranges in Hin. apply in_map_iff in Hin as ([a b]&E2&Hin). inversion E2; subst x y; clear E2. cbn [fst snd] in *.
  pose proof (wfl_in0 _ _ _ _ (wf_l _ W) Hin) as (?&?&?). cbn [In] in E.
  eapply tr_exclude_ok; [| |unfold nonempty|]; [split| | |]; cycle 4.
  - destruct E as [E|[E|[]]]; [left|right]; exact E.
  - auto.
  - auto.
  - auto.
  - cbn; lia.
Qed.
Lemma exclude_WF s r : WF s -> i64_range r -> WF (trs_exclude s r).
Proof.
  intros W Hr. unfold trs_exclude, trs_new, trs_extend.
  replace (trs_is_boundless trs_empty) with false by reflexivity.
  apply fold_add; auto using WF_empty, exclude_pieces_ok.
Qed.
Lemma exclude_set' s r t : WF s -> i64_range r ->
  (holds (trs_exclude s r) t <-> holds s t /\ ~ instants r t).
Proof.
  intros W Hr. unfold trs_exclude. rewrite new_set by (apply exclude_pieces_ok; auto).
  rewrite contains_spec; auto. unfold instants_of, bt_in. split.
  - intros (q&Hin&Ht). apply flat_opt_in, in_flat_map in Hin as ([x y]&Hin&E).
    unfold trs_ranges in Hin. apply in_map_iff in Hin as ([a b]&E2&Hin). inversion E2; subst x y; clear E2. cbn [fst snd] in *.
    pose proof (wfl_in0 _ _ _ _ (wf_l _ W) Hin) as (?&?&?).
    assert (instants (TR a b) t /\ ~ instants r t) as [K1 K2].
    { apply tr_exclude_set; auto. split; auto. exists q. split; auto. destruct E as [E|[E|[]]]; auto. }
    split; auto. exists a, b. split; auto.
  - intros ((a&b&Hin&Hab)&Hn).
    pose proof (wfl_in0 _ _ _ _ (wf_l _ W) Hin) as (?&?&?).
    assert (Iab : i64_range (TR a b)) by (split; auto).
    destruct (proj2 (tr_exclude_set (TR a b) r t Iab Hr) (conj Hab Hn)) as (q&Hq&Ht).
    exists q. split; auto. apply flat_opt_in, in_flat_map. exists (TR a b). split.
    + unfold trs_ranges. apply in_map_iff. exists (a,b); auto.
    + cbn [In]. destruct Hq as [->| ->]; auto.
Qed.
Lemma exclude_set s r t : reachable s -> i64_range r ->
  (holds (trs_exclude s r) t <-> holds s t /\ ~ instants r t).
Proof. intros R Hr. apply exclude_set'; auto using reachable_WF. Qed.
Lemma exclude_all_set s l t : reachable s -> Forall i64_range l ->
  (holds (trs_exclude_all s l) t <-> holds s t /\ ~ instants_of l t).
Proof.
  intros R. apply reachable_WF in R. revert s R. unfold trs_exclude_all. induction l as [|r l IH]; cbn [fold_left]; intros s R F.
  - rewrite instants_of_nil. tauto.
  - inversion F; subst. rewrite IH; auto using exclude_WF. rewrite exclude_set'; auto.
    rewrite instants_of_cons. tauto.
Qed.

(** exclude_time_ranges *)
Lemma exclude_loop_spec mx : is_i64 mx -> forall m lo tmp acc, wfl lo m -> is_i64 tmp ->
  match lo with Some l => l < tmp | None => True end ->
  (forall a b, In (a,b) m -> b < I64_MAX) ->
  exists new tmp', exclude_loop mx tmp acc m = Some (acc ++ new, tmp') /\
    is_i64 tmp' /\ tmp <= tmp' /\
    Forall (fun q => i64_range q /\ nonempty q /\ tmax q < tmp') new /\
    (forall t, tmp <= t <= mx -> ((instants_of new t \/ tmp' <= t) <-> ~ bt_in m t)) /\
    (forall t, instants_of new t -> tmp <= t <= mx).
Proof.
  intros Hmx. induction m as [|[a b] m IH]; cbn [wfl exclude_loop]; intros lo tmp acc W It Hlo HM.
  - exists [], tmp. rewrite app_nil_r. sp; auto; try lia.
    + intros t Ht. rewrite instants_of_nil. split; [intros _ (?&?&[]&_)|]. intros _; lia.
    + intros t Ht. rewrite instants_of_nil in Ht. tauto.
  - destruct W as (Ia&Ib&Hab&Hla&W). pose proof (HM a b (or_introl eq_refl)) as Hb.
    assert (HM' : forall a b, In (a,b) m -> b < I64_MAX) by (intros; eapply HM; right; eauto).
    destruct ((a =? I64_MIN) && (b =? I64_MAX)) eqn:E1; [lia|].
    assert (Hsuc : succ_or_self b = b + 1) by (unfold succ_or_self; destruct (b =? I64_MAX) eqn:E; lia).
    destruct (tmp >? mx) eqn:E2.
    { exists [], tmp. rewrite app_nil_r. sp; auto; try lia.
      intros t Ht. rewrite instants_of_nil in Ht. tauto. }
    destruct ((tmp <=? b) && (mx >=? a)) eqn:E3.
    + assert (Is : is_i64 (succ_or_self b)) by (rewrite Hsuc; i64; lia).
      destruct (IH (Some b) (succ_or_self b) (if a >? tmp then acc ++ [TR tmp (a-1)] else acc) W Is ltac:(rewrite Hsuc; lia) HM')
        as (new&tmp'&EL&I1&I2&I3&I4&I5).
      exists ((if a >? tmp then [TR tmp (a-1)] else []) ++ new), tmp'.
      rewrite EL. split; [f_equal; f_equal; destruct (a >? tmp); rewrite ?app_assoc, ?app_nil_r; auto|].
      split; auto. split; [lia|]. rewrite Hsuc in *. split; [|split].
      * apply Forall_app. split; auto. destruct (a >? tmp) eqn:E4; constructor; auto.
        unfold i64_range, nonempty. cbn [tmin tmax]. i64. lia.
      * intros t Ht.
        assert (Happ : instants_of ((if a >? tmp then [TR tmp (a-1)] else []) ++ new) t <->
                 (tmp <= t < a) \/ instants_of new t).
        { unfold instants_of. destruct (a >? tmp) eqn:E4.
          - split.
            + intros (q&Hin&Hq). apply in_app_or in Hin as [[<-|[]]|Hin]; [left; unfold instants in Hq; cbn in Hq; lia|right; eauto].
            + intros [Hl|(q&Hin&Hq)]; [exists (TR tmp (a-1)); split; [apply in_or_app; left; left; auto|unfold instants; cbn; lia]|].
              exists q. split; auto. apply in_or_app; auto.
          - cbn [app]. split; [intros (q&Hin&Hq); right; eauto|]. intros [Hl|(q&Hin&Hq)]; [lia|eauto]. }
        rewrite Happ. unfold bt_in. split.
        -- intros Hd (x&y&[Exy|Hin]&Hxy).
           ++ inversion Exy; subst x y. destruct Hd as [[Hd|Hd]|Hd]; [lia| |lia]. apply I5 in Hd. lia.
           ++ pose proof (wfl_in _ _ _ _ W Hin) as (?&_). 
              destruct Hd as [[Hd|Hd]|Hd]; [lia| |].
              ** apply (proj1 (I4 t ltac:(lia)) (or_introl Hd)). exists x, y; auto.
              ** apply (proj1 (I4 t ltac:(lia)) (or_intror Hd)). exists x, y; auto.
        -- intros Hnot. destruct (Z.ltb_spec t a); [left; left; lia|].
           destruct (Z.leb_spec t b). { exfalso. apply Hnot. exists a, b. split; [left; auto|lia]. }
           destruct (proj2 (I4 t ltac:(lia))) as [Hd|Hd]; auto.
           intros (x&y&Hin&Hxy). apply Hnot. exists x, y. split; auto. right; auto.
      * intros t (q&Hin&Hq). apply in_app_or in Hin as [Hin|Hin].
        -- destruct (a >? tmp) eqn:E4; [|destruct Hin]. destruct Hin as [<-|[]]. unfold instants in Hq. cbn in Hq. lia.
        -- assert (instants_of new t) as Hn by (exists q; auto). apply I5 in Hn. lia.
    + destruct (Z.ltb_spec b tmp) as [Hbt|Hbt].
      * destruct (IH (Some b) tmp acc W It Hbt HM') as (new&tmp'&EL&I1&I2&I3&I4&I5).
        exists new, tmp'. sp; auto; try lia. intros t H. split.
        -- intros Hd (x&y&[Exy|Hin]&Hxy); [inversion Exy; subst; lia|]. apply (proj1 (I4 t H) Hd). exists x, y; auto.
        -- intros Hnot. apply I4; auto. intros (x&y&Hin&Hxy). apply Hnot. exists x, y. split; auto; right; auto.
      * (* range entirely above mx: all later ones too *)
        assert (Habove : mx < a) by lia.
        assert (Hskip : forall m' lo', wfl (Some lo') m' -> mx <= lo' -> exclude_loop mx tmp acc m' = Some (acc, tmp) \/ exclude_loop mx tmp acc m' = None).
        { clear - E2. induction m' as [|[x y] m' IH]; cbn [wfl exclude_loop]; intros lo' W Hl; auto.
          destruct W as (?&?&?&?&W). destruct ((x =? _) && _); auto. rewrite E2.
          destruct ((tmp <=? y) && (mx >=? x)) eqn:E; [lia|]. eapply IH; eauto. lia. }
        assert (Hskip' : exclude_loop mx tmp acc m = Some (acc, tmp)).
        { destruct (Hskip m b W ltac:(lia)) as [H|H]; auto. exfalso. revert H. clear - W HM' E2 Habove Hab.
          assert (mx <= b) as Hb by lia. clear Hab Habove a. revert b W Hb.
          induction m as [|[x y] m' IH]; cbn [wfl exclude_loop]; intros b W Hb; [discriminate|].
          destruct W as (?&?&?&?&W). pose proof (HM' x y (or_introl eq_refl)).
          destruct ((x =? I64_MIN) && (y =? I64_MAX)) eqn:E; [lia|]. rewrite E2.
          destruct ((tmp <=? y) && (mx >=? x)) eqn:E'; [lia|]. eapply (IH ltac:(intros; eapply HM'; right; eauto)); eauto. lia. }
        exists [], tmp. rewrite app_nil_r. sp; auto; try lia.
        -- intros t Ht. split; [|intros _; lia].
           intros _ (x&y&[Exy|Hin]&Hxy); [inversion Exy; subst; lia|]. pose proof (wfl_in _ _ _ _ W Hin). lia.
        -- intros t Ht. rewrite instants_of_nil in Ht. tauto.
Qed.

Lemma exclude_time_ranges_set r s t : reachable s -> i64_range r -> nonempty r ->
  (forall q, In q (trs_ranges s) -> tmax q < I64_MAX) ->
  ((exists s', tr_exclude_time_ranges r s = Some s' /\ holds s' t) <-> instants r t /\ ~ holds s t).
Proof.
  intros R Hi Hn HM. pose proof (reachable_WF _ R) as W. rewrite contains_spec; auto.
  unfold tr_exclude_time_ranges. unfold nonempty in Hn. unfold tr_is_none.
  destruct (tmin r >? tmax r) eqn:E0; [lia|].
  assert (Hr : Forall (fun q => i64_range q /\ nonempty q) [r]) by (constructor; auto).
  destruct (trs_is_empty s) eqn:Ee.
  { unfold trs_is_empty in Ee. destruct (inner s) eqn:Ei; [|discriminate]. split.
    - intros (s'&E&H). inversion E; subst s'. apply new_set in H; auto. destruct H as (q&[<-|[]]&H). split; auto. intros (?&?&[]&_).
    - intros [H _]. eexists. split; [reflexivity|]. apply new_set; auto. exists r. split; [left|]; auto. }
  destruct (exclude_loop_spec (tmax r) (proj2 Hi) (inner s) None (tmin r) [] (wf_l _ W) (proj1 Hi) I)
    as (new&tmp'&EL&I1&I2&I3&I4&I5).
  { intros a b Hin. apply (HM (TR a b)). unfold trs_ranges. apply in_map_iff. exists (a,b); auto. }
  rewrite EL. cbn [app].
  set (fin := if tmp' <=? tmax r then new ++ [TR tmp' (tmax r)] else new).
  assert (Ffin : Forall (fun q => i64_range q /\ nonempty q) fin).
  { unfold fin. assert (Fn : Forall (fun q => i64_range q /\ nonempty q) new) by (eapply Forall_impl; [|exact I3]; cbn; tauto).
    destruct (tmp' <=? tmax r) eqn:E; auto. apply Forall_app. split; auto. constructor; auto. split; [split|]; cbn; auto.
    apply (proj2 Hi). unfold nonempty; cbn; lia. }
  assert (Hfin : instants_of fin t <-> instants r t /\ ~ bt_in (inner s) t).
  { unfold fin, instants. destruct (tmp' <=? tmax r) eqn:E.
    - split.
      + intros (q&Hin&Hq). apply in_app_or in Hin as [Hin|[<-|[]]].
        * assert (Hnew : instants_of new t) by (exists q; auto). pose proof (I5 t Hnew). split; auto. apply I4; auto.
        * unfold instants in Hq. cbn in Hq. split; [lia|]. apply I4; lia.
      + intros [Ht Hb]. apply I4 in Hb; auto. destruct Hb as [(q&Hin&Hq)|Hb].
        * exists q. split; auto. apply in_or_app; auto.
        * exists (TR tmp' (tmax r)). split; [apply in_or_app; right; left; auto|]. unfold instants; cbn; lia.
    - split.
      + intros Hnew. pose proof (I5 t Hnew). split; auto. apply I4; auto.
      + intros [Ht Hb]. apply I4 in Hb; auto. destruct Hb as [Hb|Hb]; auto. lia. }
  rewrite <- Hfin. destruct fin as [|q l] eqn:Ef.
  - split; [intros (?&?&?); discriminate|]. intros (?&[]&_).
  - split.
    + intros (s'&E&H). inversion E; subst s'. apply new_set in H; auto.
    + intros H. eexists. split; [reflexivity|]. apply new_set; auto.
Qed.

Lemma exclude_reachable s r : reachable s -> i64_range r -> reachable (trs_exclude s r).
Proof. intros R Hr. apply reach_extend; [constructor|]. apply exclude_pieces_ok; auto using reachable_WF. Qed.
Lemma intersect_reachable s r s' : reachable s -> i64_range r -> nonempty r -> trs_intersect s r = Some s' -> reachable s'.
Proof.
  intros R Hr Hn. unfold trs_intersect. destruct (trs_overlaps s r); [|discriminate].
  pose proof (intersect_ok s r (reachable_WF _ R) Hn Hr) as F. destruct (flat_opt _) as [|q l]; [discriminate|].
  intros E; inversion E; subst. apply reach_extend; [constructor|]; auto.
Qed.


(** ** the cached bounds are the first and the last instant *)
Definition att (s : tranges) : Prop :=
  (inner s = [] /\ rs_min s = I64_MAX /\ rs_max s = I64_MIN) \/ (bt_in (inner s) (rs_min s) /\ bt_in (inner s) (rs_max s)).
Lemma add_att s r : WF s -> i64_range r -> nonempty r -> att s -> att (add_time_range s r).
Proof.
  intros W Hi Hn Ha. right.
  assert (Emin : rs_min (add_time_range s r) = Z.min (rs_min s) (tmin r)).
  { unfold add_time_range. destruct (map _ _); reflexivity. }
  assert (Emax : rs_max (add_time_range s r) = Z.max (rs_max s) (tmax r)).
  { unfold add_time_range. destruct (map _ _); reflexivity. }
  rewrite Emin, Emax, !add_in by auto. unfold instants, nonempty, i64_range, is_i64 in *.
  destruct Ha as [(E1&E2&E3)|[A1 A2]].
  - rewrite E2, E3. split; right; lia.
  - split; [destruct (Z.min_spec (rs_min s) (tmin r)) as [[? ->]|[? ->]]|destruct (Z.max_spec (rs_max s) (tmax r)) as [[? ->]|[? ->]]]; auto; right; lia.
Qed.
Lemma fold_att l s : WF s -> Forall (fun r => i64_range r /\ nonempty r) l -> att s -> att (fold_left add_time_range l s).
Proof.
  revert s. induction l as [|r l IH]; cbn [fold_left]; intros s W F A; auto.
  inversion F as [|? ? [Hi Hn] F']; subst. apply IH; auto using add_WF, add_att.
Qed.
Lemma reachable_att s : reachable s -> att s.
Proof.
  induction 1 as [| |lo hi|s r R IH|s l R IH].
  - left. auto.
  - right. split; exists I64_MIN, I64_MAX; (split; [left; reflexivity|]); vm_compute; split; discriminate.
  - right. split; exists lo, hi; (split; [left; reflexivity|]); cbn [rs_min rs_max trs_of_bounds]; lia.
  - unfold trs_push. destruct (trs_is_boundless s); auto. apply add_att; auto using reachable_WF.
  - unfold trs_extend. destruct (trs_is_boundless s); auto. apply fold_att; auto using reachable_WF.
Qed.
Lemma boundless_ends s : reachable s -> (trs_is_boundless s = true <-> holds s I64_MIN /\ holds s I64_MAX).
Proof.
  intros R. pose proof (reachable_WF s R) as W. pose proof (reachable_att s R) as A. rewrite !contains_spec by auto.
  unfold trs_is_boundless. rewrite andb_true_iff, !Z.eqb_eq. split.
  - intros [E1 E2]. destruct A as [(?&E3&E4)|A]; [rewrite E1 in E3; discriminate|]. rewrite E1, E2 in A. exact A.
  - destruct W as [W C [M1 M2]]. intros [(a&b&I1&L1) (c&d&I2&L2)]. destruct (C a b I1), (C c d I2).
    unfold is_i64 in *. lia.
Qed.
Lemma is_empty_none s : reachable s -> (trs_is_empty s = true <-> forall t, ~ holds s t).
Proof.
  intros R. pose proof (reachable_WF s R) as W. unfold trs_is_empty. split.
  - intros E t H. apply contains_spec in H; auto. destruct (inner s); [|discriminate]. destruct H as (?&?&[]&_).
  - intros H. destruct (inner s) as [|[a b] m] eqn:E; auto. exfalso. apply (H a). apply contains_spec; auto.
    exists a, b. rewrite E. split; [left; auto|]. destruct W as [W _ _]. rewrite E in W. cbn [wfl] in W. lia.
Qed.
Lemma range_contains r t : tr_contains r t = true <-> instants r t.
Proof. unfold tr_contains, instants. rewrite andb_true_iff, Z.geb_le, Z.leb_le. tauto. Qed.
Lemma range_boundless r : i64_range r -> (tr_is_boundless r = true <-> forall t, is_i64 t -> instants r t).
Proof.
  intros [M1 M2]. unfold tr_is_boundless, instants. rewrite andb_true_iff, !Z.eqb_eq. split.
  - intros [E1 E2] t T. unfold is_i64 in T. lia.
  - intros H. assert (H1 := H I64_MIN ltac:(split; vm_compute; discriminate)). assert (H2 := H I64_MAX ltac:(split; vm_compute; discriminate)).
    unfold is_i64 in *. lia.
Qed.
Lemma range_total r : i64_range r ->
  tr_total_time r = if tmax r <? tmin r then 0 else (tmax r - tmin r + 1) mod 2 ^ 64.
Proof.
  intros [M1 M2]. unfold tr_total_time. destruct (tmax r <? tmin r) eqn:E; auto. unfold wrap_u64.
  rewrite Zplus_mod_idemp_l. reflexivity.
Qed.
