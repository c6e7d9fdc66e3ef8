(** Continuous queries without aggregation. *)
From Verif Require Import Prelude StreamModel StreamSpec StreamProofs StreamProofs3.
From Verif Require StreamProofs2.

Lemma written_app a o : written (a ++ [o]) = written a ++ o_rows o.
Proof. unfold written. rewrite map_app, concat_app. cbn [map concat]. rewrite app_nil_r. auto. Qed.

Section Query.
Variables (q : query).
Hypothesis (QK : q_key q = None).

Lemma run_rows s parts : below s ->
  o_rows (snd (run q parts s)) = concat (concat parts)
  /\ ((s_wm s < wm' s parts /\ s_wm (fst (run q parts s)) = wm' s parts /\ s_saved (fst (run q parts s)) = Some (wm' s parts)
       /\ s_processed (fst (run q parts s)) = Some (Z.min (wm' s parts) I64_MAX))
      \/ (wm' s parts <= s_wm s /\ s_wm (fst (run q parts s)) = s_wm s /\ s_saved (fst (run q parts s)) = s_saved s
       /\ s_processed (fst (run q parts s)) = s_processed s)).
Proof.
  intros B. unfold run. rewrite (avail s B). cbn [s_available s_wm s_stores]. rewrite QK, watermark_flat. fold (wm' s parts).
  cbn [fst snd o_rows]. split; [auto|]. unfold finish, set_wm. cbn [s_wm s_available s_saved s_processed s_stores].
  destruct (s_wm s <? wm' s parts) eqn:E; cbn [s_wm s_available s_saved s_processed s_stores].
  - left. split; [lia|auto].
  - right. split; [lia|auto].
Qed.

Lemma error_rows n s parts : below s ->
  o_rows (snd (run_error q n parts s)) = concat (concat (firstn n parts))
  /\ s_wm (fst (run_error q n parts s)) = wm' s parts /\ s_saved (fst (run_error q n parts s)) = s_saved s
  /\ s_processed (fst (run_error q n parts s)) = s_processed s.
Proof.
  intros B. unfold run_error. rewrite (avail s B), QK, watermark_flat. cbn [s_wm fst snd o_rows set_wm s_saved s_processed].
  split; [auto|]. split; [auto|]. auto.
Qed.

Definition in_range (w : Z) : Prop := I64_MIN <= w < I64_MAX.

Record Inv (s : sq) (E : list output) (S D : list row) : Prop := {
  i_split : exists n, Permutation S (D ++ n) /\ forall r x, In r D -> In x n -> r_time r < r_time x;
  i_timely : forall r, In r S -> timely q r;
  i_wm : in_range (s_wm s);
  i_saved : match s_saved s with Some w => in_range w | None => True end;
  i_mode : match s_processed s with Some p => exists r, In r D /\ r_time r = p | None => True end;
  i_out : exists extra, Permutation (written E) (D ++ extra) /\ incl extra S }.

Lemma inv_start : Inv (start q None) [] [] [].
Proof.
  constructor; cbn; auto.
  - exists []. split; [constructor|intros ? ? []].
  - intros r [].
  - unfold in_range. i64. lia.
  - exists []. split; [constructor|intros ? []].
Qed.

Lemma in_D s E S D r : Inv s E S D -> In r D -> In r S.
Proof. intros I H. destruct (i_split _ _ _ _ I) as (n & P & _). apply (Permutation_in r (Permutation_sym P)). apply in_app_iff; auto. Qed.

Lemma inv_below s E S D : Inv s E S D -> below s.
Proof.
  intros I. unfold below. pose proof (i_mode _ _ _ _ I) as M. destruct (s_processed s) as [p|]; auto.
  destruct M as (r & Ir & <-). destruct (i_timely _ _ _ _ I r (in_D _ _ _ _ _ I Ir)) as (P & _). unfold proper in P. lia.
Qed.

Lemma step_facts s E S D t parts : Inv s E S D ->
  (exists new, Permutation t (S ++ new) /\ forall r n, In r S -> In n new -> r_time r < r_time n) ->
  (forall r, In r t -> timely q r) -> Permutation (concat (concat parts)) (scanned q s t) ->
  (exists m, Permutation t (D ++ m) /\ (forall r x, In r D -> In x m -> r_time r < r_time x))
  /\ incl S t /\ incl D t /\ incl (concat (concat parts)) t /\ in_range (wm' s parts)
  /\ exists extra, Permutation (written E ++ concat (concat parts)) (t ++ extra) /\ incl extra t.
Proof.
  intros I (new & P & L) PR OK. destruct (i_split _ _ _ _ I) as (n & PS & LS).
  assert (PT : Permutation t (D ++ n ++ new)) by (rewrite P, PS, app_assoc; auto).
  assert (LD : forall r x, In r D -> In x (n ++ new) -> r_time r < r_time x).
  { intros r x Hr Hx. apply in_app_iff in Hx as [Hx|Hx]; [auto|]. apply L; auto. apply (in_D _ _ _ _ _ I Hr). }
  assert (IS : incl S t) by (intros x Hx; apply (Permutation_in x (Permutation_sym P)); apply in_app_iff; auto).
  assert (ID : incl D t) by (intros x Hx; apply IS; apply (in_D _ _ _ _ _ I Hx)).
  assert (IC : incl (concat (concat parts)) t /\ exists extra, Permutation (written E ++ concat (concat parts)) (t ++ extra) /\ incl extra t).
  { destruct (i_out _ _ _ _ I) as (x & XP & XI). pose proof (i_mode _ _ _ _ I) as M. destruct (s_processed s) as [p|] eqn:Q.
    - destruct M as (r & Ir & Rp).
      assert (PB : I64_MIN <= p < I64_MAX).
      { destruct (PR r (ID r Ir)) as (B & _). unfold proper in B. lia. }
      rewrite (scanned_running q s t p Q PB PR) in OK.
      split; [intros y Hy; apply (Permutation_in y OK) in Hy; apply filter_In in Hy; tauto|].
      assert (F : Permutation (filter (after q p) t) (filter (after q p) D ++ (n ++ new))).
      { rewrite (filter_perm _ _ _ PT), filter_app. apply Permutation_app_head. rewrite filter_all; auto.
        intros y Hy. apply timely_after.
        - apply PR. apply (Permutation_in y (Permutation_sym PT)). apply in_app_iff; auto.
        - rewrite <- Rp. auto. }
      rewrite F in OK. exists (x ++ filter (after q p) D). split.
      + rewrite XP, OK, PT. rewrite <- !app_assoc. apply Permutation_app_head.
        rewrite !app_assoc. rewrite <- (app_assoc _ n new). rewrite (Permutation_app_comm _ (n ++ new)). rewrite <- !app_assoc. auto.
      + apply incl_app; [intros y Hy; auto|]. intros y Hy. apply filter_In in Hy. apply ID. tauto.
    - rewrite (scanned_fresh q s t Q PR) in OK.
      split; [intros y Hy; apply (Permutation_in y OK); auto|].
      exists (D ++ x). split; [rewrite XP, OK; apply Permutation_app_comm|]. apply incl_app; [auto|intros y Hy; auto]. }
  destruct IC as (IC & OUT). split; [eauto|]. split; [auto|]. split; [auto|]. split; [auto|]. split; [|auto].
  unfold wm'. destruct (flat_max_cases (concat parts) (s_wm s)) as [[_ ->]|(r & Ir & <-)]; [apply (i_wm _ _ _ _ I)|].
  destruct (PR r (IC r Ir)) as (B & _). unfold proper in B. unfold in_range. lia.
Qed.

Lemma run_inv s E S D t parts : Inv s E S D ->
  (exists new, Permutation t (S ++ new) /\ forall r n, In r S -> In n new -> r_time r < r_time n) ->
  (forall r, In r t -> timely q r) -> Permutation (concat (concat parts)) (scanned q s t) ->
  Inv (fst (run q parts s)) (E ++ [snd (run q parts s)]) t t.
Proof.
  intros I NW PR OK. destruct (step_facts s E S D t parts I NW PR OK) as ((m & PT & LD) & IS & ID & IC & WR & OUT).
  destruct (run_rows s parts (inv_below _ _ _ _ I)) as (RO & SH).
  assert (SP : exists n : list row, Permutation t (t ++ n) /\ forall r x, In r t -> In x n -> r_time r < r_time x).
  { exists []. rewrite app_nil_r. split; [auto|intros ? ? _ []]. }
  constructor; auto.
  - destruct SH as [(W & -> & _)|(W & -> & _)]; [auto|apply (i_wm _ _ _ _ I)].
  - destruct SH as [(W & _ & -> & _)|(W & _ & -> & _)]; [auto|apply (i_saved _ _ _ _ I)].
  - destruct SH as [(W & _ & _ & ->)|(W & _ & _ & ->)].
    + destruct (flat_max_cases (concat parts) (s_wm s)) as [[_ Z]|(r & Ir & Q)]; [unfold wm' in W; lia|].
      exists r. split; [auto|]. rewrite Q. fold (wm' s parts). unfold in_range in WR. lia.
    + pose proof (i_mode _ _ _ _ I) as M. destruct (s_processed s); auto. destruct M as (r & Ir & Q). eauto.
  - rewrite written_app, RO. auto.
Qed.

Lemma error_inv n s E S D t parts : Inv s E S D ->
  (exists new, Permutation t (S ++ new) /\ forall r n, In r S -> In n new -> r_time r < r_time n) ->
  (forall r, In r t -> timely q r) -> Permutation (concat (concat parts)) (scanned q s t) ->
  Inv (fst (run_error q n parts s)) (E ++ [snd (run_error q n parts s)]) t D.
Proof.
  intros I NW PR OK. destruct (step_facts s E S D t parts I NW PR OK) as ((m & PT & LD) & IS & ID & IC & WR & OUT).
  destruct (error_rows n s parts (inv_below _ _ _ _ I)) as (RO & W1 & W2 & W3).
  constructor; auto.
  - eauto.
  - rewrite W1. auto.
  - rewrite W2. apply (i_saved _ _ _ _ I).
  - rewrite W3. apply (i_mode _ _ _ _ I).
  - rewrite written_app, RO. destruct (i_out _ _ _ _ I) as (x & XP & XI).
    exists (x ++ concat (concat (firstn n parts))). split; [rewrite XP, app_assoc; auto|].
    apply incl_app; [intros y Hy; auto|]. intros y Hy. apply IC. rewrite <- (firstn_skipn n parts), concat_app, concat_app. apply in_app_iff; auto.
Qed.

Lemma crash_inv s E S D t parts wrote : Inv s E S D ->
  (exists new, Permutation t (S ++ new) /\ forall r n, In r S -> In n new -> r_time r < r_time n) ->
  (forall r, In r t -> timely q r) -> Permutation (concat (concat parts)) (scanned q s t) ->
  let r := event_step q (Crash t parts wrote) s in Inv (fst r) (E ++ [snd r]) t D.
Proof.
  intros I NW PR OK. destruct (step_facts s E S D t parts I NW PR OK) as ((m & PT & LD) & IS & ID & IC & WR & OUT).
  destruct (run_rows s parts (inv_below _ _ _ _ I)) as (RO & _). cbn [event_step fst snd]. pose proof (i_saved _ _ _ _ I) as SV.
  constructor; auto.
  - eauto.
  - unfold start. cbn [s_wm]. destruct (s_saved s); auto. unfold in_range. i64. lia.
  - cbn. auto.
  - rewrite written_app. cbn [o_rows]. rewrite RO. destruct (i_out _ _ _ _ I) as (x & XP & XI).
    exists (x ++ chosen wrote (concat (concat parts))). split; [rewrite XP, app_assoc; auto|].
    apply incl_app; [intros y Hy; auto|]. intros y Hy. apply chosen_in in Hy. auto.
Qed.

Theorem rows_history es : forall s E S D table parts, Inv s E S D ->
  let all := es ++ [Run table parts] in
  all_timely q all -> in_order S all -> history_ok q all s ->
  covers (written (E ++ snd (history q all s))) table.
Proof.
  induction es as [|e es IH]; intros s E S D table parts I all AP IO HO; subst all.
  - cbn [app in_order table_of history_ok event_ok history] in *. destruct IO as [IO _], HO as [HO _]. cbn [event_step fst snd].
    assert (I' : Inv (fst (run q parts s)) (E ++ [snd (run q parts s)]) table table).
    { apply (run_inv s E S D); auto. intros r Hr. apply (AP (Run table parts) table); cbn; auto. }
    apply (i_out _ _ _ _ I').
  - cbn [app] in *. cbn [history_ok history fst snd] in *. destruct HO as [HO1 HO2].
    assert (AP' : all_timely q (es ++ [Run table parts])) by (intros e0 t r X; apply (AP e0 t r); right; auto).
    replace (E ++ snd (event_step q e s) :: snd (history q (es ++ [Run table parts]) (fst (event_step q e s))))
      with ((E ++ [snd (event_step q e s)]) ++ snd (history q (es ++ [Run table parts]) (fst (event_step q e s))))
      by (rewrite <- app_assoc; auto).
    destruct e as [t ps|n t ps|t ps wrote|]; cbn [in_order table_of event_ok] in *.
    + destruct IO as [IO1 IO2]. apply (IH _ _ t t); auto. apply (run_inv s E S D); auto. intros r Hr. apply (AP (Run t ps) t); cbn; auto.
    + destruct IO as [IO1 IO2]. apply (IH _ _ t D); auto. apply (error_inv n s E S D); auto. intros r Hr. apply (AP (RunError n t ps) t); cbn; auto.
    + destruct IO as [IO1 IO2]. apply (IH _ _ t D); auto. apply (crash_inv s E S D); auto. intros r Hr. apply (AP (Crash t ps wrote) t); cbn; auto.
    + apply (IH _ _ S D); auto. cbn [event_step fst snd]. pose proof (i_saved _ _ _ _ I) as SV. constructor.
      * apply (i_split _ _ _ _ I).
      * apply (i_timely _ _ _ _ I).
      * unfold start. cbn [s_wm]. destruct (s_saved s); auto. unfold in_range. i64. lia.
      * auto.
      * cbn. auto.
      * rewrite written_app. cbn [o_rows]. rewrite app_nil_r. apply (i_out _ _ _ _ I).
Qed.

(** *** exactly once *)
Hypothesis (U : q_unit q = 1).

Record Inv1 (s : sq) (E : list output) (D : list row) : Prop := {
  j_proper : forall r, In r D -> proper r;
  j_out : Permutation (written E) D;
  j_mode : (s_processed s = None /\ D = [] /\ s_wm s = I64_MIN)
           \/ (s_processed s = Some (s_wm s) /\ (exists r, In r D /\ r_time r = s_wm s) /\ forall r, In r D -> r_time r <= s_wm s) }.

Lemma inv1_start : Inv1 (start q None) [] [].
Proof. constructor; cbn; auto. intros r []. Qed.

Lemma timely_of_proper t : (forall r, In r t -> proper r) -> forall r, In r t -> timely q r.
Proof. intros H r Hr. pose proof (H r Hr) as P. unfold timely. rewrite U, Z.mul_1_r. unfold proper in *. lia. Qed.

Lemma run_inv1 s E D t parts : Inv1 s E D ->
  (exists new, Permutation t (D ++ new) /\ forall r n, In r D -> In n new -> r_time r < r_time n) ->
  (forall r, In r t -> proper r) -> ends_latest parts -> Permutation (concat (concat parts)) (scanned q s t) ->
  Inv1 (fst (run q parts s)) (E ++ [snd (run q parts s)]) t.
Proof.
  intros I (new & P & L) PR EL OK. pose proof (timely_of_proper t PR) as TM.
  assert (B : below s).
  { unfold below. destruct (j_mode _ _ _ I) as [(-> & _)|(-> & (r & Ir & <-) & _)]; auto. pose proof (j_proper _ _ _ I r Ir) as B. unfold proper in B. lia. }
  destruct (run_rows s parts B) as (RO & SH).
  assert (INN : forall x, In x new -> In x t) by (intros x Hx; apply (Permutation_in x (Permutation_sym P)); apply in_app_iff; auto).
  assert (SC : Permutation (concat (concat parts)) new /\ (forall x, In x new -> s_wm s < r_time x)).
  { destruct (j_mode _ _ _ I) as [(Q & -> & W)|(Q & (r & Ir & W) & LE)].
    - rewrite (scanned_fresh q s t Q TM) in OK. split; [rewrite OK; auto|]. intros x Hx. pose proof (PR x (INN x Hx)) as X. unfold proper in X. lia.
    - assert (PB : I64_MIN <= s_wm s < I64_MAX).
      { pose proof (j_proper _ _ _ I r Ir) as X. unfold proper in X. lia. }
      rewrite (scanned_running q s t _ Q PB TM) in OK.
      assert (LN : forall x, In x new -> s_wm s < r_time x) by (intros x Hx; rewrite <- W; auto). split; [|auto].
      rewrite OK, (filter_perm _ _ _ P), filter_app, filter_none, filter_all; auto.
      + intros x Hx. unfold after. rewrite U, Z.mul_1_r. pose proof (LN x Hx). lia.
      + intros x Hx. unfold after. rewrite U, Z.mul_1_r. pose proof (LE x Hx). lia. }
  destruct SC as (SC & LN).
  constructor; auto.
  - rewrite written_app, RO, SC, (j_out _ _ _ I). symmetry; auto.
  - destruct new as [|x0 new0] eqn:EN.
    + assert (Z : concat (concat parts) = []) by (apply (StreamProofs2.perm_nil_r _ _ SC); auto).
      rewrite app_nil_r in P.
      destruct SH as [(W & _)|(W & W1 & W2 & W3)]; [rewrite (StreamProofs2.wm_none s parts Z) in W; lia|].
      rewrite W1, W3. destruct (j_mode _ _ _ I) as [(Q & -> & M)|(Q & (r & Ir & M) & LE)].
      * left. split; [auto|]. split; [|auto]. apply (StreamProofs2.perm_nil_r _ _ P); auto.
      * right. split; [auto|]. split; [exists r; split; auto; apply (Permutation_in r (Permutation_sym P)); auto|].
        intros y Hy. apply LE. apply (Permutation_in y P); auto.
    + rewrite <- EN in *. assert (NN : new <> []) by congruence.
      destruct (StreamProofs2.wm_latest s parts new SC EL NN) as (r & Ir & RW & RM).
      pose proof (LN r Ir) as LW. destruct SH as [(_ & W1 & W2 & W3)|(W & _)]; [|lia].
      right. rewrite W1, W3. pose proof (PR r (INN r Ir)) as PRr. unfold proper in PRr.
      split; [f_equal; lia|]. split; [exists r; auto|].
      intros y Hy. rewrite <- RW. apply (Permutation_in y P) in Hy. apply in_app_iff in Hy as [Hy|Hy]; [|auto].
      pose proof (L y r Hy Ir). lia.
Qed.

Theorem rows_exact es : forall s E D table parts, Inv1 s E D ->
  let all := es ++ [Run table parts] in
  only_runs all -> all_proper all -> all_end_latest all -> in_order D all -> history_ok q all s ->
  Permutation (written (E ++ snd (history q all s))) table.
Proof.
  induction es as [|e es IH]; intros s E D table parts I all OR AP AE IO HO; subst all.
  - cbn [app in_order table_of history_ok event_ok history] in *. destruct IO as [IO _], HO as [HO _]. cbn [event_step fst snd].
    assert (I' : Inv1 (fst (run q parts s)) (E ++ [snd (run q parts s)]) table).
    { apply (run_inv1 s E D); auto; [|apply (AE table parts); left; auto]. intros r Hr. apply (AP (Run table parts) table); cbn; auto. }
    apply (j_out _ _ _ I').
  - cbn [app] in *. cbn [history_ok history fst snd] in *. destruct HO as [HO1 HO2].
    assert (AP' : all_proper (es ++ [Run table parts])) by (intros e0 t r X; apply (AP e0 t r); right; auto).
    assert (AE' : all_end_latest (es ++ [Run table parts])) by (intros t p X; apply (AE t p); right; auto).
    assert (OR' : only_runs (es ++ [Run table parts])) by (intros e0 X; apply (OR e0); right; auto).
    replace (E ++ snd (event_step q e s) :: snd (history q (es ++ [Run table parts]) (fst (event_step q e s))))
      with ((E ++ [snd (event_step q e s)]) ++ snd (history q (es ++ [Run table parts]) (fst (event_step q e s))))
      by (rewrite <- app_assoc; auto).
    destruct (OR e) as (t & ps & ->); [left; auto|]. cbn [in_order table_of event_ok] in *. destruct IO as [IO1 IO2].
    apply (IH _ _ t); auto. apply (run_inv1 s E D); auto; [|apply (AE t ps); left; auto]. intros r Hr. apply (AP (Run t ps) t); cbn; auto.
Qed.
End Query.
