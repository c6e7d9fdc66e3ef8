(** Continuous queries: every row is counted at least once. *)
From Verif Require Import Prelude StreamModel StreamSpec StreamProofs.
From Verif Require StreamProofs2.

Lemma covers_nil : covers [] []. Proof. exists []. split; [constructor|intros x []]. Qed.
Lemma covers_perm_r rs a b : covers rs a -> Permutation a b -> covers rs b.
Proof.
  intros (e & P & I) Q. exists e. split; [rewrite P, Q; auto|]. intros x Hx. apply (Permutation_in x Q). auto.
Qed.
Lemma covers_perm_l rs rs' a : covers rs a -> Permutation rs rs' -> covers rs' a.
Proof. intros (e & P & I) Q. exists e. split; [rewrite <- Q; auto|auto]. Qed.
Lemma covers_nil_r ms : covers [] ms -> ms = [].
Proof. intros (e & P & _). apply Permutation_nil in P. apply app_eq_nil in P. tauto. Qed.
Lemma covers_of_nil rs : covers rs [] -> rs = [].
Proof. intros (e & P & I). destruct e as [|x e]; [apply Permutation_sym, Permutation_nil in P; auto|]. destruct (I x). left; auto. Qed.

Section Query.
Variables (q : query) (kf : row -> key).
Hypothesis (SQQ : sane_query q) (QK : q_key q = Some kf) (GL : groups_end_late q kf).

Definition closed (k : key) (wm : Z) : Prop := q_unit q = 1 /\ forall r, kf r = k -> r_time r <= wm.

Lemma late_closed wm k m : not_late q wm (k, m) = false -> closed k wm.
Proof.
  unfold not_late, cols. destruct (q_unit q =? 1) eqn:U; [|discriminate].
  destruct (q_cols q) as [|c cs] eqn:E; [discriminate|]. rewrite <- E. intros H. split; [lia|]. intros r Hr.
  destruct GL as [Z|(c0 & I & B)]; [congruence|]. pose proof (B r m) as L. rewrite Hr in L.
  assert (wm <? c0 k m = false); [|lia].
  destruct (wm <? c0 k m) eqn:Q; auto. rewrite <- H. symmetry. apply existsb_exists. exists c0. auto.
Qed.

Lemma closed_le k a b : a <= b -> closed k a -> closed k b.
Proof. intros L [U C]. split; [auto|]. intros r Hr. pose proof (C r Hr). lia. Qed.

Definition after (w : Z) (r : row) : bool := w + 1 <=? r_time r * q_unit q.

Lemma timely_after r w : timely q r -> w < r_time r -> after w r = true.
Proof.
  intros (P & M & [U|[U N]]) H; unfold after; [rewrite U, Z.mul_1_r; lia|].
  assert (r_time r <= r_time r * q_unit q); [|lia].
  pose proof (Z.mul_le_mono_nonneg_l 1 (q_unit q) (r_time r) N) as Q. rewrite Z.mul_1_r in Q. apply Q. lia.
Qed.

Lemma scanned_running s t w : s_processed s = Some w -> I64_MIN <= w < I64_MAX -> (forall r, In r t -> timely q r) ->
  scanned q s t = filter (after w) t.
Proof.
  intros P W PR. unfold scanned. rewrite avail by (unfold below; rewrite P; lia). cbn [s_available].
  unfold scan, scan_start. rewrite P.
  apply filter_ext_in. intros r I. destruct (PR r I) as (_ & B & _). unfold after.
  rewrite wrap_i64_id by (unfold is_i64; lia). apply Z.ltb_lt in B. rewrite B. auto.
Qed.

Lemma scanned_fresh s t : s_processed s = None -> (forall r, In r t -> timely q r) -> scanned q s t = t.
Proof.
  intros P PR. unfold scanned. rewrite avail by (unfold below; rewrite P; auto). cbn [s_available].
  unfold scan, scan_start. rewrite P.
  apply filter_all. intros r I. destruct (PR r I) as (_ & B & _). apply Z.ltb_lt in B. rewrite B. auto.
Qed.

Lemma members_late k wm m : closed k wm -> (forall r, In r m -> wm < r_time r) -> members kf k m = [].
Proof.
  intros [_ C] H. destruct (members kf k m) as [|r l] eqn:E; auto. assert (I : In r (members kf k m)) by (rewrite E; left; auto).
  apply in_members in I as [I K]. pose proof (C r K). pose proof (H r I). lia.
Qed.
Lemma members_incl k a b : incl a b -> incl (members kf k a) (members kf k b).
Proof. intros I r. rewrite !in_members. intros [H K]. auto. Qed.

Record Inv (s : sq) (E : list output) (S D : list row) : Prop := {
  i_ok : stores_ok q (s_stores s);
  i_split : exists n, Permutation S (D ++ n) /\ forall r x, In r D -> In x n -> r_time r < r_time x;
  i_timely : forall r, In r S -> timely q r;
  i_wm : I64_MIN <= s_wm s < I64_MAX;
  i_max : s_wm s = I64_MIN \/ exists r, In r D /\ r_time r = s_wm s;
  i_saved : match s_saved s with Some w => w | None => I64_MIN end = s_wm s;
  i_mode :
    (s_processed s = Some (s_wm s)
     /\ (forall k, covers (held q k s) (members kf k D) \/ (held q k s = [] /\ closed k (s_wm s)))
     /\ (forall k, members kf k D <> [] -> exists rs, latest k E = Some rs /\ covers rs (members kf k D)))
    \/ (s_processed s = None /\ (forall k, incl (held q k s) (members kf k D))
     /\ (forall k, closed k (s_wm s) -> members kf k D <> [] -> exists rs, latest k E = Some rs /\ covers rs (members kf k D))) }.

Lemma inv_start : Inv (start q None) [] [] [].
Proof.
  assert (W : s_wm (start q None) = I64_MIN) by reflexivity.
  constructor.
  - apply (start_ok q).
  - exists []. split; [constructor|intros ? ? []].
  - intros r [].
  - rewrite W. i64. lia.
  - left. auto.
  - rewrite W. auto.
  - right. split; [auto|]. split; [intros k; rewrite (start_held q); intros x []|]. intros k _ H. cbn in H. congruence.
Qed.

Lemma split_new s E S D t : Inv s E S D ->
  (exists new, Permutation t (S ++ new) /\ forall r n, In r S -> In n new -> r_time r < r_time n) ->
  (forall r, In r t -> timely q r) ->
  exists m, Permutation t (D ++ m) /\ (forall r x, In r D -> In x m -> r_time r < r_time x) /\ (forall x, In x m -> s_wm s < r_time x).
Proof.
  intros I (new & P & L) PR. destruct (i_split _ _ _ _ I) as (n & PS & LS).
  exists (n ++ new). assert (PT : Permutation t (D ++ n ++ new)).
  { rewrite P, PS. rewrite app_assoc. auto. }
  assert (LD : forall r x, In r D -> In x (n ++ new) -> r_time r < r_time x).
  { intros r x Hr Hx. apply in_app_iff in Hx as [Hx|Hx]; [auto|]. apply L; auto. apply (Permutation_in r (Permutation_sym PS)). apply in_app_iff; auto. }
  split; [auto|]. split; [auto|].
  intros x Hx. destruct (i_max _ _ _ _ I) as [->|(r & Ir & <-)]; [|auto].
  assert (T : timely q x); [|destruct T as (P0 & _); unfold proper in P0; lia].
  apply PR. apply (Permutation_in x (Permutation_sym PT)). apply in_app_iff; auto.
Qed.

Lemma mode_below s E S D : Inv s E S D -> below s.
Proof.
  intros I. unfold below. pose proof (i_wm _ _ _ _ I). destruct (i_mode _ _ _ _ I) as [(P & _)|(P & _)]; rewrite P; [lia|auto].
Qed.

Lemma key_rows s E S D t parts m : Inv s E S D -> Permutation t (D ++ m) -> (forall x, In x m -> s_wm s < r_time x) ->
  (forall r, In r t -> timely q r) -> Permutation (concat (concat parts)) (scanned q s t) ->
  forall k, let M := held q k s ++ members kf k (concat (concat parts)) in
    (covers M (members kf k t) \/ (M = [] /\ closed k (s_wm s)))
    /\ (closed k (s_wm s) -> Permutation (members kf k t) (members kf k D)).
Proof.
  intros I PT LM PR OK k. cbv zeta.
  assert (C : closed k (s_wm s) -> Permutation (members kf k t) (members kf k D)).
  { intros C. rewrite (members_perm kf k _ _ PT), members_app, (members_late k (s_wm s) m), app_nil_r; auto. }
  split; [|exact C].
  assert (PRm : forall x, In x m -> timely q x).
  { intros x Hx. apply PR. apply (Permutation_in x (Permutation_sym PT)). apply in_app_iff; auto. }
  destruct (i_mode _ _ _ _ I) as [(P & H & _)|(P & H & _)].
  - rewrite (scanned_running s t (s_wm s) P (i_wm _ _ _ _ I) PR) in OK.
    assert (F : Permutation (filter (after (s_wm s)) t) (filter (after (s_wm s)) D ++ m)).
    { rewrite (filter_perm _ _ _ PT), filter_app. apply Permutation_app_head. rewrite filter_all; auto.
      intros x Hx. apply timely_after; auto. }
    rewrite F in OK. pose proof (members_perm kf k _ _ OK) as OKk. rewrite members_app in OKk.
    destruct (H k) as [(x & HP & HI)|[HZ HC]].
    + left. exists (x ++ members kf k (filter (after (s_wm s)) D)). split.
      * rewrite HP, OKk, (members_perm kf k _ _ PT), members_app. rewrite <- !app_assoc. apply Permutation_app_head.
        rewrite !app_assoc. rewrite (Permutation_app_comm _ (members kf k m)). rewrite <- !app_assoc. auto.
      * assert (ID : incl (members kf k D) (members kf k t)).
        { apply members_incl. intros y Hy. apply (Permutation_in y (Permutation_sym PT)). apply in_app_iff; auto. }
        apply incl_app; [intros y Hy; auto|]. intros y Hy. apply ID. apply (members_incl k (filter (after (s_wm s)) D) D); auto.
        intros z Hz. apply filter_In in Hz. tauto.
    + right. split; auto. rewrite HZ. cbn [app]. apply (StreamProofs2.perm_nil_r _ _ OKk).
      rewrite (members_late k (s_wm s) m), app_nil_r by auto.
      apply (members_late k (s_wm s)); auto. intros r Hr. apply filter_In in Hr as [_ Hr]. unfold after in Hr. destruct HC as [U _]. rewrite U in Hr. lia.
  - rewrite (scanned_fresh s t P PR) in OK. left. exists (held q k s). split.
    + rewrite (members_perm kf k _ _ OK). apply Permutation_app_comm.
    + intros r Hr. apply H in Hr. revert Hr. apply members_incl. intros y Hy. apply (Permutation_in y (Permutation_sym PT)). apply in_app_iff; auto.
Qed.

Lemma run_inv s E S D t parts : Inv s E S D ->
  (exists new, Permutation t (S ++ new) /\ forall r n, In r S -> In n new -> r_time r < r_time n) ->
  (forall r, In r t -> timely q r) ->
  Permutation (concat (concat parts)) (scanned q s t) ->
  Inv (fst (run q parts s)) (E ++ [snd (run q parts s)]) t t
  /\ forall k, members kf k t <> [] -> exists rs, latest k (E ++ [snd (run q parts s)]) = Some rs /\ covers rs (members kf k t).
Proof.
  intros I NW PR OK. destruct (split_new s E S D t I NW PR) as (m & PT & LD & LM).
  pose proof (mode_below _ _ _ _ I) as B.
  destruct (run_key q kf SQQ QK s parts B (i_ok _ _ _ _ I)) as (SO' & KEY).
  pose proof (key_rows s E S D t parts m I PT LM PR OK) as KR.
  destruct (run_shape q kf QK s parts B) as (_ & _ & SH). cbv zeta in SH, KEY, KR.
  assert (WB : I64_MIN <= s_wm s < I64_MAX) by apply (i_wm _ _ _ _ I).
  assert (LAT : forall k, members kf k t <> [] -> exists rs, latest k (E ++ [snd (run q parts s)]) = Some rs /\ covers rs (members kf k t)).
  { intros k N. destruct (KEY k) as (_ & KE). destruct (KR k) as (K1 & K2). rewrite latest_app.
    destruct KE as [(MN & _ & L)|(MZ & _ & L)]; rewrite L.
    - destruct K1 as [K1|[K1 _]]; [|congruence]. eauto.
    - assert (C : closed k (s_wm s)).
      { destruct MZ as [MZ|ML]; [|apply late_closed in ML; auto]. destruct K1 as [K1|[_ K1]]; [|auto].
        rewrite MZ in K1. apply covers_nil_r in K1. congruence. }
      pose proof (K2 C) as PD. assert (ND : members kf k D <> []) by (intros Z; apply N; apply (StreamProofs2.perm_nil_r _ _ PD Z)).
      destruct (i_mode _ _ _ _ I) as [(_ & _ & LL)|(_ & _ & LL)].
      + destruct (LL k ND) as (rs & Q & P). exists rs. split; auto. apply (covers_perm_r _ _ _ P). symmetry. auto.
      + destruct (LL k C ND) as (rs & Q & P). exists rs. split; auto. apply (covers_perm_r _ _ _ P). symmetry. auto. }
  assert (HLD : forall k w, s_wm s <= w -> covers (held q k (fst (run q parts s))) (members kf k t) \/ (held q k (fst (run q parts s)) = [] /\ closed k w)).
  { intros k w W. destruct (KEY k) as (_ & KE). destruct (KR k) as (K1 & K2).
    destruct KE as [(MN & H & _)|(MZ & H & _)]; rewrite H.
    - destruct K1 as [K1|[K1 _]]; [auto|congruence].
    - destruct MZ as [MZ|ML].
      + destruct K1 as [K1|[_ K1]]; [rewrite MZ in K1; auto|right; split; auto]. apply (closed_le k (s_wm s)); auto.
      + right. split; auto. apply late_closed in ML. apply (closed_le k (s_wm s)); auto. }
  assert (TD : forall r, In r D -> In r t).
  { intros r Hr. apply (Permutation_in r (Permutation_sym PT)). apply in_app_iff; auto. }
  assert (SCT : forall x, In x (concat (concat parts)) -> In x t).
  { intros x Hx. apply (Permutation_in x OK) in Hx. destruct (i_mode _ _ _ _ I) as [(P & _)|(P & _)].
    - rewrite (scanned_running s t (s_wm s) P WB PR) in Hx. apply filter_In in Hx. tauto.
    - rewrite (scanned_fresh s t P PR) in Hx. auto. }
  split; [|exact LAT].
  assert (SP : exists n : list row, Permutation t (t ++ n) /\ forall r x, In r t -> In x n -> r_time r < r_time x).
  { exists []. rewrite app_nil_r. split; [auto|intros ? ? _ []]. }
  destruct SH as [(W & W1 & W2 & W3)|(W & W1 & W2 & W3)].
  - destruct (flat_max_cases (concat parts) (s_wm s)) as [[_ Z]|(r & Ir & Q)].
    { unfold wm' in W. lia. }
    fold (wm' s parts) in Q. pose proof (SCT r Ir) as Irt. destruct (PR r Irt) as (PRr & _). unfold proper in PRr.
    constructor; try rewrite W1; auto.
    + lia.
    + right. exists r. auto.
    + rewrite W2. auto.
    + left. rewrite W3. split; [f_equal; lia|]. split; [|auto]. intros k. apply HLD. lia.
  - constructor; try rewrite W1; auto.
    + destruct (i_max _ _ _ _ I) as [Z|(r & Ir & Q)]; [auto|right; eauto].
    + rewrite W2. apply (i_saved _ _ _ _ I).
    + rewrite W3. destruct (i_mode _ _ _ _ I) as [(P & H & LL)|(P & H & LL)].
      * left. split; [auto|]. split; [|auto]. intros k. apply HLD. lia.
      * right. split; [auto|]. split; [|auto]. intros k. destruct (KEY k) as (_ & KE).
        destruct KE as [(_ & Q & _)|(_ & Q & _)]; rewrite Q; [|intros x []].
        destruct (KR k) as ([(x & PX & IX)|[Z _]] & _); [|rewrite Z; intros y []].
        intros y Hy. apply (Permutation_in y PX) in Hy. apply in_app_iff in Hy as [Hy|Hy]; auto.
Qed.

Lemma restart_inv s E S D t m : Inv s E S D -> Permutation t (D ++ m) -> (forall r x, In r D -> In x m -> r_time r < r_time x) ->
  (forall r, In r t -> timely q r) -> forall o,
  (forall k, closed k (s_wm s) -> members kf k D <> [] -> exists rs, latest k (E ++ [o]) = Some rs /\ covers rs (members kf k D)) ->
  Inv (start q (s_saved s)) (E ++ [o]) t D.
Proof.
  intros I PT LD PR o LL.
  assert (W : s_wm (start q (s_saved s)) = s_wm s) by (unfold start; cbn [s_wm]; apply (i_saved _ _ _ _ I)).
  constructor; try rewrite W.
  - apply (start_ok q).
  - eauto.
  - auto.
  - apply (i_wm _ _ _ _ I).
  - apply (i_max _ _ _ _ I).
  - unfold start. cbn [s_saved]. apply (i_saved _ _ _ _ I).
  - right. split; [auto|]. split; [intros k; rewrite (start_held q); intros x []|auto].
Qed.

Lemma crash_inv s E S D t parts wrote : Inv s E S D ->
  (exists new, Permutation t (S ++ new) /\ forall r n, In r S -> In n new -> r_time r < r_time n) ->
  (forall r, In r t -> timely q r) -> Permutation (concat (concat parts)) (scanned q s t) ->
  let r := event_step q (Crash t parts wrote) s in
  Inv (fst r) (E ++ [snd r]) t D.
Proof.
  intros I NW PR OK. cbn [event_step fst snd]. destruct (split_new s E S D t I NW PR) as (m & PT & LD & LM).
  pose proof (mode_below _ _ _ _ I) as B.
  destruct (run_key q kf SQQ QK s parts B (i_ok _ _ _ _ I)) as (SO' & KEY).
  pose proof (key_rows s E S D t parts m I PT LM PR OK) as KR. cbv zeta in KEY, KR.
  apply (restart_inv s E S D t m); auto. intros k C ND. rewrite latest_app. cbn [o_groups].
  destruct (KEY k) as (KO & _). destruct (KR k) as (K1 & K2). set (M := held q k s ++ members kf k (concat (concat parts))) in *.
  assert (OLD : exists rs, latest k E = Some rs /\ covers rs (members kf k D)).
  { destruct (i_mode _ _ _ _ I) as [(_ & _ & LL)|(_ & _ & LL)]; auto. }
  destruct (in_dec (fun a b : grow => ltac:(repeat decide equality) : {a = b} + {a <> b}) (k, M) (chosen wrote (o_groups (snd (run q parts s))))) as [J|J].
  - exists M. split; [apply last_of_some; auto; intros x X; apply chosen_in in X; apply KO; auto|].
    apply chosen_in in J. apply KO in J as (_ & MN & _). destruct K1 as [K1|[K1 _]]; [|congruence].
    apply (covers_perm_r _ _ _ K1). auto.
  - rewrite last_of_none; auto. intros x X. assert (x = M) by (apply chosen_in in X; apply KO; auto). subst; auto.
Qed.

Theorem cover_history es : forall s E S D table parts, Inv s E S D ->
  let all := es ++ [Run table parts] in
  no_errors all -> all_timely q all -> in_order S all -> history_ok q all s ->
  forall k, members kf k table <> [] ->
    exists rows, latest k (E ++ snd (history q all s)) = Some rows /\ covers rows (members kf k table).
Proof.
  induction es as [|e es IH]; intros s E S D table parts I all NE AP IO HO k N; subst all.
  - cbn [app in_order table_of history_ok event_ok history] in *. destruct IO as [IO _], HO as [HO _].
    cbn [event_step fst snd]. destruct (run_inv s E S D table parts I IO) as (_ & L); auto.
    intros r Hr. apply (AP (Run table parts) table); cbn; auto.
  - cbn [app] in *. cbn [history_ok history fst snd] in *. destruct HO as [HO1 HO2].
    assert (NE' : no_errors (es ++ [Run table parts])) by (intros n t p X; apply (NE n t p); right; auto).
    assert (AP' : all_timely q (es ++ [Run table parts])) by (intros e0 t r X; apply (AP e0 t r); right; auto).
    replace (E ++ snd (event_step q e s) :: snd (history q (es ++ [Run table parts]) (fst (event_step q e s))))
      with ((E ++ [snd (event_step q e s)]) ++ snd (history q (es ++ [Run table parts]) (fst (event_step q e s))))
      by (rewrite <- app_assoc; auto).
    destruct e as [t ps|n t ps|t ps wrote|].
    + cbn [in_order table_of event_ok] in *. destruct IO as [IO1 IO2].
      destruct (run_inv s E S D t ps I IO1) as (I' & _); auto.
      * intros r Hr. apply (AP (Run t ps) t); cbn; auto.
      * apply (IH _ _ t t); auto.
    + destruct (NE n t ps). left; auto.
    + cbn [in_order table_of event_ok] in *. destruct IO as [IO1 IO2].
      apply (IH _ _ t D); auto. apply (crash_inv s E S D t ps wrote I IO1); auto.
      intros r Hr. apply (AP (Crash t ps wrote) t); cbn; auto.
    + cbn [in_order table_of event_ok] in *. apply (IH _ _ S D); auto. cbn [event_step fst snd].
      destruct (i_split _ _ _ _ I) as (n & PS & LS). apply (restart_inv s E S D S n); auto; [apply (i_timely _ _ _ _ I)|].
      intros k0 C ND. rewrite latest_app. cbn [o_groups last_of fold_left].
      destruct (i_mode _ _ _ _ I) as [(_ & _ & LL)|(_ & _ & LL)]; auto.
Qed.
End Query.
