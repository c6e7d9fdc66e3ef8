(** Histories of continuous queries. *)
From Verif Require Import Prelude StreamModel StreamSpec StreamProofs.

Section Query.
Variables (q : query) (kf : row -> key).
Hypothesis (PQ : plain_query q) (QK : q_key q = Some kf) (GL : groups_end_late q kf).

Definition closed (k : key) (wm : Z) : Prop := forall r, kf r = k -> r_time r <= wm.

Lemma late_closed wm k m : not_late q wm (k, m) = false -> closed k wm.
Proof.
  unfold not_late, cols. destruct PQ as (U & _). rewrite U. change (1 =? 1) with true. cbv iota.
  destruct (q_cols q) as [|c cs] eqn:E; [discriminate|]. rewrite <- E. intros H r Hr.
  destruct GL as [Z|(c0 & I & B)]; [congruence|]. pose proof (B r m) as L. rewrite Hr in L.
  assert (wm <? c0 k m = false); [|lia].
  destruct (wm <? c0 k m) eqn:Q; auto. rewrite <- H. symmetry. apply existsb_exists. exists c0. auto.
Qed.

Lemma scanned_running s t w : s_processed s = Some w -> I64_MIN <= w < I64_MAX -> (forall r, In r t -> proper r) ->
  scanned q s t = filter (fun r => w <? r_time r) t.
Proof.
  intros P W PR. unfold scanned. rewrite avail by (unfold below; rewrite P; lia). cbn [s_available].
  unfold scan, scan_start. rewrite P. destruct PQ as (U & _). rewrite U.
  apply filter_ext_in. intros r I. pose proof (PR r I) as B. unfold proper in B.
  rewrite wrap_i64_id by (unfold is_i64; lia). rewrite Z.mul_1_r. lia.
Qed.

Lemma scanned_fresh s t : s_processed s = None -> (forall r, In r t -> proper r) -> scanned q s t = t.
Proof.
  intros P PR. unfold scanned. rewrite avail by (unfold below; rewrite P; auto). cbn [s_available].
  unfold scan, scan_start. rewrite P. destruct PQ as (U & _). rewrite U.
  apply filter_all. intros r I. pose proof (PR r I) as B. unfold proper in B. rewrite Z.mul_1_r. lia.
Qed.

(** the rows of a closed key are not after the watermark *)
Lemma members_late k wm m : closed k wm -> (forall r, In r m -> wm < r_time r) -> members kf k m = [].
Proof.
  intros C H. destruct (members kf k m) as [|r l] eqn:E; auto. assert (I : In r (members kf k m)) by (rewrite E; left; auto).
  apply in_members in I as [I K]. pose proof (C r K). pose proof (H r I). lia.
Qed.

Lemma perm_nil_r {A} (l m : list A) : Permutation l m -> m = [] -> l = [].
Proof. intros P ->. apply Permutation_sym, Permutation_nil in P. auto. Qed.

(** *** exactly once *)
Record Inv (s : sq) (E : list output) (S D : list row) (b : bool) : Prop := {
  i_ok : stores_ok q (s_stores s);
  i_split : exists n, Permutation S (D ++ n) /\ forall r x, In r D -> In x n -> r_time r < r_time x;
  i_proper : forall r, In r S -> proper r;
  i_wm : I64_MIN <= s_wm s < I64_MAX;
  i_le : forall r, In r D -> r_time r <= s_wm s;
  i_max : (D = [] /\ s_wm s = I64_MIN) \/ exists r, In r D /\ r_time r = s_wm s;
  i_saved : match s_saved s with Some w => w | None => I64_MIN end = s_wm s;
  i_mode :
    (s_processed s = Some (s_wm s) /\ b = false /\ Permutation S D
     /\ (forall k, Permutation (held q k s) (members kf k D) \/ (held q k s = [] /\ closed k (s_wm s)))
     /\ (forall k, members kf k D <> [] -> exists rs, latest k E = Some rs /\ Permutation rs (members kf k D)))
    \/ (s_processed s = None /\ (b = true \/ D = []) /\ (forall k, held q k s = [])
     /\ (forall k, closed k (s_wm s) -> members kf k D <> [] -> exists rs, latest k E = Some rs /\ Permutation rs (members kf k D))) }.

Lemma inv_start : Inv (start q None) [] [] [] false.
Proof.
  assert (W : s_wm (start q None) = I64_MIN) by reflexivity.
  constructor.
  - apply (start_ok q).
  - exists []. split; [constructor|intros ? ? []].
  - intros r [].
  - rewrite W. i64. lia.
  - intros r [].
  - left. auto.
  - rewrite W. auto.
  - right. split; [auto|]. split; [auto|]. split; [intros; apply (start_held q)|]. intros k _ H. cbn in H. congruence.
Qed.

(** what the rows added since the last finished run are *)
Lemma split_new s E S D b t : Inv s E S D b ->
  (exists new, Permutation t (S ++ new) /\ forall r n, In r S -> In n new -> r_time r < r_time n) ->
  (forall r, In r t -> proper r) ->
  exists m, Permutation t (D ++ m) /\ (forall r x, In r D -> In x m -> r_time r < r_time x) /\ (forall x, In x m -> s_wm s < r_time x)
    /\ (Permutation S D -> forall x, In x m -> forall r, In r S -> r_time r < r_time x).
Proof.
  intros I (new & P & L) PR. destruct (i_split _ _ _ _ _ I) as (n & PS & LS).
  exists (n ++ new). assert (PT : Permutation t (D ++ n ++ new)).
  { rewrite P, PS. rewrite app_assoc. auto. }
  assert (LD : forall r x, In r D -> In x (n ++ new) -> r_time r < r_time x).
  { intros r x Hr Hx. apply in_app_iff in Hx as [Hx|Hx]; [auto|]. apply L; auto. apply (Permutation_in r (Permutation_sym PS)). apply in_app_iff; auto. }
  split; [auto|]. split; [auto|]. split.
  - intros x Hx. destruct (i_max _ _ _ _ _ I) as [[-> ->]|(r & Ir & <-)]; [|auto].
    assert (proper x); [|unfold proper in H; lia]. apply PR. apply (Permutation_in x (Permutation_sym PT)). auto.
  - intros PSD x Hx r Hr. apply LD; auto. apply (Permutation_in r PSD); auto.
Qed.

Lemma filter_new (D m : list row) w t : Permutation t (D ++ m) -> (forall r, In r D -> r_time r <= w) -> (forall x, In x m -> w < r_time x) ->
  Permutation (filter (fun r => w <? r_time r) t) m.
Proof.
  intros P A B. rewrite (filter_perm _ _ _ P), filter_app.
  rewrite filter_none, filter_all; auto; intros x Hx; [pose proof (B x Hx)|pose proof (A x Hx)]; lia.
Qed.

Lemma in_cc {A} (x : A) parts (l : list A) : Permutation (concat (concat parts)) l -> In x l -> In x (concat (concat parts)).
Proof. intros P H. apply (Permutation_in x (Permutation_sym P)). auto. Qed.

(** with the latest event time at the end of the scan, the watermark becomes the latest event time *)
Lemma wm_latest s parts l : Permutation (concat (concat parts)) l -> ends_latest parts -> l <> [] ->
  exists r, In r l /\ r_time r = wm' s parts /\ forall x, In x l -> r_time x <= r_time r.
Proof.
  intros P [Z|(before & bb & after & r & EQ & Z & I & H)] N.
  - rewrite Z in P. apply Permutation_nil in P. congruence.
  - exists r. assert (Ir : In r (concat (concat parts))).
    { rewrite EQ, concat_app. apply in_app_iff. right. cbn [concat]. apply in_app_iff. auto. }
    split; [apply (Permutation_in r P); auto|]. split.
    + symmetry. unfold wm'. apply (flat_max_latest _ _ before bb after); auto.
    + intros x Hx. apply H. apply (in_cc x parts l); auto.
Qed.

Lemma wm_none s parts : concat (concat parts) = [] -> wm' s parts = s_wm s.
Proof. intros Z. unfold wm'. destruct (flat_max_cases (concat parts) (s_wm s)) as [[_ Q]|(r & I & _)]; auto. rewrite Z in I. destruct I. Qed.

Lemma mode_below s E S D b : Inv s E S D b -> below s.
Proof.
  intros I. unfold below. pose proof (i_wm _ _ _ _ _ I). destruct (i_mode _ _ _ _ _ I) as [(P & _)|(P & _)]; rewrite P; [lia|auto].
Qed.

(** the rows of a key that a run aggregates, and whether it may leave the key alone *)
Lemma key_rows s E S D b t parts m : Inv s E S D b -> Permutation t (D ++ m) -> (forall x, In x m -> s_wm s < r_time x) ->
  (forall r, In r t -> proper r) -> Permutation (concat (concat parts)) (scanned q s t) ->
  forall k, let M := held q k s ++ members kf k (concat (concat parts)) in
    (Permutation M (members kf k t) \/ (M = [] /\ closed k (s_wm s)))
    /\ (closed k (s_wm s) -> Permutation (members kf k t) (members kf k D)).
Proof.
  intros I PT LM PR OK k. cbv zeta.
  assert (C : closed k (s_wm s) -> Permutation (members kf k t) (members kf k D)).
  { intros C. rewrite (members_perm kf k _ _ PT), members_app, (members_late k (s_wm s) m), app_nil_r; auto. }
  split; [|exact C].
  destruct (i_mode _ _ _ _ _ I) as [(P & _ & _ & H & _)|(P & _ & H & _)].
  - rewrite (scanned_running s t (s_wm s) P (i_wm _ _ _ _ _ I) PR) in OK.
    pose proof (filter_new D m (s_wm s) t PT (i_le _ _ _ _ _ I) LM) as F. rewrite F in OK.
    destruct (H k) as [HP|[HZ HC]].
    + left. rewrite HP, (members_perm kf k _ _ OK), <- members_app. apply members_perm. symmetry. auto.
    + right. split; auto. rewrite HZ. cbn [app]. apply (perm_nil_r _ _ (members_perm kf k _ _ OK)). apply (members_late k (s_wm s)); auto.
  - rewrite (scanned_fresh s t P PR) in OK. left. rewrite H. cbn [app]. apply members_perm; auto.
Qed.

Lemma run_inv s E S D b t parts : Inv s E S D b ->
  (exists new, Permutation t (S ++ new) /\ forall r n, In r S -> In n new -> r_time r < r_time n) ->
  (forall r, In r t -> proper r) -> ends_latest parts ->
  (b = true -> t = [] \/ exists r, In r t /\ forall f, In f D -> r_time f < r_time r) ->
  Permutation (concat (concat parts)) (scanned q s t) ->
  Inv (fst (run q parts s)) (E ++ [snd (run q parts s)]) t t (match t with [] => b | _ => false end)
  /\ forall k, members kf k t <> [] -> exists rs, latest k (E ++ [snd (run q parts s)]) = Some rs /\ Permutation rs (members kf k t).
Proof.
  intros I NW PR EL RES OK. destruct (split_new s E S D b t I NW PR) as (m & PT & LD & LM & LS).
  pose proof (mode_below _ _ _ _ _ I) as B.
  destruct (run_key q kf (proj2 PQ) QK s parts B (i_ok _ _ _ _ _ I)) as (SO' & KEY).
  pose proof (key_rows s E S D b t parts m I PT LM PR OK) as KR.
  destruct (run_shape q kf QK s parts B) as (_ & _ & SH). cbv zeta in SH, KEY, KR.
  assert (WB : I64_MIN <= s_wm s < I64_MAX) by apply (i_wm _ _ _ _ _ I).
  (* the latest result of every key *)
  assert (LAT : forall k, members kf k t <> [] -> exists rs, latest k (E ++ [snd (run q parts s)]) = Some rs /\ Permutation rs (members kf k t)).
  { intros k N. destruct (KEY k) as (_ & KE). destruct (KR k) as (K1 & K2). rewrite latest_app.
    destruct KE as [(MN & _ & L)|(MZ & _ & L)]; rewrite L.
    - destruct K1 as [K1|[K1 _]]; [|congruence]. eauto.
    - assert (C : closed k (s_wm s)).
      { destruct MZ as [MZ|ML]; [|apply late_closed in ML; auto]. destruct K1 as [K1|[_ K1]]; [|auto].
        rewrite MZ in K1. apply Permutation_nil in K1. congruence. }
      pose proof (K2 C) as PD. assert (ND : members kf k D <> []) by (intros Z; apply N; apply (perm_nil_r _ _ PD Z)).
      destruct (i_mode _ _ _ _ _ I) as [(_ & _ & _ & _ & LL)|(_ & _ & _ & LL)].
      + destruct (LL k ND) as (rs & Q & P). exists rs. split; auto. rewrite P. symmetry. auto.
      + destruct (LL k C ND) as (rs & Q & P). exists rs. split; auto. rewrite P. symmetry. auto. }
  (* what is held *)
  assert (HLD : forall k w, s_wm s <= w -> Permutation (held q k (fst (run q parts s))) (members kf k t) \/ (held q k (fst (run q parts s)) = [] /\ closed k w)).
  { intros k w W. destruct (KEY k) as (_ & KE). destruct (KR k) as (K1 & K2).
    destruct KE as [(MN & H & _)|(MZ & H & _)]; rewrite H.
    - destruct K1 as [K1|[K1 _]]; [auto|congruence].
    - destruct MZ as [MZ|ML].
      + destruct K1 as [K1|[_ K1]]; [rewrite MZ in K1; auto|right; split; auto]. intros r Hr. pose proof (K1 r Hr). lia.
      + right. split; auto. apply late_closed in ML. intros r Hr. pose proof (ML r Hr). lia. }
  split; [|exact LAT].
  (* is there a row after the watermark? *)
  assert (TD : forall r, In r t -> In r D \/ In r m).
  { intros r Hr. apply in_app_iff. apply (Permutation_in r PT). auto. }
  assert (SC : forall x, In x m -> In x (concat (concat parts))).
  { intros x Hx. assert (In x t) by (apply (Permutation_in x (Permutation_sym PT)); apply in_app_iff; auto). apply (in_cc x parts _ OK).
    destruct (i_mode _ _ _ _ _ I) as [(P & _)|(P & _)].
    - rewrite (scanned_running s t (s_wm s) P WB PR). apply filter_In. pose proof (LM x Hx). split; [auto|lia].
    - rewrite (scanned_fresh s t P PR). auto. }
  assert (SCT : forall x, In x (scanned q s t) -> In x t).
  { intros x Hx. destruct (i_mode _ _ _ _ _ I) as [(P & _)|(P & _)].
    - rewrite (scanned_running s t (s_wm s) P WB PR) in Hx. apply filter_In in Hx. tauto.
    - rewrite (scanned_fresh s t P PR) in Hx. auto. }
  destruct m as [|m0 mr] eqn:EM.
  - (* nothing new *)
    rewrite app_nil_r in PT. destruct (i_mode _ _ _ _ _ I) as [(P & Hb & PSD & H & LL)|(P & Hb & H & LL)].
    + assert (Z : concat (concat parts) = []).
      { apply (perm_nil_r _ _ OK). rewrite (scanned_running s t (s_wm s) P WB PR). apply filter_none. intros x Hx.
        apply (Permutation_in x PT) in Hx. pose proof (i_le _ _ _ _ _ I x Hx). lia. }
      destruct SH as [(W & _)|(W & W1 & W2 & W3)]; [rewrite (wm_none s parts Z) in W; lia|].
      constructor; try rewrite W1; auto.
      * exists []. rewrite app_nil_r. split; [auto|intros ? ? _ []].
      * intros r Hr. apply (i_le _ _ _ _ _ I). apply (Permutation_in r PT); auto.
      * destruct (i_max _ _ _ _ _ I) as [[-> W0]|(r & Ir & Q)].
        -- left. split; auto. apply Permutation_sym, Permutation_nil in PT. auto.
        -- right. exists r. split; auto. apply (Permutation_in r (Permutation_sym PT)); auto.
      * rewrite W2. apply (i_saved _ _ _ _ _ I).
      * left. rewrite W3. split; [auto|]. split; [subst b; destruct t; auto|]. split; [auto|]. split; [|auto]. intros k. apply HLD. lia.
    + (* fresh and nothing new: the table is empty *)
      assert (TZ : t = []).
      { destruct Hb as [Hb|Hb].
        - destruct (RES Hb) as [Z|(r & Ir & L)]; auto. apply (Permutation_in r PT) in Ir. pose proof (L r Ir). lia.
        - subst D. apply Permutation_sym, Permutation_nil in PT. auto. }
      subst t. assert (D = []) by (apply Permutation_nil in PT; auto). subst D.
      assert (Z : concat (concat parts) = []).
      { apply (perm_nil_r _ _ OK). rewrite (scanned_fresh s [] P PR). auto. }
      destruct SH as [(W & _)|(W & W1 & W2 & W3)]; [rewrite (wm_none s parts Z) in W; lia|].
      constructor; try rewrite W1; auto.
      * exists []. split; [auto|intros ? ? []].
      * intros r [].
      * destruct (i_max _ _ _ _ _ I) as [[_ W0]|(r & [] & _)]; auto.
      * rewrite W2. apply (i_saved _ _ _ _ _ I).
      * right. rewrite W3. split; [auto|]. split; [auto|]. split; [|intros k _ N; cbn in N; congruence].
        intros k. destruct (KEY k) as (_ & KE). rewrite Z, H in KE. cbn in KE. destruct KE as [(N & _)|(_ & Q & _)]; [congruence|auto].
  - (* a new row *)
    rewrite <- EM in *.
    assert (NS : scanned q s t <> []).
    { intros Z. rewrite Z in OK. apply Permutation_sym, Permutation_nil in OK. pose proof (SC m0) as Q. rewrite OK in Q. apply Q. rewrite EM. left; auto. }
    destruct (wm_latest s parts _ OK EL NS) as (r & Ir & RW & RM).
    assert (M0 : In m0 m) by (rewrite EM; left; auto).
    assert (GT : s_wm s < wm' s parts).
    { pose proof (LM m0 M0). assert (r_time m0 <= r_time r); [|lia]. apply RM. apply (Permutation_in m0 OK). apply SC. auto. }
    assert (Irt : In r t) by (apply SCT; auto). pose proof (PR r Irt) as PRr. unfold proper in PRr.
    destruct SH as [(_ & W1 & W2 & W3)|(W & _)]; [|lia].
    constructor; try rewrite W1; auto.
    + exists []. rewrite app_nil_r. split; [auto|intros ? ? _ []].
    + lia.
    + intros x Hx. destruct (TD x Hx) as [Hx1|Hx1].
      * pose proof (i_le _ _ _ _ _ I x Hx1). lia.
      * rewrite <- RW. apply RM. apply (Permutation_in x OK). auto.
    + right. eauto.
    + rewrite W2. auto.
    + left. rewrite W3. split; [f_equal; lia|]. split; [destruct t; [destruct Irt|auto]|]. split; [auto|]. split; [|auto].
      intros k. apply HLD. lia.
Qed.

Lemma restart_inv s E S D b t m : Inv s E S D b -> Permutation t (D ++ m) -> (forall r x, In r D -> In x m -> r_time r < r_time x) ->
  (forall r, In r t -> proper r) -> forall o,
  (forall k, closed k (s_wm s) -> members kf k D <> [] -> exists rs, latest k (E ++ [o]) = Some rs /\ Permutation rs (members kf k D)) ->
  Inv (start q (s_saved s)) (E ++ [o]) t D true.
Proof.
  intros I PT LD PR o LL.
  assert (W : s_wm (start q (s_saved s)) = s_wm s) by (unfold start; cbn [s_wm]; apply (i_saved _ _ _ _ _ I)).
  constructor; try rewrite W.
  - apply (start_ok q).
  - eauto.
  - auto.
  - apply (i_wm _ _ _ _ _ I).
  - apply (i_le _ _ _ _ _ I).
  - apply (i_max _ _ _ _ _ I).
  - unfold start. cbn [s_saved]. apply (i_saved _ _ _ _ _ I).
  - right. split; [auto|]. split; [auto|]. split; [intros; apply (start_held q)|auto].
Qed.

Lemma crash_inv s E S D b t parts wrote : Inv s E S D b ->
  (exists new, Permutation t (S ++ new) /\ forall r n, In r S -> In n new -> r_time r < r_time n) ->
  (forall r, In r t -> proper r) -> Permutation (concat (concat parts)) (scanned q s t) ->
  let r := event_step q (Crash t parts wrote) s in
  Inv (fst r) (E ++ [snd r]) t D true.
Proof.
  intros I NW PR OK. cbn [event_step fst snd]. destruct (split_new s E S D b t I NW PR) as (m & PT & LD & LM & LS).
  pose proof (mode_below _ _ _ _ _ I) as B.
  destruct (run_key q kf (proj2 PQ) QK s parts B (i_ok _ _ _ _ _ I)) as (SO' & KEY).
  pose proof (key_rows s E S D b t parts m I PT LM PR OK) as KR. cbv zeta in KEY, KR.
  apply (restart_inv s E S D b t m); auto. intros k C ND. rewrite latest_app. cbn [o_groups].
  destruct (KEY k) as (KO & _). destruct (KR k) as (K1 & K2). set (M := held q k s ++ members kf k (concat (concat parts))) in *.
  assert (OLD : exists rs, latest k E = Some rs /\ Permutation rs (members kf k D)).
  { destruct (i_mode _ _ _ _ _ I) as [(_ & _ & _ & _ & LL)|(_ & _ & _ & LL)]; auto. }
  destruct (last_of_any k (chosen wrote (o_groups (snd (run q parts s)))) (latest k E) M) as [Q|Q].
  - intros x X. apply chosen_in in X. apply KO; auto.
  - destruct (in_dec (fun a b : grow => ltac:(repeat decide equality) : {a = b} + {a <> b}) (k, M) (chosen wrote (o_groups (snd (run q parts s))))) as [J|J].
    + exists M. split; auto. apply chosen_in in J. apply KO in J as (_ & MN & _). destruct K1 as [K1|[K1 _]]; [|congruence].
      rewrite K1. auto.
    + rewrite last_of_none in Q |- *; auto; intros x X; assert (x = M) by (apply chosen_in in X; apply KO; auto); subst; auto.
  - rewrite Q. auto.
Qed.

Theorem exact_history es : forall s E S D b table parts, Inv s E S D b ->
  let all := es ++ [Run table parts] in
  no_errors all -> all_proper all -> in_order S all -> all_end_latest all -> resumes b D all -> history_ok q all s ->
  forall k, members kf k table <> [] ->
    exists rows, latest k (E ++ snd (history q all s)) = Some rows /\ Permutation rows (members kf k table).
Proof.
  induction es as [|e es IH]; intros s E S D b table parts I all NE AP IO AE RS HO k N; subst all.
  - cbn [app in_order table_of resumes history_ok event_ok history] in *. destruct IO as [IO _], RS as [RS _], HO as [HO _].
    cbn [event_step fst snd]. destruct (run_inv s E S D b table parts I IO) as (_ & L); auto.
    + intros r Hr. apply (AP (Run table parts) table); cbn; auto.
    + apply (AE table parts). left; auto.
  - cbn [app] in *. cbn [history_ok history fst snd] in *. destruct HO as [HO1 HO2].
    assert (NE' : no_errors (es ++ [Run table parts])) by (intros n t p X; apply (NE n t p); right; auto).
    assert (AP' : all_proper (es ++ [Run table parts])) by (intros e0 t r X; apply (AP e0 t r); right; auto).
    assert (AE' : all_end_latest (es ++ [Run table parts])) by (intros t p X; apply (AE t p); right; auto).
    replace (E ++ snd (event_step q e s) :: snd (history q (es ++ [Run table parts]) (fst (event_step q e s))))
      with ((E ++ [snd (event_step q e s)]) ++ snd (history q (es ++ [Run table parts]) (fst (event_step q e s))))
      by (rewrite <- app_assoc; auto).
    destruct e as [t ps|n t ps|t ps wrote|].
    + cbn [in_order table_of resumes event_ok] in *. destruct IO as [IO1 IO2], RS as [RS1 RS2].
      destruct (run_inv s E S D b t ps I IO1) as (I' & _); auto.
      * intros r Hr. apply (AP (Run t ps) t); cbn; auto.
      * apply (AE t ps). left; auto.
      * apply (IH _ _ t t (match t with [] => b | _ => false end)); auto.
    + destruct (NE n t ps). left; auto.
    + cbn [in_order table_of resumes event_ok] in *. destruct IO as [IO1 IO2].
      apply (IH _ _ t D true); auto. apply (crash_inv s E S D b t ps wrote I IO1); auto.
      intros r Hr. apply (AP (Crash t ps wrote) t); cbn; auto.
    + cbn [in_order table_of resumes event_ok] in *. apply (IH _ _ S D true); auto. cbn [event_step fst snd].
      destruct (i_split _ _ _ _ _ I) as (n & PS & LS). apply (restart_inv s E S D b S n); auto; [apply (i_proper _ _ _ _ _ I)|].
      intros k0 C ND. rewrite latest_app. cbn [o_groups last_of fold_left].
      destruct (i_mode _ _ _ _ _ I) as [(_ & _ & _ & _ & LL)|(_ & _ & _ & LL)]; auto.
Qed.
End Query.
