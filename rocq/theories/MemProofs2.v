(** DROP COLUMN in the in-memory cache. *)
From Verif Require Import Prelude MergeModel MergeSpec MergeProofs MemModel MemSpec MemDropSpec MemProofs.
Open Scope Z_scope.

Lemma index_of_lt c l i : index_of c l = Some i -> (i < length l)%nat /\ nth i l 0 = c.
Proof.
  revert i. induction l as [|x l IH]; intros i; cbn [index_of]; [discriminate|]. destruct (Z.eqb_spec x c) as [->|N].
  - intros [= <-]. cbn. split; [lia|reflexivity].
  - destruct (index_of c l) as [j|]; [|discriminate]. intros [= <-]. destruct (IH j eq_refl). cbn. split; [lia|assumption].
Qed.
Lemma index_of_none c l : index_of c l = None <-> ~ In c l.
Proof.
  induction l as [|x l IH]; cbn [index_of In]; [tauto|]. destruct (Z.eqb_spec x c) as [->|N]; [split; [discriminate|tauto]|].
  destruct (index_of c l) as [j|].
  - split; [discriminate|]. intro H. exfalso. assert (X : ~ In c l) by tauto. apply IH in X. discriminate.
  - split; [|reflexivity]. intros _ [Q|Q]; [congruence|]. now apply (proj1 IH).
Qed.
Lemma field_drop c a i : forall cols vs, index_of c cols = Some i -> a <> c ->
  match index_of a (remove_nth i cols) with Some j => nth j (remove_nth i vs) None | None => @None Z end =
  match index_of a cols with Some j => nth j vs None | None => None end.
Proof.
  induction i as [|i IH]; intros cols vs E N; destruct cols as [|x cols]; cbn [index_of] in E; try discriminate.
  - destruct (Z.eqb_spec x c) as [->|]; [|destruct (index_of c cols); discriminate]. cbn [remove_nth index_of]. destruct (Z.eqb_spec c a); [congruence|].
    destruct (index_of a cols) as [j|]; [|reflexivity]. destruct vs as [|v vs]; cbn [remove_nth nth]; [now destruct j|reflexivity].
  - destruct (Z.eqb_spec x c) as [->|]; [discriminate|]. destruct (index_of c cols) as [i'|] eqn:E'; [|discriminate]. injection E as ->.
    cbn [remove_nth index_of]. destruct (Z.eqb_spec x a) as [->|].
    + destruct vs; reflexivity.
    + destruct vs as [|v vs]; cbn [remove_nth].
      * destruct (index_of a (remove_nth i cols)) as [j|], (index_of a cols) as [j'|]; cbn [nth]; reflexivity.
      * specialize (IH cols vs E' N). destruct (index_of a (remove_nth i cols)) as [j|], (index_of a cols) as [j'|]; cbn [nth] in *; exact IH.
Qed.
Definition keepc (cids : list Z) (c : Z) : bool := negb (mem_z c cids).
Lemma remove_filter c i : forall cols, NoDup cols -> index_of c cols = Some i -> remove_nth i cols = filter (keepc [c]) cols.
Proof.
  induction i as [|i IH]; intros [|x cols] N E; cbn [index_of] in E; try discriminate; inversion N; subst; unfold keepc, mem_z; cbn [remove_nth filter existsb].
  - destruct (Z.eqb_spec x c) as [->|]; [|destruct (index_of c cols); discriminate]. cbn [orb negb]. symmetry. apply filter_true. intros y Hy. cbn.
    destruct (Z.eqb_spec y c); [congruence|reflexivity].
  - destruct (Z.eqb_spec x c) as [->|]; [discriminate|]. destruct (index_of c cols) as [i'|] eqn:E'; [|discriminate]. injection E as ->. cbn [orb negb]. f_equal. now apply IH.
Qed.

(** Groups without two rows of one time, columns without repetition. *)
Definition tidy (d : sdata) : Prop := wk d /\ forall g, In g (d_groups d) -> NoDup (map r_ts (g_rows g)) /\ NoDup (s_cols (g_schema g)).
Lemma nodup_rows_at t l : NoDup (map r_ts l) -> (length (rows_at t l) <= 1)%nat.
Proof.
  unfold rows_at. induction l as [|r l IH]; intro N; cbn [filter]; [cbn; lia|]. inversion N; subst. destruct (Z.eqb_spec (r_ts r) t) as [E|]; [|auto].
  cbn [length]. assert (filter (fun r => r_ts r =? t) l = []) as ->; [|cbn; lia]. rewrite <- E in *.
  destruct (filter (fun x => r_ts x =? r_ts r) l) as [|y k] eqn:Q; [reflexivity|]. exfalso. apply H1. assert (I : In y (filter (fun x => r_ts x =? r_ts r) l)) by (rewrite Q; now left).
  rewrite filter_In in I. destruct I as [I J]. apply Z.eqb_eq in J. rewrite <- J. now apply in_map.
Qed.
Lemma reinsert l : ssorted l -> NoDup (map r_ts l) -> sl_extend [] l = l.
Proof.
  intros S N. apply ssorted_ext; [apply sl_extend_sorted, ssorted_nil|exact S|]. intro t. rewrite sl_extend_at by apply ssorted_nil.
  pose proof (nodup_rows_at t l N) as L. destruct (rows_at t l) as [|x [|y k]]; cbn in *; try reflexivity. lia.
Qed.
Definition dropr (i : nat) (r : mrow) : mrow := MR (r_ts r) (remove_nth i (r_cols r)).
Lemma dropr_ts i l : map r_ts (map (dropr i) l) = map r_ts l. Proof. rewrite map_map. reflexivity. Qed.
Lemma ssorted_map i l : ssorted l -> ssorted (map (dropr i) l).
Proof. induction 1 as [|r l S IH F]; cbn; constructor; auto. rewrite Forall_forall in *. intros x Hx. apply in_map_iff in Hx. destruct Hx as (y & <- & Hy). cbn. auto. Qed.
Definition dropg (c : Z) (g : rgroup) : rgroup :=
  match index_of c (s_cols (g_schema g)) with
  | None => g
  | Some i => RG (SC (s_ver (g_schema g)) (remove_nth i (s_cols (g_schema g)))) (g_min g) (g_max g) (map (dropr i) (g_rows g))
  end.
Lemma drop_dropg d c : tidy d -> sd_drop_column d c = SD (d_min d) (d_max d) (map (dropg c) (d_groups d)).
Proof.
  intros [W T]. unfold sd_drop_column. f_equal. apply map_ext_in. intros g Hg. unfold dropg. destruct (index_of c _) as [i|]; [|reflexivity]. f_equal.
  apply reinsert; [apply ssorted_map, W, Hg|]. rewrite dropr_ts. now apply T.
Qed.
Lemma tidy_drop d c : tidy d -> tidy (sd_drop_column d c).
Proof.
  intro H. rewrite drop_dropg by exact H. destruct H as [W T]. split; intros g Hg; cbn [d_groups d_min d_max] in *; apply in_map_iff in Hg; destruct Hg as (g0 & <- & Hg).
  - destruct (W g0 Hg) as [A B]. unfold dropg. destruct (index_of c _) as [i|]; [|split; [exact A|exact B]]. cbn [g_rows]. split; [now apply ssorted_map|].
    intros r Hr. apply in_map_iff in Hr. destruct Hr as (r0 & <- & Hr). cbn [dropr r_ts]. now apply B.
  - destruct (T g0 Hg) as [A B]. unfold dropg. destruct (index_of c _) as [i|] eqn:E; [|auto]. cbn [g_rows g_schema s_cols]. rewrite dropr_ts. split; [exact A|].
    rewrite (remove_filter c i _ B E). now apply NoDup_filter.
Qed.
Lemma dropg_cols c g : NoDup (s_cols (g_schema g)) -> s_cols (g_schema (dropg c g)) = filter (keepc [c]) (s_cols (g_schema g)).
Proof.
  intro N. unfold dropg. destruct (index_of c _) as [i|] eqn:E; cbn [g_schema s_cols]; [now apply remove_filter|]. symmetry. apply filter_true. intros x Hx.
  unfold keepc, mem_z. cbn. apply index_of_none in E. destruct (Z.eqb_spec x c); [congruence|reflexivity].
Qed.
Lemma latest_drop d c : tidy d -> latest_cols (sd_drop_column d c) = filter (keepc [c]) (latest_cols d).
Proof.
  intro H. rewrite drop_dropg by exact H. destruct H as [W T]. unfold latest_cols. cbn [d_groups]. rewrite <- map_rev. destruct (rev (d_groups d)) as [|g gs] eqn:E; [reflexivity|].
  cbn [map]. apply dropg_cols. apply T. apply in_rev. rewrite E. now left.
Qed.
(** A row over [align] reads the same from a group before and after, except for the dropped column. *)
Lemma drop_log d c align : tidy d -> ~ In c align -> logrows align (flat (sd_drop_column d c)) = logrows align (flat d).
Proof.
  intros H N. rewrite drop_dropg by exact H. unfold logrows, flat. cbn [d_groups]. rewrite !map_map. f_equal. apply map_ext_in. intros g Hg. unfold lrows. cbn [fst snd]. f_equal.
  unfold dropg. destruct (index_of c (s_cols (g_schema g))) as [i|] eqn:E; [|reflexivity]. cbn [g_schema s_cols g_rows]. rewrite map_map. apply map_ext. intro r.
  unfold arow. cbn [dropr r_ts]. f_equal. apply map_ext_in. intros a Ha. unfold field_of. cbn [dropr r_cols]. apply (field_drop c); [exact E|]. intros ->. contradiction.
Qed.

(** Selecting columns commutes with merging. *)
Definition pick (cols cols' : list Z) (r : mrow) : mrow := MR (r_ts r) (map (fun c => match index_of c cols with Some i => nth i (r_cols r) None | None => None end) cols').
Lemma arow_pick align align' cols r : incl align' align -> NoDup align -> pick align align' (arow align cols r) = arow align' cols r.
Proof.
  intros I N. unfold pick, arow. cbn [r_ts r_cols]. f_equal. apply map_ext_in. intros a Ha. destruct (index_of a align) as [i|] eqn:E.
  - destruct (index_of_lt _ _ _ E) as [L E2]. rewrite (nth_indep _ _ (field_of cols r 0)) by now rewrite map_length. rewrite map_nth. now rewrite E2.
  - apply index_of_none in E. exfalso. apply E, I, Ha.
Qed.
Lemma merged_pick align align' l out : incl align' align -> NoDup align -> merged (length align) l out ->
  merged (length align') (map (pick align align') l) (map (pick align align') out).
Proof.
  intros I N (A & B & C). assert (T : forall k, map r_ts (map (pick align align') k) = map r_ts k) by (intro; rewrite map_map; reflexivity).
  split; [|split].
  - clear - A. induction A as [|r out A IH F]; cbn; constructor; auto. rewrite Forall_forall in *. intros x Hx. apply in_map_iff in Hx. destruct Hx as (y & <- & Hy). cbn. auto.
  - intro t. rewrite !T. apply B.
  - intros r' Hr'. apply in_map_iff in Hr'. destruct Hr' as (r & <- & Hr). destruct (C r Hr) as [L V]. split; [cbn; now rewrite map_length|]. intros j Hj.
    assert (RA : rows_at (r_ts (pick align align' r)) (map (pick align align') l) = map (pick align align') (rows_at (r_ts r) l)).
    { unfold rows_at. cbn [pick r_ts]. clear. induction l as [|x l IH]; [reflexivity|]. cbn [map filter pick r_ts]. destruct (r_ts x =? r_ts r); cbn [map]; now rewrite IH. }
    rewrite RA, map_map. set (a := nth j align' 0). assert (Ha : In a align') by now apply nth_In.
    destruct (index_of a align) as [i|] eqn:E; [|apply index_of_none in E; exfalso; apply E, I, Ha]. destruct (index_of_lt _ _ _ E) as [Li _].
    assert (P : forall x, col j (pick align align' x) = col i x).
    { intro x. unfold col, pick. cbn [r_cols]. rewrite (nth_indep _ None (match index_of 0 align with Some i => nth i (r_cols x) None | None => None end)) by now rewrite map_length.
      rewrite (map_nth (fun c => match index_of c align with Some i => nth i (r_cols x) None | None => None end)). fold a. now rewrite E. }
    rewrite P, V by exact Li. f_equal. apply map_ext. intro. symmetry. apply P.
Qed.
Lemma drop_read inr d c : tidy d -> NoDup (latest_cols d) -> sd_read inr (sd_drop_column d c) = map (pick (latest_cols d) (filter (keepc [c]) (latest_cols d))) (sd_read inr d).
Proof.
  intros H N. pose proof (sd_read_ok inr d (proj1 H)) as M1. pose proof (sd_read_ok inr _ (proj1 (tidy_drop d c H))) as M2.
  rewrite latest_drop in M2 by exact H. set (al := latest_cols d) in *. set (al' := filter (keepc [c]) al) in *.
  assert (I : incl al' al) by (intros x Hx; unfold al' in Hx; rewrite filter_In in Hx; tauto).
  apply (merged_pick al al' _ _ I N) in M1. eapply merged_unique; [exact M2|]. rewrite drop_log by (auto; unfold al', keepc, mem_z; rewrite filter_In; cbn; intros [_ Q]; rewrite Z.eqb_refl in Q; discriminate).
  replace (filter (fun r => inr (r_ts r)) (visible (logrows al' (flat d)))) with (map (pick al al') (filter (fun r => inr (r_ts r)) (visible (logrows al (flat d))))); [exact M1|].
  assert (Q : logrows al' (flat d) = map (pick al al') (logrows al (flat d))).
  { rewrite !logrows_dlog, map_map. apply map_ext. intro e. symmetry. now apply arow_pick. }
  rewrite Q. unfold visible. rewrite !filter_map_swap. reflexivity.
Qed.
Lemma keepc_cons c cids l : filter (keepc (c :: cids)) l = filter (keepc cids) (filter (keepc [c]) l).
Proof.
  rewrite filter_filter. apply filter_ext. intro x. unfold keepc, mem_z. cbn [existsb]. destruct (x =? c), (existsb (Z.eqb x) cids); reflexivity.
Qed.
Lemma pick_pick a b c r : incl b a -> incl c b -> pick b c (pick a b r) = pick a c r.
Proof.
  intros I J. unfold pick. cbn [r_ts r_cols]. f_equal. apply map_ext_in. intros x Hx. destruct (index_of x b) as [i|] eqn:E.
  - destruct (index_of_lt _ _ _ E) as [L E2]. set (f := fun y => match index_of y a with Some k => nth k (r_cols r) None | None => None end).
    rewrite (nth_indep _ None (f 0)) by now rewrite map_length. rewrite map_nth, E2. reflexivity.
  - apply index_of_none in E. exfalso. apply E, J, Hx.
Qed.
Lemma pick_id a r : NoDup a -> length (r_cols r) = length a -> pick a a r = r.
Proof.
  intros N L. destruct r as [t vs]. unfold pick. cbn [r_ts r_cols] in *. f_equal. revert vs L. induction a as [|x a IH]; intros [|v vs] L; cbn in L; try discriminate; [reflexivity|].
  inversion N; subst. cbn [map index_of]. rewrite Z.eqb_refl. cbn [nth]. f_equal. etransitivity; [|exact (IH H2 vs ltac:(lia))]. apply map_ext_in. intros y Hy.
  destruct (Z.eqb_spec x y); [congruence|]. destruct (index_of y a); reflexivity.
Qed.
Lemma pick_without cids al r : NoDup al -> length (r_cols r) = length al -> pick al (filter (keepc cids) al) r = without cids al r.
Proof.
  intros N L. destruct r as [t vs]. unfold pick, without. cbn [r_ts r_cols] in *. f_equal. revert vs L. induction al as [|x a IH]; intros [|v vs] L; cbn in L; try discriminate; [reflexivity|].
  inversion N; subst. cbn [combine filter]. unfold keepc at 1. cbn [fst].
  assert (Q : map (fun c => match index_of c (x :: a) with Some i => nth i (v :: vs) None | None => None end) (filter (keepc cids) a) =
              map (fun c => match index_of c a with Some i => nth i vs None | None => None end) (filter (keepc cids) a)).
  { apply map_ext_in. intros y Hy. rewrite filter_In in Hy. cbn [index_of]. destruct (Z.eqb_spec x y); [subst; tauto|]. destruct (index_of y a); reflexivity. }
  destruct (mem_z x cids); cbn [negb map snd]; rewrite Q, (IH H2 vs) by lia; [reflexivity|]. cbn [index_of]. rewrite Z.eqb_refl. reflexivity.
Qed.
Lemma incl_filter {A} (f : A -> bool) l : incl (filter f l) l.
Proof. intros x Hx. rewrite filter_In in Hx. tauto. Qed.
Lemma sd_read_len inr d r : wk d -> In r (sd_read inr d) -> length (r_cols r) = length (latest_cols d).
Proof. intros W Hr. destruct (sd_read_ok inr d W) as (_ & _ & C). now apply C. Qed.
Lemma drops_read inr cids : forall d, tidy d -> NoDup (latest_cols d) -> let d' := fold_left sd_drop_column cids d in
  tidy d' /\ latest_cols d' = filter (keepc cids) (latest_cols d) /\
  sd_read inr d' = map (pick (latest_cols d) (filter (keepc cids) (latest_cols d))) (sd_read inr d).
Proof.
  induction cids as [|c cids IH]; intros d H N; cbn [fold_left]; cbv zeta.
  - assert (E : filter (keepc []) (latest_cols d) = latest_cols d) by (apply filter_true; reflexivity). rewrite E. split; [exact H|]. split; [reflexivity|].
    symmetry. erewrite map_ext_in; [apply map_id|]. intros r Hr. apply pick_id; [exact N|]. exact (sd_read_len inr d r (proj1 H) Hr).
  - assert (N' : NoDup (latest_cols (sd_drop_column d c))) by (rewrite latest_drop by exact H; now apply NoDup_filter).
    destruct (IH _ (tidy_drop d c H) N') as (A & B & C). split; [exact A|]. rewrite latest_drop in B, C by exact H. rewrite keepc_cons. split; [exact B|].
    rewrite C, (drop_read inr d c H N), map_map. apply map_ext. intro r. apply pick_pick; apply incl_filter.
Qed.
Lemma keepc_idem cids l : filter (keepc cids) (filter (keepc cids) l) = filter (keepc cids) l.
Proof. rewrite filter_filter. apply filter_ext. intro x. now destruct (keepc cids x). Qed.
Lemma iter_drops inr cids d n : tidy d -> NoDup (latest_cols d) -> let d' := Nat.iter (S n) (fun d => fold_left sd_drop_column cids d) d in
  tidy d' /\ latest_cols d' = filter (keepc cids) (latest_cols d) /\
  sd_read inr d' = map (pick (latest_cols d) (filter (keepc cids) (latest_cols d))) (sd_read inr d).
Proof.
  intros H N. cbv zeta. induction n as [|n (A & B & C)].
  - exact (drops_read inr cids d H N).
  - set (F := fun d => fold_left sd_drop_column cids d) in *. change (Nat.iter (S (S n)) F d) with (F (Nat.iter (S n) F d)). set (e := Nat.iter (S n) F d) in *.
    assert (N' : NoDup (latest_cols e)) by (rewrite B; now apply NoDup_filter). destruct (drops_read inr cids e A N') as (A' & B' & C'). fold (F e) in *.
    split; [exact A'|]. rewrite B', C', B, keepc_idem. split; [reflexivity|]. rewrite C, map_map. apply map_ext. intro r. apply pick_pick; [apply incl_filter|apply incl_refl].
Qed.

(** ** The cache *)
Lemma drops_new cids : fold_left sd_drop_column cids sd_new = sd_new.
Proof. induction cids as [|c cids IH]; [reflexivity|exact IH]. Qed.
Lemma cids_upd sid s cids : forall m, (1 <= nparts m)%nat ->
  let m' := fold_left (fun m c => match mc_get m s with Some d => mc_upd m s (sd_drop_column d c) | None => m end) cids m in
  nparts m' = nparts m /\ sd_of m' sid = if s =? sid then fold_left sd_drop_column cids (sd_of m sid) else sd_of m sid.
Proof.
  induction cids as [|c cids IH]; intros m H; cbn [fold_left]; cbv zeta; [split; [reflexivity|]; now destruct (s =? sid)|].
  set (m1 := match mc_get m s with Some d => mc_upd m s (sd_drop_column d c) | None => m end).
  assert (P1 : nparts m1 = nparts m) by (unfold m1; destruct (mc_get m s); [now apply mc_upd_parts|reflexivity]).
  assert (P2 : sd_of m1 sid = if s =? sid then sd_drop_column (sd_of m sid) c else sd_of m sid).
  { unfold m1. destruct (mc_get m s) as [d|] eqn:E.
    - rewrite sd_of_upd by exact H. destruct (Z.eqb_spec s sid) as [<-|]; [|reflexivity]. unfold sd_of. now rewrite E.
    - destruct (Z.eqb_spec s sid) as [<-|]; [|reflexivity]. unfold sd_of. rewrite E. reflexivity. }
  destruct (IH m1 ltac:(lia)) as [A B]. cbv zeta in *. split; [congruence|]. rewrite B, P2. now destruct (s =? sid).
Qed.
Lemma drop_columns_ok sid cids : forall sids m, (1 <= nparts m)%nat -> let m' := mc_drop_columns m sids cids in
  (mem_z sid sids = false -> sd_of m' sid = sd_of m sid) /\
  (mem_z sid sids = true -> exists n, sd_of m' sid = Nat.iter (S n) (fun d => fold_left sd_drop_column cids d) (sd_of m sid)).
Proof.
  induction sids as [|s sids IH]; intros m H; cbv zeta; unfold mc_drop_columns; cbn [fold_left]; [split; [reflexivity|discriminate]|].
  destruct (cids_upd sid s cids m H) as [A B]. cbv zeta in *. set (m1 := fold_left _ cids m) in *. destruct (IH m1 ltac:(lia)) as [I2 I3]. cbv zeta in *. fold (mc_drop_columns m1 sids cids). unfold mem_z in *. cbn [existsb]. split.
  - intro E. apply orb_false_iff in E. destruct E as [E1 E2]. rewrite I2, B by exact E2. rewrite Z.eqb_sym, E1. reflexivity.
  - intro E. destruct (existsb (Z.eqb sid) sids) eqn:E2.
    + destruct (I3 eq_refl) as (n & ->). rewrite B. destruct (s =? sid); [|now exists n]. exists (S n). apply (iter_shift (fun d => fold_left sd_drop_column cids d)).
    + rewrite orb_false_r in E. rewrite I2, B by reflexivity. rewrite Z.eqb_sym, E. now exists 0%nat.
Qed.
Lemma rows_once l : (forall t, (length (rows_at t l) <= 1)%nat) -> NoDup (map r_ts l).
Proof.
  induction l as [|r l IH]; intro H; cbn [map]; [constructor|]. constructor.
  - intro I. apply in_map_iff in I. destruct I as (x & E & Hx). specialize (H (r_ts r)). unfold rows_at in H. cbn [filter] in H. rewrite Z.eqb_refl in H. cbn [length] in H.
    assert (I : In x (filter (fun y => r_ts y =? r_ts r) l)) by (rewrite filter_In; split; [exact Hx|]; rewrite E; apply Z.eqb_refl). destruct (filter _ l); [exact I|cbn in H; lia].
  - apply IH. intro t. specialize (H t). unfold rows_at in *. cbn [filter] in H. destruct (r_ts r =? t); cbn [length] in H; lia.
Qed.
Lemma glog_part t g d : In g (d_groups d) -> (length (rows_at t (g_rows g)) <= length (eat t (dlog d)))%nat.
Proof.
  unfold dlog. intro H. apply in_split in H. destruct H as (a & b & ->). rewrite map_app, concat_app. cbn [map concat]. rewrite !eat_app, !app_length.
  assert (length (eat t (glog g)) = length (rows_at t (g_rows g))); [|lia]. unfold glog. now rewrite eat_pair, map_length, rows_at_rev, rev_length.
Qed.
Lemma schemas_one l : schemas_ok l -> one_schema l.
Proof.
  intros H v c c'. induction H as [|a l H IH F]; [intros []|]. rewrite Forall_forall in F. intros [->|A] [E|B].
  - congruence.
  - destruct (F _ B) as [Q|Q]; cbn in Q; [lia|congruence].
  - subst a. destruct (F _ A) as [Q|Q]; cbn in Q; [lia|congruence].
  - auto.
Qed.
Lemma schemas_in sid h v c : In (v, c) (schemas sid h) -> exists rows, In (CWrite sid v c rows) h.
Proof.
  induction h as [|o h IH]; cbn [schemas]; [intros []|]. destruct o as [s ver cols rows|sids trs|sids lo hi]; try (intro H; destruct (IH H) as [r Hr]; exists r; now right).
  destruct (Z.eqb_spec s sid) as [->|]; [|intro H; destruct (IH H) as [r Hr]; exists r; now right]. intros [[= -> ->]|H]; [exists rows; now left|]. destruct (IH H) as [r Hr]; exists r; now right.
Qed.
Lemma crun_tidy parts h sid : (1 <= parts)%nat -> Forall write_ok h -> schemas_ok (schemas sid h) -> times_once sid h -> Forall columns_once h ->
  tidy (sd_of (crun parts h) sid) /\ NoDup (latest_cols (sd_of (crun parts h) sid)) /\ latest_cols (sd_of (crun parts h) sid) = last_columns sid h.
Proof.
  intros Hp Ho Hs Ht Hc. assert (Ho2 : Forall ts_ok h) by (eapply Forall_impl; [|exact Ho]; apply write_ts_ok).
  destruct (crun_wk parts h Hp Ho2) as [_ B]. destruct (crun_strong parts h sid Hp Ho Hs) as [S1 _].
  destruct (crun_loose parts h sid Hp Ho2 (schemas_one _ Hs)) as (_ & L2 & _).
  assert (Hl : latest_cols (sd_of (crun parts h) sid) = last_columns sid h).
  { rewrite (strong_latest _ _ _ (0, []) S1). unfold last_columns. destruct (schemas sid h); auto. }
  assert (T : tidy (sd_of (crun parts h) sid)).
  { split; [apply B|]. intros g Hg. split.
    - apply rows_once. intro t. etransitivity; [exact (glog_part t g _ Hg)|]. destruct S1 as [-> _].
      unfold times_once in Ht. rewrite points_elog, map_map in Ht. cbn [epoint p_ts] in Ht. unfold eat. clear - Ht. induction (elog sid h) as [|e l IH]; cbn [filter]; [cbn; lia|].
      cbn [map] in Ht. inversion Ht; subst. destruct (Z.eqb_spec (r_ts (snd e)) t) as [E|]; [|auto]. cbn [length].
      destruct (filter (fun x => r_ts (snd x) =? t) l) as [|y k] eqn:Q; [cbn; lia|]. exfalso. apply H1. assert (I : In y (filter (fun x => r_ts (snd x) =? t) l)) by (rewrite Q; now left).
      rewrite filter_In in I. destruct I as [I J]. apply Z.eqb_eq in J. rewrite E, <- J. apply (in_map (fun x : ent => r_ts (snd x))), I.
    - specialize (L2 g Hg). unfold gsch in L2. apply schemas_in in L2. destruct L2 as [rows Hr]. rewrite Forall_forall in Hc. exact (Hc _ Hr). }
  split; [exact T|]. split; [|exact Hl]. unfold latest_cols. destruct (rev (d_groups _)) as [|g gs] eqn:E; [constructor|]. apply T. apply in_rev. rewrite E. now left.
Qed.
Lemma drop_column_ok parts h sids cids inr sid :
  (1 <= parts)%nat -> Forall write_ok h -> schemas_ok (schemas sid h) -> times_once sid h -> Forall columns_once h ->
  mc_read inr (mc_drop_columns (crun parts h) sids cids) sid =
  if mem_z sid sids then map (without cids (last_columns sid h)) (mc_read inr (crun parts h) sid) else mc_read inr (crun parts h) sid.
Proof.
  intros Hp Ho Hs Ht Hc. destruct (crun_tidy parts h sid Hp Ho Hs Ht Hc) as (T & N & E). assert (Ho2 : Forall ts_ok h) by (eapply Forall_impl; [|exact Ho]; apply write_ts_ok).
  destruct (crun_wk parts h Hp Ho2) as [A _]. destruct (drop_columns_ok sid cids sids (crun parts h) ltac:(lia)) as [D1 D2]. cbv zeta in *. rewrite !mc_read_sd.
  destruct (mem_z sid sids); [|now rewrite D1]. destruct (D2 eq_refl) as (n & ->). destruct (iter_drops inr cids _ n T N) as (_ & _ & ->). rewrite E in *.
  apply map_ext_in. intros r Hr. apply pick_without; [exact N|]. rewrite <- E. exact (sd_read_len inr _ r (proj1 T) Hr).
Qed.
Lemma drop_elsewhere parts h sids cids inr sid : (1 <= parts)%nat -> Forall ts_ok h -> mem_z sid sids = false ->
  mc_read inr (mc_drop_columns (crun parts h) sids cids) sid = mc_read inr (crun parts h) sid.
Proof.
  intros Hp Ho Hm. destruct (crun_wk parts h Hp Ho) as [A _]. destruct (drop_columns_ok sid cids sids (crun parts h) ltac:(lia)) as [D1 _]. cbv zeta in *. rewrite !mc_read_sd. now rewrite D1.
Qed.
