(** Proofs about the storage engine. *)
From Verif Require Import Prelude MergeModel MergeSpec MergeProofs MemModel MemSpec MemProofs ReadModel ReadSpec ReadProofs CompactModel CompactSpec CompactProofs EngineModel EngineSpec.
Open Scope Z_scope.

(** ** Agreement of two sets of rows up to the choice of a value *)
Definition agree (w : nat) (A B : list mrow) : Prop :=
  (forall t, In t (map r_ts B) <-> In t (map r_ts A)) /\
  (forall r c v, In r B -> (c < w)%nat -> col c r = Some v -> exists r', In r' A /\ r_ts r' = r_ts r /\ col c r' = Some v) /\
  (forall r c v, In r A -> (c < w)%nat -> col c r = Some v -> exists r' v', In r' B /\ r_ts r' = r_ts r /\ col c r' = Some v').
Lemma agree_refl w A : agree w A A.
Proof. split; [tauto|]. split; intros r c v H _ E; eauto. Qed.
Lemma agree_trans w A B C : agree w A B -> agree w B C -> agree w A C.
Proof.
  intros (A1 & A2 & A3) (B1 & B2 & B3). split; [intros t; rewrite B1; apply A1|]. split.
  - intros r c v Hr Hc E. destruct (B2 r c v Hr Hc E) as (r1 & H1 & E1 & E2). destruct (A2 r1 c v H1 Hc E2) as (r2 & H2 & E3 & E4).
    exists r2. split; auto. split; auto. congruence.
  - intros r c v Hr Hc E. destruct (A3 r c v Hr Hc E) as (r1 & v1 & H1 & E1 & E2). destruct (B3 r1 c v1 H1 Hc E2) as (r2 & v2 & H2 & E3 & E4).
    exists r2, v2. split; auto. split; auto. congruence.
Qed.
Lemma ts_mem (A A' : list mrow) : (forall r, In r A <-> In r A') -> forall t, In t (map r_ts A) <-> In t (map r_ts A').
Proof. intros H t. rewrite !in_map_iff. split; intros (r & E & Hr); exists r; split; auto; apply H; auto. Qed.
Lemma agree_mem w A B A' B' : (forall r, In r A <-> In r A') -> (forall r, In r B <-> In r B') -> agree w A B -> agree w A' B'.
Proof.
  intros HA HB (A1 & A2 & A3). split; [|split].
  - intros t. rewrite <- (ts_mem B B' HB), <- (ts_mem A A' HA). apply A1.
  - intros r c v Hr Hc E. apply HB in Hr. destruct (A2 r c v Hr Hc E) as (r1 & H1 & ?). exists r1. split; auto. apply HA; auto.
  - intros r c v Hr Hc E. apply HA in Hr. destruct (A3 r c v Hr Hc E) as (r1 & v1 & H1 & ?). exists r1, v1. split; auto. apply HB; auto.
Qed.
Lemma agree_app w A B A' B' : agree w A B -> agree w A' B' -> agree w (A ++ A') (B ++ B').
Proof.
  intros (A1 & A2 & A3) (B1 & B2 & B3). split; [|split].
  - intros t. rewrite !map_app, !in_app_iff, A1, B1. tauto.
  - intros r c v Hr Hc E. apply in_app_iff in Hr as [Hr | Hr].
    + destruct (A2 r c v Hr Hc E) as (r1 & ? & ?). exists r1. split; auto. apply in_app_iff; auto.
    + destruct (B2 r c v Hr Hc E) as (r1 & ? & ?). exists r1. split; auto. apply in_app_iff; auto.
  - intros r c v Hr Hc E. apply in_app_iff in Hr as [Hr | Hr].
    + destruct (A3 r c v Hr Hc E) as (r1 & v1 & ? & ?). exists r1, v1. split; auto. apply in_app_iff; auto.
    + destruct (B3 r c v Hr Hc E) as (r1 & v1 & ? & ?). exists r1, v1. split; auto. apply in_app_iff; auto.
Qed.
Lemma ts_filter k (l : list mrow) t : In t (map r_ts (filter (fun r => k (r_ts r)) l)) <-> k t = true /\ In t (map r_ts l).
Proof.
  rewrite !in_map_iff. split.
  - intros (x & <- & Hx). apply filter_In in Hx as [A B]. split; auto. exists x; auto.
  - intros (Ht & x & <- & Hx). exists x. split; auto. apply filter_In; auto.
Qed.
Lemma agree_filter w k A B : agree w A B -> agree w (filter (fun r => k (r_ts r)) A) (filter (fun r => k (r_ts r)) B).
Proof.
  intros (A1 & A2 & A3). split; [|split].
  - intros t. rewrite !ts_filter, A1. tauto.
  - intros r c v Hr Hc E. apply filter_In in Hr as [Hr K]. destruct (A2 r c v Hr Hc E) as (r1 & ? & E1 & ?). exists r1. split; auto.
    apply filter_In. rewrite E1. auto.
  - intros r c v Hr Hc E. apply filter_In in Hr as [Hr K]. destruct (A3 r c v Hr Hc E) as (r1 & v1 & ? & E1 & ?). exists r1, v1. split; auto.
    apply filter_In. rewrite E1. auto.
Qed.
Lemma last_value_some l v : In (Some v) l -> exists v', last_value l = Some v'.
Proof.
  intros H. destruct (last_value l) as [v'|] eqn:E; [eauto|]. exfalso. pose proof (last_value_none l E (Some v) H). discriminate.
Qed.
Lemma merged_agree w L out : merged w L out -> agree w L out.
Proof.
  intros (M1 & M2 & M3). split; [auto|]. split.
  - intros r c v Hr Hc E. destruct (M3 r Hr) as [_ C]. rewrite (C c Hc) in E. apply last_value_in in E.
    apply in_map_iff in E as (r' & E & H). apply rows_at_in in H as [H1 H2]. exists r'. auto.
  - intros r c v Hr Hc E. assert (HI : In (r_ts r) (map r_ts out)) by (apply M2, in_map; auto).
    apply in_map_iff in HI as (o & Eo & Ho). destruct (M3 o Ho) as [_ C]. specialize (C c Hc).
    destruct (last_value_some (map (col c) (rows_at (r_ts o) L)) v) as [v' Ev].
    { apply in_map_iff. exists r. split; auto. apply rows_at_in. auto. }
    exists o, v'. split; auto. split; auto. congruence.
Qed.
Lemma agree_shows w L out : agree w L out -> StronglySorted (fun a b => r_ts a < r_ts b) out ->
  (forall r, In r out -> length (r_cols r) = w) -> shows w L out.
Proof.
  intros (A1 & A2 & A3) S HL. split; [auto|]. split; [auto|]. intros r Hr. split; [auto|]. intros c Hc.
  destruct (col c r) as [v|] eqn:E; [apply A2; auto|]. intros x Hx Ex. destruct (col c x) as [v|] eqn:Ev; auto. exfalso.
  destruct (A3 x c v Hx Hc Ev) as (o & v' & Ho & Eo & Eo2).
  assert (o = r); [|congruence]. clear - S Hr Ho Eo Ex. assert (r_ts o = r_ts r) as E by congruence. clear Eo Ex.
  induction S as [|a l S IH F]; [destruct Hr|]. rewrite Forall_forall in F. destruct Hr as [-> | Hr], Ho as [-> | Ho]; auto.
  - specialize (F o Ho). lia.
  - specialize (F r Hr). lia.
Qed.

(** ** One cache *)
Section Cols.
Variable cols : list Z.
Hypothesis Hnd : NoDup cols.
Let w := length cols.
Definition row_ok (r : mrow) : Prop := I64_MIN <= r_ts r < I64_MAX /\ length (r_cols r) = w.
Definition cache_ok (d : sdata) (l : list mrow) : Prop :=
  wk d /\ (exists n, strong d (map (pair cols) l) (repeat (1, cols) n)) /\ Forall row_ok l /\
  (d_groups d <> [] -> d_min d <= d_max d /\ I64_MIN <= d_max d).
Lemma index_of_nth : forall (cs : list Z) (vs : list (option Z)), NoDup cs -> length vs = length cs ->
  map (fun c => match index_of c cs with Some i => nth i vs None | None => None end) cs = vs.
Proof.
  induction cs as [|c cs IH]; intros vs HN HL; destruct vs as [|v vs]; cbn [length] in HL; try lia; auto.
  inversion HN as [|? ? N1 N2]; subst. cbn [map index_of]. rewrite Z.eqb_refl. cbn [nth]. f_equal.
  transitivity (map (fun c => match index_of c cs with Some i => nth i vs None | None => None end) cs); [|apply IH; auto; lia].
  apply map_ext_in. intros x Hx. destruct (Z.eqb_spec c x) as [-> | E]; [contradiction|]. destruct (index_of x cs); auto.
Qed.
Lemma arow_id r : row_ok r -> arow cols cols r = r.
Proof.
  intros [_ HL]. unfold arow. destruct r as [t vs]. cbn [r_ts r_cols] in *. f_equal. unfold field_of. cbn [r_cols].
  apply index_of_nth; auto.
Qed.
Lemma cache_ok_new : cache_ok sd_new [].
Proof. split; [apply wk_new|]. split; [exists O; apply strong_new|]. split; [constructor|]. intros H. destruct H. reflexivity. Qed.
Lemma repeat_snoc {A} (x : A) n : repeat x n ++ [x] = repeat x (S n).
Proof. induction n; cbn [repeat app]; auto. rewrite IHn. reflexivity. Qed.
Lemma schemas_ok_repeat x n : schemas_ok (repeat x n).
Proof.
  induction n; cbn [repeat]; [constructor|]. constructor; auto. apply Forall_forall. intros y Hy. apply repeat_spec in Hy. auto.
Qed.
Lemma cache_ok_write d l rows : cache_ok d l -> op_ok cols (EWrite rows) ->
  cache_ok (sd_write d (new_group (SC 1 cols) rows)) (l ++ rows).
Proof.
  intros (W & (n & S) & F & R) (Hne & Hn & Hr). 
  assert (Hi : Forall (fun r => is_i64 (r_ts r)) rows).
  { eapply Forall_impl; [|exact Hr]. intros r [H _]. unfold is_i64. lia. }
  split; [apply wk_write; auto|]. split.
  - exists (Datatypes.S n). rewrite map_app, <- repeat_snoc. apply strong_write; auto. rewrite repeat_snoc. apply schemas_ok_repeat.
  - split; [apply Forall_app; split; auto; apply Hr|]. intros _. destruct (new_group_ok (SC 1 cols) rows) as (_ & _ & G3).
    destruct rows as [|r rows]; [congruence|]. specialize (G3 r (or_introl eq_refl)). inversion Hr as [|? ? Hr1 _]; subst.
    unfold sd_write. cbn [d_min d_max]. lia.
Qed.
Lemma cache_ok_delete d l trs : cache_ok d l ->
  cache_ok (sd_delete_ranges d trs) (filter (fun r => negb (in_ranges trs (r_ts r))) l) /\
  sd_read (fun _ => true) (sd_delete_ranges d trs) = filter (fun r => negb (in_ranges trs (r_ts r))) (sd_read (fun _ => true) d).
Proof.
  intros (W & (n & S) & F & R). rewrite sd_delete_ranges_filt by auto.
  split.
  - split; [apply wk_filt; auto|]. split; [|split].
    + exists n. assert (Em : map (pair cols) (filter (fun r => negb (in_ranges trs (r_ts r))) l) = filter (fun e : ent => negb (in_ranges trs (r_ts (snd e)))) (map (pair cols) l)).
      { rewrite filter_map_swap. reflexivity. }
      rewrite Em. apply (strong_filt (fun t => negb (in_ranges trs t))); auto.
    + apply Forall_forall. intros r Hr. apply filter_In in Hr as [Hr _]. rewrite Forall_forall in F. auto.
    + intros H. unfold filt in *. cbn [d_groups d_min d_max] in *. apply R. intros E2. rewrite E2 in H. apply H. reflexivity.
  - apply (sd_read_filt (fun _ => true) (fun t => negb (in_ranges trs t))); auto.
Qed.
Lemma cache_ok_read d l : cache_ok d l -> merged w l (sd_read (fun _ => true) d).
Proof.
  intros (W & (n & S) & F & R). pose proof (sd_read_ok (fun _ => true) d W) as M. rewrite filter_true in M by auto.
  assert (Hrow : forall t, rows_at t l = rows_at t (visible (logrows cols (flat d)))).
  { intros t. rewrite rows_at_visible, logrows_dlog, rows_at_map. destruct S as (S1 & _). rewrite S1, eat_pair, map_map. cbn [fst snd].
    assert (E : map (arow cols cols) (rows_at t l) = rows_at t l).
    { rewrite <- (map_id (rows_at t l)) at 2. apply map_ext_in. intros r Hr. apply rows_at_in in Hr as [Hr _].
      rewrite Forall_forall in F. apply arow_id; auto. }
    change (map (fun x : mrow => arow cols cols x) (rows_at t l)) with (map (arow cols cols) (rows_at t l)). rewrite E. destruct (Z.ltb_spec t I64_MAX); auto. apply rows_at_nil. intros r Hr Er. rewrite Forall_forall in F.
    destruct (F r Hr). lia. }
  destruct n as [|n].
  - destruct S as (S1 & S2 & S3 & S4). rewrite (strong_latest _ _ _ (0, []) (conj S1 (conj S2 (conj S3 S4)))) in M. cbn [repeat length] in M.
    assert (El : l = []).
    { destruct l as [|r l]; auto. exfalso. specialize (S1 (r_ts r)). unfold dlog in S1. rewrite (S3 eq_refl) in S1. cbn [map concat] in S1.
      unfold eat at 2 in S1. cbn [filter snd] in S1. rewrite Z.eqb_refl in S1. cbn in S1. discriminate. }
    subst l. assert (Ef : flat d = []) by (unfold flat; rewrite (S3 eq_refl); reflexivity). rewrite Ef in M.
    unfold sd_read in *. rewrite Ef in *. cbn [total_rows map concat length] in *. rewrite filter_true in * by auto.
    destruct M as (M1 & M2 & _). destruct (it_run _ _ _) as [|x xs].
    + apply merged_nil.
    + exfalso. apply (M2 (r_ts x)). left. auto.
  - rewrite (strong_latest _ _ _ (0, []) S) in M. cbn [repeat] in M.
    assert (Elast : last ((1, cols) :: repeat (1, cols) n) (0, []) = (1, cols)).
    { change ((1, cols) :: repeat (1, cols) n) with (repeat (1, cols) (Datatypes.S n)). rewrite <- repeat_snoc. apply last_last. }
    rewrite Elast in M. cbn [snd] in M. fold w in M. eapply merged_rows; [|exact M]. intros t. first [exact (Hrow t) | symmetry; exact (Hrow t)].
Qed.
Lemma cache_range d l r : cache_ok d l -> In r l -> d_min d <= r_ts r <= d_max d.
Proof.
  intros (W & (n & S1 & _) & _) Hr. specialize (S1 (r_ts r)).
  assert (HI : In (cols, r) (eat (r_ts r) (map (pair cols) l))).
  { unfold eat. apply filter_In. cbn [snd]. split; [apply in_map; auto | apply Z.eqb_refl]. }
  rewrite <- S1 in HI. unfold eat in HI. apply filter_In in HI as [HI _]. apply dlog_in in HI as (g & Hg & _ & Hi). cbn [snd] in Hi.
  destruct (W g Hg) as [_ B]. apply (B r Hi).
Qed.
Lemma merged_ts_in l out r : merged w l out -> In r out -> exists x, In x l /\ r_ts x = r_ts r.
Proof.
  intros (_ & M2 & _) Hr. assert (HI : In (r_ts r) (map r_ts l)) by (apply M2, in_map; auto). apply in_map_iff in HI as (x & ? & ?). eauto.
Qed.
Lemma cache_chunk_ok id d l c : cache_ok d l -> In c (cache_chunk id d) ->
  chunk_ok w c /\ I64_MIN <= c_max c /\ c_file c = id /\ c_rows c = sd_read (fun _ => true) d.
Proof.
  intros H Hc. unfold cache_chunk in Hc. destruct (d_groups d) as [|g gs] eqn:E; [destruct Hc|]. destruct Hc as [<- | []].
  pose proof (cache_ok_read d l H) as M. pose proof H as (W & S & F & R). destruct R as [R1 R2]; [rewrite E; discriminate|].
  unfold chunk_ok. cbn [c_min c_max c_rows c_file]. split; [|auto]. split; [auto|]. split; [apply M|].
  apply Forall_forall. intros r Hr. destruct (merged_ts_in _ _ _ M Hr) as (x & Hx & <-).
  split; [apply (cache_range d l); auto|]. apply M; auto.
Qed.
Lemma cache_chunk_nil id d : cache_chunk id d = [] -> forall l, cache_ok d l -> l = [] /\ sd_read (fun _ => true) d = [].
Proof.
  unfold cache_chunk. destruct (d_groups d) as [|g gs] eqn:E; [|discriminate]. intros _ l H. pose proof (cache_ok_read d l H) as M.
  assert (l = []).
  { destruct l as [|r l]; auto. exfalso. destruct H as (_ & (n & S1 & _) & _). specialize (S1 (r_ts r)). unfold dlog in S1. rewrite E in S1.
    cbn [map concat] in S1. unfold eat at 2 in S1. cbn [filter snd] in S1. rewrite Z.eqb_refl in S1. cbn in S1. discriminate. }
  subst. split; auto. destruct (sd_read _ d) as [|x xs]; auto. destruct (merged_ts_in _ _ _ M (or_introl eq_refl)) as (y & [] & _).
Qed.
(** ** Files and compaction *)
Definition file_fine (f : sfile) : Prop :=
  s_rows f <> [] /\ StronglySorted (fun a b => r_ts a < r_ts b) (s_rows f) /\ Forall row_ok (s_rows f).
Lemma rows_bounds l r : StronglySorted (fun a b => r_ts a < r_ts b) l -> In r l -> rows_min l <= r_ts r <= rows_max l.
Proof.
  intros S Hr. unfold rows_min, rows_max. destruct l as [|x l]; [destruct Hr|]. split.
  - apply StronglySorted_inv in S as [_ F]. rewrite Forall_forall in F. destruct Hr as [-> | Hr]; [lia|]. specialize (F r Hr). lia.
  - revert x r S Hr. induction l as [|y l IH]; intros x r S Hr.
    + destruct Hr as [-> | []]. cbn. lia.
    + change (last (map r_ts (x :: y :: l)) 0) with (last (map r_ts (y :: l)) 0). apply StronglySorted_inv in S as [S F]. rewrite Forall_forall in F.
      destruct Hr as [-> | Hr]; [|apply IH; auto]. specialize (IH y y S (or_introl eq_refl)). specialize (F y (or_introl eq_refl)). lia.
Qed.
Lemma live_in f r : In r (live f) <-> In r (s_rows f) /\ in_trs (s_tombs f) (r_ts r) = false.
Proof. unfold live. rewrite filter_In. rewrite negb_true_iff. tauto. Qed.
Lemma live_sorted f : file_fine f -> StronglySorted (fun a b => r_ts a < r_ts b) (live f).
Proof. intros (_ & S & _). apply ss_filter. auto. Qed.
Lemma file_chunk_ok f : file_fine f -> chunk_ok w (file_chunk f) /\ I64_MIN <= c_max (file_chunk f).
Proof.
  intros H. pose proof H as (N & S & F). rewrite Forall_forall in F. unfold chunk_ok, file_chunk. cbn [c_min c_max c_rows].
  destruct (s_rows f) as [|x l] eqn:E; [congruence|]. assert (Hx : In x (s_rows f)) by (rewrite E; left; auto). rewrite <- E in *.
  pose proof (rows_bounds (s_rows f) x S Hx) as Bx. destruct (F x Hx) as [Fx _]. split; [|lia]. split; [lia|]. split; [apply live_sorted; auto|].
  apply Forall_forall. intros r Hr. apply live_in in Hr as [Hr _]. split; [apply rows_bounds; auto | apply (F r Hr)].
Qed.
Lemma as_input_ok n f : file_fine f -> file_ok w (as_input n f).
Proof.
  intros H. pose proof H as (N & S & F). rewrite Forall_forall in F. unfold file_ok, as_input. cbn [f_series f_tomb].
  split; [apply SSorted_cons; [apply SSorted_nil | apply Forall_nil]|]. apply Forall_cons; [|apply Forall_nil]. cbn [snd].
  split; [apply SSorted_cons; [apply SSorted_nil | apply Forall_nil]|]. apply Forall_cons; [|apply Forall_nil].
  destruct (s_rows f) as [|x l] eqn:E; [congruence|]. assert (Hx : In x (s_rows f)) by (rewrite E; left; auto). rewrite <- E in *.
  pose proof (rows_bounds (s_rows f) x S Hx) as Bx. destruct (F x Hx) as [Fx _].
  assert (Hmax : rows_max (s_rows f) <= I64_MAX /\ I64_MIN <= rows_min (s_rows f)).
  { split.
    - unfold rows_max. assert (HI : In (last (map r_ts (s_rows f)) 0) (map r_ts (s_rows f))).
      { rewrite E. clear. revert x. induction l as [|y l IH]; intros x; [left; auto|]. right. apply IH. }
      apply in_map_iff in HI as (r & <- & Hr). destruct (F r Hr). lia.
    - rewrite E. cbn [rows_min]. lia. }
  unfold block_ok. cbn [b_min b_max b_raw b_live]. split; [tauto|]. split; [lia|]. split; [tauto|]. split; [|split].
  - split; auto. apply Forall_forall. intros r Hr. split; [apply rows_bounds; auto | apply (F r Hr)].
  - split; [apply live_sorted; auto|]. apply Forall_forall. intros r Hr. apply live_in in Hr as [Hr _].
    split; [apply rows_bounds; auto | apply (F r Hr)].
  - intros Ht. unfold live. destruct (s_tombs f); [|discriminate]. apply filter_true. auto.
Qed.
Lemma as_inputs_go fs : forall n,
  let l := map (fun p => as_input (fst p) (snd p)) (combine (seq n (length fs)) fs) in
  concat (map (file_rows 0) l) = concat (map live fs) /\ map f_idx l = seq n (length fs) /\
  Forall (fun c => exists f m, In f fs /\ c = as_input m f) l.
Proof.
  induction fs as [|f fs IH]; intros n; cbn [length seq combine map concat].
  - split; auto.
  - destruct (IH (S n)) as (I1 & I2 & I3). cbn zeta in *. split; [|split].
    + rewrite I1. f_equal. unfold file_rows, as_input. cbn [fst snd f_series map concat b_live]. rewrite !app_nil_r. reflexivity.
    + cbn [as_input f_idx fst]. f_equal. exact I2.
    + apply Forall_cons; [exists f, n; split; [left|]; auto|]. eapply Forall_impl; [|exact I3]. intros c (g & m & Hg & ->). exists g, m. split; [right|]; auto.
Qed.
Lemma compact_rows_ok bs lo hi fs out : (1 <= bs)%nat -> Forall file_fine fs ->
  compact_files w bs lo hi (as_inputs fs) = Some out ->
  merged w (in_window lo hi (concat (map live fs))) (concat (map snd out)).
Proof.
  intros Hbs HF HC. destruct (as_inputs_go fs O) as (A1 & A2 & A3). cbn zeta in *. fold (as_inputs fs) in A1, A2, A3.
  assert (HL : length (as_inputs fs) = length fs) by (rewrite <- (map_length f_idx), A2; apply seq_length).
  destruct (compact_files_ok w bs lo hi (as_inputs fs) Hbs) as (out' & E & W & _).
  - split; [rewrite A2, HL; reflexivity|]. apply Forall_forall. intros c Hc. rewrite Forall_forall in A3, HF.
    destruct (A3 c Hc) as (f & m & Hf & ->). apply as_input_ok; auto.
  - split.
    + apply Forall_forall. intros c Hc. rewrite Forall_forall in A3. destruct (A3 c Hc) as (f & m & Hf & ->). discriminate.
    + clear - A3. induction (as_inputs fs) as [|c l IH]; [apply SSorted_nil|]. inversion A3 as [|? ? (f & m & _ & ->) A3']; subst.
      apply SSorted_cons; [apply IH; auto|]. apply Forall_forall. intros d Hd. rewrite Forall_forall in A3'.
      destruct (A3' d Hd) as (g & m' & _ & ->). cbn [as_input f_series]. lia.
  - rewrite HC in E. injection E as <-.
    assert (Hw : concat (map snd out) = written 0 out).
    { assert (Hz : forall p, In p out -> fst p <> 0 -> snd p = []).
      { intros p Hp Hne. specialize (W (fst p)).
        assert (E0 : live_rows (fst p) (as_inputs fs) = []).
        { unfold live_rows. assert (forall c, In c (as_inputs fs) -> file_rows (fst p) c = []).
          { intros c Hc. rewrite Forall_forall in A3. destruct (A3 c Hc) as (f & m & _ & ->). unfold file_rows, as_input. cbn [f_series map concat fst].
            destruct (Z.eqb_spec 0 (fst p)); [congruence|]. reflexivity. }
          clear - H. induction (as_inputs fs) as [|c l IH]; auto. cbn [map concat]. rewrite H by (left; auto). apply IH. intros; apply H; right; auto. }
        rewrite E0 in W. destruct (snd p) as [|x xs] eqn:Ep; auto. exfalso.
        assert (Hx : In x (written (fst p) out)).
        { unfold written. apply in_concat. exists (snd p). split; [apply in_map, filter_In; split; [auto|apply Z.eqb_refl] | rewrite Ep; left; auto]. }
        destruct (merged_ts_in _ _ _ W Hx) as (y & [] & _). }
      unfold written. clear - Hz. induction out as [|p out IH]; auto. cbn [map concat filter].
      rewrite IH by (intros; apply Hz; [right|]; auto). destruct (Z.eqb_spec (fst p) 0) as [E | E]; [reflexivity|].
      rewrite (Hz p) by (auto; left; auto). reflexivity. }
    rewrite Hw. specialize (W 0). unfold live_rows in W. rewrite A1 in W. exact W.
Qed.
(** ** The invariant *)
Variable bs : nat.
Hypothesis Hbs : (1 <= bs)%nat.
Definition rd (d : sdata) : list mrow := sd_read (fun _ => true) d.
Definition tag (f : sfile) : Z * list (Z * Z) := (s_id f, s_tombs f).
Definition job_ok (files : list sfile) (j : cjob) : Prop :=
  exists fs, map tag fs = j_in j /\ incl fs files /\ merged w (in_window (j_lo j) (j_hi j) (concat (map live fs))) (j_rows j).
Definition ids (e : engine) : list Z := map s_id (e_files e) ++ map k_id (e_imm e) ++ e_id e :: map j_id (e_jobs e).
Definition busy_ids (jobs : list cjob) : list Z := concat (map (fun j => map fst (j_in j)) jobs).
Record core (e : engine) (lm : list mrow) (P : list (scache * list mrow)) : Prop := {
  c_ids : NoDup (ids e);
  c_next : forall i, In i (ids e) -> i < e_next e;
  c_mut : cache_ok (e_data e) lm;
  c_imm : e_imm e = map fst P;
  c_caches : forall k l, In (k, l) P -> cache_ok (k_data k) l /\ (forall p, k_page k = Some p -> p = rd (k_data k));
  c_files : Forall file_fine (e_files e);
  c_jobs : forall j, In j (e_jobs e) -> job_ok (e_files e) j;
  c_disj : NoDup (busy_ids (e_jobs e)) }.
Definition content (e : engine) (lm : list mrow) (P : list (scache * list mrow)) : list mrow :=
  lm ++ concat (map snd P) ++ concat (map live (e_files e)).

Lemma core_new : core en_new [] [].
Proof.
  constructor; cbn [en_new ids e_files e_imm e_id e_jobs map app e_data e_next concat busy_ids fst snd].
  - constructor; [intros [] | constructor].
  - intros i [<- | []]. lia.
  - apply cache_ok_new.
  - reflexivity.
  - intros k l [].
  - constructor.
  - intros j [].
  - constructor.
Qed.
Lemma core_write e lm P rows : core e lm P -> op_ok cols (EWrite rows) -> core (en_write cols rows e) (lm ++ rows) P.
Proof. intros C Ho. destruct C. constructor; cbn [en_write e_files e_imm e_id e_jobs e_data e_next]; auto. apply cache_ok_write; auto. Qed.
Lemma nodup_mid {A} (a b : list A) x : NoDup (a ++ b) -> ~ In x (a ++ b) -> NoDup (a ++ x :: b).
Proof. intros H Hx. apply (Permutation_NoDup (l := x :: a ++ b)); [apply Permutation_middle | constructor; auto]. Qed.
Lemma core_switch e lm P : core e lm P ->
  core (en_switch e) (match d_groups (e_data e) with [] => lm | _ => [] end)
       (match d_groups (e_data e) with [] => P | _ => P ++ [(SCA (e_id e) (e_data e) None, lm)] end).
Proof.
  intros C. unfold en_switch. destruct (d_groups (e_data e)) as [|g gs] eqn:E; [auto|]. destruct C.
  assert (Hids : ids (ENG (e_next e + 1) (e_next e) sd_new (e_imm e ++ [SCA (e_id e) (e_data e) None]) (e_files e) (e_jobs e)) =
                 (map s_id (e_files e) ++ map k_id (e_imm e) ++ [e_id e]) ++ e_next e :: map j_id (e_jobs e)).
  { unfold ids. cbn [e_files e_imm e_id e_jobs]. rewrite map_app. cbn [map k_id]. rewrite <- !app_assoc. reflexivity. }
  assert (Hold : ids e = (map s_id (e_files e) ++ map k_id (e_imm e) ++ [e_id e]) ++ map j_id (e_jobs e)).
  { unfold ids. rewrite <- !app_assoc. reflexivity. }
  constructor; cbn [e_files e_imm e_id e_jobs e_data e_next]; auto.
  - rewrite Hids. apply nodup_mid; [rewrite <- Hold; auto|]. rewrite <- Hold. intros HI. specialize (c_next0 _ HI). lia.
  - intros i Hi. rewrite Hids in Hi. apply in_app_iff in Hi. cbn [In] in Hi.
    assert (In i (ids e) \/ i = e_next e) as [HI | ->]; [rewrite Hold, in_app_iff; intuition | specialize (c_next0 i HI); lia | lia].
  - apply cache_ok_new.
  - rewrite c_imm0, map_app. reflexivity.
  - intros k l Hk. apply in_app_iff in Hk as [Hk | [Hk | []]]; auto. injection Hk as <- <-. cbn [k_data k_page]. split; auto. discriminate.
Qed.
Lemma core_flush_read e lm P id : core e lm P ->
  core (en_flush_read id e) lm (map (fun p => (if k_id (fst p) =? id then SCA (k_id (fst p)) (k_data (fst p)) (Some (rd (k_data (fst p)))) else fst p, snd p)) P).
Proof.
  intros C. destruct C.
  assert (Hk : map k_id (e_imm (en_flush_read id e)) = map k_id (e_imm e)).
  { unfold en_flush_read. cbn [e_imm]. rewrite map_map. apply map_ext. intros k. destruct (_ =? _); auto. }
  constructor; cbn [en_flush_read e_files e_imm e_id e_jobs e_data e_next]; auto.
  - unfold ids in *. rewrite Hk. cbn [en_flush_read e_files e_id e_jobs]. auto.
  - unfold ids in *. rewrite Hk. cbn [en_flush_read e_files e_id e_jobs]. auto.
  - rewrite c_imm0, !map_map. apply map_ext. intros p. cbn [fst]. reflexivity.
  - intros k l Hi. apply in_map_iff in Hi as ([k0 l0] & E & Hi). cbn [fst snd] in E. injection E as <- <-.
    destruct (c_caches0 k0 l0 Hi) as [A B]. destruct (_ =? _); cbn [k_data k_page]; split; auto. intros p Hp. congruence.
Qed.
Lemma content_flush_read e lm P id : content (en_flush_read id e) lm (map (fun p => (if k_id (fst p) =? id then SCA (k_id (fst p)) (k_data (fst p)) (Some (rd (k_data (fst p)))) else fst p, snd p)) P) = content e lm P.
Proof. unfold content. rewrite map_map. reflexivity. Qed.

Lemma nodup_app_iff {A} (a b : list A) : NoDup (a ++ b) <-> NoDup a /\ NoDup b /\ (forall x, In x a -> ~ In x b).
Proof.
  split.
  - intros H. destruct (nodup_app a b H) as [Ha Hb]. split; auto. split; auto. intros x H1 H2.
    induction a as [|y a IH]; [destruct H1|]. cbn [app] in H. inversion H; subst. inversion Ha; subst. destruct H1 as [-> | H1]; auto.
    apply H4, in_app_iff. auto.
  - intros (Ha & Hb & Hd). induction a as [|y a IH]; auto. cbn [app]. inversion Ha; subst. constructor.
    + rewrite in_app_iff. intros [? | ?]; auto. apply (Hd y); auto. left; auto.
    + apply IH; auto. intros x Hx. apply Hd. right; auto.
Qed.
(** The cache that is replaced by its file. *)
Lemma flush_split e lm P id k page : core e lm P -> find (fun k => k_id k =? id) (e_imm e) = Some k -> k_page k = Some page ->
  exists P1 P2 l, P = P1 ++ (k, l) :: P2 /\ k_id k = id /\ page = rd (k_data k) /\ cache_ok (k_data k) l /\
    filter (fun k => negb (k_id k =? id)) (e_imm e) = map fst (P1 ++ P2).
Proof.
  intros C Hf Hp. destruct C. apply find_some in Hf as [Hk Ek]. apply Z.eqb_eq in Ek. rewrite c_imm0 in Hk.
  apply in_map_iff in Hk as ([k' l] & E & Hi). cbn [fst] in E. subst k'. destruct (c_caches0 k l Hi) as [A B].
  apply in_split in Hi as (P1 & P2 & ->). exists P1, P2, l. split; auto. split; auto. split; [apply B; auto|]. split; auto.
  rewrite c_imm0, !map_app, filter_app. cbn [map fst filter]. rewrite Ek, Z.eqb_refl. cbn [negb].
  unfold ids in c_ids0. rewrite c_imm0 in c_ids0. apply nodup_app_iff in c_ids0 as (_ & N & _). apply nodup_app_iff in N as (N & _ & _).
  rewrite !map_app in N. cbn [map fst] in N. apply NoDup_remove_2 in N. rewrite in_app_iff in N.
  f_equal; apply filter_true; intros x Hx; apply negb_true_iff, Z.eqb_neq; intros E; apply N; [left|right]; apply in_map_iff; exists x; split; congruence || auto.
Qed.
Lemma perm_ids (F I J : list Z) x e : Permutation ((F ++ [x]) ++ I ++ e :: J) (F ++ (x :: I) ++ e :: J).
Proof. rewrite <- app_assoc. apply Permutation_app_head. cbn [app]. apply Permutation_refl. Qed.
Lemma rd_sorted d l : cache_ok d l -> StronglySorted (fun a b => r_ts a < r_ts b) (rd d) /\ Forall row_ok (rd d).
Proof.
  intros H. pose proof (cache_ok_read d l H) as M. split; [apply M|]. apply Forall_forall. intros r Hr.
  destruct (merged_ts_in _ _ _ M Hr) as (x & Hx & Ex). destruct H as (_ & _ & F & _). rewrite Forall_forall in F. destruct (F x Hx) as [F1 _].
  split; [rewrite <- Ex; auto | apply M; auto].
Qed.
Lemma job_ok_more files files' j : incl files files' -> job_ok files j -> job_ok files' j.
Proof. intros H (fs & E & I & M). exists fs. split; auto. split; auto. intros x Hx. apply H, I; auto. Qed.
Lemma core_flush_apply e lm P id k page : core e lm P -> find (fun k => k_id k =? id) (e_imm e) = Some k -> k_page k = Some page ->
  forall P1 P2 l, P = P1 ++ (k, l) :: P2 -> k_id k = id -> page = rd (k_data k) -> cache_ok (k_data k) l ->
    filter (fun k => negb (k_id k =? id)) (e_imm e) = map fst (P1 ++ P2) ->
  core (en_flush_apply id e) lm (P1 ++ P2).
Proof.
  intros C Hf Hp P1 P2 l -> Ek Epage HK Hfil. pose proof C as C0. destruct C. unfold en_flush_apply. rewrite Hf.
  destruct k as [kid kd kp]. cbn [k_id k_data k_page] in *. subst kp kid.
  destruct (rd_sorted kd l HK) as [R1 R2].
  set (nf := match page with [] => [] | _ => [SFI id page []] end).
  assert (Hnf : nf = [] \/ nf = [SFI id page []] /\ page <> []) by (unfold nf; destruct page; [left; auto | right; split; [auto|discriminate]]).
  assert (Hids : forall x, In x (ids (ENG (e_next e) (e_id e) (e_data e) (map fst (P1 ++ P2)) (e_files e ++ nf) (e_jobs e))) -> In x (ids e)).
  { intros x. unfold ids. cbn [e_files e_imm e_id e_jobs]. rewrite c_imm0, !map_app, !in_app_iff. cbn [map fst k_id In].
    destruct Hnf as [-> | [-> _]]; cbn [map s_id In]; intuition. }
  rewrite Hfil. constructor; cbn [e_files e_imm e_id e_jobs e_data e_next]; auto.
  - unfold ids in c_ids0 |- *. cbn [e_files e_imm e_id e_jobs]. rewrite c_imm0, !map_app in c_ids0. cbn [map fst k_id] in c_ids0.
    assert (N1 : NoDup ((map s_id (e_files e) ++ [id]) ++ (map k_id (map fst (P1 ++ P2))) ++ e_id e :: map j_id (e_jobs e))).
    { eapply Permutation_NoDup; [|exact c_ids0]. rewrite <- !app_assoc. apply Permutation_app_head. cbn [app].
      rewrite !map_app, <- !app_assoc. symmetry. apply Permutation_middle. }
    destruct Hnf as [-> | [-> _]]; rewrite !map_app in *; cbn [map s_id]; auto.
    rewrite app_nil_r. rewrite <- app_assoc in N1. cbn [app] in N1. apply NoDup_remove_1 in N1. exact N1.
  - intros k0 l0 Hi. apply c_caches0. apply in_app_iff in Hi. apply in_app_iff. cbn [In]. tauto.
  - apply Forall_app. split; auto. destruct Hnf as [-> | [-> Hne]]; constructor; [|constructor]. split; [auto|]. cbn [s_rows]. subst page. split; auto.
  - intros j Hj. apply (job_ok_more (e_files e)); auto. intros x Hx. apply in_app_iff; auto.
Qed.
Lemma live_new id page : live (SFI id page []) = page.
Proof. unfold live. cbn [s_tombs s_rows in_trs existsb negb]. apply filter_true. auto. Qed.
Lemma content_flush_apply e lm P1 P2 id kd l page : cache_ok kd l -> page = rd kd ->
  find (fun k => k_id k =? id) (e_imm e) = Some (SCA id kd (Some page)) ->
  agree w (content e lm (P1 ++ (SCA id kd (Some page), l) :: P2)) (content (en_flush_apply id e) lm (P1 ++ P2)).
Proof.
  intros HK Ep Hf. pose proof (merged_agree _ _ _ (cache_ok_read kd l HK)) as A. fold (rd kd) in A. rewrite <- Ep in A.
  unfold content, en_flush_apply. rewrite Hf. cbn [e_files]. rewrite !map_app, !concat_app. cbn [map concat snd].
  set (X := lm ++ concat (map snd P1) ++ concat (map snd P2) ++ concat (map live (e_files e))).
  assert (E : concat (map live match page with [] => [] | _ => [SFI id page []] end) = page).
  { destruct page as [|x xs]; auto. cbn [map concat]. rewrite live_new. apply app_nil_r. }
  rewrite E. apply (agree_mem w (X ++ l) (X ++ page)); [| |apply agree_app; [apply agree_refl | exact A]].
  - intros r. unfold X. rewrite !in_app_iff. tauto.
  - intros r. unfold X. rewrite !in_app_iff. tauto.
Qed.

(** *** Delete *)
Lemma in_trs_app a b t : in_trs (a ++ b) t = in_trs a t || in_trs b t.
Proof. apply existsb_app. Qed.
Lemma live_delete f trs : live (SFI (s_id f) (s_rows f) (s_tombs f ++ trs)) = filter (fun r => negb (in_ranges trs (r_ts r))) (live f).
Proof.
  unfold live. cbn [s_rows s_tombs]. rewrite filter_filter. apply filter_ext. intros r. rewrite in_trs_app, negb_orb. reflexivity.
Qed.
Lemma core_delete e lm P trs : core e lm P -> idle e ->
  let del := filter (fun r => negb (in_ranges trs (r_ts r))) in
  core (en_delete trs e) (del lm) (map (fun p => (SCA (k_id (fst p)) (sd_delete_ranges (k_data (fst p)) trs) (k_page (fst p)), del (snd p))) P).
Proof.
  intros C [J1 J2] del. destruct C. rewrite Forall_forall in J2.
  assert (Hk : map k_id (e_imm (en_delete trs e)) = map k_id (e_imm e)) by (cbn [en_delete e_imm]; rewrite map_map; reflexivity).
  assert (Hf : map s_id (e_files (en_delete trs e)) = map s_id (e_files e)) by (cbn [en_delete e_files]; rewrite map_map; reflexivity).
  assert (Hids : ids (en_delete trs e) = ids e) by (unfold ids; rewrite Hk, Hf; reflexivity).
  constructor; rewrite ?Hids; cbn [en_delete e_files e_imm e_id e_jobs e_data e_next]; auto.
  - apply cache_ok_delete; auto.
  - rewrite c_imm0, !map_map. reflexivity.
  - intros k l Hi. apply in_map_iff in Hi as ([k0 l0] & E & Hi). cbn [fst snd] in E. injection E as <- <-. cbn [k_data k_page].
    destruct (c_caches0 k0 l0 Hi) as [A B]. split; [apply cache_ok_delete; auto|]. intros p Hp. exfalso.
    rewrite (J2 k0) in Hp; [discriminate|]. rewrite c_imm0. apply in_map_iff. exists (k0, l0). auto.
  - apply Forall_forall. intros f Hf2. apply in_map_iff in Hf2 as (f0 & <- & Hf2). rewrite Forall_forall in c_files0. specialize (c_files0 f0 Hf2).
    exact c_files0.
  - rewrite J1. intros j [].
Qed.
Lemma filter_concat {A} (f : A -> bool) l : filter f (concat l) = concat (map (filter f) l).
Proof. induction l as [|x l IH]; auto. cbn [concat map]. rewrite filter_app, IH. reflexivity. Qed.
Lemma content_delete e lm P trs :
  let del := filter (fun r => negb (in_ranges trs (r_ts r))) in
  content (en_delete trs e) (del lm) (map (fun p => (SCA (k_id (fst p)) (sd_delete_ranges (k_data (fst p)) trs) (k_page (fst p)), del (snd p))) P) = del (content e lm P).
Proof.
  intros del. unfold content, del. rewrite !filter_app, !filter_concat, !map_map. cbn [snd en_delete e_files]. rewrite map_map.
  f_equal. f_equal. f_equal. apply map_ext. intros f. apply live_delete.
Qed.

(** *** Compaction *)
Lemma nodupb_ok l : nodupb l = true -> NoDup l.
Proof.
  induction l as [|x l IH]; intros H; [constructor|]. cbn [nodupb] in H. apply andb_true_iff in H as [H1 H2]. constructor; auto.
  intros Hx. apply negb_true_iff in H1. assert (existsb (Z.eqb x) l = true); [|congruence]. apply existsb_exists. exists x. split; auto. apply Z.eqb_refl.
Qed.
Lemma pick_files_ok l fs : forall sel, pick_files l fs = Some sel -> map s_id sel = l /\ incl sel fs.
Proof.
  induction l as [|i l IH]; intros sel H; cbn [pick_files] in H.
  - injection H as <-. split; auto. intros x [].
  - destruct (find _ fs) as [f|] eqn:E; [|discriminate]. destruct (pick_files l fs) as [sel'|] eqn:E2; [|discriminate]. injection H as <-.
    destruct (IH sel' eq_refl) as [I1 I2]. apply find_some in E as [Hf Ef]. apply Z.eqb_eq in Ef. split; [cbn [map]; congruence|].
    intros x [<- | Hx]; auto.
Qed.
Lemma busy_in jobs i : busy jobs i = true <-> In i (busy_ids jobs).
Proof.
  unfold busy, busy_ids. rewrite existsb_exists, in_concat. split.
  - intros (j & Hj & H). apply existsb_exists in H as (x & Hx & E). apply Z.eqb_eq in E. exists (map fst (j_in j)).
    split; [apply in_map_iff; exists j; auto|]. rewrite <- E. apply in_map; auto.
  - intros (y & Hy & Hi). apply in_map_iff in Hy as (j & <- & Hj). exists j. split; auto. apply in_map_iff in Hi as (x & E & Hx).
    apply existsb_exists. exists x. split; auto. apply Z.eqb_eq. auto.
Qed.
Lemma core_compact_read e lm P fl lo hi : core e lm P -> core (en_compact_read w bs fl lo hi e) lm P.
Proof.
  intros C. unfold en_compact_read. destruct (_ && _) eqn:Eb; auto. apply andb_true_iff in Eb as [B1 B2]. apply nodupb_ok in B1.
  destruct (pick_files fl (e_files e)) as [fs|] eqn:Ep; auto. apply pick_files_ok in Ep as [Ef Ei].
  destruct (compact_files w bs lo hi (as_inputs fs)) as [out|] eqn:Ec; auto. pose proof C as C0. destruct C.
  assert (Hfine : Forall file_fine fs) by (apply Forall_forall; intros f Hf; rewrite Forall_forall in c_files0; auto).
  pose proof (compact_rows_ok bs lo hi fs out Hbs Hfine Ec) as M.
  set (j := CJB (e_next e) lo hi (map (fun f => (s_id f, s_tombs f)) fs) (concat (map snd out))).
  assert (Hids : ids (ENG (e_next e + 1) (e_id e) (e_data e) (e_imm e) (e_files e) (e_jobs e ++ [j])) = ids e ++ [e_next e]).
  { unfold ids. cbn [e_files e_imm e_id e_jobs]. rewrite map_app. cbn [map j_id j]. rewrite <- !app_assoc. reflexivity. }
  constructor; cbn [e_files e_imm e_id e_jobs e_data e_next]; auto.
  - rewrite Hids. apply nodup_app_iff. split; auto. split; [repeat constructor; intros []|]. intros x Hx [<- | []]. specialize (c_next0 _ Hx). lia.
  - intros i Hi. rewrite Hids in Hi. apply in_app_iff in Hi as [Hi | [<- | []]]; [specialize (c_next0 i Hi)|]; lia.
  - intros j0 Hj. apply in_app_iff in Hj as [Hj | [<- | []]]; auto. exists fs. cbn [j j_in j_lo j_hi j_rows]. split; auto.
  - unfold busy_ids in *. rewrite map_app, concat_app. cbn [map concat]. rewrite app_nil_r.
    assert (Ej : map fst (j_in j) = fl) by (unfold j; cbn [j_in]; rewrite map_map; exact Ef). rewrite Ej.
    apply nodup_app_iff. split; auto. split; [auto|]. intros x Hx Hi.
    apply negb_true_iff in B2. assert (existsb (busy (e_jobs e)) fl = true); [|congruence]. apply existsb_exists. exists x. split; auto.
    apply busy_in. auto.
Qed.
Lemma content_compact_read e lm P fl lo hi : content (en_compact_read w bs fl lo hi e) lm P = content e lm P.
Proof.
  unfold en_compact_read. destruct (_ && _); auto. destruct (pick_files _ _); auto. destruct (compact_files _ _ _ _ _); auto.
Qed.

Lemma nodup_key {A} (k : A -> Z) l a b : NoDup (map k l) -> In a l -> In b l -> k a = k b -> a = b.
Proof.
  induction l as [|x l IH]; intros HN Ha Hb E; [destruct Ha|]. cbn [map] in HN. inversion HN; subst.
  destruct Ha as [<- | Ha], Hb as [<- | Hb]; auto; exfalso; apply H1; [rewrite E|rewrite <- E]; apply in_map; auto.
Qed.
Lemma busy_split jobs j x : In j jobs -> In x (map fst (j_in j)) -> In x (busy_ids jobs).
Proof. intros Hj Hx. apply in_concat. exists (map fst (j_in j)). split; auto. apply in_map_iff. exists j. auto. Qed.
Lemma busy_unique jobs j j' x : NoDup (busy_ids jobs) -> In j jobs -> In j' jobs ->
  In x (map fst (j_in j)) -> In x (map fst (j_in j')) -> j = j'.
Proof.
  induction jobs as [|y jobs IH]; intros HN Hj Hj' Hx Hx'; [destruct Hj|]. unfold busy_ids in HN. cbn [map concat] in HN.
  apply nodup_app_iff in HN as (N1 & N2 & N3). destruct Hj as [-> | Hj], Hj' as [-> | Hj']; auto; exfalso.
  - apply (N3 x Hx). apply (busy_split jobs j' x); auto.
  - apply (N3 x Hx'). apply (busy_split jobs j x); auto.
Qed.
(** A file of the version, seen from a job. *)
Lemma find_input e lm P j f : core e lm P -> In j (e_jobs e) -> In f (e_files e) ->
  (find (fun i => fst i =? s_id f) (j_in j) = None /\ ~ In (s_id f) (map fst (j_in j))) \/
  (find (fun i => fst i =? s_id f) (j_in j) = Some (tag f) /\ forall fs, map tag fs = j_in j -> incl fs (e_files e) -> In f fs).
Proof.
  intros C Hj Hf. destruct C. destruct (c_jobs0 j Hj) as (fs0 & E0 & I0 & _).
  assert (N : NoDup (map s_id (e_files e))) by (unfold ids in c_ids0; apply nodup_app_iff in c_ids0; tauto).
  destruct (find _ (j_in j)) as [[i saved]|] eqn:E.
  - right. apply find_some in E as [Hi Ei]. cbn [fst] in Ei. apply Z.eqb_eq in Ei.
    assert (Hin : forall fs, map tag fs = j_in j -> incl fs (e_files e) -> In f fs /\ (i, saved) = tag f).
    { intros fs Em Hincl. rewrite <- Em in Hi. apply in_map_iff in Hi as (g & Eg & Hg).
      assert (g = f); [|subst; auto]. apply (nodup_key s_id (e_files e)); auto. unfold tag in Eg. congruence. }
    split; [f_equal; apply (Hin fs0); auto|]. intros fs Em Hincl. apply Hin; auto.
  - left. split; auto. intros HI. apply in_map_iff in HI as (x & Ex & Hx). eapply find_none in E; [|exact Hx]. cbn beta in E.
    apply Z.eqb_neq in E. congruence.
Qed.
Definition cnt := count_occ Z.eq_dec.
Lemma nodup_cnt l l' : (forall x, (cnt l' x <= cnt l x)%nat) -> NoDup l -> NoDup l'.
Proof. intros H N. apply (NoDup_count_occ Z.eq_dec). intros x. rewrite (NoDup_count_occ Z.eq_dec) in N. specialize (H x). specialize (N x). unfold cnt in *. lia. Qed.
Lemma cnt_app a b x : cnt (a ++ b) x = (cnt a x + cnt b x)%nat.
Proof. apply count_occ_app. Qed.
Lemma after_ids j f : after_compact j f = [] \/ exists f', after_compact j f = [f'] /\ s_id f' = s_id f /\ s_rows f' = s_rows f.
Proof.
  unfold after_compact. destruct (find _ _) as [[i saved]|]; [|right; exists f; auto]. destruct (_ && _); auto.
  right. eexists. split; [reflexivity|]. auto.
Qed.
Lemma after_cnt j fs x : (cnt (map s_id (concat (map (after_compact j) fs))) x <= cnt (map s_id fs) x)%nat.
Proof.
  induction fs as [|f fs IH]; auto. cbn [map concat]. rewrite map_app, cnt_app. destruct (after_ids j f) as [-> | (f' & -> & E & _)].
  - cbn [map]. unfold cnt in *. cbn [count_occ]. destruct (Z.eq_dec _ _); lia.
  - cbn [map]. rewrite E. unfold cnt in *. cbn [count_occ]. destruct (Z.eq_dec _ _); lia.
Qed.
Lemma jobs_cnt (jobs : list cjob) id x :
  cnt (map j_id (filter (fun j => negb (j_id j =? id)) jobs)) x = if Z.eq_dec x id then O else cnt (map j_id jobs) x.
Proof.
  induction jobs as [|j jobs IH]; [destruct (Z.eq_dec x id); auto|]. cbn [filter]. destruct (Z.eqb_spec (j_id j) id) as [E | E]; cbn [negb map]; unfold cnt in *; cbn [count_occ map].
  - rewrite IH. destruct (Z.eq_dec x id); auto. destruct (Z.eq_dec (j_id j) x); congruence.
  - rewrite IH. destruct (Z.eq_dec (j_id j) x); destruct (Z.eq_dec x id); auto. congruence.
Qed.
Lemma busy_filter f jobs x : (cnt (busy_ids (filter f jobs)) x <= cnt (busy_ids jobs) x)%nat.
Proof.
  unfold busy_ids. induction jobs as [|j jobs IH]; auto. cbn [filter map concat]. rewrite cnt_app. destruct (f j); [|lia].
  cbn [map concat]. rewrite cnt_app. lia.
Qed.
Lemma core_compact_apply e lm P id : core e lm P -> core (en_compact_apply id e) lm P.
Proof.
  intros C. unfold en_compact_apply. destruct (find _ (e_jobs e)) as [j|] eqn:E; auto. apply find_some in E as [Hj Ej]. apply Z.eqb_eq in Ej.
  pose proof C as C0. destruct C. destruct (c_jobs0 j Hj) as (fs & Em & Ei & M).
  set (nf := match j_rows j with [] => [] | _ => [SFI id (j_rows j) []] end).
  assert (Hnf : nf = [] \/ nf = [SFI id (j_rows j) []] /\ j_rows j <> []) by (unfold nf; destruct (j_rows j); [left; auto | right; split; [auto|discriminate]]).
  set (e' := ENG (e_next e) (e_id e) (e_data e) (e_imm e) (concat (map (after_compact j) (e_files e)) ++ nf) (filter (fun j => negb (j_id j =? id)) (e_jobs e))).
  assert (Hcnt : forall x, (cnt (ids e') x <= cnt (ids e) x)%nat).
  { intros x. unfold ids, e'. cbn [e_files e_imm e_id e_jobs]. rewrite !map_app, !cnt_app. 
    change (e_id e :: map j_id (filter (fun j => negb (j_id j =? id)) (e_jobs e))) with ([e_id e] ++ map j_id (filter (fun j => negb (j_id j =? id)) (e_jobs e))).
    change (e_id e :: map j_id (e_jobs e)) with ([e_id e] ++ map j_id (e_jobs e)). rewrite !cnt_app, jobs_cnt.
    pose proof (after_cnt j (e_files e) x) as HA.
    assert (HB : (cnt (map s_id nf) x + (if Z.eq_dec x id then 0 else cnt (map j_id (e_jobs e)) x) <= cnt (map j_id (e_jobs e)) x)%nat).
    { destruct (Z.eq_dec x id) as [-> | Hx].
      - assert (1 <= cnt (map j_id (e_jobs e)) id)%nat.
        { unfold cnt. apply (count_occ_In Z.eq_dec). rewrite <- Ej. apply in_map; auto. }
        destruct Hnf as [-> | [-> _]]; unfold cnt in *; cbn [map count_occ s_id]; [lia|]. destruct (Z.eq_dec id id); lia.
      - assert (cnt (map s_id nf) x = 0)%nat; [|lia]. destruct Hnf as [-> | [-> _]]; unfold cnt; cbn [map count_occ s_id]; auto.
        destruct (Z.eq_dec id x); congruence. }
    lia. }
  assert (Hin : forall x, In x (ids e') -> In x (ids e)).
  { intros x Hx. apply (count_occ_In Z.eq_dec) in Hx. apply (count_occ_In Z.eq_dec). specialize (Hcnt x). unfold cnt in Hcnt. lia. }
  assert (Hnid : forall j', In j' (filter (fun j => negb (j_id j =? id)) (e_jobs e)) -> In j' (e_jobs e) /\ j' <> j).
  { intros j' H'. apply filter_In in H' as [H1 H2]. apply negb_true_iff, Z.eqb_neq in H2. split; auto. congruence. }
  constructor; unfold e'; cbn [e_files e_imm e_id e_jobs e_data e_next]; auto.
  - apply (nodup_cnt (ids e)); auto.
  - apply Forall_app. split.
    + apply Forall_forall. intros f Hf. apply in_concat in Hf as (y & Hy & Hf). apply in_map_iff in Hy as (g & <- & Hg).
      rewrite Forall_forall in c_files0. specialize (c_files0 g Hg). destruct (after_ids j g) as [Ea | (f' & Ea & _ & Er)]; rewrite Ea in Hf; [destruct Hf|].
      destruct Hf as [-> | []]. unfold file_fine. rewrite Er. exact c_files0.
    + destruct Hnf as [-> | [-> Hne]]; constructor; [|constructor]. split; [auto|]. cbn [s_rows]. split; [apply M|].
      apply Forall_forall. intros r Hr. destruct (merged_ts_in _ _ _ M Hr) as (x & Hx & Ex). unfold in_window in Hx. apply filter_In in Hx as [Hx _].
      apply in_concat in Hx as (y & Hy & Hx). apply in_map_iff in Hy as (f & <- & Hf). apply live_in in Hx as [Hx _].
      rewrite Forall_forall in c_files0. destruct (c_files0 f (Ei f Hf)) as (_ & _ & F). rewrite Forall_forall in F. destruct (F x Hx).
      split; [rewrite <- Ex; auto | apply M; auto].
  - intros j' Hj'. apply Hnid in Hj' as [Hj' Hne]. destruct (c_jobs0 j' Hj') as (fs' & Em' & Ei' & M'). exists fs'. split; auto. split; auto.
    intros f Hf. apply in_app_iff. left. apply in_concat. exists (after_compact j f). split; [apply in_map; auto|].
    assert (Hx' : In (s_id f) (map fst (j_in j'))) by (rewrite <- Em', map_map; apply in_map_iff; exists f; auto).
    unfold after_compact. destruct (find_input e lm P j f C0 Hj (Ei' f Hf)) as [[-> _] | [Ef _]]; [left; auto|]. exfalso. apply Hne.
    apply (busy_unique (e_jobs e) j' j (s_id f)); auto. apply find_some in Ef as [Ef _]. apply (in_map fst) in Ef. exact Ef.
  - apply (nodup_cnt (busy_ids (e_jobs e))); auto. apply busy_filter.
Qed.
Lemma window_bool lo hi r : in_trs [(lo, hi)] (r_ts r) = (lo <=? r_ts r) && (r_ts r <=? hi).
Proof. cbn. apply orb_false_r. Qed.
Lemma content_compact_apply e lm P id : core e lm P -> agree w (content e lm P) (content (en_compact_apply id e) lm P).
Proof.
  intros C. unfold en_compact_apply. destruct (find _ (e_jobs e)) as [j|] eqn:E; [|apply agree_refl]. apply find_some in E as [Hj Ej]. apply Z.eqb_eq in Ej.
  pose proof (c_jobs _ _ _ C j Hj) as (fs & Em & Ei & M). pose proof (merged_agree _ _ _ M) as A.
  unfold content. cbn [e_files]. rewrite !app_assoc. apply agree_app; [apply agree_refl|].
  set (isin f := match find (fun i : Z * list (Z * Z) => fst i =? s_id f) (j_in j) with None => false | Some _ => true end).
  set (N := concat (map live (filter (fun f => negb (isin f)) (e_files e)))).
  set (O := CompactSpec.outside (j_lo j) (j_hi j) (concat (map live fs))).
  set (W := in_window (j_lo j) (j_hi j) (concat (map live fs))) in *.
  assert (Hcl : forall l r, In r (concat (map live l)) <-> exists f, In f l /\ In r (live f)).
  { intros l r. rewrite in_concat. split.
    - intros (y & Hy & Hr). apply in_map_iff in Hy as (f & <- & Hf). eauto.
    - intros (f & Hf & Hr). exists (live f). split; auto. apply in_map; auto. }
  assert (Hfs : forall f, In f (e_files e) -> isin f = true <-> In f fs).
  { intros f Hf. unfold isin. destruct (find_input e lm P j f C Hj Hf) as [[-> H2] | [-> H2]].
    - split; [discriminate|]. intros HI. exfalso. apply H2. rewrite <- Em, map_map. apply in_map_iff. exists f. auto.
    - split; auto. }
  apply (agree_mem w ((N ++ O) ++ W) ((N ++ O) ++ j_rows j)); [| |apply agree_app; [apply agree_refl | exact A]].
  - intros r. unfold N, O, W, CompactSpec.outside, in_window. rewrite !in_app_iff, !filter_In, !Hcl. split.
    + intros [[(f & Hf & Hr) | [(f & Hf & Hr) _]] | [(f & Hf & Hr) _]]; exists f; split; auto. apply filter_In in Hf. tauto.
    + intros (f & Hf & Hr). destruct (isin f) eqn:Eb.
      * apply Hfs in Eb; auto. destruct ((j_lo j <=? r_ts r) && (r_ts r <=? j_hi j)); [right|left; right]; split; auto; exists f; auto.
      * left. left. exists f. split; auto. apply filter_In. rewrite Eb. auto.
  - intros r. rewrite map_app, concat_app. rewrite (in_app_iff (N ++ O)), (in_app_iff (concat (map live (concat _)))).
    assert (H2 : In r (concat (map live match j_rows j with [] => [] | _ => [SFI id (j_rows j) []] end)) <-> In r (j_rows j)).
    { destruct (j_rows j); [tauto|]. cbn [map concat]. rewrite live_new, app_nil_r. tauto. }
    rewrite H2. assert (H1 : In r (N ++ O) <-> In r (concat (map live (concat (map (after_compact j) (e_files e)))))); [|tauto].
    unfold N, O, CompactSpec.outside. rewrite in_app_iff, filter_In, !Hcl. split.
    + intros [(f & Hf & Hr) | [(f & Hf & Hr) Ho]].
      * apply filter_In in Hf as [Hf Hb]. exists f. split; auto. apply in_concat. exists (after_compact j f). split; [apply in_map; auto|].
        unfold after_compact. unfold isin in Hb. destruct (find _ (j_in j)); [discriminate | left; auto].
      * assert (Hfe : In f (e_files e)) by auto. pose proof Hf as Hb. apply Hfs in Hb; auto.
        destruct (find_input e lm P j f C Hj Hfe) as [[Hn _] | [Hs _]]; [unfold isin in Hb; rewrite Hn in Hb; discriminate|].
        exists (SFI (s_id f) (s_rows f) (s_tombs f ++ [(j_lo j, j_hi j)])). split.
        -- apply in_concat. exists (after_compact j f). split; [apply in_map; auto|]. unfold after_compact. rewrite Hs. cbn [tag].
           destruct ((j_lo j <=? rows_min (s_rows f)) && (rows_max (s_rows f) <=? j_hi j)) eqn:Ec; [|left; auto]. exfalso. apply live_in in Hr as [Hr _]. pose proof (c_files _ _ _ C) as F. rewrite Forall_forall in F.
           destruct (F f Hfe) as (_ & S & _). pose proof (rows_bounds _ r S Hr). apply negb_true_iff in Ho. lia.
        -- apply live_in in Hr as [Hr Ht]. apply live_in. cbn [s_rows s_tombs]. split; auto. rewrite in_trs_app, Ht, window_bool. apply negb_true_iff in Ho. exact Ho.
    + intros (f' & Hf' & Hr). apply in_concat in Hf' as (y & Hy & Hf'). apply in_map_iff in Hy as (f & <- & Hf). unfold after_compact in Hf'.
      destruct (find_input e lm P j f C Hj Hf) as [[Hn _] | [Hs Hin]].
      * rewrite Hn in Hf'. destruct Hf' as [-> | []]. left. exists f'. split; auto. apply filter_In. split; auto. unfold isin. rewrite Hn. auto.
      * rewrite Hs in Hf'. cbn [tag] in Hf'. destruct ((j_lo j <=? rows_min (s_rows f)) && (rows_max (s_rows f) <=? j_hi j)); [destruct Hf'|]. destruct Hf' as [<- | []]. apply live_in in Hr as [Hr Ht]. cbn [s_rows s_tombs] in Hr, Ht.
        rewrite in_trs_app in Ht. apply orb_false_iff in Ht as [Ht1 Ht2]. rewrite window_bool in Ht2. right. split; [|rewrite Ht2; auto].
        exists f. split; [apply Hin; auto|]. apply live_in. auto.
Qed.
(** ** Reading *)
Lemma chunks_in e lm P c : core e lm P -> In c (chunks e) -> chunk_ok w c /\ I64_MIN <= c_max c.
Proof.
  intros C Hc. destruct C. unfold chunks in Hc. apply in_app_iff in Hc as [Hc | Hc]; [|apply in_app_iff in Hc as [Hc | Hc]].
  - apply in_map_iff in Hc as (f & <- & Hf). rewrite Forall_forall in c_files0. apply file_chunk_ok; auto.
  - apply in_concat in Hc as (y & Hy & Hc). apply in_map_iff in Hy as (k & <- & Hk). rewrite c_imm0 in Hk.
    apply in_map_iff in Hk as ([k0 l] & <- & Hk). cbn [fst] in Hc. destruct (c_caches0 k0 l Hk) as [A _]. apply (cache_chunk_ok _ _ l) in Hc; tauto.
  - apply (cache_chunk_ok _ _ lm) in Hc; tauto.
Qed.
Lemma cache_chunk_ids id d : map c_file (cache_chunk id d) = [] \/ map c_file (cache_chunk id d) = [id].
Proof. unfold cache_chunk. destruct (d_groups d); auto. Qed.
Lemma chunks_nodup e lm P : core e lm P -> NoDup (map c_file (chunks e)).
Proof.
  intros C. apply (nodup_cnt (ids e)); [|apply C]. intros x. unfold ids, chunks. rewrite !map_app, map_map. cbn [file_chunk c_file].
  change (e_id e :: map j_id (e_jobs e)) with ([e_id e] ++ map j_id (e_jobs e)). rewrite !cnt_app.
  assert (HA : (cnt (map c_file (concat (map (fun k => cache_chunk (k_id k) (k_data k)) (e_imm e)))) x <= cnt (map k_id (e_imm e)) x)%nat).
  { clear. induction (e_imm e) as [|k l IH]; auto. cbn [map concat]. rewrite map_app, cnt_app. change (k_id k :: map k_id l) with ([k_id k] ++ map k_id l).
    rewrite cnt_app. destruct (cache_chunk_ids (k_id k) (k_data k)) as [-> | ->]; [|lia]. unfold cnt in *. cbn [count_occ]. lia. }
  assert (HB : (cnt (map c_file (cache_chunk (e_id e) (e_data e))) x <= cnt [e_id e] x)%nat).
  { destruct (cache_chunk_ids (e_id e) (e_data e)) as [-> | ->]; [|lia]. unfold cnt. cbn [count_occ]. lia. }
  change (map (fun x0 : sfile => s_id x0) (e_files e)) with (map s_id (e_files e)). lia.
Qed.
Lemma read_ok e lm P l : core e lm P -> time_sorted (chunks e) l ->
  exists out, read_series w bs (fun _ => true) l = Some out /\ merged w (concat (map c_rows (sort_files (chunks e)))) out.
Proof.
  intros C T. destruct (read_series_ok w bs (fun _ => true) (chunks e) l (sort_files (chunks e))) as (out & R & M); auto.
  - apply Forall_forall. intros c Hc. apply (chunks_in e lm P c C Hc).
  - apply Forall_forall. intros c Hc. apply (chunks_in e lm P c C Hc).
  - split; [apply sort_files_perm|]. apply fle_flt; [|apply sort_files_sorted]. eapply Permutation_NoDup; [apply Permutation_map, sort_files_perm|].
    apply (chunks_nodup e lm P C).
  - exists out. split; auto. rewrite filter_true in M by auto. exact M.
Qed.
Lemma cache_chunk_rows id d l : cache_ok d l -> concat (map c_rows (cache_chunk id d)) = rd d.
Proof.
  intros H. pose proof (cache_chunk_nil id d) as Hn. unfold cache_chunk in *. destruct (d_groups d).
  - cbn [map concat]. symmetry. apply (Hn eq_refl l H).
  - cbn [map concat c_rows]. apply app_nil_r.
Qed.
Lemma chunks_rows e lm P : core e lm P ->
  concat (map c_rows (chunks e)) = concat (map live (e_files e)) ++ concat (map (fun p => rd (k_data (fst p))) P) ++ rd (e_data e).
Proof.
  intros C. destruct C. unfold chunks. rewrite !map_app, !concat_app. f_equal; [rewrite map_map; reflexivity|]. f_equal.
  - rewrite c_imm0. clear - c_caches0 Hnd. induction P as [|[k l] P IH]; auto. cbn [map concat fst]. rewrite map_app, concat_app.
    rewrite (cache_chunk_rows _ _ l) by (apply (c_caches0 k l); left; auto). f_equal. apply IH. intros; apply c_caches0; right; auto.
  - apply (cache_chunk_rows _ _ lm). auto.
Qed.
Lemma agree_concat {A} (f g : A -> list mrow) l : (forall x, In x l -> agree w (f x) (g x)) -> agree w (concat (map f l)) (concat (map g l)).
Proof.
  induction l as [|x l IH]; intros H; [apply agree_refl|]. cbn [map concat]. apply agree_app; [apply H; left; auto | apply IH; intros; apply H; right; auto].
Qed.
Lemma content_chunks e lm P : core e lm P -> agree w (content e lm P) (concat (map c_rows (sort_files (chunks e)))).
Proof.
  intros C. apply (agree_mem w (concat (map live (e_files e)) ++ concat (map snd P) ++ lm)
    (concat (map live (e_files e)) ++ concat (map (fun p => rd (k_data (fst p))) P) ++ rd (e_data e))).
  - intros r. unfold content. rewrite !in_app_iff. tauto.
  - intros r. rewrite <- (chunks_rows e lm P C). rewrite !in_concat. split; intros (y & Hy & Hr); exists y; split; auto; apply in_map_iff in Hy as (c & <- & Hc);
      apply in_map; [apply (Permutation_in c (sort_files_perm _)) | apply (Permutation_in c (Permutation_sym (sort_files_perm _)))]; auto.
  - apply agree_app; [apply agree_refl|]. apply agree_app.
    + apply agree_concat. intros [k l] Hp. cbn [fst snd]. apply merged_agree, cache_ok_read. apply (c_caches _ _ _ C k l Hp).
    + apply merged_agree, cache_ok_read, C.
Qed.

(** ** Histories *)
Lemma erun_snoc h o : erun cols bs (h ++ [o]) = estep cols bs (erun cols bs h) o.
Proof. unfold erun. rewrite fold_left_app. reflexivity. Qed.
Lemma rows_after_snoc h o : rows_after (h ++ [o]) = rstep (rows_after h) o.
Proof. unfold rows_after. rewrite fold_left_app. reflexivity. Qed.
Lemma deletes_idle_snoc h o : deletes_idle cols bs (h ++ [o]) ->
  deletes_idle cols bs h /\ (forall trs, o = EDelete trs -> idle (erun cols bs h)).
Proof.
  intros H. split.
  - intros b trs a E. apply (H b trs (a ++ [o])). rewrite E, <- app_assoc. reflexivity.
  - intros trs ->. apply (H h trs []). reflexivity.
Qed.
Lemma run_inv h : Forall (op_ok cols) h -> deletes_idle cols bs h ->
  exists lm P, core (erun cols bs h) lm P /\ agree w (rows_after h) (content (erun cols bs h) lm P).
Proof.
  induction h as [|o h IH] using rev_ind; intros Ho Hd.
  - exists [], []. split; [apply core_new|]. apply agree_refl.
  - apply Forall_app in Ho as [Ho Ho1]. inversion Ho1 as [|? ? Hop _]; subst. apply deletes_idle_snoc in Hd as [Hd Hidle].
    destruct (IH Ho Hd) as (lm & P & C & A). rewrite erun_snoc, rows_after_snoc. set (e := erun cols bs h) in *.
    destruct o as [rows|trs| |id|id|fl lo hi|id]; cbn [estep rstep].
    + exists (lm ++ rows), P. split; [apply core_write; auto|].
      apply (agree_mem w (rows_after h ++ rows) (content e lm P ++ rows)); [tauto| |apply agree_app; [auto | apply agree_refl]].
      intros r. unfold content. cbn [en_write e_files]. rewrite !in_app_iff. tauto.
    + eexists _, _. split; [apply core_delete; eauto|]. rewrite content_delete. apply (agree_filter w (fun t => negb (in_ranges trs t))); auto.
    + eexists _, _. split; [apply core_switch; eauto|]. eapply agree_trans; [exact A|]. unfold en_switch.
      destruct (d_groups (e_data e)); [apply agree_refl|]. unfold content. cbn [e_files]. rewrite map_app, concat_app. cbn [map concat snd].
      apply (agree_mem w (lm ++ concat (map snd P) ++ concat (map live (e_files e))) (lm ++ concat (map snd P) ++ concat (map live (e_files e)))); [tauto| |apply agree_refl].
      intros x. rewrite !in_app_iff. cbn [In]. tauto.
    + eexists _, _. split; [apply core_flush_read; eauto|]. rewrite content_flush_read. auto.
    + destruct (find (fun k => k_id k =? id) (e_imm e)) as [k|] eqn:Ef.
      2:{ exists lm, P. unfold en_flush_apply. rewrite Ef. auto. }
      destruct (k_page k) as [page|] eqn:Ep.
      2:{ exists lm, P. unfold en_flush_apply. rewrite Ef. destruct k as [? ? kp]. cbn [k_page] in Ep. subst kp. auto. }
      destruct (flush_split e lm P id k page C Ef Ep) as (P1 & P2 & l & -> & Ek & Epg & HK & Hfil).
      exists lm, (P1 ++ P2). split; [eapply core_flush_apply; eauto|]. eapply agree_trans; [exact A|].
      destruct k as [kid kd kp]. cbn [k_id k_data k_page] in *. subst kid kp. apply content_flush_apply; auto.
    + exists lm, P. split; [apply core_compact_read; auto|]. rewrite content_compact_read. auto.
    + exists lm, P. split; [apply core_compact_apply; auto|]. eapply agree_trans; [exact A|]. apply content_compact_apply; auto.
Qed.
Lemma engine_shows h l : Forall (op_ok cols) h -> deletes_idle cols bs h -> time_sorted (chunks (erun cols bs h)) l ->
  exists out, read_series w bs (fun _ => true) l = Some out /\ shows w (rows_after h) out.
Proof.
  intros Ho Hd T. destruct (run_inv h Ho Hd) as (lm & P & C & A). destruct (read_ok _ lm P l C T) as (out & R & M). exists out. split; auto.
  apply agree_shows; [|apply M | intros r Hr; apply M; auto]. eapply agree_trans; [exact A|]. eapply agree_trans; [apply (content_chunks _ lm P C)|].
  apply merged_agree. auto.
Qed.
(** ** Without compaction the ids order the writes *)
Definition nch (id : Z) (rows : list mrow) : chunk := CH id 0 0 rows.
Definition ne (c : chunk) : bool := match c_rows c with [] => false | _ => true end.
Definition norm (c : chunk) : chunk := nch (c_file c) (c_rows c).
Definition placed (e : engine) (P : list (scache * list mrow)) : list chunk :=
  map (fun f => nch (s_id f) (live f)) (e_files e) ++ map (fun p => nch (k_id (fst p)) (rd (k_data (fst p)))) P.
Definition ordered (e : engine) (lm : list mrow) (P : list (scache * list mrow)) (L : list mrow) : Prop :=
  e_jobs e = [] /\ exists U : list (chunk * list mrow),
    Permutation (filter ne (placed e P)) (filter ne (map fst U)) /\
    StronglySorted (fun a b => c_file a < c_file b) (map fst U) /\
    (forall u, In u U -> merged w (snd u) (c_rows (fst u)) /\ c_file (fst u) < e_id e /\ norm (fst u) = fst u) /\
    L = concat (map snd U) ++ lm.
Lemma ne_map_filter (g : list mrow -> list mrow) l : g [] = [] ->
  filter ne (map (fun c => nch (c_file c) (g (c_rows c))) l) = filter ne (map (fun c => nch (c_file c) (g (c_rows c))) (filter ne l)).
Proof.
  intros Hg. induction l as [|c l IH]; auto. cbn [map filter]. destruct (ne c) eqn:E.
  - cbn [map filter]. rewrite IH. reflexivity.
  - assert (c_rows c = []) as E2 by (unfold ne in E; destruct (c_rows c); [auto|discriminate]). unfold ne at 1. cbn [nch c_rows]. rewrite E2, Hg. exact IH.
Qed.
Lemma ordered_step h o lm P : Forall (op_ok cols) [o] -> is_compaction o = false ->
  let e := erun cols bs h in
  core e lm P -> (forall trs, o = EDelete trs -> idle e) -> ordered e lm P (rows_after h) ->
  exists lm' P', core (estep cols bs e o) lm' P' /\ ordered (estep cols bs e o) lm' P' (rstep (rows_after h) o).
Proof.
  intros Ho Hc e C Hidle (HJ & U & UP & US & UM & UL). inversion Ho as [|? ? Hop _]; subst.
  destruct o as [rows|trs| |id|id|fl lo hi|id]; cbn [estep rstep is_compaction] in *; try discriminate.
  - exists (lm ++ rows), P. split; [apply core_write; auto|]. split; [auto|]. exists U. split; auto. split; auto. split; auto.
    rewrite UL, app_assoc. reflexivity.
  - eexists _, _. split; [apply core_delete; eauto|]. split; [auto|].
    set (del := filter (fun r => negb (in_ranges trs (r_ts r)))).
    assert (Hpl : forall l, (forall c, In c l -> norm c = c) -> map (fun c => nch (c_file c) (del (c_rows c))) l = map (fun c => nch (c_file c) (del (c_rows c))) l) by auto.
    exists (map (fun u => (nch (c_file (fst u)) (del (c_rows (fst u))), del (snd u))) U). split; [|split; [|split]].
    + assert (E1 : placed (en_delete trs e) (map (fun p => (SCA (k_id (fst p)) (sd_delete_ranges (k_data (fst p)) trs) (k_page (fst p)), del (snd p))) P) =
                   map (fun c => nch (c_file c) (del (c_rows c))) (placed e P)).
      { unfold placed. rewrite map_app, !map_map. cbn [en_delete e_files fst]. rewrite map_map. f_equal.
        - apply map_ext. intros f. cbn [nch c_file c_rows]. rewrite live_delete. reflexivity.
        - apply map_ext_in. intros [k l] Hk. cbn [fst k_id k_data nch c_file c_rows]. destruct (c_caches _ _ _ C k l Hk) as [A _].
          unfold rd. rewrite (proj2 (cache_ok_delete _ _ trs A)). reflexivity. }
      rewrite E1.
      assert (E2 : map fst (map (fun u => (nch (c_file (fst u)) (del (c_rows (fst u))), del (snd u))) U) = map (fun c => nch (c_file c) (del (c_rows c))) (map fst U)).
      { rewrite !map_map. reflexivity. }
      rewrite E2, (ne_map_filter del (placed e P)), (ne_map_filter del (map fst U)) by reflexivity.
      apply perm_filter, Permutation_map. exact UP.
    + rewrite map_map. cbn [fst]. clear - US. induction U as [|u U IH]; cbn [map] in *; [constructor|]. apply StronglySorted_inv in US as [S F].
      constructor; [apply IH; auto|]. rewrite Forall_forall in *. intros c Hc. apply in_map_iff in Hc as (v & <- & Hv). cbn [nch c_file].
      apply (F (fst v)). apply in_map; auto.
    + intros u Hu. apply in_map_iff in Hu as (v & <- & Hv). cbn [fst snd nch c_rows c_file norm]. destruct (UM v Hv) as (A & B & _).
      split; [apply (merged_filter w (fun t => negb (in_ranges trs t))); auto|]. split; auto.
    + fold del. rewrite UL. unfold del. rewrite filter_app, filter_concat, !map_map. reflexivity.
  - eexists _, _. split; [apply core_switch; eauto|]. unfold en_switch. destruct (d_groups (e_data e)) as [|g gs] eqn:Eg.
    + split; [auto|]. exists U. auto.
    + split; [auto|]. exists (U ++ [(nch (e_id e) (rd (e_data e)), lm)]). split; [|split; [|split]].
      * unfold placed. cbn [e_files]. rewrite !map_app, app_assoc. cbn [map fst k_id k_data]. rewrite (filter_app ne (_ ++ _)), (filter_app ne (map fst U)).
        apply Permutation_app_tail. exact UP.
      * rewrite map_app. cbn [map fst]. apply ss_app; auto; [constructor; constructor|]. intros x y Hx [<- | []]. apply in_map_iff in Hx as (u & <- & Hu).
        cbn [nch c_file]. apply (UM u Hu).
      * assert (Hlt : e_id e < e_next e) by (apply (c_next _ _ _ C); unfold ids; rewrite !in_app_iff; right; right; left; auto).
        intros u Hu. cbn [e_id]. apply in_app_iff in Hu as [Hu | [<- | []]].
        -- destruct (UM u Hu) as (A & B & D). split; auto. split; auto. lia.
        -- cbn [fst snd nch c_rows c_file norm]. split; [apply cache_ok_read, C|]. split; auto.
      * rewrite UL, map_app, concat_app. cbn [map concat snd]. rewrite !app_nil_r. reflexivity.
  - eexists _, _. split; [apply core_flush_read; eauto|]. split; [auto|]. exists U. split; auto.
    assert (E : placed (en_flush_read id e) (map (fun p => (if k_id (fst p) =? id then SCA (k_id (fst p)) (k_data (fst p)) (Some (rd (k_data (fst p)))) else fst p, snd p)) P) = placed e P).
    { unfold placed. cbn [en_flush_read e_files]. f_equal. rewrite map_map. apply map_ext. intros p. cbn [fst]. destruct (_ =? _); reflexivity. }
    rewrite E. auto.
  - destruct (find (fun k => k_id k =? id) (e_imm e)) as [k|] eqn:Ef.
    2:{ exists lm, P. unfold en_flush_apply. rewrite Ef. split; auto. split; auto. exists U. auto. }
    destruct (k_page k) as [page|] eqn:Ep.
    2:{ exists lm, P. unfold en_flush_apply. rewrite Ef. destruct k as [? ? kp]. cbn [k_page] in Ep. subst kp. split; auto. split; auto. exists U. auto. }
    destruct (flush_split e lm P id k page C Ef Ep) as (P1 & P2 & l & -> & Ek & Epg & HK & Hfil).
    exists lm, (P1 ++ P2). split; [eapply core_flush_apply; eauto|]. destruct k as [kid kd kp]. cbn [k_id k_data k_page] in *. subst kid kp.
    unfold en_flush_apply. rewrite Ef. split; [auto|]. exists U. split; [|cbn [e_id]; auto]. eapply Permutation_trans; [|exact UP].
    unfold placed. cbn [e_files]. rewrite !map_app, !filter_app. cbn [map fst k_id k_data filter]. rewrite <- Epg.
    set (F := filter ne (map (fun f => nch (s_id f) (live f)) (e_files e))).
    set (Q1 := filter ne (map (fun p => nch (k_id (fst p)) (rd (k_data (fst p)))) P1)).
    set (Q2 := filter ne (map (fun p => nch (k_id (fst p)) (rd (k_data (fst p)))) P2)).
    destruct page as [|x xs].
    + cbn [map filter ne nch c_rows]. rewrite app_nil_r. apply Permutation_refl.
    + cbn [map filter ne nch c_rows s_id]. rewrite live_new. cbn [ne nch c_rows]. rewrite <- app_assoc. apply Permutation_app_head. cbn [app]. apply Permutation_middle.
  - exists lm, P. unfold en_compact_apply. rewrite HJ. cbn [find]. split; auto. split; auto. exists U. auto.
Qed.
Lemma run_ordered h : Forall (op_ok cols) h -> deletes_idle cols bs h -> Forall (fun o => is_compaction o = false) h ->
  exists lm P, core (erun cols bs h) lm P /\ ordered (erun cols bs h) lm P (rows_after h).
Proof.
  induction h as [|o h IH] using rev_ind; intros Ho Hd Hc.
  - exists [], []. split; [apply core_new|]. split; [auto|]. exists []. cbn. split; auto. split; [constructor|]. split; auto. intros u [].
  - apply Forall_app in Ho as [Ho Ho1]. apply deletes_idle_snoc in Hd as [Hd Hidle]. apply Forall_app in Hc as [Hc Hc1]. inversion Hc1 as [|? ? Hco _]; subst.
    destruct (IH Ho Hd Hc) as (lm & P & C & A). rewrite erun_snoc, rows_after_snoc. apply (ordered_step h o lm P); auto.
Qed.
Lemma insert_norm c l : map norm (insert_file c l) = insert_file (norm c) (map norm l).
Proof. induction l as [|x l IH]; auto. cbn [insert_file map]. cbn [norm nch c_file]. destruct (_ <=? _); cbn [map]; rewrite ?IH; reflexivity. Qed.
Lemma sort_norm l : map norm (sort_files l) = sort_files (map norm l).
Proof. induction l as [|x l IH]; auto. cbn [sort_files map]. rewrite insert_norm, IH. reflexivity. Qed.
Lemma ne_rows l : concat (map c_rows (filter ne l)) = concat (map c_rows l).
Proof. induction l as [|c l IH]; auto. cbn [filter map concat]. unfold ne at 1. destruct (c_rows c) eqn:E; cbn [map concat]; rewrite ?IH, ?E; reflexivity. Qed.
Lemma merged_concat (U : list (chunk * list mrow)) : forall A B out, (forall u, In u U -> merged w (snd u) (c_rows (fst u))) ->
  merged w (A ++ concat (map c_rows (map fst U)) ++ B) out -> merged w (A ++ concat (map snd U) ++ B) out.
Proof.
  induction U as [|u U IH]; intros A B out H M; auto. cbn [map concat] in *. rewrite <- app_assoc in *.
  apply (merged_subst w A (snd u) (c_rows (fst u))); [apply H; left; auto|]. rewrite app_assoc in *. apply IH; auto. intros; apply H; right; auto.
Qed.
Lemma cache_chunk_ne id d l : cache_ok d l -> filter ne (map norm (cache_chunk id d)) = filter ne [nch id (rd d)].
Proof.
  intros H. pose proof (cache_chunk_nil id d) as Hn. unfold cache_chunk in *. destruct (d_groups d).
  - destruct (Hn eq_refl l H) as [_ E]. unfold rd. rewrite E. reflexivity.
  - cbn [map norm nch c_file c_rows]. reflexivity.
Qed.
Lemma chunks_placed e lm P : core e lm P -> filter ne (map norm (chunks e)) = filter ne (placed e P ++ [nch (e_id e) (rd (e_data e))]).
Proof.
  intros C. destruct C. unfold chunks, placed. rewrite !map_app, !filter_app, <- app_assoc. f_equal; [rewrite map_map; reflexivity|]. f_equal.
  - rewrite c_imm0. clear - c_caches0 Hnd. induction P as [|[k l] P IH]; auto. cbn [map concat fst]. rewrite map_app, filter_app.
    rewrite (cache_chunk_ne _ _ l) by (apply (c_caches0 k l); left; auto). rewrite IH by (intros; apply c_caches0; right; auto).
    cbn [filter]. destruct (ne _); reflexivity.
  - apply (cache_chunk_ne _ _ lm). auto.
Qed.
Lemma engine_latest h l : Forall (op_ok cols) h -> deletes_idle cols bs h -> Forall (fun o => is_compaction o = false) h ->
  time_sorted (chunks (erun cols bs h)) l ->
  exists out, read_series w bs (fun _ => true) l = Some out /\ merged w (rows_after h) out.
Proof.
  intros Ho Hd Hc T. destruct (run_ordered h Ho Hd Hc) as (lm & P & C & (HJ & U & UP & US & UM & UL)).
  destruct (read_ok _ lm P l C T) as (out & R & M). exists out. split; auto. set (e := erun cols bs h) in *.
  set (V := U ++ [(nch (e_id e) (rd (e_data e)), lm)]).
  assert (HV : forall u, In u V -> merged w (snd u) (c_rows (fst u))).
  { intros u Hu. apply in_app_iff in Hu as [Hu | [<- | []]]; [apply (UM u Hu)|]. cbn [fst snd nch c_rows]. apply cache_ok_read, C. }
  assert (E : concat (map c_rows (sort_files (chunks e))) = concat (map c_rows (map fst V))).
  { transitivity (concat (map c_rows (map norm (sort_files (chunks e))))); [rewrite map_map; reflexivity|].
    rewrite <- (ne_rows (map norm _)), <- (ne_rows (map fst V)). f_equal. f_equal. apply flt_unique.
    - eapply Permutation_trans; [apply perm_filter, Permutation_map, Permutation_sym, sort_files_perm|].
      rewrite (chunks_placed e lm P C). unfold V. rewrite map_app, !filter_app. cbn [map fst]. apply Permutation_app_tail. exact UP.
    - apply ss_filter. rewrite sort_norm. apply fle_flt; [|apply sort_files_sorted].
      eapply Permutation_NoDup; [apply Permutation_map, sort_files_perm|]. rewrite map_map. cbn [norm nch c_file]. apply (chunks_nodup e lm P C).
    - apply ss_filter. unfold V. rewrite map_app. apply ss_app; auto; [cbn [map fst]; constructor; constructor|].
      intros x y Hx [<- | []]. apply in_map_iff in Hx as (u & <- & Hu). cbn [fst nch c_file]. apply (UM u Hu). }
  rewrite E in M. pose proof (merged_concat V [] [] out HV) as MM. cbn [app] in MM. rewrite !app_nil_r in MM. specialize (MM M).
  rewrite UL. unfold V in MM. rewrite map_app, concat_app in MM. cbn [map concat snd] in MM. rewrite app_nil_r in MM. exact MM.
Qed.
End Cols.
