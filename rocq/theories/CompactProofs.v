(** Proofs about compaction. *)
From Verif Require Import Prelude MergeModel MergeSpec MergeProofs MemModel MemSpec MemProofs ReadModel ReadSpec ReadProofs CompactModel CompactSpec.
Open Scope Z_scope.

(** ** Sorting by a key *)
Section Keys.
Context {A : Type} (k : A -> nat).
Lemma key_lt_nodup l : NoDup (map k l) -> StronglySorted (fun a b => (k a <= k b)%nat) l -> StronglySorted (fun a b => (k a < k b)%nat) l.
Proof.
  induction l as [|x l IH]; intros HN H; [constructor|]. apply StronglySorted_inv in H as [H1 H2]. cbn [map] in HN. inversion HN; subst.
  constructor; auto. rewrite Forall_forall in *. intros y Hy. specialize (H2 y Hy).
  assert (k x <> k y); [|lia]. intros E. apply H3. rewrite E. apply in_map; auto.
Qed.
Lemma key_unique a b : Permutation a b -> StronglySorted (fun a b => (k a < k b)%nat) a -> StronglySorted (fun a b => (k a < k b)%nat) b -> a = b.
Proof.
  revert b. induction a as [|x a IH]; intros b HP Ha Hb.
  - apply Permutation_nil in HP. auto.
  - destruct b as [|y b]; [apply Permutation_sym, Permutation_nil in HP; discriminate|].
    apply StronglySorted_inv in Ha as [Ha1 Ha2]. apply StronglySorted_inv in Hb as [Hb1 Hb2]. rewrite Forall_forall in *.
    assert (x = y) as <-.
    { assert (In x (y :: b)) as H1 by (apply (Permutation_in _ HP); left; auto).
      assert (In y (x :: a)) as H2 by (apply (Permutation_in _ (Permutation_sym HP)); left; auto).
      destruct H1 as [H1 | H1]; auto. destruct H2 as [H2 | H2]; auto. specialize (Ha2 y H2). specialize (Hb2 x H1). lia. }
    f_equal. apply IH; auto. eapply Permutation_cons_inv; eauto.
Qed.
Lemma ss_lt_nodup l : StronglySorted (fun a b => (k a < k b)%nat) l -> NoDup (map k l).
Proof.
  induction l as [|x l IH]; intros H; cbn [map]; [constructor|]. apply StronglySorted_inv in H as [H1 H2]. constructor; auto.
  intros Hx. apply in_map_iff in Hx as (y & E & Hy). rewrite Forall_forall in H2. specialize (H2 y Hy). lia.
Qed.
End Keys.

(** ** Merging *)
Lemma last_value_app3 a l m b : last_value l = last_value m -> last_value (a ++ l ++ b) = last_value (a ++ m ++ b).
Proof. intros E. rewrite !last_value_app, E. reflexivity. Qed.
Lemma rows_at_merged width L M t : merged width L M ->
  (forall c, (c < width)%nat -> last_value (map (col c) (rows_at t M)) = last_value (map (col c) (rows_at t L))) /\
  (In t (map r_ts M) <-> In t (map r_ts L)).
Proof.
  intros (M1 & M2 & M3). split; auto. intros c Hc.
  destruct (in_dec Z.eq_dec t (map r_ts M)) as [Hin | Hin].
  - apply in_map_iff in Hin as (r & <- & Hr). rewrite rows_at_nodup; auto.
    + destruct (M3 r Hr) as [_ C]. rewrite <- C by auto. cbn [map]. unfold last_value. cbn. destruct (col c r); auto.
    + clear - M1. induction M1; cbn [map]; constructor; auto. intros Hx. apply in_map_iff in Hx as (y & E & Hy).
      rewrite Forall_forall in H. specialize (H y Hy). lia.
  - rewrite !rows_at_nil; auto.
    + intros r Hr E. apply Hin. apply M2. rewrite <- E. apply in_map; auto.
    + intros r Hr E. apply Hin. rewrite <- E. apply in_map; auto.
Qed.
(** A part of the rows can be replaced by its merge. *)
Lemma merged_subst width A L M B out : merged width L M -> merged width (A ++ M ++ B) out -> merged width (A ++ L ++ B) out.
Proof.
  intros HM (O1 & O2 & O3). split; [auto|]. split.
  - intros t. rewrite O2, !map_app, !in_app_iff. destruct (rows_at_merged width L M t HM) as [_ E]. rewrite E. tauto.
  - intros r Hr. destruct (O3 r Hr) as [L1 C1]. split; auto. intros c Hc. rewrite (C1 c Hc), !rows_at_app, !map_app.
    apply last_value_app3. destruct (rows_at_merged width L M (r_ts r) HM) as [E _]. auto.
Qed.
Lemma merged_subst_r width A L M B out : merged width L M -> merged width (A ++ L ++ B) out -> merged width (A ++ M ++ B) out.
Proof.
  intros HM (O1 & O2 & O3). split; [auto|]. split.
  - intros t. rewrite O2, !map_app, !in_app_iff. destruct (rows_at_merged width L M t HM) as [_ E]. rewrite E. tauto.
  - intros r Hr. destruct (O3 r Hr) as [L1 C1]. split; auto. intros c Hc. rewrite (C1 c Hc), !rows_at_app, !map_app.
    apply last_value_app3. destruct (rows_at_merged width L M (r_ts r) HM) as [E _]. symmetry. auto.
Qed.

Lemma merge_batches_ok width bs l : l <> [] -> (1 <= bs)%nat ->
  Forall (fun rows => StronglySorted (fun a b => r_ts a < r_ts b) rows /\ Forall (fun r => length (r_cols r) = width) rows) l ->
  exists out, merge_batches width bs l = Some out /\ merged width (concat l) (concat out).
Proof.
  intros Hne Hbs HF. unfold merge_batches.
  assert (Hall : all_rows (map (fun rows => [rows]) l) = concat l).
  { unfold all_rows, rows_of. rewrite map_map. clear. induction l as [|x l IH]; auto. cbn [map]. rewrite !concat_cons, IH.
    cbn [concat]. rewrite app_nil_r. reflexivity. }
  destruct (sort_merge_ok width bs (map (fun rows => [rows]) l)) as (batches & R & M & _); auto.
  - destruct l; [congruence | discriminate].
  - rewrite Forall_forall in *. intros s Hs. apply in_map_iff in Hs as (x & <- & Hx). unfold stream_ok, rows_of.
    cbn [concat]. rewrite app_nil_r. destruct (HF x Hx) as [S1 S2]. split; auto.
    clear - S1. induction S1; constructor; auto. eapply Forall_impl; [|exact H]. cbn. lia.
  - rewrite Hall in *. destruct l; [congruence|]. rewrite R by lia. eauto.
Qed.

(** ** Ranges *)
Lemma cut_in lo hi rows r : In r (cut lo hi rows) <-> In r rows /\ lo <= r_ts r <= hi.
Proof. unfold cut, tr_contains. rewrite filter_In, andb_true_iff, !Z.leb_le. tauto. Qed.
Lemma cut_app lo hi a b : cut lo hi (a ++ b) = cut lo hi a ++ cut lo hi b.
Proof. apply filter_app. Qed.
Lemma cut_concat lo hi l : cut lo hi (concat l) = concat (map (cut lo hi) l).
Proof. induction l as [|x l IH]; auto. cbn [map]. rewrite !concat_cons, cut_app, IH. reflexivity. Qed.
Lemma cut_id lo hi rows : Forall (fun r => lo <= r_ts r <= hi) rows -> cut lo hi rows = rows.
Proof.
  intros H. unfold cut. apply filter_true. intros r Hr. rewrite Forall_forall in H. specialize (H r Hr).
  unfold tr_contains. rewrite andb_true_iff, !Z.leb_le. auto.
Qed.
Lemma cut_nil lo hi rows : (forall r, In r rows -> ~ lo <= r_ts r <= hi) -> cut lo hi rows = [].
Proof.
  intros H. destruct (cut lo hi rows) as [|r l] eqn:E; auto. exfalso.
  assert (In r (cut lo hi rows)) as HI by (rewrite E; left; auto). apply cut_in in HI as [HI1 HI2]. apply (H r); auto.
Qed.
Definition reaches (lo hi : Z) (b : cblock) : bool := boundless lo hi || tr_overlaps (b_min b) (b_max b) lo hi.
Lemma get_batch_ok width tomb lo hi b : block_ok width tomb b -> reaches lo hi b = true -> get_batch lo hi b = Some (cut lo hi (b_live b)).
Proof.
  intros (B1 & B2 & B3 & _ & (_ & B5) & _) HR. unfold reaches, get_batch in *. rewrite Forall_forall in B5.
  destruct (boundless lo hi) eqn:EB.
  - f_equal. symmetry. apply cut_id. apply Forall_forall. intros r Hr. specialize (B5 r Hr). unfold boundless in EB.
    apply andb_true_iff in EB as [E1 E2]. apply Z.eqb_eq in E1, E2. lia.
  - cbn [orb] in HR. rewrite HR. f_equal. destruct (tr_includes lo hi (b_min b) (b_max b)) eqn:EI; auto.
    symmetry. apply cut_id. apply Forall_forall. intros r Hr. specialize (B5 r Hr). unfold tr_includes in EI.
    apply andb_true_iff in EI as [E1 E2]. apply Z.leb_le in E1, E2. lia.
Qed.
Lemma not_reaches width tomb lo hi b : block_ok width tomb b -> reaches lo hi b = false -> cut lo hi (b_live b) = [].
Proof.
  intros (B1 & B2 & B3 & _ & (_ & B5) & _) HR. unfold reaches in HR. apply orb_false_iff in HR as [_ HR].
  unfold tr_overlaps in HR. apply negb_false_iff, orb_true_iff in HR. rewrite !Z.ltb_lt in HR. rewrite Forall_forall in B5.
  apply cut_nil. intros r Hr. specialize (B5 r Hr). lia.
Qed.

(** ** Groups of blocks *)
Definition glo (g : bgroup) : Z := g_lo g.
Definition group1 (g : bgroup) : Prop :=
  g_lo g <= g_hi g /\ g_blks g <> [] /\ forall b, In b (g_blks g) -> g_lo g <= b_min (m_blk b) /\ b_max (m_blk b) <= g_hi g.
Lemma absorb_none h l : (forall g, In g l -> g_hi h < g_lo g) -> absorb h l = (h, l).
Proof.
  induction l as [|g l IH]; intros H; cbn [absorb]; auto.
  unfold tr_overlaps. assert (g_hi h <? g_lo g = true) as -> by (apply Z.ltb_lt; apply H; left; auto). cbn [orb negb].
  rewrite IH; auto. intros x Hx. apply H. right; auto.
Qed.
Lemma absorb_ok l : forall h, StronglySorted (fun a b => g_lo a <= g_lo b) l -> Forall group1 l -> group1 h ->
  (forall g, In g l -> g_lo h <= g_lo g) ->
  exists l1 r h', absorb h l = (h', r) /\ l = l1 ++ r /\ g_blks h' = g_blks h ++ concat (map g_blks l1) /\ group1 h' /\
    (forall g, In g r -> g_hi h' < g_lo g).
Proof.
  induction l as [|g l IH]; intros h HS HG Hh Hlo; cbn [absorb].
  - exists [], [], h. cbn. rewrite app_nil_r. split; [|split; [|split; [|split]]]; auto. intros g [].
  - apply StronglySorted_inv in HS as [S1 S2]. inversion HG as [|? ? G1 G2]; subst. rewrite Forall_forall in S2.
    destruct (tr_overlaps (g_lo h) (g_hi h) (g_lo g) (g_hi g)) eqn:E.
    + destruct (IH (BG (Z.min (g_lo h) (g_lo g)) (Z.max (g_hi h) (g_hi g)) (g_blks h ++ g_blks g))) as (l1 & r & h' & E1 & E2 & E3 & E4 & E5); auto.
      * destruct Hh as (A1 & A2 & A3). destruct G1 as (B1 & B2 & B3). split; [cbn; lia|]. split; cbn [g_blks g_lo g_hi].
        { destruct (g_blks h); [congruence | discriminate]. }
        intros b Hb. apply in_app_iff in Hb as [Hb | Hb]; [specialize (A3 b Hb) | specialize (B3 b Hb)]; lia.
      * intros x Hx. cbn [g_lo]. specialize (S2 x Hx). specialize (Hlo g (or_introl eq_refl)). lia.
      * exists (g :: l1), r, h'. split; auto. split; [cbn; f_equal; auto|]. split; auto.
        rewrite E3. cbn [g_blks map concat]. rewrite app_assoc. reflexivity.
    + assert (Hgt : g_hi h < g_lo g).
      { unfold tr_overlaps in E. apply negb_false_iff, orb_true_iff in E. rewrite !Z.ltb_lt in E. destruct Hh, G1.
        specialize (Hlo g (or_introl eq_refl)). lia. }
      assert (Hall : forall x, In x (g :: l) -> g_hi h < g_lo x).
      { intros x [<- | Hx]; auto. specialize (S2 x Hx). lia. }
      rewrite absorb_none by (intros x Hx; apply Hall; right; auto).
      exists [], (g :: l), h. cbn. rewrite app_nil_r. split; [|split; [|split; [|split]]]; auto.
Qed.
Definition bsep (earlier later : bgroup) : Prop :=
  forall a b, In a (g_blks earlier) -> In b (g_blks later) -> b_max (m_blk a) < b_min (m_blk b).
Lemma group_all_ok fuel : forall l, (length l <= fuel)%nat -> StronglySorted (fun a b => g_lo a <= g_lo b) l -> Forall group1 l ->
  concat (map g_blks (group_all fuel l)) = concat (map g_blks l) /\ Forall group1 (group_all fuel l) /\ ForallOrdPairs bsep (group_all fuel l).
Proof.
  induction fuel as [|fuel IH]; intros l Hl HS HG.
  - destruct l; [|cbn in Hl; lia]. cbn. repeat split; constructor.
  - destruct l as [|h l]; [cbn; repeat split; constructor|]. cbn [group_all].
    apply StronglySorted_inv in HS as [S1 S2]. inversion HG as [|? ? G1 G2]; subst. rewrite Forall_forall in S2.
    destruct (absorb_ok l h S1 G2 G1) as (l1 & r & h' & -> & E2 & E3 & E4 & E5); auto.
    subst l. apply Forall_app in G2 as [G2 G3].
    assert (Hr : (length r <= fuel)%nat) by (cbn [length] in Hl; rewrite app_length in Hl; lia).
    assert (Sr : StronglySorted (fun a b => g_lo a <= g_lo b) r).
    { clear - S1. induction l1; auto. cbn [app] in S1. apply StronglySorted_inv in S1. apply IHl1, S1. }
    destruct (IH r Hr Sr G3) as (I1 & I2 & I3). cbn [map concat].
    split; [rewrite I1, E3, map_app, concat_app, app_assoc; reflexivity|]. split; [constructor; auto|]. constructor; auto.
    apply Forall_forall. intros g Hg a b Ha Hb. destruct E4 as (_ & _ & E4). specialize (E4 a Ha).
    assert (Hb' : In b (concat (map g_blks (group_all fuel r)))) by (apply in_concat; exists (g_blks g); split; auto; apply in_map; auto).
    rewrite I1 in Hb'. apply in_concat in Hb' as (bl & Hbl & Hb'). apply in_map_iff in Hbl as (g0 & <- & Hg0). specialize (E5 g0 Hg0).
    rewrite Forall_forall in G3. destruct (G3 g0 Hg0) as (_ & _ & F). specialize (F b Hb'). lia.
Qed.
Lemma insert_blk_perm b l : Permutation (b :: l) (insert_blk b l).
Proof. induction l as [|x l IH]; cbn [insert_blk]; auto. destruct (blk_le b x); auto. rewrite perm_swap. constructor. auto. Qed.
Lemma sort_blks_perm l : Permutation l (sort_blks l).
Proof. induction l as [|b l IH]; cbn [sort_blks]; auto. rewrite <- insert_blk_perm. constructor; auto. Qed.
Definition mle (a b : cbm) : Prop := b_min (m_blk a) <= b_min (m_blk b).
Lemma insert_blk_sorted b l : StronglySorted mle l -> StronglySorted mle (insert_blk b l).
Proof.
  induction l as [|x l IH]; intros H; cbn [insert_blk]; [repeat constructor|].
  apply StronglySorted_inv in H as [H1 H2]. destruct (blk_le b x) eqn:L; unfold blk_le in L.
  - assert (Hbx : mle b x) by (unfold mle; apply orb_true_iff in L; rewrite andb_true_iff, Z.ltb_lt, Z.eqb_eq in L; lia).
    constructor; [constructor; auto|]. constructor; auto. rewrite Forall_forall in *. intros y Hy. specialize (H2 y Hy). unfold mle in *. lia.
  - apply orb_false_iff in L as [L _]. apply Z.ltb_ge in L. constructor; auto. rewrite Forall_forall in *. intros y Hy.
    apply (Permutation_in y (Permutation_sym (insert_blk_perm b l))) in Hy. destruct Hy as [<- | Hy]; [auto|auto].
Qed.
Lemma sort_blks_sorted l : StronglySorted mle (sort_blks l).
Proof. induction l; cbn [sort_blks]; [constructor|]. apply insert_blk_sorted; auto. Qed.
Lemma block_groups_ok c : (forall m, In m c -> b_min (m_blk m) <= b_max (m_blk m)) ->
  Permutation c (concat (map g_blks (block_groups c))) /\ Forall group1 (block_groups c) /\ ForallOrdPairs bsep (block_groups c).
Proof.
  intros H. unfold block_groups.
  assert (Hin : forall m, In m (sort_blks c) -> b_min (m_blk m) <= b_max (m_blk m)).
  { intros m Hm. apply H. apply (Permutation_in m (Permutation_sym (sort_blks_perm c))); auto. }
  destruct (group_all_ok (length c) (map one_group (sort_blks c))) as (G1 & G2 & G3).
  - rewrite map_length, <- (Permutation_length (sort_blks_perm c)). auto.
  - pose proof (sort_blks_sorted c) as S. induction S; cbn [map]; constructor; auto.
    + apply IHS. intros m Hm. apply Hin. right; auto.
    + rewrite Forall_forall in *. intros g Hg. apply in_map_iff in Hg as (m & <- & Hm). apply H0; auto.
  - apply Forall_forall. intros g Hg. apply in_map_iff in Hg as (m & <- & Hm). specialize (Hin m Hm). split; [auto|]. split; [discriminate|].
    intros b [<- | []]. cbn. lia.
  - split; auto. rewrite G1. etransitivity; [apply sort_blks_perm|]. clear. induction (sort_blks c) as [|m l IH]; cbn [map concat]; auto.
    cbn [one_group g_blks app]. constructor; auto.
Qed.

(** ** Merging a group with what is left from the previous one *)
Lemma insert_idx_perm b l : Permutation (b :: l) (insert_idx b l).
Proof. induction l as [|x l IH]; cbn [insert_idx]; auto. destruct (_ <=? _)%nat; auto. rewrite perm_swap. constructor. auto. Qed.
Lemma sort_idx_perm l : Permutation l (sort_idx l).
Proof. induction l as [|b l IH]; cbn [sort_idx]; auto. rewrite <- insert_idx_perm. constructor; auto. Qed.
Lemma insert_idx_sorted b l : StronglySorted (fun a b => (m_idx a <= m_idx b)%nat) l -> StronglySorted (fun a b => (m_idx a <= m_idx b)%nat) (insert_idx b l).
Proof.
  induction l as [|x l IH]; intros H; cbn [insert_idx]; [repeat constructor|].
  apply StronglySorted_inv in H as [H1 H2]. destruct (Nat.leb_spec (m_idx b) (m_idx x)) as [L | L].
  - constructor; [constructor; auto|]. constructor; auto. rewrite Forall_forall in *. intros y Hy. specialize (H2 y Hy). lia.
  - constructor; auto. rewrite Forall_forall in *. intros y Hy.
    apply (Permutation_in y (Permutation_sym (insert_idx_perm b l))) in Hy. destruct Hy as [<- | Hy]; [lia|auto].
Qed.
Lemma sort_idx_sorted l : StronglySorted (fun a b => (m_idx a <= m_idx b)%nat) (sort_idx l).
Proof. induction l; cbn [sort_idx]; [constructor|]. apply insert_idx_sorted; auto. Qed.
Lemma sort_idx_in l m : In m (sort_idx l) <-> In m l.
Proof. split; apply Permutation_in; [apply Permutation_sym|]; apply sort_idx_perm. Qed.

Definition live (l : list cbm) : list mrow := concat (map (fun m => b_live (m_blk m)) l).
Definition mok (width : nat) (lo hi : Z) (m : cbm) : Prop := block_ok width (m_tomb m) (m_blk m) /\ reaches lo hi (m_blk m) = true.
Lemma live_in l r : In r (live l) <-> exists m, In m l /\ In r (b_live (m_blk m)).
Proof.
  unfold live. rewrite in_concat. split.
  - intros (x & Hx & Hr). apply in_map_iff in Hx as (m & <- & Hm). eauto.
  - intros (m & Hm & Hr). exists (b_live (m_blk m)). split; auto. apply in_map_iff. eauto.
Qed.
Definition small_ok (width : nat) (lo hi : Z) (p : list mrow) : Prop :=
  StronglySorted (fun a b => r_ts a < r_ts b) p /\ Forall (fun r => lo <= r_ts r <= hi /\ length (r_cols r) = width) p.
Lemma concat_opt {A} (o : option (list A)) : concat (opt_list o) = match o with Some x => x | None => [] end.
Proof. destruct o; cbn; [apply app_nil_r|]; auto. Qed.
Lemma rows_at_swap t a b : (forall x y, In x a -> In y b -> r_ts x <> r_ts y) -> rows_at t (a ++ b) = rows_at t (b ++ a).
Proof.
  intros H. rewrite !rows_at_app. destruct (rows_at t a) as [|x l] eqn:E; [rewrite app_nil_r; auto|].
  rewrite (rows_at_nil t b); [cbn [app]; rewrite app_nil_r; auto|].
  assert (HI : In x (rows_at t a)) by (rewrite E; left; auto). apply rows_at_in in HI as [HI <-].
  intros y Hy E2. apply (H x y); auto.
Qed.
Lemma batches_cut width lo hi l : Forall (mok width lo hi) l ->
  concat (map (fun m => opt_list (get_batch lo hi (m_blk m))) l) = map (fun m => cut lo hi (b_live (m_blk m))) l.
Proof.
  induction l as [|m l IH]; intros H; auto. inversion H as [|? ? [M1 M2] HF]; subst. cbn [map concat].
  rewrite (get_batch_ok width (m_tomb m)) by auto. rewrite IH by auto. reflexivity.
Qed.
Lemma cut_small width lo hi p : small_ok width lo hi p -> cut lo hi p = p.
Proof. intros [_ H]. apply cut_id. eapply Forall_impl; [|exact H]. cbn. tauto. Qed.
Lemma cut_live_concat lo hi l : concat (map (fun m => cut lo hi (b_live (m_blk m))) l) = cut lo hi (live l).
Proof. unfold live. rewrite cut_concat, map_map. reflexivity. Qed.

Lemma merge_prev_ok width bs lo hi prev g : (1 <= bs)%nat -> g_blks g <> [] -> Forall (mok width lo hi) (g_blks g) ->
  (forall p, prev = Some p -> small_ok width lo hi p /\ forall r m, In r p -> In m (g_blks g) -> r_ts r < b_min (m_blk m)) ->
  exists blks, merge_prev width bs lo hi prev g = Some blks /\
    merged width (concat (opt_list prev) ++ cut lo hi (live (sort_idx (g_blks g)))) (concat blks).
Proof.
  intros Hbs Hne Hok Hp.
  assert (Hok' : Forall (mok width lo hi) (sort_idx (g_blks g))).
  { rewrite Forall_forall in *. intros m Hm. apply Hok, sort_idx_in; auto. }
  assert (Hp' : forall p, prev = Some p -> small_ok width lo hi p /\ forall r m, In r p -> In m (sort_idx (g_blks g)) -> r_ts r < b_min (m_blk m)).
  { intros p E. destruct (Hp p E) as [P1 P2]. split; auto. intros r m Hr Hm. apply P2; auto. apply sort_idx_in; auto. }
  assert (Hne' : sort_idx (g_blks g) <> []).
  { intros E. apply Hne. apply Permutation_nil. rewrite <- E. apply Permutation_sym, sort_idx_perm. }
  assert (Hdis : forall p, prev = Some p -> forall x y, In x (cut lo hi (live (sort_idx (g_blks g)))) -> In y p -> r_ts y < r_ts x).
  { intros p E x y Hx Hy. destruct (Hp' p E) as [_ P2]. apply cut_in in Hx as [Hx _]. apply live_in in Hx as (m & Hm & Hx).
    specialize (P2 y m Hy Hm). rewrite Forall_forall in Hok'. destruct (Hok' m Hm) as [(_ & _ & _ & _ & (_ & B5) & _) _].
    rewrite Forall_forall in B5. specialize (B5 x Hx). lia. }
  clear Hok Hp Hne. unfold merge_prev. set (l := sort_idx (g_blks g)) in *. clearbody l. clear g. cbn zeta.
  assert (Hcut : forall m, In m l -> StronglySorted (fun a b => r_ts a < r_ts b) (cut lo hi (b_live (m_blk m))) /\
            Forall (fun r => length (r_cols r) = width) (cut lo hi (b_live (m_blk m)))).
  { intros m Hm. rewrite Forall_forall in Hok'. destruct (Hok' m Hm) as [(_ & _ & _ & _ & (B4 & B5) & _) _].
    split; [apply ss_filter; auto|]. rewrite Forall_forall in *. intros r Hr. apply cut_in in Hr. apply B5. tauto. }
  assert (HM : exists blks, merge_batches width bs (concat (map (fun m => opt_list (get_batch lo hi (m_blk m))) l) ++ opt_list (option_map (cut lo hi) prev)) = Some blks /\
    merged width (concat (opt_list prev) ++ cut lo hi (live l)) (concat blks)).
  { rewrite (batches_cut width) by auto.
    destruct (merge_batches_ok width bs (map (fun m => cut lo hi (b_live (m_blk m))) l ++ opt_list (option_map (cut lo hi) prev))) as (out & R & M); auto.
    - destruct l; [congruence | discriminate].
    - apply Forall_app. split.
      + apply Forall_forall. intros x Hx. apply in_map_iff in Hx as (m & <- & Hm). auto.
      + destruct prev as [p|]; cbn [option_map opt_list]; [|constructor]. constructor; [|constructor].
        destruct (Hp' p eq_refl) as [P1 _]. rewrite (cut_small width) by auto. destruct P1 as [P1 P2]. split; auto.
        eapply Forall_impl; [|exact P2]. cbn. tauto.
    - exists out. split; auto. rewrite concat_app, cut_live_concat in M. eapply merged_rows; [|exact M]. intros t.
      rewrite !concat_opt. destruct prev as [p|]; cbn [option_map].
      + rewrite (cut_small width lo hi p) by (apply (proj1 (Hp' p eq_refl))). apply rows_at_swap. intros x y Hx Hy.
        specialize (Hdis p eq_refl x y Hx Hy). lia.
      + rewrite app_nil_r. reflexivity. }
  destruct l as [|m l']; [congruence|]. destruct l' as [|m2 l']; [|exact HM].
  destruct (negb (m_tomb m) && tr_includes lo hi (b_min (m_blk m)) (b_max (m_blk m))) eqn:E; [|exact HM].
  apply andb_true_iff in E as [ET EI]. apply negb_true_iff in ET.
  inversion Hok' as [|? ? [(B1 & B2 & B3 & (B4 & B4') & (B5 & B5') & B6) _] _]; subst. specialize (B6 ET).
  assert (Hlive : cut lo hi (live [m]) = b_raw (m_blk m)).
  { unfold live. cbn [map concat]. rewrite app_nil_r, B6. apply cut_id. rewrite Forall_forall in *. intros r Hr. specialize (B4' r Hr).
    unfold tr_includes in EI. apply andb_true_iff in EI as [E1 E2]. apply Z.leb_le in E1, E2. lia. }
  rewrite Hlive in *. destruct (bs <=? length (b_raw (m_blk m)))%nat.
  - eexists. split; [reflexivity|]. rewrite concat_app. cbn [concat]. rewrite app_nil_r.
    apply merged_self.
    + rewrite concat_opt. destruct prev as [p|]; [|auto]. apply ss_app; auto; [apply (Hp' p eq_refl)|].
      intros x y Hx Hy. apply (Hdis p eq_refl y x Hy Hx).
    + rewrite concat_opt. destruct prev as [p|]; cbn [app]; [|eapply Forall_impl; [|exact B4']; cbn; tauto].
      apply Forall_app. split; [|eapply Forall_impl; [|exact B4']; cbn; tauto].
      destruct (Hp' p eq_refl) as [[_ P2] _]. eapply Forall_impl; [|exact P2]. cbn; tauto.
  - destruct prev as [p|].
    + destruct (Hp' p eq_refl) as [P1 _]. rewrite (cut_small width) by auto. destruct P1 as [P1 P2].
      destruct (merge_batches_ok width bs [b_raw (m_blk m); p]) as (out & R & M); auto; [discriminate| |].
      * constructor; [split; [auto|]; eapply Forall_impl; [|exact B4']; cbn; tauto|].
        constructor; [split; [auto|]; eapply Forall_impl; [|exact P2]; cbn; tauto|constructor].
      * exists out. split; auto. cbn [concat] in M. rewrite app_nil_r in M. cbn [opt_list concat]. rewrite app_nil_r.
        eapply merged_rows; [|exact M]. intros t. apply rows_at_swap. intros x y Hx Hy. specialize (Hdis p eq_refl x y Hx Hy). lia.
    + eexists. split; [reflexivity|]. cbn [opt_list concat app]. rewrite app_nil_r. apply merged_self; auto.
      eapply Forall_impl; [|exact B4']. cbn; tauto.
Qed.

Lemma split_last_ok bs l w p : split_last bs l = (w, p) -> concat l = concat w ++ concat (opt_list p).
Proof.
  revert w p. induction l as [|b l IH]; intros w p H; cbn [split_last] in H.
  - injection H as <- <-. reflexivity.
  - destruct l as [|b2 l].
    + destruct (_ <? _)%nat; injection H as <- <-; cbn [opt_list concat app]; rewrite ?app_nil_r; auto.
    + destruct (split_last bs (b2 :: l)) as [w' p'] eqn:E. injection H as <- <-. specialize (IH w' p' eq_refl).
      rewrite concat_cons, IH. cbn [concat]. rewrite <- app_assoc. reflexivity.
Qed.
Lemma ss_app_inv {A} (R : A -> A -> Prop) a b : StronglySorted R (a ++ b) ->
  StronglySorted R a /\ StronglySorted R b /\ forall x y, In x a -> In y b -> R x y.
Proof.
  induction a as [|x a IH]; intros H; cbn [app] in H.
  - split; [constructor|]. split; auto. intros x y [].
  - apply StronglySorted_inv in H as [H1 H2]. destruct (IH H1) as (I1 & I2 & I3). apply Forall_app in H2 as [H2 H3].
    split; [constructor; auto|]. split; auto. intros u v [<- | Hu] Hv; auto. rewrite Forall_forall in H3. auto.
Qed.
Definition glive (lo hi : Z) (g : bgroup) : list mrow := cut lo hi (live (sort_idx (g_blks g))).
Lemma compact_groups_ok width bs lo hi gs : (1 <= bs)%nat -> forall prev,
  Forall (fun g => g_blks g <> []) gs -> Forall (fun g => Forall (mok width lo hi) (g_blks g)) gs -> ForallOrdPairs bsep gs ->
  (forall p, prev = Some p -> small_ok width lo hi p /\ forall r g m, In r p -> In g gs -> In m (g_blks g) -> r_ts r < b_min (m_blk m)) ->
  exists w p, compact_groups width bs lo hi prev gs = Some (w, p) /\
    merged width (concat (opt_list prev) ++ concat (map (glive lo hi) gs)) (concat w ++ concat (opt_list p)).
Proof.
  intros Hbs. induction gs as [|g gs IH]; intros prev Hne Hok Hsep Hp; cbn [compact_groups].
  - exists [], prev. split; auto. cbn [map concat app]. rewrite app_nil_r. rewrite concat_opt. destruct prev as [p|].
    + destruct (Hp p eq_refl) as [[P1 P2] _]. apply merged_self; auto. eapply Forall_impl; [|exact P2]. cbn; tauto.
    + apply merged_nil.
  - inversion Hne as [|? ? N1 N2]; subst. inversion Hok as [|? ? K1 K2]; subst. apply fop_cons_inv in Hsep as [S1 S2].
    destruct (merge_prev_ok width bs lo hi prev g) as (blks & -> & M); auto.
    { intros p E. destruct (Hp p E) as [P1 P2]. split; auto. intros r m Hr Hm. apply (P2 r g m); auto. left; auto. }
    destruct (split_last bs blks) as [w p] eqn:ES. pose proof (split_last_ok bs blks w p ES) as HS. rewrite HS in M.
    set (G := cut lo hi (live (sort_idx (g_blks g)))) in *.
    assert (Hts : forall x, In x (concat w ++ concat (opt_list p)) -> lo <= r_ts x <= hi /\ length (r_cols x) = width /\
              forall g' m, In g' gs -> In m (g_blks g') -> r_ts x < b_min (m_blk m)).
    { intros x Hx. destruct M as (_ & M2 & M3). destruct (M3 x Hx) as [M3' _].
      assert (HI : In (r_ts x) (map r_ts (concat (opt_list prev) ++ G))) by (apply M2, in_map; auto).
      apply in_map_iff in HI as (y & Ey & Hy). rewrite <- Ey. apply in_app_iff in Hy as [Hy | Hy].
      - rewrite concat_opt in Hy. destruct prev as [q|]; [|destruct Hy]. destruct (Hp q eq_refl) as [[P1 P2] P3].
        rewrite Forall_forall in P2. destruct (P2 y Hy). split; [auto|]. split; auto. intros g' m Hg' Hm. apply (P3 y g' m); auto. right; auto.
      - unfold G in Hy. apply cut_in in Hy as [Hy Hr]. split; auto. split; auto. apply live_in in Hy as (m0 & Hm0 & Hy).
        rewrite sort_idx_in in Hm0. rewrite Forall_forall in K1. destruct (K1 m0 Hm0) as [(_ & _ & _ & _ & (_ & B5) & _) _].
        rewrite Forall_forall in B5. specialize (B5 y Hy). intros g' m Hg' Hm. rewrite Forall_forall in S1. specialize (S1 g' Hg' m0 m Hm0 Hm). lia. }
    destruct (ss_app_inv _ _ _ (proj1 M)) as (W1 & W2 & W3).
    destruct (IH p) as (w' & p' & -> & M'); auto.
    { intros q ->. cbn [opt_list concat] in *. rewrite app_nil_r in *. split.
      - split; auto. apply Forall_forall. intros r Hr. destruct (Hts r) as (T1 & T2 & _); [apply in_app_iff; auto|]. auto.
      - intros r g' m Hr Hg' Hm. destruct (Hts r) as (_ & _ & T3); [apply in_app_iff; auto|]. eapply T3; eauto. }
    exists (w ++ w'), p'. split; auto. cbn [map concat]. fold (glive lo hi g). change (glive lo hi g) with G.
    rewrite concat_app, <- !app_assoc. rewrite app_assoc.
    apply (merged_subst width [] _ _ (concat (map (glive lo hi) gs)) _ M). cbn [app]. rewrite <- app_assoc.
    apply merged_app; auto.
    + apply merged_self; auto. apply Forall_forall. intros r Hr. destruct (Hts r) as (_ & T2 & _); [apply in_app_iff; auto|]. auto.
    + intros x y Hx Hy. apply in_app_iff in Hy as [Hy | Hy]; [apply W3; auto|].
      apply in_concat in Hy as (s & Hs & Hy). apply in_map_iff in Hs as (g' & <- & Hg'). unfold glive in Hy. apply cut_in in Hy as [Hy _].
      apply live_in in Hy as (m & Hm & Hy). rewrite sort_idx_in in Hm. destruct (Hts x) as (_ & _ & T3); [apply in_app_iff; auto|].
      specialize (T3 g' m Hg' Hm). rewrite Forall_forall in K2. specialize (K2 g' Hg'). rewrite Forall_forall in K2.
      destruct (K2 m Hm) as [(_ & _ & _ & _ & (_ & B5) & _) _]. rewrite Forall_forall in B5. specialize (B5 y Hy). lia.
Qed.

(** ** Picking the blocks of the next series *)
Definition head_blocks (lo hi curr : Z) (f : cfile) : list cbm :=
  match f_series f with (s, bl) :: _ => if curr =? s then chunk_blocks lo hi f bl else [] | [] => [] end.
Definition drop (curr : Z) (f : cfile) : cfile :=
  match f_series f with (s, _) :: tl => if curr =? s then CF (f_idx f) (f_tomb f) tl else f | [] => f end.
Definition sids_ge (curr : Z) (f : cfile) : Prop := forall s, In s (f_series f) -> curr <= fst s.
Lemma file_head_ge width curr f : file_ok width f -> (forall s, peek f = Some s -> curr <= s) -> sids_ge curr f.
Proof.
  intros [S _] H s Hs. unfold peek in H. destruct (f_series f) as [|x l]; [destruct Hs|].
  apply StronglySorted_inv in S as [_ S]. rewrite Forall_forall in S. specialize (H _ eq_refl).
  destruct Hs as [<- | Hs]; auto. specialize (S s Hs). lia.
Qed.
Lemma collect_sorted lo hi curr fs : StronglySorted (fun a b => peek_le a b = true) fs ->
  (forall f s, In f fs -> peek f = Some s -> curr <= s) ->
  collect lo hi curr fs = (concat (map (head_blocks lo hi curr) fs), map (drop curr) fs).
Proof.
  induction fs as [|f fs IH]; intros HS H; cbn [collect map concat]; auto.
  apply StronglySorted_inv in HS as [S1 S2]. rewrite Forall_forall in S2.
  specialize (IH S1 (fun g s Hg => H g s (or_intror Hg))). unfold head_blocks at 1, drop at 1.
  destruct (f_series f) as [|[s bl] tl] eqn:E.
  - rewrite IH. reflexivity.
  - destruct (Z.eqb_spec curr s) as [-> | Hne]; [rewrite IH; reflexivity|].
    assert (Hs : curr < s). { assert (curr <= s); [|lia]. apply (H f); [left; auto|]. unfold peek. rewrite E. reflexivity. }
    assert (Hall : forall g, In g fs -> head_blocks lo hi curr g = [] /\ drop curr g = g).
    { intros g Hg. specialize (S2 g Hg). unfold peek_le, peek in S2. rewrite E in S2. unfold head_blocks, drop.
      destruct (f_series g) as [|[s' bl'] tl']; auto. cbn [fst] in S2. apply Z.leb_le in S2.
      destruct (Z.eqb_spec curr s'); [lia|]. auto. }
    f_equal.
    + cbn [app]. clear - Hall. induction fs as [|g fs IH]; auto. cbn [map concat].
      rewrite (proj1 (Hall g (or_introl eq_refl))). apply IH. intros x Hx. apply Hall. right; auto.
    + f_equal. clear - Hall. induction fs as [|g fs IH]; auto. cbn [map].
      rewrite (proj2 (Hall g (or_introl eq_refl))). f_equal. apply IH. intros x Hx. apply Hall. right; auto.
Qed.
Lemma insert_cf_perm f l : Permutation (f :: l) (insert_cf f l).
Proof. induction l as [|x l IH]; cbn [insert_cf]; auto. destruct (peek_le f x); auto. rewrite perm_swap. constructor. auto. Qed.
Lemma sort_cf_perm l : Permutation l (sort_cf l).
Proof. induction l as [|b l IH]; cbn [sort_cf]; auto. rewrite <- insert_cf_perm. constructor; auto. Qed.
Lemma peek_le_trans a b c : peek_le a b = true -> peek_le b c = true -> peek_le a c = true.
Proof. unfold peek_le. destruct (peek a), (peek b), (peek c); auto; try discriminate. rewrite !Z.leb_le. lia. Qed.
Lemma peek_le_total a b : peek_le a b = false -> peek_le b a = true.
Proof. unfold peek_le. destruct (peek a), (peek b); auto; try discriminate. rewrite Z.leb_gt, Z.leb_le. lia. Qed.
Lemma insert_cf_sorted f l : StronglySorted (fun a b => peek_le a b = true) l -> StronglySorted (fun a b => peek_le a b = true) (insert_cf f l).
Proof.
  induction l as [|x l IH]; intros H; cbn [insert_cf]; [repeat constructor|].
  apply StronglySorted_inv in H as [H1 H2]. destruct (peek_le f x) eqn:L.
  - constructor; [constructor; auto|]. constructor; auto. rewrite Forall_forall in *. intros y Hy. eapply peek_le_trans; eauto.
  - apply peek_le_total in L. constructor; auto. rewrite Forall_forall in *. intros y Hy.
    apply (Permutation_in y (Permutation_sym (insert_cf_perm f l))) in Hy. destruct Hy as [<- | Hy]; auto.
Qed.
Lemma sort_cf_sorted l : StronglySorted (fun a b => peek_le a b = true) (sort_cf l).
Proof. induction l; cbn [sort_cf]; [constructor|]. apply insert_cf_sorted; auto. Qed.

Lemma drop_idx curr f : f_idx (drop curr f) = f_idx f.
Proof. unfold drop. destruct (f_series f) as [|[s bl] tl]; auto. destruct (_ =? _); auto. Qed.
Lemma drop_ok width curr f : file_ok width f -> file_ok width (drop curr f).
Proof.
  intros H. unfold drop. destruct (f_series f) as [|[s bl] tl] eqn:E; auto. destruct (_ =? _); auto.
  destruct H as [H1 H2]. rewrite E in *. apply StronglySorted_inv in H1 as [H1 _]. inversion H2; subst. split; auto.
Qed.
Lemma drop_gt width curr f : file_ok width f -> sids_ge curr f -> forall s, In s (f_series (drop curr f)) -> curr < fst s.
Proof.
  intros [H1 _] H s Hs. unfold drop in Hs. destruct (f_series f) as [|[s0 bl] tl] eqn:E; [rewrite E in Hs; destruct Hs|].
  apply StronglySorted_inv in H1 as [H1 H2]. rewrite Forall_forall in H2. unfold sids_ge in H. rewrite E in H.
  destruct (Z.eqb_spec curr s0) as [-> | Hne].
  - cbn [f_series] in Hs. apply (H2 s Hs).
  - rewrite E in Hs. pose proof (H (s0, bl) (or_introl eq_refl)) as H0. cbn [fst] in *.
    destruct Hs as [<- | Hs]; cbn [fst]; [lia|]. specialize (H2 s Hs). cbn in H2. lia.
Qed.
Lemma drop_rows curr f s : s <> curr -> file_rows s (drop curr f) = file_rows s f.
Proof.
  intros H. unfold drop. destruct (f_series f) as [|[s0 bl] tl] eqn:E; auto. destruct (Z.eqb_spec curr s0) as [-> | Hne]; auto.
  unfold file_rows. rewrite E. cbn [map concat f_series fst]. destruct (Z.eqb_spec s0 s); [congruence|]. reflexivity.
Qed.
Lemma file_rows_none s f : (forall x, In x (f_series f) -> fst x <> s) -> file_rows s f = [].
Proof.
  unfold file_rows. induction (f_series f) as [|x l IH]; intros H; auto. cbn [map concat].
  destruct (Z.eqb_spec (fst x) s) as [E | E]; [destruct (H x); [left; auto|auto]|]. apply IH. intros y Hy. apply H. right; auto.
Qed.
Lemma head_rows width lo hi curr f : file_ok width f -> sids_ge curr f ->
  cut lo hi (live (head_blocks lo hi curr f)) = cut lo hi (file_rows curr f).
Proof.
  intros [H1 H2] H. unfold head_blocks. destruct (f_series f) as [|[s bl] tl] eqn:E.
  - rewrite file_rows_none; auto. rewrite E. intros x [].
  - apply StronglySorted_inv in H1 as [_ H1]. rewrite Forall_forall in H1. unfold sids_ge in H. rewrite E in H.
    assert (Htl : concat (map (fun s0 => if fst s0 =? curr then concat (map b_live (snd s0)) else []) tl) = []).
    { assert (HT : forall x, In x tl -> fst x <> curr).
      { intros x Hx. specialize (H1 x Hx). pose proof (H _ (or_introl eq_refl)). cbn [fst] in *. lia. }
      clear - HT. induction tl as [|x l IH]; auto. cbn [map concat]. destruct (Z.eqb_spec (fst x) curr); [destruct (HT x); [left|]; auto|].
      apply IH. intros y Hy. apply HT; right; auto. }
    unfold file_rows. rewrite E. cbn [map concat fst snd]. rewrite Htl, app_nil_r. rewrite (Z.eqb_sym s curr).
    destruct (curr =? s); auto. inversion H2 as [|? ? [_ HB] _]; subst. cbn [snd] in HB. unfold chunk_blocks, live.
    rewrite map_map. cbn [m_blk]. clear - HB. induction bl as [|b bl IH]; auto. inversion HB; subst. cbn [filter map concat].
    fold (reaches lo hi b). destruct (reaches lo hi b) eqn:ER.
    + cbn [map concat]. rewrite !cut_app, IH; auto.
    + rewrite cut_app, IH, (not_reaches width (f_tomb f)); auto.
Qed.
Lemma live_app a b : live (a ++ b) = live a ++ live b.
Proof. unfold live. rewrite map_app, concat_app. reflexivity. Qed.
Lemma heads_rows width lo hi curr F : Forall (file_ok width) F -> (forall f, In f F -> sids_ge curr f) ->
  cut lo hi (live (concat (map (head_blocks lo hi curr) F))) = cut lo hi (live_rows curr F).
Proof.
  unfold live_rows. induction F as [|f F IH]; intros H1 H2; auto. inversion H1; subst. cbn [map]. rewrite !concat_cons, live_app, !cut_app, IH, (head_rows width); auto.
  - apply H2. left; auto.
  - intros g Hg. apply H2. right; auto.
Qed.
Lemma heads_mok width lo hi curr F m : Forall (file_ok width) F -> In m (concat (map (head_blocks lo hi curr) F)) -> mok width lo hi m.
Proof.
  intros H Hm. apply in_concat in Hm as (l & Hl & Hm). apply in_map_iff in Hl as (f & <- & Hf). rewrite Forall_forall in H.
  destruct (H f Hf) as [_ H2]. unfold head_blocks in Hm. destruct (f_series f) as [|[s bl] tl]; [destruct Hm|].
  destruct (curr =? s); [|destruct Hm]. unfold chunk_blocks in Hm. apply in_map_iff in Hm as (b & <- & Hb). apply filter_In in Hb as [Hb Hr].
  inversion H2 as [|? ? [_ HB] _]; subst. cbn [snd] in HB. rewrite Forall_forall in HB. split; auto.
Qed.

(** Blocks that have a row at [t]. *)
Definition mhit (t : Z) (m : cbm) : bool := negb (match rows_at t (b_live (m_blk m)) with [] => true | _ => false end).
Lemma mhit_rows t l : rows_at t (live l) = rows_at t (live (filter (mhit t) l)).
Proof.
  unfold live. induction l as [|c l IH]; auto. cbn [map concat filter]. unfold mhit at 1. rewrite rows_at_app, IH.
  destruct (rows_at t (b_live (m_blk c))) eqn:E; cbn [negb]; auto. cbn [map concat]. rewrite rows_at_app, E. reflexivity.
Qed.
Lemma bhit_in width tomb t b : block_ok width tomb b -> rows_at t (b_live b) <> [] -> b_min b <= t <= b_max b.
Proof.
  intros (_ & _ & _ & _ & (_ & HF) & _) H. destruct (rows_at t (b_live b)) as [|r l] eqn:E; [congruence|].
  assert (HI : In r (rows_at t (b_live b))) by (rewrite E; left; auto). apply rows_at_in in HI as [HI <-]. rewrite Forall_forall in HF. apply HF; auto.
Qed.
Lemma mhit_in width lo hi t m : mok width lo hi m -> mhit t m = true -> b_min (m_blk m) <= t <= b_max (m_blk m).
Proof.
  intros [H _] Hh. eapply bhit_in; eauto. intros E. unfold mhit in Hh. rewrite E in Hh. discriminate.
Qed.
Lemma heads_hit_sorted width lo hi curr t F : Forall (file_ok width) F -> StronglySorted (fun a b => (f_idx a < f_idx b)%nat) F ->
  StronglySorted (fun a b => (m_idx a < m_idx b)%nat) (filter (mhit t) (concat (map (head_blocks lo hi curr) F))).
Proof.
  induction F as [|f F IH]; intros H1 HS; cbn [map concat]; [constructor|]. inversion H1 as [|? ? Hf HF]; subst.
  apply StronglySorted_inv in HS as [S1 S2]. rewrite Forall_forall in S2. rewrite filter_app.
  assert (Hidx : forall g m, In m (head_blocks lo hi curr g) -> m_idx m = f_idx g).
  { intros g m Hm. unfold head_blocks in Hm. destruct (f_series g) as [|[s bl] tl]; [destruct Hm|]. destruct (curr =? s); [|destruct Hm].
    unfold chunk_blocks in Hm. apply in_map_iff in Hm as (b & <- & Hb). reflexivity. }
  apply ss_app; [|apply IH; auto|].
  - destruct Hf as [_ H2]. unfold head_blocks. destruct (f_series f) as [|[s bl] tl]; [constructor|]. destruct (curr =? s); [|constructor].
    inversion H2 as [|? ? [HB1 HB2] _]; subst. cbn [snd] in *. unfold chunk_blocks.
    assert (HB : StronglySorted (fun a b => b_max a < b_min b) (filter (fun b => boundless lo hi || tr_overlaps (b_min b) (b_max b) lo hi) bl)) by (apply ss_filter; auto).
    assert (HC : Forall (block_ok width (f_tomb f)) (filter (fun b => boundless lo hi || tr_overlaps (b_min b) (b_max b) lo hi) bl)).
    { rewrite Forall_forall in *. intros b Hb. apply filter_In in Hb. apply HB2. tauto. }
    clear HB1 HB2 H2. induction HB as [|b l Hl IHl Hb]; cbn [map filter]; [constructor|]. inversion HC as [|? ? K1 K2]; subst.
    destruct (mhit t _) eqn:Eh; [|auto]. constructor; [auto|]. apply Forall_forall. intros y Hy. exfalso. apply filter_In in Hy as [Hy Hy2].
    apply in_map_iff in Hy as (b' & <- & Hb'). rewrite Forall_forall in Hb, K2. specialize (Hb b' Hb').
    unfold mhit in Eh, Hy2. cbn [m_blk] in *.
    assert (rows_at t (b_live b) <> []) as N1 by (intros E; rewrite E in Eh; discriminate).
    assert (rows_at t (b_live b') <> []) as N2 by (intros E; rewrite E in Hy2; discriminate).
    apply (bhit_in width (f_tomb f)) in N1; auto. apply (bhit_in width (f_tomb f)) in N2; auto. lia.
  - intros x y Hx Hy. apply filter_In in Hx as [Hx _]. apply filter_In in Hy as [Hy _]. rewrite (Hidx f x Hx).
    apply in_concat in Hy as (l & Hl & Hy). apply in_map_iff in Hl as (g & <- & Hg). rewrite (Hidx g y Hy). auto.
Qed.
Lemma groups_live width lo hi t G cF : (forall m, In m cF -> mok width lo hi m) ->
  Permutation cF (concat (map g_blks G)) -> ForallOrdPairs bsep G ->
  StronglySorted (fun a b => (m_idx a < m_idx b)%nat) (filter (mhit t) cF) ->
  rows_at t (concat (map (glive lo hi) G)) = rows_at t (cut lo hi (live cF)).
Proof.
  intros Hok HP HG HS.
  assert (E : concat (map (glive lo hi) G) = cut lo hi (live (concat (map (fun g => sort_idx (g_blks g)) G)))).
  { clear. induction G as [|g G IH]; auto. cbn [map]. rewrite !concat_cons, live_app, cut_app, IH. reflexivity. }
  rewrite E. clear E. unfold cut. rewrite !rows_at_filter. f_equal.
  rewrite (mhit_rows t (concat _)), (mhit_rows t cF). f_equal. f_equal.
  assert (HPe : Permutation (filter (mhit t) (concat (map (fun g => sort_idx (g_blks g)) G))) (filter (mhit t) cF)).
  { apply perm_filter. rewrite HP. clear. induction G as [|g G IH]; cbn [map concat]; auto. apply Permutation_app; auto.
    apply Permutation_sym, sort_idx_perm. }
  apply (key_unique m_idx); auto. apply key_lt_nodup.
  - apply Permutation_NoDup with (map m_idx (filter (mhit t) cF)); [apply Permutation_map, Permutation_sym; auto|]. apply ss_lt_nodup; auto.
  - assert (HokG : forall m, In m (concat (map g_blks G)) -> mok width lo hi m).
    { intros m Hm. apply Hok. apply (Permutation_in m (Permutation_sym HP)); auto. }
    clear - HG HokG. induction G as [|g G IH]; cbn [map concat]; [constructor|]. apply fop_cons_inv in HG as [G1 G2]. cbn [map concat] in HokG.
    rewrite filter_app. apply ss_app.
    + apply ss_filter, sort_idx_sorted.
    + apply IH; auto. intros m Hm. apply HokG, in_app_iff; auto.
    + intros x y Hx Hy. exfalso. apply filter_In in Hx as [Hx1 Hx2]. apply filter_In in Hy as [Hy1 Hy2]. rewrite sort_idx_in in Hx1.
      apply in_concat in Hy1 as (l & Hl & Hy1). apply in_map_iff in Hl as (e & <- & He). rewrite sort_idx_in in Hy1.
      rewrite Forall_forall in G1. specialize (G1 e He x y Hx1 Hy1).
      apply (mhit_in width lo hi) in Hx2; [|apply HokG, in_app_iff; auto].
      apply (mhit_in width lo hi) in Hy2; [|apply HokG, in_app_iff; right; apply in_concat; exists (g_blks e); split; auto; apply in_map; auto].
      lia.
Qed.
Lemma series_ok width bs lo hi c cF : (1 <= bs)%nat -> Permutation c cF -> (forall m, In m cF -> mok width lo hi m) ->
  (forall t, StronglySorted (fun a b => (m_idx a < m_idx b)%nat) (filter (mhit t) cF)) ->
  exists w p, compact_groups width bs lo hi None (block_groups c) = Some (w, p) /\
    merged width (cut lo hi (live cF)) (concat w ++ concat (opt_list p)).
Proof.
  intros Hbs HP Hok HS.
  destruct (block_groups_ok c) as (G1 & G2 & G3).
  { intros m Hm. destruct (Hok m (Permutation_in m HP Hm)) as [(_ & B2 & _) _]. auto. }
  assert (HokG : forall m, In m (concat (map g_blks (block_groups c))) -> mok width lo hi m).
  { intros m Hm. apply Hok. apply (Permutation_in m HP). apply (Permutation_in m (Permutation_sym G1)); auto. }
  destruct (compact_groups_ok width bs lo hi (block_groups c) Hbs None) as (w & p & E & M); auto.
  - eapply Forall_impl; [|exact G2]. intros g (_ & H & _). auto.
  - apply Forall_forall. intros g Hg. apply Forall_forall. intros m Hm. apply HokG. apply in_concat. exists (g_blks g). split; auto. apply in_map; auto.
  - discriminate.
  - exists w, p. split; auto. eapply merged_rows; [|exact M]. intros t. cbn [opt_list concat app].
    apply (groups_live width); auto. etransitivity; [apply Permutation_sym; exact HP|auto].
Qed.

(** ** The whole compaction *)
Definition st_ok (width : nat) (fs : list cfile) : Prop :=
  Forall (file_ok width) fs /\ StronglySorted (fun a b => peek_le a b = true) fs.
Definition sids_in (s : Z) (F : list cfile) : Prop := exists f x, In f F /\ In x (f_series f) /\ fst x = s.
Lemma live_rows_none s F : ~ sids_in s F -> live_rows s F = [].
Proof.
  intros H. unfold live_rows. induction F as [|f F IH]; auto. cbn [map concat]. rewrite file_rows_none.
  - apply IH. intros (g & x & Hg & Hx & E). apply H. exists g, x. split; [right|]; auto.
  - intros x Hx E. apply H. exists f, x. split; [left|]; auto.
Qed.
Lemma live_rows_drop curr s F : s <> curr -> live_rows s (map (drop curr) F) = live_rows s F.
Proof. intros H. unfold live_rows. rewrite map_map. f_equal. apply map_ext. intros f. apply drop_rows; auto. Qed.
Lemma entries_drop curr fs : (entries (map (drop curr) fs) <= entries fs)%nat /\
  (forall f, In f fs -> peek f = Some curr -> (entries (map (drop curr) fs) < entries fs)%nat).
Proof.
  unfold entries. induction fs as [|f fs [IH1 IH2]]; [split; [auto|intros f []]|]. cbn [map concat].
  rewrite !app_length. assert (Hd : (length (f_series (drop curr f)) <= length (f_series f))%nat).
  { unfold drop. destruct (f_series f) as [|[s bl] tl] eqn:E; [rewrite E; auto|]. destruct (curr =? s); [cbn; lia|rewrite E; auto]. }
  split; [lia|]. intros g [<- | Hg] Hp.
  - assert (length (f_series (drop curr f)) < length (f_series f))%nat; [|lia].
    unfold drop, peek in *. destruct (f_series f) as [|[s bl] tl] eqn:E; [discriminate|]. cbn [fst] in Hp. injection Hp as ->.
    rewrite Z.eqb_refl. cbn. lia.
  - specialize (IH2 g Hg Hp). lia.
Qed.
Lemma entries_perm a b : Permutation a b -> entries a = entries b.
Proof. unfold entries. induction 1; cbn [map concat]; rewrite ?app_length in *; try lia. Qed.
Lemma st_ge width fs f s : st_ok width (f :: fs) -> peek f = Some s -> forall g, In g (f :: fs) -> sids_ge s g.
Proof.
  intros [H1 H2] Hp g Hg. rewrite Forall_forall in H1. apply (file_head_ge width); [auto|]. intros s' Hs'.
  apply StronglySorted_inv in H2 as [_ H2]. rewrite Forall_forall in H2. destruct Hg as [<- | Hg]; [congruence || (rewrite Hp in Hs'; injection Hs' as <-; lia)|].
  specialize (H2 g Hg). unfold peek_le in H2. rewrite Hp, Hs' in H2. apply Z.leb_le in H2. auto.
Qed.
Definition next_res (width : nat) (lo hi : Z) (F : list cfile) (fs : list cfile) (res : option (Z * list cbm * list cfile)) : Prop :=
  match res with
  | None => forall s, cut lo hi (live_rows s F) = []
  | Some (sid, c, fs') => exists F' cF,
      Permutation fs' F' /\ StronglySorted (fun a b => (f_idx a < f_idx b)%nat) F' /\ st_ok width fs' /\
      (entries fs' < entries fs)%nat /\ sids_in sid F /\
      (forall s, sids_in s F' -> sid < s) /\
      (forall s, s <> sid -> cut lo hi (live_rows s F) = cut lo hi (live_rows s F')) /\
      Permutation c cF /\ cut lo hi (live cF) = cut lo hi (live_rows sid F) /\
      (forall m, In m cF -> mok width lo hi m) /\
      (forall t, StronglySorted (fun a b => (m_idx a < m_idx b)%nat) (filter (mhit t) cF)) /\
      (forall s, sids_in s F' -> sids_in s F)
  end.
Lemma sids_in_drop curr s F : sids_in s (map (drop curr) F) -> sids_in s F.
Proof.
  intros (f & x & Hf & Hx & E). apply in_map_iff in Hf as (g & <- & Hg). exists g, x. split; auto. split; auto.
  unfold drop in Hx. destruct (f_series g) as [|[s0 bl] tl] eqn:Eg; [rewrite Eg in Hx; auto|].
  destruct (curr =? s0); [right; auto|rewrite Eg in Hx; auto].
Qed.
Lemma next_series_ok width lo hi fuel : forall fs F, (entries fs < fuel)%nat -> st_ok width fs -> Permutation fs F ->
  StronglySorted (fun a b => (f_idx a < f_idx b)%nat) F ->
  exists res, next_series fuel lo hi fs = Some res /\ next_res width lo hi F fs res.
Proof.
  induction fuel as [|fuel IH]; intros fs F Hf Hst HP HF; [lia|]. cbn [next_series].
  destruct fs as [|f fs]; [|destruct (peek f) as [curr|] eqn:Hp].
  - exists None. split; auto. apply Permutation_nil in HP. subst. intros s. reflexivity.
  - pose proof (st_ge width fs f curr Hst Hp) as Hge. destruct Hst as [Hok Hs].
    set (fs0 := f :: fs) in *. rewrite (collect_sorted lo hi curr fs0); auto.
    2:{ intros g s Hg Hs'. specialize (Hge g Hg). unfold peek in Hs'. destruct (f_series g) as [|x l] eqn:E; [discriminate|].
        injection Hs' as <-. apply (Hge x). rewrite E. left; auto. }
    assert (HokF : Forall (file_ok width) F).
    { rewrite Forall_forall in *. intros g Hg. apply Hok. apply (Permutation_in g (Permutation_sym HP)); auto. }
    assert (HgeF : forall g, In g F -> sids_ge curr g).
    { intros g Hg. apply Hge. apply (Permutation_in g (Permutation_sym HP)); auto. }
    set (c := concat (map (head_blocks lo hi curr) fs0)). set (cF := concat (map (head_blocks lo hi curr) F)).
    assert (Pc : Permutation c cF).
    { unfold c, cF. clear - HP. induction HP; cbn [map concat]; auto.
      - apply Permutation_app_head; auto.
      - rewrite !app_assoc. apply Permutation_app_tail, Permutation_app_comm.
      - etransitivity; eauto. }
    set (F1 := map (drop curr) F).
    assert (P1 : Permutation (sort_cf (map (drop curr) fs0)) F1).
    { etransitivity; [apply Permutation_sym, sort_cf_perm|]. apply Permutation_map; auto. }
    assert (S1 : StronglySorted (fun a b => (f_idx a < f_idx b)%nat) F1).
    { unfold F1. clear - HF. induction HF; cbn [map]; constructor; auto. rewrite Forall_forall in *. intros y Hy.
      apply in_map_iff in Hy as (z & <- & Hz). rewrite !drop_idx. auto. }
    assert (T1 : st_ok width (sort_cf (map (drop curr) fs0))).
    { split; [|apply sort_cf_sorted]. rewrite Forall_forall in *. intros g Hg. apply (Permutation_in g (Permutation_sym (sort_cf_perm _))) in Hg.
      apply in_map_iff in Hg as (h & <- & Hh). apply drop_ok; auto. }
    assert (E1 : (entries (sort_cf (map (drop curr) fs0)) < entries fs0)%nat).
    { rewrite <- (entries_perm _ _ (sort_cf_perm (map (drop curr) fs0))). apply (proj2 (entries_drop curr fs0) f); auto. left; auto. }
    assert (Hgt : forall s, sids_in s F1 -> curr < s).
    { intros s (g & x & Hg & Hx & <-). unfold F1 in Hg. apply in_map_iff in Hg as (h & <- & Hh). rewrite Forall_forall in HokF.
      eapply (drop_gt width); eauto. }
    assert (Hrows : cut lo hi (live cF) = cut lo hi (live_rows curr F)) by (apply (heads_rows width); auto).
    destruct c as [|m0 c0] eqn:Ec.
    + apply Permutation_nil in Pc. rewrite Pc in *.
      destruct (IH (sort_cf (map (drop curr) fs0)) F1) as (res & -> & R); auto; [lia|]. exists res. split; auto.
      assert (Heq : forall s, cut lo hi (live_rows s F) = cut lo hi (live_rows s F1)).
      { intros s. destruct (Z.eq_dec s curr) as [-> | Hne].
        - rewrite <- Hrows. rewrite (live_rows_none curr F1); [reflexivity|]. intros H. specialize (Hgt curr H). lia.
        - unfold F1. rewrite live_rows_drop; auto. }
      destruct res as [[[sid c'] fs']|]; cbn [next_res] in *.
      * destruct R as (F' & cF' & R1 & R2 & R3 & R4 & R5 & R6 & R7 & R8 & R9 & R10 & R11 & R12). exists F', cF'.
        split; auto. split; auto. split; auto. split; [lia|]. split; [eapply sids_in_drop; exact R5|]. split; auto.
        split; [intros s Hs'; rewrite Heq; auto|]. split; auto. split; [rewrite Heq; auto|]. split; auto. split; auto.
        intros s Hs'. eapply sids_in_drop. apply (R12 s Hs').
      * intros s. rewrite Heq. auto.
    + exists (Some (curr, m0 :: c0, sort_cf (map (drop curr) fs0))). split; auto. cbn [next_res]. exists F1, cF.
      split; auto. split; auto. split; auto. split; auto. split.
      { unfold peek in Hp. destruct (f_series f) as [|x l] eqn:Ef; [discriminate|]. injection Hp as Hp. exists f, x.
        split; [apply (Permutation_in f HP); left; auto|]. split; auto. rewrite Ef. left; auto. }
      split; auto. split; [intros s Hs'; unfold F1; rewrite live_rows_drop; auto|]. split; auto. split; auto.
      split; [intros m Hm; eapply heads_mok; eauto|]. split; [intros t; apply (heads_hit_sorted width); auto|].
      intros s Hs'. eapply sids_in_drop. exact Hs'.
  - exists None. split; auto. intros s. rewrite live_rows_none; auto. intros (g & x & Hg & Hx & _).
    apply (Permutation_in g (Permutation_sym HP)) in Hg. destruct Hst as [_ Hs]. apply StronglySorted_inv in Hs as [_ Hs]. rewrite Forall_forall in Hs.
    destruct Hg as [<- | Hg].
    + unfold peek in Hp. destruct (f_series f); [destruct Hx|discriminate].
    + specialize (Hs g Hg). unfold peek_le in Hs. rewrite Hp in Hs. unfold peek in Hs. destruct (f_series g); [destruct Hx|discriminate].
Qed.

Lemma written_app s a b : written s (a ++ b) = written s a ++ written s b.
Proof. unfold written. rewrite filter_app, map_app, concat_app. reflexivity. Qed.
Lemma written_pair s sid w : written s (map (pair sid) w) = if sid =? s then concat w else [].
Proof.
  unfold written. induction w as [|b w IH]; cbn [map filter]; [destruct (_ =? _); auto|]. cbn [fst].
  destruct (sid =? s); cbn [map concat snd]; [rewrite IH|]; auto.
Qed.
Lemma written_opt s sid p : written s (opt_list (option_map (pair sid) p)) = if sid =? s then concat (opt_list p) else [].
Proof. rewrite <- (written_pair s sid (opt_list p)). destruct p; reflexivity. Qed.
Lemma compact_loop_ok width bs lo hi fuel : (1 <= bs)%nat -> forall fs F prev, (entries fs < fuel)%nat -> st_ok width fs -> Permutation fs F ->
  StronglySorted (fun a b => (f_idx a < f_idx b)%nat) F ->
  (forall s b, prev = Some (s, b) -> forall s', sids_in s' F -> s < s') ->
  exists rest, compact_loop fuel width bs lo hi prev fs = Some (opt_list prev ++ rest) /\
    (forall s, merged width (cut lo hi (live_rows s F)) (written s rest)) /\
    (forall s b, In (s, b) rest -> sids_in s F) /\ StronglySorted (fun a b => fst a <= fst b) rest.
Proof.
  intros Hbs. induction fuel as [|fuel IH]; intros fs F prev Hf Hst HP HF Hprev; [lia|].
  destruct (next_series_ok width lo hi (S fuel) fs F Hf Hst HP HF) as (res & E & R). cbn [compact_loop]. rewrite E.
  destruct res as [[[sid c] fs']|]; cbn [next_res] in R.
  - destruct R as (F' & cF & R1 & R2 & R3 & R4 & R5 & R6 & R7 & R8 & R9 & R10 & R11 & R12).
    assert (Hsame : match prev with Some (s, b) => if s =? sid then Some b else None | None => None end = None /\
              match prev with Some (s, b) => if s =? sid then [] else [(s, b)] | None => [] end = opt_list prev).
    { destruct prev as [[s b]|]; auto. specialize (Hprev s b eq_refl sid R5). destruct (Z.eqb_spec s sid); [lia|]. auto. }
    destruct Hsame as [-> ->].
    destruct (series_ok width bs lo hi c cF) as (w & p & -> & M); auto.
    destruct (IH fs' F' (option_map (pair sid) p)) as (rest & -> & W & RI & RS); auto; [lia| |].
    { intros s b Hp s' Hs'. destruct p; [|discriminate]. injection Hp as <- <-. auto. }
    exists (map (pair sid) w ++ opt_list (option_map (pair sid) p) ++ rest). split; auto. split; [|split].
    + intros s. rewrite !written_app, written_pair, written_opt. destruct (Z.eqb_spec sid s) as [<- | Hne].
      * specialize (W sid). rewrite (live_rows_none sid F') in W by (intros H; specialize (R6 sid H); lia).
        assert (written sid rest = []) as ->.
        { destruct W as (_ & W2 & _). destruct (written sid rest) as [|r l]; auto. destruct (proj1 (W2 (r_ts r))). left; auto. }
        rewrite app_nil_r, <- R9. auto.
      * cbn [app]. rewrite R7 by auto. auto.
    + intros s b Hb. rewrite !in_app_iff in Hb. destruct Hb as [Hb | [Hb | Hb]].
      * apply in_map_iff in Hb as (x & Ex & _). injection Ex as <- <-. auto.
      * destruct p; [|destruct Hb]. destruct Hb as [Hb | []]. injection Hb as <- <-. auto.
      * apply R12. eapply RI; eauto.
    + assert (Hle : forall x, In x (map (pair sid) w ++ opt_list (option_map (pair sid) p)) -> fst x = sid).
      { intros x Hx. apply in_app_iff in Hx as [Hx | Hx]; [apply in_map_iff in Hx as (y & <- & _); auto|]. destruct p; [|destruct Hx].
        destruct Hx as [<- | []]. auto. }
      rewrite app_assoc. apply ss_app; auto.
      * clear - Hle. induction (map (pair sid) w ++ opt_list (option_map (pair sid) p)) as [|x l IHl]; constructor.
        -- apply IHl. intros y Hy. apply Hle. right; auto.
        -- apply Forall_forall. intros y Hy. rewrite (Hle x), (Hle y); [lia|right; auto|left; auto].
      * intros x [s' b'] Hx Hy. rewrite (Hle x Hx). cbn [fst]. specialize (RI s' b' Hy). specialize (R6 s' RI). lia.
  - exists []. rewrite app_nil_r. split; auto. split; [|split; [intros s b []|constructor]]. intros s. rewrite R. apply merged_nil.
Qed.
Lemma compact_files_ok width bs lo hi fs : (1 <= bs)%nat -> request_ok width fs -> by_first_series fs ->
  exists out, compact_files width bs lo hi fs = Some out /\
    (forall s, merged width (cut lo hi (live_rows s fs)) (written s out)) /\ StronglySorted (fun a b => fst a <= fst b) out.
Proof.
  intros Hbs [R1 R2] [B1 B2]. unfold compact_files.
  destruct (compact_loop_ok width bs lo hi (S (entries fs)) Hbs fs fs None) as (rest & E & W & _ & S); auto.
  - split; auto. rewrite Forall_forall in B1. clear - B1 B2. induction B2 as [|f l Hl IH Hf]; constructor.
    + apply IH. intros x Hx. apply B1. right; auto.
    + rewrite Forall_forall in *. intros g Hg. specialize (Hf g Hg). unfold peek_le, peek.
      pose proof (B1 f (or_introl eq_refl)). pose proof (B1 g (or_intror Hg)).
      destruct (f_series f) as [|[x bx] lx]; [congruence|]. destruct (f_series g) as [|[y bY] ly]; [congruence|]. cbn [fst]. apply Z.leb_le. auto.
  - clear - R1. revert R1. generalize 0%nat. induction fs as [|f fs IH]; intros n H; [constructor|]. cbn [map length seq] in H. injection H as H1 H2.
    constructor; [eapply IH; eauto|]. apply Forall_forall. intros g Hg. assert (In (f_idx g) (seq (S n) (length fs))) by (rewrite <- H2; apply in_map; auto).
    apply in_seq in H. lia.
  - discriminate.
  - exists rest. split; auto.
Qed.

Lemma window_split lo hi t l : rows_at t l = rows_at t (in_window lo hi l ++ outside lo hi l) /\ rows_at t l = rows_at t (outside lo hi l ++ in_window lo hi l).
Proof.
  rewrite !rows_at_app. unfold in_window, outside. rewrite !rows_at_filter.
  destruct ((lo <=? t) && (t <=? hi)) eqn:E.
  - rewrite (filter_true _ (rows_at t l)).
    + assert (forall f, (forall x, In x (rows_at t l) -> f x = false) -> filter f (rows_at t l) = []) as HN.
      { intros f. induction (rows_at t l) as [|x m IH]; intros H; cbn [filter]; auto. rewrite (H x (or_introl eq_refl)). apply IH. intros; apply H; right; auto. }
      rewrite HN; [rewrite app_nil_r; auto|]. intros x Hx. apply rows_at_in in Hx as [_ ->]. rewrite E. auto.
    + intros x Hx. apply rows_at_in in Hx as [_ ->]. auto.
  - rewrite (filter_true (fun r => negb _) (rows_at t l)).
    + assert (forall f, (forall x, In x (rows_at t l) -> f x = false) -> filter f (rows_at t l) = []) as HN.
      { intros f. induction (rows_at t l) as [|x m IH]; intros H; cbn [filter]; auto. rewrite (H x (or_introl eq_refl)). apply IH. intros; apply H; right; auto. }
      rewrite HN; [rewrite app_nil_r; auto|]. intros x Hx. apply rows_at_in in Hx as [_ ->]. auto.
    + intros x Hx. apply rows_at_in in Hx as [_ ->]. rewrite E. auto.
Qed.
