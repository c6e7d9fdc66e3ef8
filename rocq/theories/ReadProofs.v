(** Proofs about reading a series from several chunks. *)
From Verif Require Import Prelude MergeModel MergeSpec MergeProofs MemModel MemSpec MemProofs ReadModel ReadSpec.
Open Scope Z_scope.

(** ** Grouping *)
(** [gs] (last group first, chunks reversed) is a correct grouping with running maximum [g]. *)
Definition gok (gs : list (list chunk)) (g : Z) : Prop :=
  Forall (fun x => x <> []) gs /\
  (forall c, In c (concat gs) -> c_max c <= g) /\
  ForallOrdPairs (fun later earlier => forall a b, In a earlier -> In b later -> c_max a < c_min b) gs /\
  Forall (fun x => forall b c a, rev x = a ++ c :: b -> a <> [] -> exists y, In y a /\ c_min c <= c_max y) gs.

Lemma fop_cons_inv {A} (R : A -> A -> Prop) x l : ForallOrdPairs R (x :: l) -> Forall (R x) l /\ ForallOrdPairs R l.
Proof. intros H. inversion H; auto. Qed.

Lemma group_loop_ok : forall cs gs g, StronglySorted range_le cs ->
  (forall c x, In c cs -> In x (concat gs) -> c_min x <= c_min c) ->
  (forall c, In c cs -> I64_MIN <= c_max c) ->
  gok gs g -> ((gs = [] /\ g = I64_MIN) \/ exists x, In x (concat gs) /\ c_max x = g) ->
  exists g', gok (group_loop gs g cs) g' /\
    concat (rev (map (@rev chunk) (group_loop gs g cs))) = concat (rev (map (@rev chunk) gs)) ++ cs.
Proof.
  induction cs as [|c cs IH]; intros gs g HS Hmin Hlow (G1 & G2 & G3 & G4) Hg; cbn [group_loop].
  { exists g. split; [split; [|split]; auto|]. rewrite app_nil_r. reflexivity. }
  apply StronglySorted_inv in HS as [HS HF]. rewrite Forall_forall in HF.
  set (gs' := match gs with last :: rest => if c_min c <=? g then (c :: last) :: rest else [c] :: gs | [] => [c] :: gs end).
  assert (Hcat : concat (rev (map (@rev chunk) gs')) = concat (rev (map (@rev chunk) gs)) ++ [c]).
  { unfold gs'. destruct gs as [|last rest].
    - reflexivity.
    - destruct (c_min c <=? g).
      + cbn [map rev]. rewrite !concat_app. cbn [concat]. rewrite !app_nil_r, app_assoc. reflexivity.
      + cbn [map rev]. rewrite !concat_app. cbn [concat app]. rewrite !app_nil_r. reflexivity. }
  assert (Hin : forall x, In x (concat gs') <-> x = c \/ In x (concat gs)).
  { intros x. unfold gs'. destruct gs as [|last rest]; [cbn; intuition|].
    destruct (c_min c <=? g); cbn [concat]; cbn [app In]; rewrite !in_app_iff; cbn [In app]; intuition. }
  assert (Hok : gok gs' (Z.max (c_max c) g)).
  { assert (Hnew : gs = [] \/ g < c_min c -> gok ([c] :: gs) (Z.max (c_max c) g)).
    { intros Hc. split; [|split; [|split]].
      - constructor; auto. discriminate.
      - intros x Hx. cbn [concat app In] in Hx. destruct Hx as [<- | Hx]; [lia|]. specialize (G2 x Hx). lia.
      - constructor; auto. apply Forall_forall. intros e He a b Ha [<- | []].
        destruct Hc as [-> | Hc]; [destruct He|]. assert (c_max a <= g); [|lia]. apply G2. apply in_concat. eauto.
      - constructor; auto. intros b x a E Ha. cbn [rev app] in E. destruct a as [|y a]; [congruence|]. injection E as _ E.
        destruct a; discriminate. }
    unfold gs'. destruct gs as [|last rest]; [apply Hnew; auto|].
    destruct (Z.leb_spec (c_min c) g) as [L | L]; [|apply Hnew; auto].
    clear Hnew. inversion G1 as [|? ? N1 N2]; subst. apply fop_cons_inv in G3 as [F1 F2]. rewrite Forall_forall in F1.
    inversion G4 as [|? ? Q1 Q2]; subst.
    split; [|split; [|split]].
    - constructor; auto. discriminate.
    - intros x Hx. cbn [concat app In] in Hx. destruct Hx as [<- | Hx]; [lia|]. specialize (G2 x Hx). lia.
    - constructor; auto. apply Forall_forall. intros e He a b Ha Hb. destruct Hb as [<- | Hb]; [|apply (F1 e He); auto].
      destruct last as [|z last]; [congruence|]. specialize (F1 e He a z Ha (or_introl eq_refl)).
      assert (c_min z <= c_min c); [|lia]. apply Hmin; [left; auto|]. cbn [concat app]. left; auto.
    - constructor; auto. intros b x a E Ha. cbn [rev] in E.
      destruct b as [|b0 b1].
      + apply app_inj_tail in E as [<- <-].
        destruct Hg as [[Hg _] | (y & Hy & Ey)]; [discriminate|].
        cbn [concat] in Hy. apply in_app_iff in Hy as [Hy | Hy].
        * exists y. split; [rewrite <- in_rev; auto | lia].
        * (* the maximum lies in an earlier group: then the first chunk of the group starts later *)
          exfalso. apply in_concat in Hy as (e & He & Hy). destruct last as [|z last]; [congruence|].
          specialize (F1 e He y z Hy (or_introl eq_refl)). assert (c_min z <= c_min c) by (apply Hmin; [left; auto|]; cbn [concat app]; left; auto).
          lia.
      + assert (Hb : b0 :: b1 <> []) by discriminate. destruct (exists_last Hb) as (b' & z & Eb). rewrite Eb in *. change (a ++ x :: b' ++ [z]) with (a ++ (x :: b') ++ [z]) in E.
        rewrite app_assoc in E. apply app_inj_tail in E as [E _]. apply (Q1 b' x a); auto. }
  destruct (IH gs' (Z.max (c_max c) g)) as (g' & I1 & I2); auto.
  - intros x y Hx Hy. apply Hin in Hy as [-> | Hy]; [|apply Hmin; [right; auto|auto]]. specialize (HF x Hx). unfold range_le in HF. lia.
  - intros x Hx. apply Hlow. right; auto.
  - right. destruct (Z.max_spec g (c_max c)) as [[? E] | [? E]].
    + exists c. split; [apply Hin; auto|lia].
    + destruct Hg as [[Hg1 Hg2] | (y & Hy & Ey)].
      * exists c. specialize (Hlow c (or_introl eq_refl)). split; [apply Hin; auto|lia].
      * exists y. split; [apply Hin; auto|lia].
  - exists g'. split; auto. rewrite I2, Hcat, <- app_assoc. reflexivity.
Qed.

Lemma fop_rev {A} (R : A -> A -> Prop) l : ForallOrdPairs R l -> ForallOrdPairs (fun a b => R b a) (rev l).
Proof.
  induction l as [|x l IH]; intros H; [constructor|]. apply fop_cons_inv in H as [H1 H2]. cbn [rev]. specialize (IH H2).
  clear H2. assert (HF : Forall (R x) (rev l)) by (rewrite Forall_forall in *; intros y Hy; apply H1; rewrite in_rev; auto). clear H1.
  induction (rev l) as [|y m IHm]; cbn [app]; [repeat constructor|].
  apply fop_cons_inv in IH as [I1 I2]. inversion HF; subst. constructor; [|apply IHm; auto].
  apply Forall_app. split; auto.
Qed.
Lemma fop_map {A B} (f : A -> B) (R : B -> B -> Prop) l : ForallOrdPairs (fun a b => R (f a) (f b)) l -> ForallOrdPairs R (map f l).
Proof.
  induction l as [|x l IH]; intros H; [constructor|]. apply fop_cons_inv in H as [H1 H2]. cbn [map]. constructor; auto.
  rewrite Forall_forall in *. intros y Hy. apply in_map_iff in Hy as (z & <- & Hz). auto.
Qed.
Lemma fop_imp {A} (R R' : A -> A -> Prop) l : (forall a b, R a b -> R' a b) -> ForallOrdPairs R l -> ForallOrdPairs R' l.
Proof.
  intros HR. induction l as [|x l IH]; intros H; [constructor|]. apply fop_cons_inv in H as [H1 H2]. constructor; auto.
  eapply Forall_impl; [|exact H1]. auto.
Qed.

Lemma group_ok l : StronglySorted range_le l -> (forall c, In c l -> I64_MIN <= c_max c) ->
  concat (group_overlapping l) = l /\
  Forall (fun g => g <> []) (group_overlapping l) /\
  ForallOrdPairs (fun earlier later => forall a b, In a earlier -> In b later -> c_max a < c_min b) (group_overlapping l) /\
  Forall (fun g => forall a c b, g = a ++ c :: b -> a <> [] -> exists y, In y a /\ c_min c <= c_max y) (group_overlapping l).
Proof.
  intros HS HL. destruct (group_loop_ok l [] I64_MIN HS) as (g' & (G1 & G2 & G3 & G4) & E); auto.
  { intros c x _ []. }
  { split; [|split; [|split]]; try constructor. intros c []. }
  unfold group_overlapping. split; [exact E|]. split; [|split].
  - rewrite Forall_forall in *. intros x Hx. rewrite <- in_rev in Hx. apply in_map_iff in Hx as (y & <- & Hy).
    intros E2. apply (G1 y Hy). rewrite <- (rev_involutive y), E2. reflexivity.
  - apply fop_rev in G3. rewrite <- map_rev. apply fop_map. eapply fop_imp; [|exact G3].
    cbn. intros a b H x y Hx Hy. rewrite <- in_rev in Hx, Hy. auto.
  - rewrite Forall_forall in *. intros x Hx. rewrite <- in_rev in Hx. apply in_map_iff in Hx as (y & <- & Hy).
    intros a c b E2. apply (G4 y Hy b c a E2).
Qed.

(** ** Sorting by file *)
Lemma insert_file_perm c l : Permutation (c :: l) (insert_file c l).
Proof.
  induction l as [|x l IH]; cbn [insert_file]; auto. destruct (_ <=? _); auto.
  rewrite perm_swap. constructor. auto.
Qed.
Lemma sort_files_perm l : Permutation l (sort_files l).
Proof. induction l as [|c l IH]; cbn [sort_files]; auto. rewrite <- insert_file_perm. constructor; auto. Qed.
Definition fle (a b : chunk) : Prop := c_file a <= c_file b.
Definition flt (a b : chunk) : Prop := c_file a < c_file b.
Lemma insert_file_sorted c l : StronglySorted fle l -> StronglySorted fle (insert_file c l).
Proof.
  induction l as [|x l IH]; intros H; cbn [insert_file]; [repeat constructor|].
  apply StronglySorted_inv in H as [H1 H2]. destruct (Z.leb_spec (c_file c) (c_file x)) as [L | L].
  - constructor; [constructor; auto|]. constructor; auto. rewrite Forall_forall in *. intros y Hy. specialize (H2 y Hy). unfold fle in *. lia.
  - constructor; auto. rewrite Forall_forall in *. intros y Hy. apply (Permutation_in y (Permutation_sym (insert_file_perm c l))) in Hy.
    destruct Hy as [<- | Hy]; [unfold fle; lia|auto].
Qed.
Lemma sort_files_sorted l : StronglySorted fle (sort_files l).
Proof. induction l as [|c l IH]; cbn [sort_files]; [constructor|]. apply insert_file_sorted; auto. Qed.
Lemma fle_flt l : NoDup (map c_file l) -> StronglySorted fle l -> StronglySorted flt l.
Proof.
  induction l as [|x l IH]; intros HN H; [constructor|]. apply StronglySorted_inv in H as [H1 H2]. cbn [map] in HN. inversion HN; subst.
  constructor; auto. rewrite Forall_forall in *. intros y Hy. specialize (H2 y Hy). unfold fle, flt in *.
  assert (c_file x <> c_file y); [|lia]. intros E. apply H3. rewrite E. apply in_map; auto.
Qed.
Lemma flt_unique a b : Permutation a b -> StronglySorted flt a -> StronglySorted flt b -> a = b.
Proof.
  revert b. induction a as [|x a IH]; intros b HP Ha Hb.
  - apply Permutation_nil in HP. auto.
  - destruct b as [|y b]; [apply Permutation_sym, Permutation_nil in HP; discriminate|].
    apply StronglySorted_inv in Ha as [Ha1 Ha2]. apply StronglySorted_inv in Hb as [Hb1 Hb2]. rewrite Forall_forall in *.
    assert (x = y) as <-.
    { assert (In x (y :: b)) as H1 by (apply (Permutation_in _ HP); left; auto).
      assert (In y (x :: a)) as H2 by (apply (Permutation_in _ (Permutation_sym HP)); left; auto).
      destruct H1 as [H1 | H1]; auto. destruct H2 as [H2 | H2]; auto. specialize (Ha2 y H2). specialize (Hb2 x H1). unfold flt in *. lia. }
    f_equal. apply IH; auto. eapply Permutation_cons_inv; eauto.
Qed.

(** ** Rows *)
Definition crows (keep : mrow -> bool) (l : list chunk) : list mrow := filter keep (concat (map c_rows l)).
Lemma crows_app keep a b : crows keep (a ++ b) = crows keep a ++ crows keep b.
Proof. unfold crows. rewrite map_app, concat_app, filter_app. reflexivity. Qed.
Lemma crows_in keep l r : In r (crows keep l) <-> keep r = true /\ exists c, In c l /\ In r (c_rows c).
Proof.
  unfold crows. rewrite filter_In, in_concat. split.
  - intros ((x & Hx & Hr) & K). apply in_map_iff in Hx as (c & <- & Hc). eauto.
  - intros (K & c & Hc & Hr). split; auto. exists (c_rows c). split; auto. apply in_map; auto.
Qed.
Lemma rows_at_filter t keep l : rows_at t (filter keep l) = filter keep (rows_at t l).
Proof. unfold rows_at. rewrite !filter_filter. apply filter_ext. intros; apply andb_comm. Qed.
Definition hits (t : Z) (c : chunk) : bool := negb (match rows_at t (c_rows c) with [] => true | _ => false end).
Lemma hits_rows t l : rows_at t (concat (map c_rows l)) = rows_at t (concat (map c_rows (filter (hits t) l))).
Proof.
  induction l as [|c l IH]; auto. cbn [map concat filter]. unfold hits at 1. rewrite rows_at_app, IH.
  destruct (rows_at t (c_rows c)) eqn:E; cbn [negb]; auto. cbn [map concat]. rewrite rows_at_app, E. reflexivity.
Qed.
Lemma hits_in width t c : chunk_ok width c -> hits t c = true -> c_min c <= t <= c_max c.
Proof.
  intros (_ & _ & HF) H. unfold hits in H. destruct (rows_at t (c_rows c)) as [|r l] eqn:E; [discriminate|].
  assert (In r (rows_at t (c_rows c))) as HI by (rewrite E; left; auto). apply rows_at_in in HI as [HI <-].
  rewrite Forall_forall in HF. apply HF; auto.
Qed.
Lemma perm_filter {A} (f : A -> bool) a b : Permutation a b -> Permutation (filter f a) (filter f b).
Proof.
  induction 1; cbn [filter]; auto.
  - destruct (f x); auto.
  - destruct (f x), (f y); auto. apply perm_swap.
  - etransitivity; eauto.
Qed.
Lemma ss_filter {A} (R : A -> A -> Prop) f l : StronglySorted R l -> StronglySorted R (filter f l).
Proof.
  induction l as [|x l IH]; intros H; cbn [filter]; auto. apply StronglySorted_inv in H as [H1 H2].
  destruct (f x); auto. constructor; auto. rewrite Forall_forall in *. intros y Hy. apply filter_In in Hy. apply H2. tauto.
Qed.
Lemma ss_app {A} (R : A -> A -> Prop) a b : StronglySorted R a -> StronglySorted R b -> (forall x y, In x a -> In y b -> R x y) -> StronglySorted R (a ++ b).
Proof.
  induction a as [|x a IH]; intros Ha Hb H; cbn [app]; auto. apply StronglySorted_inv in Ha as [H1 H2].
  constructor; [apply IH; auto; intros; apply H; [right|]; auto|]. apply Forall_app. split; auto. apply Forall_forall. intros y Hy. apply H; [left|]; auto.
Qed.
Lemma nodup_app {A} (a b : list A) : NoDup (a ++ b) -> NoDup a /\ NoDup b.
Proof.
  induction a as [|x a IH]; intros H; [split; [constructor|auto]|]. cbn [app] in H. inversion H; subst. destruct (IH H3) as [I1 I2].
  split; auto. constructor; auto. intros Hx. apply H2, in_app_iff; auto.
Qed.
Definition gsep (earlier later : list chunk) : Prop := forall a b, In a earlier -> In b later -> c_max a < c_min b.
Lemma sort_files_in l c : In c (sort_files l) <-> In c l.
Proof. split; apply Permutation_in; [apply Permutation_sym|]; apply sort_files_perm. Qed.
Lemma groups_rows_at width t (G : list (list chunk)) F :
  ForallOrdPairs gsep G -> Permutation (concat G) F -> StronglySorted flt F -> Forall (chunk_ok width) F ->
  rows_at t (concat (map c_rows (concat (map sort_files G)))) = rows_at t (concat (map c_rows F)).
Proof.
  intros HG HP HF Hok. rewrite (hits_rows t (concat _)), (hits_rows t F). f_equal. f_equal. f_equal.
  rewrite Forall_forall in Hok.
  apply flt_unique; [| |apply ss_filter; auto].
  - apply perm_filter. etransitivity; [|exact HP]. clear. induction G as [|g G IH]; cbn [map concat]; auto.
    apply Permutation_app; auto. apply Permutation_sym, sort_files_perm.
  - assert (HokG : forall c, In c (concat G) -> chunk_ok width c) by (intros c Hc; apply Hok; eapply Permutation_in; eauto).
    assert (HND : NoDup (map c_file (concat G))).
    { apply Permutation_NoDup with (map c_file F); [apply Permutation_map, Permutation_sym; auto|].
      clear - HF. induction F as [|x F IH]; cbn [map]; [constructor|]. apply StronglySorted_inv in HF as [H1 H2]. constructor; auto.
      intros Hx. apply in_map_iff in Hx as (y & E & Hy). rewrite Forall_forall in H2. specialize (H2 y Hy). unfold flt in H2. lia. }
    clear HP HF Hok F. induction G as [|g G IH]; cbn [map concat]; [constructor|].
    apply fop_cons_inv in HG as [G1 G2]. cbn [concat] in *. rewrite map_app in HND.
    apply nodup_app in HND as [HN1 HN2].
    rewrite filter_app. apply ss_app.
    + apply ss_filter, fle_flt; [|apply sort_files_sorted]. apply Permutation_NoDup with (map c_file g); auto.
      apply Permutation_map, sort_files_perm.
    + apply IH; auto. intros c Hc. apply HokG, in_app_iff. auto.
    + intros x y Hx Hy. exfalso. apply filter_In in Hx as [Hx1 Hx2]. apply filter_In in Hy as [Hy1 Hy2].
      rewrite sort_files_in in Hx1. apply in_concat in Hy1 as (s & Hs & Hy1). apply in_map_iff in Hs as (e & <- & He). rewrite sort_files_in in Hy1.
      rewrite Forall_forall in G1. specialize (G1 e He x y Hx1 Hy1).
      apply (hits_in width) in Hx2; [|apply HokG, in_app_iff; auto].
      apply (hits_in width) in Hy2; [|apply HokG, in_app_iff; right; apply in_concat; eauto]. lia.
Qed.

Lemma merged_self width l : StronglySorted (fun a b => r_ts a < r_ts b) l -> Forall (fun r => length (r_cols r) = width) l -> merged width l l.
Proof.
  intros HS HW. split; [auto|]. split; [tauto|]. intros r Hr. rewrite Forall_forall in HW. split; auto. intros c Hc.
  assert (rows_at (r_ts r) l = [r]) as ->.
  { clear - HS Hr. induction l as [|x l IH]; [destruct Hr|]. apply StronglySorted_inv in HS as [H1 H2]. rewrite Forall_forall in H2.
    rewrite rows_at_cons. destruct Hr as [<- | Hr].
    - rewrite (rows_at_nil (r_ts x) l); [unfold rows_at; cbn [filter]; rewrite Z.eqb_refl; reflexivity|].
      intros y Hy E. specialize (H2 y Hy). lia.
    - rewrite (rows_at_nil (r_ts r) [x]); [cbn [app]; auto|]. intros y [<- | []] E. specialize (H2 r Hr). lia. }
  unfold last_value. cbn. destruct (col c r); auto.
Qed.
Lemma merged_app width a b o1 o2 : merged width a o1 -> merged width b o2 ->
  (forall x y, In x a -> In y b -> r_ts x < r_ts y) -> merged width (a ++ b) (o1 ++ o2).
Proof.
  intros (A1 & A2 & A3) (B1 & B2 & B3) Hlt.
  assert (HA : forall x, In x o1 -> exists y, In y a /\ r_ts y = r_ts x).
  { intros x Hx. assert (In (r_ts x) (map r_ts a)) as HH by (apply A2, in_map; auto). apply in_map_iff in HH as (y & ? & ?). eauto. }
  assert (HB : forall x, In x o2 -> exists y, In y b /\ r_ts y = r_ts x).
  { intros x Hx. assert (In (r_ts x) (map r_ts b)) as HH by (apply B2, in_map; auto). apply in_map_iff in HH as (y & ? & ?). eauto. }
  split; [|split].
  - apply ss_app; auto. intros x y Hx Hy. destruct (HA x Hx) as (x' & ? & <-). destruct (HB y Hy) as (y' & ? & <-). auto.
  - intros t. rewrite !map_app, !in_app_iff, A2, B2. tauto.
  - intros r Hr. rewrite rows_at_app. apply in_app_iff in Hr as [Hr | Hr].
    + destruct (A3 r Hr) as [L C]. split; auto. intros c Hc. rewrite C, (rows_at_nil (r_ts r) b), app_nil_r; auto.
      intros y Hy E. destruct (HA r Hr) as (x' & Hx & Ex). specialize (Hlt x' y Hx Hy). lia.
    + destruct (B3 r Hr) as [L C]. split; auto. intros c Hc. rewrite C, (rows_at_nil (r_ts r) a); auto.
      intros x Hx E. destruct (HB r Hr) as (y' & Hy & Ey). specialize (Hlt x y' Hx Hy). lia.
Qed.

Lemma read_group_ok width bs keep g : (1 <= bs)%nat -> g <> [] -> Forall (chunk_ok width) g ->
  exists out, read_group width bs keep g = Some out /\ merged width (crows keep (sort_files g)) out.
Proof.
  intros Hbs Hne Hok. unfold read_group.
  assert (Hok' : Forall (chunk_ok width) (sort_files g)).
  { rewrite Forall_forall in *. intros c Hc. apply Hok, sort_files_in; auto. }
  assert (Hlen : length (sort_files g) = length g) by (symmetry; apply Permutation_length, sort_files_perm).
  assert (Hst : forall c, chunk_ok width c -> StronglySorted (fun a b => r_ts a < r_ts b) (filter keep (c_rows c)) /\
      Forall (fun r => length (r_cols r) = width) (filter keep (c_rows c))).
  { intros c (_ & H2 & H3). split; [apply ss_filter; auto|]. rewrite Forall_forall in *. intros r Hr. apply filter_In in Hr. apply H3. tauto. }
  assert (Hrows : length (concat (map c_rows (sort_files g))) = group_rows g).
  { unfold group_rows. clear. pose proof (sort_files_perm g) as HP. induction HP; cbn [map concat]; rewrite ?app_length; try lia. }
  destruct (sort_files g) as [|c l] eqn:E; [destruct g; [congruence | discriminate]|].
  destruct l as [|c2 l].
  - eexists. split; [reflexivity|]. unfold chunk_stream, crows. cbn [map concat]. rewrite !app_nil_r.
    inversion Hok' as [|? ? H _]; subst. destruct (Hst c H). apply merged_self; auto.
  - set (cs := c :: c2 :: l) in *.
    assert (Hall : all_rows (map (chunk_stream keep) cs) = crows keep cs).
    { unfold all_rows, crows, rows_of, chunk_stream. rewrite map_map. clear. induction cs as [|x cs IH]; auto.
      cbn [map]. rewrite !concat_cons, filter_app, IH. cbn [concat]. rewrite app_nil_r. reflexivity. }
    destruct (sort_merge_ok width bs (map (chunk_stream keep) cs)) as (batches & R & M & _); auto.
    + discriminate.
    + rewrite Forall_forall in *. intros s Hs. apply in_map_iff in Hs as (x & <- & Hx). unfold stream_ok, rows_of, chunk_stream.
      cbn [concat]. rewrite app_nil_r. destruct (Hst x (Hok' x Hx)) as [S1 S2]. split; auto.
      clear - S1. induction S1; constructor; auto. eapply Forall_impl; [|exact H]. cbn. lia.
    + rewrite Hall in *. rewrite R.
      2:{ assert (length (crows keep cs) <= length (concat (map c_rows cs)))%nat by (unfold crows; clear; induction (concat (map c_rows cs)) as [|x m IH]; cbn [filter length]; [lia|]; destruct (keep x); cbn [length]; lia). lia. }
      eexists. split; [reflexivity|auto].
Qed.
Lemma read_groups_ok width bs keep G : (1 <= bs)%nat -> Forall (fun g => g <> []) G -> ForallOrdPairs gsep G ->
  (forall c, In c (concat G) -> chunk_ok width c) ->
  exists out, read_groups width bs keep G = Some out /\ merged width (crows keep (concat (map sort_files G))) out.
Proof.
  intros Hbs. induction G as [|g G IH]; intros Hne HG Hok; cbn [read_groups map concat].
  - exists []. split; auto. apply merged_nil.
  - inversion Hne; subst. apply fop_cons_inv in HG as [G1 G2].
    assert (Hok1 : Forall (chunk_ok width) g) by (apply Forall_forall; intros c Hc; apply Hok, in_app_iff; auto).
    assert (Hok2 : forall c, In c (concat G) -> chunk_ok width c) by (intros c Hc; apply Hok, in_app_iff; auto).
    destruct (read_group_ok width bs keep g Hbs H1 Hok1) as (o1 & -> & M1).
    destruct (IH H2 G2 Hok2) as (o2 & -> & M2). eexists. split; [reflexivity|]. rewrite crows_app. apply merged_app; auto.
    intros x y Hx Hy. apply crows_in in Hx as (_ & c & Hc & Hx). apply crows_in in Hy as (_ & d & Hd & Hy).
    rewrite sort_files_in in Hc. apply in_concat in Hd as (s & Hs & Hd). apply in_map_iff in Hs as (e & <- & He). rewrite sort_files_in in Hd.
    rewrite Forall_forall in G1. specialize (G1 e He c d Hc Hd).
    rewrite Forall_forall in Hok1. destruct (Hok1 c Hc) as (_ & _ & F1).
    assert (Hd2 : In d (concat G)) by (apply in_concat; eauto). destruct (Hok2 d Hd2) as (_ & _ & F2). rewrite Forall_forall in F1, F2.
    destruct (F1 x Hx). destruct (F2 y Hy). lia.
Qed.
Lemma read_series_ok width bs keep cs l F : (1 <= bs)%nat -> Forall (chunk_ok width) cs ->
  Forall (fun c => I64_MIN <= c_max c) cs -> time_sorted cs l -> file_sorted cs F ->
  exists out, read_series width bs keep l = Some out /\ merged width (filter keep (concat (map c_rows F))) out.
Proof.
  intros Hbs Hok Hlow (P1 & S1) (P2 & S2). rewrite Forall_forall in *.
  destruct (group_ok l S1) as (E & N & O & _).
  { intros c Hc. apply Hlow. apply (Permutation_in c (Permutation_sym P1)); auto. }
  assert (HokG : forall c, In c (concat (group_overlapping l)) -> chunk_ok width c).
  { rewrite E. intros c Hc. apply Hok. apply (Permutation_in c (Permutation_sym P1)); auto. }
  destruct (read_groups_ok width bs keep _ Hbs N O HokG) as (out & R & M). exists out. split; auto.
  eapply merged_rows; [|exact M]. intros t. unfold crows. rewrite !rows_at_filter. f_equal.
  apply (groups_rows_at width); auto.
  - rewrite E. apply (Permutation_trans (Permutation_sym P1) P2).
  - apply Forall_forall. intros c Hc. apply Hok. apply (Permutation_in c (Permutation_sym P2)); auto.
Qed.

Lemma merged_keep width keep L out : merged width L out ->
  (forall r v, In r out -> In v L -> r_ts v = r_ts r -> keep v = keep r) ->
  merged width (filter keep L) (filter keep out).
Proof.
  intros (M1 & M2 & M3) Hk. split; [apply ss_filter; auto|]. split.
  - intros t. rewrite !in_map_iff. split.
    + intros (r & <- & Hr). apply filter_In in Hr as [Hr K].
      assert (HI : In (r_ts r) (map r_ts L)) by (apply M2, in_map; auto). apply in_map_iff in HI as (v & E & Hv).
      exists v. split; auto. apply filter_In. split; auto. rewrite (Hk r v); auto.
    + intros (v & <- & Hv). apply filter_In in Hv as [Hv K].
      assert (HI : In (r_ts v) (map r_ts out)) by (apply M2, in_map; auto). apply in_map_iff in HI as (r & E & Hr).
      exists r. split; auto. apply filter_In. split; auto. rewrite <- (Hk r v); auto.
  - intros r Hr. apply filter_In in Hr as [Hr K]. destruct (M3 r Hr) as [L1 C1]. split; auto. intros c Hc. rewrite (C1 c Hc).
    f_equal. f_equal. rewrite rows_at_filter. symmetry. rewrite (filter_ext_in keep (fun _ => true)); [apply filter_true; auto|].
    intros v Hv. apply rows_at_in in Hv as [Hv E]. rewrite (Hk r v); auto.
Qed.
Lemma nodup_row l a b : NoDup (map r_ts l) -> In a l -> In b l -> r_ts a = r_ts b -> a = b.
Proof.
  induction l as [|x l IH]; intros HN Ha Hb E; [destruct Ha|]. cbn [map] in HN. inversion HN; subst.
  destruct Ha as [<- | Ha], Hb as [<- | Hb]; auto; exfalso; apply H1; [rewrite E|rewrite <- E]; apply in_map; auto.
Qed.
Lemma rows_at_nodup l r : NoDup (map r_ts l) -> In r l -> rows_at (r_ts r) l = [r].
Proof.
  induction l as [|x l IH]; intros HN Hr; [destruct Hr|]. cbn [map] in HN. inversion HN; subst. rewrite rows_at_cons.
  destruct Hr as [<- | Hr].
  - rewrite (rows_at_nil _ l); [unfold rows_at; cbn [filter]; rewrite Z.eqb_refl; reflexivity|].
    intros y Hy E. apply H1. rewrite <- E. apply in_map; auto.
  - rewrite (rows_at_nil _ [x]); [cbn [app]; auto|]. intros y [<- | []] E. apply H1. rewrite E. apply in_map; auto.
Qed.
Lemma merged_unique_rows width l out r : merged width l out -> NoDup (map r_ts l) -> Forall (fun r => length (r_cols r) = width) l ->
  In r out -> In r l.
Proof.
  intros (M1 & M2 & M3) HN HW Hr. assert (HI : In (r_ts r) (map r_ts l)) by (apply M2, in_map; auto).
  apply in_map_iff in HI as (v & E & Hv). rewrite Forall_forall in HW. specialize (HW v Hv). destruct (M3 r Hr) as [L1 C1].
  assert (r = v); [|subst; auto].
  destruct r as [t cs], v as [t' cs']. cbn [r_ts r_cols] in *. subst t'. f_equal.
  apply nth_ext with None None; [lia|]. intros n Hn. rewrite L1 in Hn. specialize (C1 n Hn).
  change t with (r_ts (MR t cs')) in C1 at 2. rewrite (rows_at_nodup l (MR t cs') HN Hv) in C1. cbn [map] in C1.
  unfold last_value in C1. cbn in C1. unfold col in C1. cbn [r_cols] in C1. rewrite C1. destruct (nth n cs' None); auto.
Qed.
