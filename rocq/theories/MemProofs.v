(** Proofs about the in-memory cache. *)
From Verif Require Import Prelude MergeModel MergeSpec MergeProofs MemModel MemSpec.
Open Scope Z_scope.

Definition ssorted (l : list mrow) : Prop := StronglySorted (fun a b => r_ts a <= r_ts b) l.

(** ** The skip list *)
Lemma sl_insert_in r l x : In x (sl_insert r l) <-> x = r \/ In x l.
Proof.
  induction l as [|y l IH]; cbn [sl_insert]; [cbn; intuition|].
  destruct (r_ts y <? r_ts r); cbn [In]; [rewrite IH|]; intuition.
Qed.
Lemma sl_insert_sorted r l : ssorted l -> ssorted (sl_insert r l).
Proof.
  unfold ssorted. induction l as [|y l IH]; cbn [sl_insert]; intros H; [repeat constructor|].
  apply StronglySorted_inv in H as [H1 H2].
  destruct (Z.ltb_spec (r_ts y) (r_ts r)) as [L | L].
  - constructor; auto. apply Forall_forall. intros x Hx. apply sl_insert_in in Hx as [-> | Hx]; [lia|].
    rewrite Forall_forall in H2. auto.
  - constructor; [constructor; auto|]. constructor; [lia|]. rewrite Forall_forall in *. intros x Hx. specialize (H2 x Hx). lia.
Qed.
Lemma sl_insert_at r l t : ssorted l -> rows_at t (sl_insert r l) = rows_at t [r] ++ rows_at t l.
Proof.
  unfold ssorted. induction l as [|y l IH]; cbn [sl_insert]; intros H; [symmetry; apply app_nil_r|].
  apply StronglySorted_inv in H as [H1 H2].
  destruct (Z.ltb_spec (r_ts y) (r_ts r)) as [L | L].
  - change (y :: sl_insert r l) with ([y] ++ sl_insert r l). change (y :: l) with ([y] ++ l).
    rewrite !rows_at_app, IH by auto. rewrite !app_assoc. f_equal.
    unfold rows_at. cbn [filter]. destruct (Z.eqb_spec (r_ts y) t), (Z.eqb_spec (r_ts r) t); auto; lia.
  - change (r :: y :: l) with ([r] ++ (y :: l)). apply rows_at_app.
Qed.
Lemma sl_extend_in rs : forall l x, In x (sl_extend l rs) <-> In x rs \/ In x l.
Proof.
  unfold sl_extend. induction rs as [|r rs IH]; intros l x; cbn [fold_left]; [cbn; tauto|].
  rewrite IH, sl_insert_in. cbn [In]. intuition.
Qed.
Lemma sl_extend_sorted rs : forall l, ssorted l -> ssorted (sl_extend l rs).
Proof. unfold sl_extend. induction rs as [|r rs IH]; intros l H; cbn [fold_left]; auto. apply IH, sl_insert_sorted; auto. Qed.
Lemma rows_at_cons t r l : rows_at t (r :: l) = rows_at t [r] ++ rows_at t l.
Proof. apply (rows_at_app t [r] l). Qed.
Lemma rows_at_1_rev t r : rev (rows_at t [r]) = rows_at t [r].
Proof. unfold rows_at. cbn [filter]. destruct (_ =? _); reflexivity. Qed.
Lemma sl_extend_at t rs : forall l, ssorted l -> rows_at t (sl_extend l rs) = rev (rows_at t rs) ++ rows_at t l.
Proof.
  unfold sl_extend. induction rs as [|r rs IH]; intros l H; cbn [fold_left]; auto.
  rewrite IH by (apply sl_insert_sorted; auto). rewrite sl_insert_at by auto.
  rewrite (rows_at_cons t r rs), rev_app_distr, rows_at_1_rev, app_assoc. reflexivity.
Qed.
Lemma rows_at_rev t l : rows_at t (rev l) = rev (rows_at t l).
Proof.
  induction l as [|r l IH]; auto. cbn [rev]. rewrite rows_at_app, IH, (rows_at_cons t r l), rev_app_distr, rows_at_1_rev. reflexivity.
Qed.
Lemma ssorted_nil : ssorted []. Proof. constructor. Qed.

(** ** Values *)
Lemma last_value_app a b : last_value (a ++ b) = match last_value b with Some v => Some v | None => last_value a end.
Proof.
  induction b as [|x b IH] using rev_ind; [rewrite app_nil_r; reflexivity|].
  rewrite app_assoc, !last_value_snoc. destruct x; auto.
Qed.
Definition arow (align cols : list Z) (r : mrow) : mrow := MR (r_ts r) (map (field_of cols r) align).
Lemma arow_col align cols r i : (i < length align)%nat -> col i (arow align cols r) = field_of cols r (nth i align 0).
Proof.
  intros H. unfold col, arow. cbn [r_cols].
  rewrite nth_indep with (d' := field_of cols r 0) by (rewrite map_length; auto). apply map_nth.
Qed.
Definition orv (a b : option Z) : option Z := match a with Some v => Some v | None => b end.
Lemma fill_ok cols r : forall align acc, length acc = length align ->
  length (fill align cols r acc) = length align /\
  forall i, (i < length align)%nat -> nth i (fill align cols r acc) None = orv (nth i acc None) (field_of cols r (nth i align 0)).
Proof.
  unfold fill. induction align as [|a align IH]; intros [|x acc] H; try discriminate; cbn [combine map length].
  - split; auto. intros; lia.
  - injection H as H. destruct (IH acc H) as [E1 E2]. split; [congruence|].
    intros [|i] Hi; cbn [nth fst snd]; [destruct x; auto|]. apply E2. lia.
Qed.

Section Iter.
Variable align : list Z.
Lemma consume_ok cols t : forall rows acc acc' rows',
  consume align cols t rows acc = (acc', rows') -> length acc = length align ->
  exists tk, rows = tk ++ rows' /\ (forall r, In r tk -> r_ts r = t) /\
    (match rows' with [] => True | r :: _ => r_ts r <> t end) /\
    length acc' = length align /\
    forall i, (i < length align)%nat ->
      nth i acc' None = orv (nth i acc None) (last_value (map (col i) (rev (map (arow align cols) tk)))).
Proof.
  induction rows as [|r rows IH]; intros acc acc' rows' H L; cbn [consume] in H.
  - injection H as <- <-. exists []. sp; auto; [intros r []|]. intros i Hi. cbn. destruct (nth i acc None); auto.
  - destruct (Z.eqb_spec (r_ts r) t) as [E | E].
    + destruct (fill_ok cols r align acc L) as [F1 F2].
      destruct (IH _ _ _ H F1) as (tk & E1 & E2 & E3 & E4 & E5).
      exists (r :: tk). sp; auto.
      * rewrite E1. reflexivity.
      * intros x [<- | Hx]; auto.
      * intros i Hi. rewrite E5, F2 by auto. cbn [map rev]. rewrite map_app. cbn [map].
        rewrite last_value_app, arow_col by auto.
        change (last_value [field_of cols r (nth i align 0)]) with
          (match field_of cols r (nth i align 0) with Some v => Some v | None => None end).
        unfold orv. destruct (nth i acc None); auto. destruct (field_of cols r (nth i align 0)); auto.
    + injection H as <- <-. exists []. sp; auto; [intros x []|]. intros i Hi. cbn. destruct (nth i acc None); auto.
Qed.

Definition lrows (g : list Z * list mrow) : list mrow := rev (map (arow align (fst g)) (snd g)).
Definition logrows (gs : list (list Z * list mrow)) : list mrow := concat (map lrows gs).
Lemma lrows_in g x : In x (lrows g) <-> exists r, In r (snd g) /\ x = arow align (fst g) r.
Proof. unfold lrows. rewrite <- in_rev, in_map_iff. split; intros (r & A & B); exists r; auto. Qed.
Lemma logrows_in gs x : In x (logrows gs) <-> exists g r, In g gs /\ In r (snd g) /\ x = arow align (fst g) r.
Proof.
  unfold logrows. rewrite in_concat. split.
  - intros (l & Hl & Hx). apply in_map_iff in Hl as (g & <- & Hg). apply lrows_in in Hx as (r & A & B). eauto.
  - intros (g & r & A & B & C). exists (lrows g). split; [apply in_map; auto|]. apply lrows_in. eauto.
Qed.
Definition above (t : Z) (gs : list (list Z * list mrow)) : Prop := forall g r, In g gs -> In r (snd g) -> t <= r_ts r.
Definition sortedg (gs : list (list Z * list mrow)) : Prop := forall g, In g gs -> ssorted (snd g).

Lemma consume_all_ok t : forall gs acc acc' gs',
  consume_all align t gs acc = (acc', gs') -> length acc = length align -> sortedg gs -> above t gs ->
  length acc' = length align /\ sortedg gs' /\ above (t + 1) gs' /\
  (forall u, u <> t -> rows_at u (logrows gs') = rows_at u (logrows gs)) /\
  (forall i, (i < length align)%nat ->
     nth i acc' None = orv (nth i acc None) (last_value (map (col i) (rows_at t (logrows gs))))) /\
  (total_rows gs' <= total_rows gs)%nat /\
  ((exists g r rest, In g gs /\ snd g = r :: rest /\ r_ts r = t) -> (total_rows gs' < total_rows gs)%nat) /\
  (forall g r, In g gs' -> In r (snd g) -> exists g0, In g0 gs /\ In r (snd g0)).
Proof.
  induction gs as [|[cols rows] gs IH]; intros acc acc' gs' H L HS HA; cbn [consume_all] in H.
  - injection H as <- <-. sp; auto.
    + intros g r [].
    + intros i Hi. cbn. destruct (nth i acc None); auto.
    + intros (g & r & rest & [] & _).
    + intros g r [].
  - destruct (consume_all align t gs acc) as [acc1 gs1] eqn:E1.
    destruct (consume align cols t rows acc1) as [acc2 rows2] eqn:E2. injection H as <- <-.
    assert (HS' : sortedg gs) by (intros g Hg; apply HS; right; auto).
    assert (HA' : above t gs) by (intros g r Hg; apply HA; right; auto).
    destruct (IH _ _ _ E1 L HS' HA') as (I1 & I2 & I3 & I4 & I5 & I6 & I7 & I8).
    destruct (consume_ok _ _ _ _ _ _ E2 I1) as (tk & T1 & T2 & T3 & T4 & T5).
    pose proof (HS (cols, rows) (or_introl eq_refl)) as Hs. cbn [snd] in Hs.
    assert (Hab : forall r, In r rows -> t <= r_ts r) by (intros r Hr; apply (HA (cols, rows) r (or_introl eq_refl)); auto).
    assert (Hs2 : ssorted rows2).
    { rewrite T1 in Hs. clear - Hs. induction tk; auto. apply StronglySorted_inv in Hs. apply IHtk. tauto. }
    assert (Hgt : forall r, In r rows2 -> t + 1 <= r_ts r).
    { intros r Hr. destruct rows2 as [|r0 rows2]; [destruct Hr|].
      assert (t <= r_ts r0) by (apply Hab; rewrite T1; apply in_app_iff; right; left; auto).
      apply StronglySorted_inv in Hs2 as [_ F]. rewrite Forall_forall in F. destruct Hr as [<- | Hr]; [lia|].
      specialize (F r Hr). lia. }
    assert (Hlr : lrows (cols, rows) = lrows (cols, rows2) ++ rev (map (arow align cols) tk)).
    { unfold lrows. cbn [fst snd]. rewrite T1, map_app, rev_app_distr. reflexivity. }
    assert (Hcons : forall g l, logrows (g :: l) = lrows g ++ logrows l) by reflexivity.
    assert (Htot : total_rows ((cols, rows2) :: gs1) = (length rows2 + total_rows gs1)%nat).
    { unfold total_rows. cbn [map snd concat]. rewrite app_length. reflexivity. }
    assert (Htot2 : total_rows ((cols, rows) :: gs) = (length tk + length rows2 + total_rows gs)%nat).
    { unfold total_rows. cbn [map snd concat]. rewrite app_length, T1, app_length. reflexivity. }
    split; [auto|]. split; [|split; [|split; [|split; [|split; [|split]]]]].
    + intros g [<- | Hg]; auto.
    + intros g r [<- | Hg] Hr; auto. apply (I3 g); auto.
    + intros u Hu. rewrite !Hcons, Hlr, !rows_at_app, I4 by auto. f_equal.
      rewrite (rows_at_nil u (rev _)); [rewrite app_nil_r; auto|].
      intros x Hx. apply in_rev, in_map_iff in Hx as (r & <- & Hr). cbn [arow r_ts]. rewrite T2; auto.
    + intros i Hi. rewrite T5, I5 by auto. rewrite Hcons, Hlr, !rows_at_app, !map_app, !last_value_app.
      rewrite (rows_at_nil t (lrows (cols, rows2))).
      2:{ intros x Hx. apply lrows_in in Hx as (r & Hr & ->). cbn [arow r_ts]. specialize (Hgt r Hr). lia. }
      assert (Hall : rows_at t (rev (map (arow align cols) tk)) = rev (map (arow align cols) tk)).
      { rewrite rows_at_rev. f_equal. unfold rows_at.
        clear - T2. induction tk as [|r tk IHt]; auto. cbn [map filter arow r_ts]. rewrite T2 by (left; auto).
        rewrite Z.eqb_refl. f_equal. apply IHt. intros; apply T2; right; auto. }
      rewrite Hall. cbn [map]. unfold orv.
      destruct (nth i acc None); auto.
      destruct (last_value (map (col i) (rows_at t (logrows gs)))); auto.
      destruct (last_value (map (col i) (rev (map (arow align cols) tk)))); auto.
    + rewrite Htot, Htot2. lia.
    + intros (g & r & rest & [<- | Hg] & E & Et).
      * cbn [snd] in E. rewrite Htot, Htot2. destruct tk as [|x tk]; [|cbn [length]; lia].
        cbn [app] in T1. rewrite <- T1, E in T3. lia.
      * assert (Hx : (total_rows gs1 < total_rows gs)%nat) by (apply I7; exists g, r, rest; auto). rewrite Htot, Htot2. lia.
    + intros g r [<- | Hg] Hr; cbn [snd] in *.
      * exists (cols, rows). split; [left; auto|]. cbn [snd]. rewrite T1. apply in_app_iff. auto.
      * destruct (I8 g r Hg Hr) as (g0 & A & B). exists g0. split; auto. right. auto.
Qed.

Lemma min_head_ok gs : sortedg gs -> (forall g r, In g gs -> In r (snd g) -> r_ts r <= I64_MAX) ->
  above (min_head gs) gs /\ min_head gs <= I64_MAX /\
  (min_head gs < I64_MAX -> exists g r rest, In g gs /\ snd g = r :: rest /\ r_ts r = min_head gs).
Proof.
  unfold min_head. set (f := fun m g => match snd g with r :: _ => if m >? r_ts r then r_ts r else m | [] => m end).
  assert (forall gs m, sortedg gs -> 
    fold_left f gs m <= m /\ above (fold_left f gs m) gs /\
    (fold_left f gs m < m -> exists g r rest, In g gs /\ snd g = r :: rest /\ r_ts r = fold_left f gs m)) as HH.
  { clear gs. induction gs as [|g gs IH]; intros m HS; cbn [fold_left].
    - sp; [lia| |lia]. intros g r [].
    - destruct (IH (f m g)) as (A & B & C); [intros x Hx; apply HS; right; auto|].
      assert (Hf : f m g <= m /\ (forall r, In r (snd g) -> f m g <= r_ts r) /\
        (f m g < m -> exists r rest, snd g = r :: rest /\ r_ts r = f m g)).
      { specialize (HS g (or_introl eq_refl)). unfold f. destruct (snd g) as [|r rest] eqn:Eg.
        - sp; [lia| |lia]. intros r [].
        - apply StronglySorted_inv in HS as [_ F]. rewrite Forall_forall in F.
          rewrite Z.gtb_ltb. destruct (Z.ltb_spec (r_ts r) m).
          + sp; [lia| |]. * intros x [<- | Hx]; [lia | apply F; auto]. * intros _. exists r, rest. auto.
          + sp; [lia| |lia]. intros x [<- | Hx]; [lia|]. specialize (F x Hx). lia. }
      destruct Hf as (F1 & F2 & F3). sp.
      + lia.
      + intros x r [<- | Hx] Hr; [specialize (F2 r Hr); lia | apply (B x r Hx Hr)].
      + intros Hlt. destruct (Z.eq_dec (fold_left f gs (f m g)) (f m g)) as [E | E].
        * rewrite E in Hlt |- *. destruct (F3 Hlt) as (r & rest & G1 & G2). exists g, r, rest. sp; auto. left; auto.
        * destruct C as (x & r & rest & C1 & C2 & C3); [lia|]. exists x, r, rest. sp; auto. right; auto. }
  intros HS Hb. destruct (HH gs I64_MAX HS) as (A & B & C). sp; auto.
Qed.

Definition visible (l : list mrow) : list mrow := filter (fun r => r_ts r <? I64_MAX) l.

Lemma merged_cons width l l' r out :
  merged width l' out -> (forall x, In x l' -> r_ts r < r_ts x) ->
  (forall u, u <> r_ts r -> rows_at u l = rows_at u l') -> rows_at (r_ts r) l <> [] ->
  length (r_cols r) = width -> (forall c, (c < width)%nat -> col c r = last_value (map (col c) (rows_at (r_ts r) l))) ->
  merged width l (r :: out).
Proof.
  intros (M1 & M2 & M3) Hlt Hro Hne Hw Hc.
  assert (Hin : forall u m, In u (map r_ts m) <-> rows_at u m <> []).
  { intros u m. rewrite in_map_iff. split.
    - intros (x & E1 & E2) E3. assert (In x (rows_at u m)) as HI by (apply rows_at_in; auto). rewrite E3 in HI. destruct HI.
    - destruct (rows_at u m) as [|x k] eqn:Ex; [congruence|]. intros _. exists x.
      assert (In x (rows_at u m)) as HI by (rewrite Ex; left; auto). apply rows_at_in in HI. tauto. }
  split; [|split].
  - constructor; auto. apply Forall_forall. intros x Hx. assert (In (r_ts x) (map r_ts l')) as HH by (apply M2, in_map; auto).
    apply in_map_iff in HH as (y & Ey & Hy). specialize (Hlt y Hy). lia.
  - intros t. cbn [map In]. rewrite M2, !Hin. destruct (Z.eq_dec t (r_ts r)) as [-> | E].
    + tauto.
    + rewrite Hro by auto. intuition.
  - intros x [<- | Hx]; [auto|]. destruct (M3 x Hx) as [A B]. split; auto. intros c Hcw. rewrite B by auto.
    rewrite Hro; auto. assert (In (r_ts x) (map r_ts l')) as HH by (apply M2, in_map; auto).
    apply in_map_iff in HH as (y & Ey & Hy). specialize (Hlt y Hy). lia.
Qed.

Lemma rows_at_visible t l : rows_at t (visible l) = if t <? I64_MAX then rows_at t l else [].
Proof.
  unfold rows_at, visible. induction l as [|r l IH]; cbn [filter]; [destruct (_ <? _); auto|].
  destruct (Z.ltb_spec (r_ts r) I64_MAX); cbn [filter]; destruct (Z.eqb_spec (r_ts r) t) as [E | E]; rewrite ?IH;
    destruct (Z.ltb_spec t I64_MAX); auto; lia.
Qed.

Lemma it_run_ok : forall fuel gs, (total_rows gs < fuel)%nat -> sortedg gs ->
  (forall g r, In g gs -> In r (snd g) -> r_ts r <= I64_MAX) ->
  merged (length align) (visible (logrows gs)) (it_run fuel align gs).
Proof.
  induction fuel as [|fuel IH]; intros gs Hf HS Hb; [lia|].
  cbn [it_run]. unfold it_next. destruct (min_head_ok gs HS Hb) as (A & B & C).
  destruct (Z.eqb_spec (min_head gs) I64_MAX) as [E | E].
  - replace (visible (logrows gs)) with (@nil mrow); [apply merged_nil|].
    symmetry. destruct (visible (logrows gs)) as [|x l] eqn:Ex; auto. exfalso.
    assert (In x (visible (logrows gs))) as HI by (rewrite Ex; left; auto).
    unfold visible in HI. apply filter_In in HI as [HI Hx]. apply logrows_in in HI as (g & r & G1 & G2 & ->).
    cbn [arow r_ts] in Hx. specialize (A g r G1 G2). rewrite E in A. lia.
  - destruct (consume_all align (min_head gs) gs (map (fun _ => None) align)) as [acc gs'] eqn:Ec.
    destruct (consume_all_ok _ _ _ _ _ Ec) as (H1 & H2 & H3 & H4 & H5 & H6 & H7 & H8); auto.
    { rewrite map_length. auto. }
    assert (Hlt : min_head gs < I64_MAX) by lia.
    destruct (C Hlt) as (g & r & rest & G1 & G2 & G3).
    assert (total_rows gs' < total_rows gs)%nat by (apply H7; eauto).
    apply merged_cons with (visible (logrows gs')); cbn [r_ts r_cols]; auto.
    + apply IH; [lia|auto|]. intros g0 r0 Hg0 Hr0. destruct (H8 g0 r0 Hg0 Hr0) as (g1 & B1 & B2). eauto.
    + intros x Hx. unfold visible in Hx. apply filter_In in Hx as [Hx _]. apply logrows_in in Hx as (g0 & r0 & K1 & K2 & ->).
      cbn [arow r_ts]. specialize (H3 g0 r0 K1 K2). lia.
    + intros u Hu. rewrite !rows_at_visible. destruct (_ <? _); auto. symmetry. apply H4; auto.
    + rewrite rows_at_visible. destruct (Z.ltb_spec (min_head gs) I64_MAX); [|lia]. intros E0.
      assert (In (arow align (fst g) r) (rows_at (min_head gs) (logrows gs))) as HI.
      { apply rows_at_in. split; [|auto]. apply logrows_in. exists g, r. rewrite G2. cbn. auto. }
      rewrite E0 in HI. destruct HI.
    + intros c Hc. unfold col. cbn [r_cols]. rewrite H5 by auto. rewrite rows_at_visible.
      destruct (Z.ltb_spec (min_head gs) I64_MAX); [|lia].
      replace (nth c (map (fun _ => None) align) None) with (@None Z); [reflexivity|].
      clear. revert c. induction align as [|a l IHl]; intros [|c]; cbn; auto.
Qed.
End Iter.

Lemma merged_filter width f l out : merged width l out ->
  merged width (filter (fun r => f (r_ts r)) l) (filter (fun r => f (r_ts r)) out).
Proof.
  intros (M1 & M2 & M3).
  assert (Hra : forall t m, f t = true -> rows_at t (filter (fun r => f (r_ts r)) m) = rows_at t m).
  { intros t m Ht. unfold rows_at. induction m as [|x m IH]; auto. cbn [filter].
    destruct (f (r_ts x)) eqn:Ef; cbn [filter]; destruct (Z.eqb_spec (r_ts x) t) as [E | E]; rewrite ?IH; auto. congruence. }
  split; [|split].
  - clear - M1. induction out as [|x out IH]; cbn [filter]; auto. apply StronglySorted_inv in M1 as [H1 H2].
    destruct (f (r_ts x)); auto. constructor; auto. apply Forall_forall. intros y Hy. apply filter_In in Hy.
    rewrite Forall_forall in H2. apply H2. tauto.
  - intros t.
    assert (HI : forall m, In t (map r_ts (filter (fun r => f (r_ts r)) m)) <-> f t = true /\ In t (map r_ts m)).
    { intros m. rewrite !in_map_iff. split.
      - intros (x & <- & Hx). apply filter_In in Hx as [A B]. split; auto. exists x; auto.
      - intros (Ht & x & <- & Hx). exists x. split; auto. apply filter_In; auto. }
    rewrite !HI, M2. tauto.
  - intros r Hr. apply filter_In in Hr as [Hr Hf]. destruct (M3 r Hr) as [A B]. split; auto.
    intros c Hc. rewrite Hra by auto. auto.
Qed.

(** ** One series *)
Definition wk (d : sdata) : Prop :=
  forall g, In g (d_groups d) -> ssorted (g_rows g) /\
    forall r, In r (g_rows g) -> d_min d <= r_ts r <= d_max d /\ is_i64 (r_ts r).
Lemma sd_read_ok inr d : wk d ->
  merged (length (latest_cols d))
    (filter (fun r => inr (r_ts r)) (visible (logrows (latest_cols d) (flat d)))) (sd_read inr d).
Proof.
  intros H. unfold sd_read. apply merged_filter. apply it_run_ok; [lia| |].
  - intros g Hg. unfold flat in Hg. apply in_map_iff in Hg as (x & <- & Hx). apply (H x Hx).
  - intros g r Hg Hr. unfold flat in Hg. apply in_map_iff in Hg as (x & <- & Hx). cbn [snd] in Hr.
    destruct (H x Hx) as [_ H2]. destruct (H2 r Hr) as [_ [_ ?]]. auto.
Qed.

Lemma new_group_ok sc rs :
  g_schema (new_group sc rs) = sc /\ g_rows (new_group sc rs) = sl_extend [] rs /\
  (forall r, In r rs -> g_min (new_group sc rs) <= r_ts r <= g_max (new_group sc rs)).
Proof.
  unfold new_group. set (f := fun g r => RG sc (Z.min (g_min g) (r_ts r)) (Z.max (g_max g) (r_ts r)) (sl_insert r (g_rows g))).
  assert (forall rs g, g_schema g = sc ->
    let g' := fold_left f rs g in
    g_schema g' = sc /\ g_rows g' = sl_extend (g_rows g) rs /\ g_min g' <= g_min g /\ g_max g <= g_max g' /\
    (forall r, In r rs -> g_min g' <= r_ts r <= g_max g')) as HH.
  { clear rs. induction rs as [|r rs IH]; intros g Hg; cbn [fold_left].
    - sp; auto; try lia. intros r [].
    - destruct (IH (f g r) eq_refl) as (A & B & C & D & E). cbn zeta in *. 
      change (g_min (f g r)) with (Z.min (g_min g) (r_ts r)) in C. change (g_max (f g r)) with (Z.max (g_max g) (r_ts r)) in D.
      split; [auto|split; [exact B|split; [lia|split; [lia|]]]]. intros x [<- | Hx]; [lia|]. apply E; auto. }
  destruct (HH rs (RG sc I64_MAX I64_MIN []) eq_refl) as (A & B & _ & _ & E). cbn [g_rows] in B. auto.
Qed.

Definition absorb (x g : rgroup) : rgroup :=
  RG (g_schema g) (Z.min (g_min x) (g_min g)) (Z.max (g_max x) (g_max g)) (sl_extend (g_rows x) (g_rows g)).
Lemma write_back_some gs g r : write_back gs g = Some r ->
  forall y, In y r -> In y gs \/ exists x, In x gs /\ y = absorb x g.
Proof.
  revert r. induction gs as [|x gs IH]; intros r H; cbn [write_back] in H; [discriminate|].
  destruct (_ =? _).
  - injection H as <-. intros y [<- | Hy]; [right; exists x; split; [left|]; auto | left; right; auto].
  - destruct (write_back gs g) as [r'|]; [|discriminate]. injection H as <-. intros y [<- | Hy]; [left; left; auto|].
    destruct (IH r' eq_refl y Hy) as [? | (z & ? & ?)]; [left; right; auto | right; exists z; split; [right|]; auto].
Qed.
Lemma wk_new : wk sd_new. Proof. intros g []. Qed.
Lemma wk_write d sc rs : wk d -> Forall (fun r => is_i64 (r_ts r)) rs -> wk (sd_write d (new_group sc rs)).
Proof.
  intros H Hr. destruct (new_group_ok sc rs) as (G1 & G2 & G3). set (g := new_group sc rs) in *. rewrite Forall_forall in Hr.
  assert (Hg : ssorted (g_rows g) /\ forall r, In r (g_rows g) -> In r rs).
  { rewrite G2. split; [apply sl_extend_sorted, ssorted_nil|]. intros r Hi. apply sl_extend_in in Hi as [Hi | []]; auto. }
  destruct Hg as [Hg1 Hg2].
  assert (Hold : forall x, In x (d_groups d) -> ssorted (g_rows x) /\ forall r, In r (g_rows x) ->
     Z.min (d_min d) (g_min g) <= r_ts r <= Z.max (d_max d) (g_max g) /\ is_i64 (r_ts r)).
  { intros x Hx. destruct (H x Hx) as [A B]. split; auto. intros r Hi. destruct (B r Hi) as [B1 B2]. split; [lia|auto]. }
  assert (Hnew : forall r, In r (g_rows g) -> Z.min (d_min d) (g_min g) <= r_ts r <= Z.max (d_max d) (g_max g) /\ is_i64 (r_ts r)).
  { intros r Hi. apply Hg2 in Hi. specialize (G3 r Hi). split; [lia|apply Hr; auto]. }
  intros y Hy. unfold sd_write in Hy |- *. cbn [d_groups d_min d_max] in *.
  destruct (write_back (rev (d_groups d)) g) as [r|] eqn:E.
  - apply in_rev in Hy. destruct (write_back_some _ _ _ E y Hy) as [Hi | (x & Hx & ->)].
    + apply in_rev in Hi. apply Hold; auto.
    + apply in_rev in Hx. destruct (Hold x Hx) as [A B]. unfold absorb. cbn [g_rows]. split; [apply sl_extend_sorted; auto|].
      intros q Hq. apply sl_extend_in in Hq as [Hq | Hq]; auto.
  - apply in_app_iff in Hy as [Hy | [<- | []]]; [apply Hold; auto | split; auto].
Qed.
Lemma ssorted_filter f l : ssorted l -> ssorted (filter f l).
Proof.
  unfold ssorted. induction l as [|x l IH]; cbn [filter]; intros H; auto. apply StronglySorted_inv in H as [H1 H2].
  destruct (f x); auto. constructor; auto. rewrite Forall_forall in *. intros y Hy. apply filter_In in Hy. apply H2. tauto.
Qed.
(** Two sorted lists with the same rows at every time stamp are equal. *)
Lemma ssorted_ext a b : ssorted a -> ssorted b -> (forall t, rows_at t a = rows_at t b) -> a = b.
Proof.
  revert b. induction a as [|x a IH]; intros b Ha Hb H.
  - destruct b as [|y b]; auto. specialize (H (r_ts y)). unfold rows_at in H. cbn [filter] in H. rewrite Z.eqb_refl in H. discriminate.
  - destruct b as [|y b].
    { specialize (H (r_ts x)). unfold rows_at in H. cbn [filter] in H. rewrite Z.eqb_refl in H. discriminate. }
    apply StronglySorted_inv in Ha as [Ha1 Ha2]. apply StronglySorted_inv in Hb as [Hb1 Hb2].
    rewrite Forall_forall in *.
    assert (Hxy : r_ts x = r_ts y).
    { assert (In x (rows_at (r_ts x) (y :: b))) as H1 by (rewrite <- H; apply rows_at_in; cbn; auto).
      assert (In y (rows_at (r_ts y) (x :: a))) as H2 by (rewrite H; apply rows_at_in; cbn; auto).
      apply rows_at_in in H1 as [H1 _]. apply rows_at_in in H2 as [H2 _].
      assert (r_ts y <= r_ts x) by (destruct H1 as [<- | H1]; [lia | apply Hb2; auto]).
      assert (r_ts x <= r_ts y) by (destruct H2 as [<- | H2]; [lia | apply Ha2; auto]). lia. }
    assert (Exy : x = y).
    { specialize (H (r_ts x)). unfold rows_at in H. cbn [filter] in H. rewrite <- Hxy, Z.eqb_refl in H. congruence. }
    subst y. f_equal. apply IH; auto. intros t. specialize (H t). rewrite (rows_at_cons t x a), (rows_at_cons t x b) in H.
    apply app_inv_head in H. auto.
Qed.
Definition outside (tr : Z * Z) (r : mrow) : bool := negb (in_range tr (r_ts r)).
Lemma outside_eq lo hi r : (r_ts r <? lo) || (r_ts r >? hi) = outside (lo, hi) r.
Proof.
  unfold outside, in_range. cbn [fst snd]. rewrite Z.gtb_ltb.
  destruct (Z.ltb_spec (r_ts r) lo), (Z.ltb_spec hi (r_ts r)), (Z.leb_spec lo (r_ts r)), (Z.leb_spec (r_ts r) hi); cbn; auto; lia.
Qed.
Definition filt (f : mrow -> bool) (d : sdata) : sdata :=
  SD (d_min d) (d_max d) (map (fun g => RG (g_schema g) (g_min g) (g_max g) (filter f (g_rows g))) (d_groups d)).
Lemma filter_true {A} (f : A -> bool) l : (forall x, In x l -> f x = true) -> filter f l = l.
Proof. induction l as [|x l IH]; intros H; cbn [filter]; auto. rewrite H by (left; auto). f_equal. apply IH. intros; apply H; right; auto. Qed.
Lemma filt_id f d : (forall g r, In g (d_groups d) -> In r (g_rows g) -> f r = true) -> filt f d = d.
Proof.
  intros H. unfold filt. destruct d as [mi ma gs]. cbn [d_min d_max d_groups] in *. f_equal.
  rewrite <- (map_id gs) at 2. apply map_ext_in. intros g Hg. destruct g as [sc a b rows]. cbn [g_schema g_min g_max g_rows] in *.
  f_equal. apply filter_true. intros r Hr. apply (H _ r Hg). auto.
Qed.
Lemma reinsert_filter f l : ssorted l -> sl_extend [] (filter f (rev l)) = filter f l.
Proof.
  intros H. apply ssorted_ext; [apply sl_extend_sorted, ssorted_nil | apply ssorted_filter; auto|].
  intros t. rewrite sl_extend_at by apply ssorted_nil. rewrite app_nil_r. rewrite <- rows_at_rev. unfold rows_at. f_equal.
  clear. induction l as [|x l IH]; auto. cbn [rev]. rewrite filter_app, rev_app_distr, IH. cbn [filter].
  destruct (f x); reflexivity.
Qed.
Lemma sd_delete_range_filt d tr : wk d -> sd_delete_range d tr = filt (outside tr) d.
Proof.
  intros H. destruct tr as [lo hi]. unfold sd_delete_range. destruct (_ || _) eqn:E.
  - symmetry. apply filt_id. intros g r Hg Hr. destruct (H g Hg) as [_ B]. destruct (B r Hr) as [B1 _].
    rewrite <- outside_eq. rewrite Z.gtb_ltb in *. lia.
  - unfold filt. f_equal. apply map_ext_in. intros g Hg. f_equal. destruct (H g Hg) as [A _].
    rewrite reinsert_filter by auto. apply filter_ext. intros r. apply outside_eq.
Qed.
Lemma sd_delete_series_filt d lo hi : wk d -> sd_delete_series d lo hi = filt (outside (lo, hi)) d.
Proof.
  intros H. unfold sd_delete_series. destruct (_ || _) eqn:E.
  - symmetry. apply filt_id. intros g r Hg Hr. destruct (H g Hg) as [_ B]. destruct (B r Hr) as [B1 _].
    rewrite <- outside_eq. rewrite Z.gtb_ltb in *. lia.
  - unfold filt. f_equal. apply map_ext_in. intros g Hg. f_equal. apply filter_ext. intros r. apply outside_eq.
Qed.
Lemma wk_filt f d : wk d -> wk (filt f d).
Proof.
  intros H g Hg. unfold filt in Hg |- *. cbn [d_groups d_min d_max] in *. apply in_map_iff in Hg as (x & <- & Hx).
  cbn [g_rows]. destruct (H x Hx) as [A B]. split; [apply ssorted_filter; auto|]. intros r Hr. apply filter_In in Hr. apply B. tauto.
Qed.
Lemma filter_filter {A} (f g : A -> bool) l : filter f (filter g l) = filter (fun x => g x && f x) l.
Proof. induction l as [|x l IH]; auto. cbn [filter]. destruct (g x); cbn [filter andb]; [destruct (f x)|]; rewrite IH; auto. Qed.
Lemma filt_filt f g d : filt f (filt g d) = filt (fun r => g r && f r) d.
Proof. unfold filt. cbn [d_groups d_min d_max]. f_equal. rewrite map_map. apply map_ext. intros x. cbn [g_schema g_min g_max g_rows]. f_equal. apply filter_filter. Qed.
Lemma filt_ext f g d : (forall r, f r = g r) -> filt f d = filt g d.
Proof. intros H. unfold filt. f_equal. apply map_ext. intros x. f_equal. apply filter_ext; auto. Qed.
Lemma sd_delete_ranges_filt trs : forall d, wk d ->
  sd_delete_ranges d trs = filt (fun r => negb (in_ranges trs (r_ts r))) d.
Proof.
  unfold sd_delete_ranges. induction trs as [|tr trs IH]; intros d H; cbn [fold_left].
  - symmetry. apply filt_id. auto.
  - rewrite sd_delete_range_filt, IH by (auto; apply wk_filt; auto). rewrite filt_filt. apply filt_ext. intros r.
    unfold outside, in_ranges. cbn [existsb]. rewrite negb_orb. reflexivity.
Qed.

(** Deleting and reading commute. *)
Lemma latest_cols_filt f d : latest_cols (filt f d) = latest_cols d.
Proof. unfold latest_cols, filt. cbn [d_groups]. rewrite <- map_rev. destruct (rev (d_groups d)); reflexivity. Qed.
Lemma flat_filt f d : flat (filt f d) = map (fun g => (fst g, filter f (snd g))) (flat d).
Proof. unfold flat, filt. cbn [d_groups]. rewrite !map_map. reflexivity. Qed.
Lemma logrows_filt (k : Z -> bool) align d :
  logrows align (flat (filt (fun r => k (r_ts r)) d)) = filter (fun r => k (r_ts r)) (logrows align (flat d)).
Proof.
  rewrite flat_filt. induction (flat d) as [|[cols rows] gs IH]; auto.
  unfold logrows in *. cbn [map concat]. rewrite filter_app, IH. f_equal. unfold lrows. cbn [fst snd].
  clear. induction rows as [|r rows IH]; auto. cbn [filter map rev]. rewrite filter_app. cbn [filter arow r_ts].
  destruct (k (r_ts r)); cbn [map rev]; rewrite IH; auto. rewrite app_nil_r. auto.
Qed.
Lemma sd_read_filt inr k d : wk d -> sd_read inr (filt (fun r => k (r_ts r)) d) = filter (fun r => k (r_ts r)) (sd_read inr d).
Proof.
  intros H. pose proof (sd_read_ok inr _ (wk_filt (fun r => k (r_ts r)) d H)) as M1.
  pose proof (merged_filter _ k _ _ (sd_read_ok inr d H)) as M2.
  rewrite latest_cols_filt, logrows_filt in M1.
  eapply merged_unique; [exact M1|].
  match goal with |- merged _ ?l _ => match type of M2 with merged _ ?l' _ => replace l with l'; [exact M2|] end end.
  unfold visible. rewrite !filter_filter. apply filter_ext. intros r.
  destruct (k (r_ts r)), (inr (r_ts r)), (r_ts r <? I64_MAX); reflexivity.
Qed.

(** ** The order of the values of one time stamp *)
Definition ent := (list Z * mrow)%type.
Definition glog (g : rgroup) : list ent := map (pair (s_cols (g_schema g))) (rev (g_rows g)).
Definition dlog (d : sdata) : list ent := concat (map glog (d_groups d)).
Definition eat (t : Z) (l : list ent) : list ent := filter (fun e => r_ts (snd e) =? t) l.
Lemma eat_app t a b : eat t (a ++ b) = eat t a ++ eat t b.
Proof. apply filter_app. Qed.
Lemma eat_pair t (c : list Z) l : eat t (map (pair c) l) = map (pair c) (rows_at t l).
Proof. unfold eat, rows_at. induction l as [|x l IH]; auto. cbn [map filter snd]. destruct (_ =? _); cbn [map]; rewrite IH; auto. Qed.
Lemma logrows_dlog align d : logrows align (flat d) = map (fun e => arow align (fst e) (snd e)) (dlog d).
Proof.
  unfold logrows, flat, dlog. rewrite map_map. induction (d_groups d) as [|g gs IH]; auto.
  cbn [map concat]. rewrite map_app, IH. f_equal. unfold lrows, glog. cbn [fst snd]. rewrite map_map, map_rev. reflexivity.
Qed.
Lemma rows_at_map t align l : rows_at t (map (fun e : ent => arow align (fst e) (snd e)) l) = map (fun e => arow align (fst e) (snd e)) (eat t l).
Proof. unfold rows_at, eat. induction l as [|x l IH]; auto. cbn [map filter arow r_ts]. destruct (_ =? _); cbn [map]; rewrite IH; auto. Qed.

Definition gsch (g : rgroup) : Z * list Z := (s_ver (g_schema g), s_cols (g_schema g)).
Definition strong (d : sdata) (L : list ent) (vs : list (Z * list Z)) : Prop :=
  (forall t, eat t (dlog d) = eat t L) /\
  StronglySorted (fun a b => fst a < fst b) (map gsch (d_groups d)) /\
  (vs = [] -> d_groups d = []) /\
  (forall a, vs <> [] -> exists gs x, d_groups d = gs ++ [x] /\ gsch x = last vs a).

Lemma write_back_none gs g : (forall x, In x gs -> s_ver (g_schema x) <> s_ver (g_schema g)) -> write_back gs g = None.
Proof.
  induction gs as [|x gs IH]; intros H; auto. cbn [write_back].
  destruct (Z.eqb_spec (s_ver (g_schema x)) (s_ver (g_schema g))) as [E | E]; [destruct (H x (or_introl eq_refl) E)|].
  rewrite IH; auto. intros; apply H; right; auto.
Qed.
Lemma nodup_rows_at_rev t rs : NoDup (map r_ts rs) -> rev (rows_at t rs) = rows_at t rs.
Proof.
  intros H. assert (length (rows_at t rs) <= 1)%nat as HL.
  { induction rs as [|r rs IH]; cbn [map] in H; [cbn; lia|]. inversion H; subst. rewrite rows_at_cons, app_length.
    destruct (Z.eqb_spec (r_ts r) t) as [E | E].
    - rewrite (rows_at_nil t rs); [unfold rows_at; cbn [filter]; destruct (_ =? _); cbn; lia|].
      intros x Hx Ex. apply H2. rewrite E, <- Ex. apply in_map; auto.
    - rewrite (rows_at_nil t [r]); [cbn [length]; specialize (IH H3); lia|]. intros x [<- | []]. auto. }
  destruct (rows_at t rs) as [|x [|y l]]; auto. cbn [length] in HL. lia.
Qed.
Lemma ss_last {A} (R : A -> A -> Prop) l x y : StronglySorted R (l ++ [x]) -> In y l -> R y x.
Proof.
  induction l as [|z l IH]; intros H Hy; [destruct Hy|]. cbn [app] in H. apply StronglySorted_inv in H as [H1 H2].
  destruct Hy as [<- | Hy]; auto. rewrite Forall_forall in H2. apply H2, in_app_iff. right; left; auto.
Qed.
Lemma strong_write d L vs ver cols rs :
  wk d -> strong d L vs -> schemas_ok (vs ++ [(ver, cols)]) -> NoDup (map r_ts rs) ->
  strong (sd_write d (new_group (SC ver cols) rs)) (L ++ map (pair cols) rs) (vs ++ [(ver, cols)]).
Proof.
  intros W (S1 & S2 & S3 & S4) Hv Hnd. destruct (new_group_ok (SC ver cols) rs) as (G1 & G2 & _).
  set (g := new_group (SC ver cols) rs) in *.
  assert (Hgs : gsch g = (ver, cols)) by (unfold gsch; rewrite G1; reflexivity).
  assert (Hrt : forall t, rows_at t (g_rows g) = rows_at t rs).
  { intros t. rewrite G2, sl_extend_at by apply ssorted_nil. rewrite app_nil_r. apply nodup_rows_at_rev; auto. }
  assert (Hgl : forall t, eat t (glog g) = map (pair cols) (rows_at t rs)).
  { intros t. unfold glog. rewrite G1, eat_pair, rows_at_rev, Hrt, nodup_rows_at_rev by auto. reflexivity. }
  assert (Happ : (forall x, In x (d_groups d) -> fst (gsch x) < ver) ->
     strong (SD (Z.min (d_min d) (g_min g)) (Z.max (d_max d) (g_max g)) (d_groups d ++ [g])) (L ++ map (pair cols) rs) (vs ++ [(ver, cols)])).
  { intros Hlt. split; [|split; [|split]].
    - intros t. unfold dlog. cbn [d_groups]. rewrite map_app, concat_app. cbn [map concat]. rewrite app_nil_r, !eat_app, Hgl, eat_pair.
      f_equal. apply S1.
    - cbn [d_groups]. rewrite map_app. apply ss_snoc; auto. apply Forall_forall. intros a Ha.
      apply in_map_iff in Ha as (x & <- & Hx). rewrite Hgs. cbn [fst]. auto.
    - intros E. destruct vs; discriminate.
    - intros a _. exists (d_groups d), g. split; auto. rewrite last_last. auto. }
  unfold sd_write. destruct vs as [|v vs'].
  - rewrite S3 by auto. cbn [rev write_back]. rewrite (S3 eq_refl) in Happ. apply Happ. intros x [].
  - destruct (S4 (0, []) ltac:(discriminate)) as (gs & x & E1 & E2). rewrite E1 in *.
    set (vs := v :: vs') in *.
    assert (Hl : exists pre, vs = pre ++ [gsch x]).
    { exists (removelast vs). rewrite E2. apply app_removelast_last. discriminate. }
    destruct Hl as [pre Hpre].
    assert (Hcmp : fst (gsch x) < ver \/ gsch x = (ver, cols)).
    { apply (ss_last (fun a b => fst a < fst b \/ a = b) _ (ver, cols) (gsch x) Hv). rewrite Hpre. apply in_app_iff. right; left; auto. }
    rewrite map_app in S2. cbn [map] in S2.
    assert (Hprev : forall y, In y gs -> fst (gsch y) < fst (gsch x)).
    { intros y Hy. apply (ss_last (fun a b : Z * list Z => fst a < fst b) _ _ (gsch y) S2). apply in_map; auto. }
    rewrite rev_app_distr. cbn [rev app write_back].
    rewrite G1. cbn [s_ver]. destruct (Z.eqb_spec (s_ver (g_schema x)) ver) as [Ev | Ev].
    + destruct Hcmp as [Hcmp | Hcmp]; [unfold gsch in Hcmp; cbn [fst] in Hcmp; lia|].
      cbn [rev]. rewrite rev_involutive.
      assert (Hc : s_cols (g_schema x) = cols) by (unfold gsch in Hcmp; congruence).
      assert (Hs : ssorted (g_rows x)) by (apply (W x); rewrite E1; apply in_app_iff; right; left; auto).
      split; [|split; [|split]].
      * intros t. specialize (S1 t). unfold dlog in *. rewrite E1 in S1. cbn [d_groups]. rewrite map_app, concat_app in *. cbn [map concat] in *.
        rewrite app_nil_r in *. rewrite !eat_app in *. rewrite <- S1, <- app_assoc. f_equal.
        unfold glog. cbn [g_schema g_rows s_cols]. rewrite Hc, !eat_pair, !rows_at_rev, sl_extend_at by auto.
        rewrite rev_app_distr, rev_involutive, map_app, Hrt. reflexivity.
      * cbn [d_groups]. rewrite map_app. cbn [map]. unfold gsch at 2. cbn [g_schema s_ver s_cols]. rewrite Hcmp in S2. exact S2.
      * intros E. destruct vs; discriminate.
      * intros a _. eexists gs, _. split; [reflexivity|]. rewrite last_last. unfold gsch. cbn [g_schema s_ver s_cols]. reflexivity.
    + rewrite write_back_none.
      * apply Happ. intros y Hy. apply in_app_iff in Hy as [Hy | [<- | []]].
        -- specialize (Hprev y Hy). destruct Hcmp as [Hcmp | Hcmp]; [lia|]. unfold gsch in Hcmp. congruence.
        -- destruct Hcmp as [Hcmp | Hcmp]; [auto|]. unfold gsch in Hcmp. congruence.
      * intros y Hy. rewrite <- in_rev in Hy. specialize (Hprev y Hy). unfold gsch in *. cbn [fst] in *. rewrite G1. cbn [s_ver].
        destruct Hcmp as [Hcmp | Hcmp]; [lia | congruence].
Qed.
Lemma strong_filt (k : Z -> bool) d L vs : strong d L vs -> strong (filt (fun r => k (r_ts r)) d) (filter (fun e => k (r_ts (snd e))) L) vs.
Proof.
  intros (S1 & S2 & S3 & S4). split; [|split; [|split]].
  - intros t.
    assert (Hd : dlog (filt (fun r => k (r_ts r)) d) = filter (fun e => k (r_ts (snd e))) (dlog d)).
    { unfold dlog, filt. cbn [d_groups]. rewrite map_map. clear. induction (d_groups d) as [|g gs IH]; auto. cbn [map concat].
      rewrite filter_app, IH. f_equal. unfold glog. cbn [g_schema g_rows].
      generalize (s_cols (g_schema g)) as c. intros c. generalize (g_rows g) as rows. clear. intros rows.
      induction rows as [|r rows IH]; auto. cbn [filter rev]. rewrite map_app, filter_app. cbn [map filter snd].
      destruct (k (r_ts r)); cbn [rev map]; [rewrite map_app, IH; reflexivity | rewrite IH, app_nil_r; reflexivity]. }
    rewrite Hd. assert (Hc : forall l : list ent, eat t (filter (fun e => k (r_ts (snd e))) l) = filter (fun e => k (r_ts (snd e))) (eat t l)).
    { intros l. unfold eat. rewrite !filter_filter. apply filter_ext. intros. apply andb_comm. }
    rewrite !Hc, S1. reflexivity.
  - unfold filt. cbn [d_groups]. rewrite map_map. cbn [gsch g_schema]. exact S2.
  - intros E. unfold filt. cbn [d_groups]. rewrite S3 by auto. reflexivity.
  - intros a Ha. destruct (S4 a Ha) as (gs & x & E1 & E2). unfold filt. cbn [d_groups]. rewrite E1, map_app. cbn [map].
    eexists _, _. split; [reflexivity|]. exact E2.
Qed.
Lemma strong_new : strong sd_new [] [].
Proof. split; [|split; [|split]]; auto; [constructor|]. intros a E. congruence. Qed.
Lemma strong_latest d L vs a : strong d L vs -> latest_cols d = match vs with [] => [] | _ => snd (last vs a) end.
Proof.
  intros (_ & _ & S3 & S4). unfold latest_cols. destruct vs as [|v vs'].
  - rewrite S3; auto.
  - destruct (S4 a ltac:(discriminate)) as (gs & x & -> & E2). rewrite rev_app_distr. cbn [rev app]. rewrite <- E2. reflexivity.
Qed.

(** ** The cache *)
Definition sd_of (m : mcache) (sid : Z) : sdata := match mc_get m sid with Some d => d | None => sd_new end.
Lemma p_get_set sid s v p : p_get sid (p_set s v p) = if s =? sid then Some v else p_get sid p.
Proof.
  induction p as [|[k x] p IH]; cbn [p_set p_get].
  - reflexivity.
  - destruct (Z.eqb_spec k s) as [-> | E]; cbn [p_get].
    + destruct (s =? sid); auto.
    + destruct (Z.eqb_spec k sid) as [-> | E2]; [|auto]. destruct (Z.eqb_spec s sid); [congruence|auto].
Qed.
Definition nparts (m : mcache) : nat := length (mc_parts m).
Lemma part_index_lt m sid : (1 <= nparts m)%nat -> (part_index m sid < nparts m)%nat.
Proof.
  unfold part_index, nparts. intros H. set (n := Z.of_nat (length (mc_parts m))). assert (0 <= sid mod n < n) by (apply Z.mod_pos_bound; lia).
  revert H0. generalize (sid mod n). unfold n. intros. lia.
Qed.
Lemma mc_upd_parts m s v : (1 <= nparts m)%nat -> nparts (mc_upd m s v) = nparts m.
Proof. intros H. unfold mc_upd, nparts. cbn [mc_parts]. apply set_nth_len. apply part_index_lt; auto. Qed.
Lemma mc_get_upd m s v sid : (1 <= nparts m)%nat -> mc_get (mc_upd m s v) sid = if s =? sid then Some v else mc_get m sid.
Proof.
  intros H. pose proof (part_index_lt m s H) as Hs. unfold mc_get, part_index. fold (nparts (mc_upd m s v)). rewrite mc_upd_parts by auto.
  unfold nparts. fold (part_index m sid). unfold mc_upd. cbn [mc_parts].
  destruct (Z.eqb_spec s sid) as [-> | E].
  - rewrite nth_set_same by auto. rewrite p_get_set, Z.eqb_refl. reflexivity.
  - destruct (Nat.eq_dec (part_index m s) (part_index m sid)) as [E2 | E2].
    + rewrite <- E2, nth_set_same by auto. rewrite p_get_set. destruct (Z.eqb_spec s sid); congruence.
    + rewrite nth_set_other by auto. reflexivity.
Qed.
Lemma sd_of_upd m s v sid : (1 <= nparts m)%nat -> sd_of (mc_upd m s v) sid = if s =? sid then v else sd_of m sid.
Proof. intros H. unfold sd_of. rewrite mc_get_upd by auto. destruct (s =? sid); auto. Qed.
Lemma iter_shift {A} (f : A -> A) x n : Nat.iter n f (f x) = Nat.iter (S n) f x.
Proof. induction n as [|n IH]; [reflexivity|]. change (f (Nat.iter n f (f x)) = f (Nat.iter (S n) f x)). rewrite IH. reflexivity. Qed.
(** a request applied to the series of a list: each time the series occurs, and only then *)
Lemma each_ok (f : sdata -> sdata) (Hf : f sd_new = sd_new) sid : forall sids m, (1 <= nparts m)%nat ->
  let m' := fold_left (fun m s => match mc_get m s with Some d => mc_upd m s (f d) | None => m end) sids m in
  nparts m' = nparts m /\
  (mem_z sid sids = false -> sd_of m' sid = sd_of m sid) /\
  (mem_z sid sids = true -> exists n, sd_of m' sid = Nat.iter (S n) f (sd_of m sid)).
Proof.
  induction sids as [|s sids IH]; intros m H; cbn [fold_left].
  - sp; auto. cbn. discriminate.
  - set (m1 := match mc_get m s with Some d => mc_upd m s (f d) | None => m end).
    assert (H1 : nparts m1 = nparts m) by (unfold m1; destruct (mc_get m s); auto; apply mc_upd_parts; auto).
    assert (H2 : sd_of m1 sid = if s =? sid then f (sd_of m sid) else sd_of m sid).
    { unfold m1. destruct (mc_get m s) as [d|] eqn:E.
      - rewrite sd_of_upd by auto. destruct (Z.eqb_spec s sid) as [<- | ?]; auto. unfold sd_of. rewrite E. auto.
      - destruct (Z.eqb_spec s sid) as [<- | ?]; auto. unfold sd_of. rewrite E, Hf. auto. }
    destruct (IH m1 ltac:(lia)) as (I1 & I2 & I3). cbn zeta in *. split; [congruence|]. split.
    + intros E. unfold mem_z in E. cbn [existsb] in E. apply orb_false_iff in E as [E1 E2]. rewrite I2 by exact E2. rewrite H2.
      rewrite Z.eqb_sym, E1. auto.
    + intros E. destruct (mem_z sid sids) eqn:E2.
      * destruct (I3 eq_refl) as (n & ->). rewrite H2. destruct (s =? sid); [|eauto].
        exists (S n). apply iter_shift.
      * rewrite I2, H2 by auto. unfold mem_z in *. cbn [existsb] in E. rewrite E2, orb_false_r, Z.eqb_sym in E. rewrite E. exists O. auto.
Qed.
Lemma iter_filt k n d : Nat.iter (S n) (filt (fun r => k (r_ts r))) d = filt (fun r => k (r_ts r)) d.
Proof.
  induction n; [reflexivity|]. set (F := filt (fun r => k (r_ts r))) in *.
  change (Nat.iter (S (S n)) F d) with (F (Nat.iter (S n) F d)). rewrite IHn. unfold F. rewrite filt_filt. apply filt_ext. intros r. destruct (k (r_ts r)); auto.
Qed.
Lemma iter_wk f k n d : (forall d, wk d -> f d = filt k d) -> wk d -> Nat.iter (S n) f d = Nat.iter (S n) (filt k) d.
Proof.
  intros H Hd. assert (Nat.iter (S n) f d = Nat.iter (S n) (filt k) d /\ wk (Nat.iter (S n) f d)) as [? _]; auto.
  induction n.
  - change (f d = filt k d /\ wk (f d)). split; [auto|]. rewrite H by auto. apply wk_filt; auto.
  - destruct IHn as [A B]. change (f (Nat.iter (S n) f d) = filt k (Nat.iter (S n) (filt k) d) /\ wk (f (Nat.iter (S n) f d))). rewrite H by auto. rewrite A. split; auto. apply wk_filt. rewrite <- A. auto.
Qed.
(** what a delete request does to one series *)
Definition dropped (o : cop) (sid t : Z) : bool :=
  match o with
  | CWrite _ _ _ _ => false
  | CDelete sids trs => mem_z sid sids && in_ranges trs t
  | CDeleteSeries sids lo hi => mem_z sid sids && in_range (lo, hi) t
  end.
Lemma cstep_delete m o sid : (1 <= nparts m)%nat -> wk (sd_of m sid) ->
  (match o with CWrite _ _ _ _ => False | _ => True end) ->
  nparts (cstep m o) = nparts m /\ sd_of (cstep m o) sid = filt (fun r => negb (dropped o sid (r_ts r))) (sd_of m sid).
Proof.
  intros H W Ho. assert (Hno : forall f : Z -> bool, filt (fun r => negb (false && f (r_ts r))) (sd_of m sid) = sd_of m sid) by (intros; apply filt_id; auto).
  destruct o as [| sids trs | sids lo hi]; [destruct Ho| |]; cbn [cstep dropped].
  - assert (Hf : sd_delete_ranges sd_new trs = sd_new) by (rewrite sd_delete_ranges_filt by apply wk_new; reflexivity).
    destruct (each_ok (fun d => sd_delete_ranges d trs) Hf sid sids m H) as (A & B & C). unfold mc_delete. split; auto.
    destruct (mem_z sid sids).
    + destruct (C eq_refl) as (n & ->).
      rewrite (iter_wk _ (fun r => negb (in_ranges trs (r_ts r)))) by (auto; intros; apply sd_delete_ranges_filt; auto).
      apply (iter_filt (fun t => negb (in_ranges trs t))).
    + rewrite B by auto. symmetry. apply (Hno (in_ranges trs)).
  - assert (Hf : sd_delete_series sd_new lo hi = sd_new) by (rewrite sd_delete_series_filt by apply wk_new; reflexivity).
    destruct (each_ok (fun d => sd_delete_series d lo hi) Hf sid sids m H) as (A & B & C). unfold mc_delete_series. split; auto.
    destruct (mem_z sid sids).
    + destruct (C eq_refl) as (n & ->).
      rewrite (iter_wk _ (outside (lo, hi))) by (auto; intros; apply sd_delete_series_filt; auto).
      apply (iter_filt (fun t => negb (in_range (lo, hi) t))).
    + rewrite B by auto. symmetry. apply (Hno (in_range (lo, hi))).
Qed.
Lemma cstep_write m s ver cols rows sid : (1 <= nparts m)%nat ->
  nparts (cstep m (CWrite s ver cols rows)) = nparts m /\
  sd_of (cstep m (CWrite s ver cols rows)) sid =
    if s =? sid then sd_write (sd_of m sid) (new_group (SC ver cols) rows) else sd_of m sid.
Proof.
  intros H. cbn [cstep]. unfold mc_write. split; [apply mc_upd_parts; auto|]. rewrite sd_of_upd by auto.
  destruct (Z.eqb_spec s sid) as [<- | ?]; auto.
Qed.
Lemma mc_read_sd inr m sid : mc_read inr m sid = sd_read inr (sd_of m sid).
Proof. unfold mc_read, sd_of. destruct (mc_get m sid); auto. Qed.

Lemma crun_snoc parts h o : crun parts (h ++ [o]) = cstep (crun parts h) o.
Proof. unfold crun. rewrite fold_left_app. reflexivity. Qed.
Lemma nparts_new parts : nparts (mc_new parts) = parts.
Proof. apply repeat_length. Qed.
Lemma sd_of_new parts sid : sd_of (mc_new parts) sid = sd_new.
Proof.
  unfold sd_of, mc_get, mc_new. cbn [mc_parts]. replace (nth _ (repeat [] parts) []) with (@nil (Z * sdata)); auto.
  set (i := part_index _ _). clearbody i. revert i. induction parts; intros [|i]; cbn; auto.
Qed.
Lemma crun_wk parts h : (1 <= parts)%nat -> Forall ts_ok h ->
  nparts (crun parts h) = parts /\ forall sid, wk (sd_of (crun parts h) sid).
Proof.
  intros Hp. induction h as [|o h IH] using rev_ind; intros Ho.
  - unfold crun. cbn [fold_left]. split; [apply nparts_new|]. intros sid. rewrite sd_of_new. apply wk_new.
  - apply Forall_app in Ho as [Ho Ho']. inversion Ho' as [|? ? Hok _]; subst. destruct (IH Ho) as [A B]. rewrite crun_snoc.
    destruct o as [s ver cols rows| |].
    + split; [destruct (cstep_write (crun parts h) s ver cols rows 0); lia|]. intros sid.
      destruct (cstep_write (crun parts h) s ver cols rows sid) as [_ ->]; [lia|]. destruct (s =? sid); auto. apply wk_write; auto.
    + split; [destruct (cstep_delete (crun parts h) (CDelete sids trs) 0); auto; lia|]. intros sid.
      destruct (cstep_delete (crun parts h) (CDelete sids trs) sid) as [_ ->]; auto; [lia|]. apply wk_filt; auto.
    + split; [destruct (cstep_delete (crun parts h) (CDeleteSeries sids lo hi) 0); auto; lia|]. intros sid.
      destruct (cstep_delete (crun parts h) (CDeleteSeries sids lo hi) sid) as [_ ->]; auto; [lia|]. apply wk_filt; auto.
Qed.

(** C12 *)
Lemma mc_delete_ok parts h o inr sid : (1 <= parts)%nat -> Forall ts_ok h ->
  (match o with CWrite _ _ _ _ => False | _ => True end) ->
  mc_read inr (crun parts (h ++ [o])) sid =
  filter (fun r => negb (dropped o sid (r_ts r))) (mc_read inr (crun parts h) sid).
Proof.
  intros Hp Ho Hd. destruct (crun_wk parts h Hp Ho) as [A B]. rewrite crun_snoc, !mc_read_sd.
  destruct (cstep_delete (crun parts h) o sid) as [_ ->]; auto; [lia|].
  apply (sd_read_filt inr (fun t => negb (dropped o sid t))); auto.
Qed.

(** C11 *)
Definition elog (sid : Z) (h : list cop) : list ent :=
  fold_left (fun L o => match o with
    | CWrite s _ cols rows => if s =? sid then L ++ map (pair cols) rows else L
    | _ => filter (fun e => negb (dropped o sid (r_ts (snd e)))) L
    end) h [].
Lemma elog_snoc sid h o : elog sid (h ++ [o]) = match o with
    | CWrite s _ cols rows => if s =? sid then elog sid h ++ map (pair cols) rows else elog sid h
    | _ => filter (fun e => negb (dropped o sid (r_ts (snd e)))) (elog sid h)
    end.
Proof. unfold elog. rewrite fold_left_app. reflexivity. Qed.
Lemma points_snoc h o : points (h ++ [o]) = lstep (points h) o.
Proof. unfold points. rewrite fold_left_app. reflexivity. Qed.
Lemma schemas_app sid a b : schemas sid (a ++ b) = schemas sid a ++ schemas sid b.
Proof. induction a as [|o a IH]; auto. cbn [app schemas]. destruct o; auto. destruct (_ =? _); cbn [app]; rewrite IH; auto. Qed.
Lemma field_of_assoc cols r c : field_of cols r c = assoc c (combine cols (r_cols r)).
Proof.
  unfold field_of. generalize (r_cols r). induction cols as [|k cols IH]; intros l; auto. cbn [index_of].
  destruct l as [|v l].
  - cbn [combine assoc]. destruct (k =? c); [reflexivity|]. destruct (index_of c cols) as [i|]; reflexivity.
  - cbn [combine assoc]. destruct (k =? c); [reflexivity|]. rewrite <- IH. destruct (index_of c cols) as [i|]; auto.
Qed.
Definition epoint (sid : Z) (e : ent) : point := PT sid (r_ts (snd e)) (combine (fst e) (r_cols (snd e))).
Lemma filter_map_swap {A B} (f : B -> bool) (g : A -> B) l : filter f (map g l) = map g (filter (fun x => f (g x)) l).
Proof. induction l as [|x l IH]; auto. cbn [map filter]. destruct (f (g x)); cbn [map]; rewrite IH; auto. Qed.
Lemma points_elog sid h : filter (fun p => p_sid p =? sid) (points h) = map (epoint sid) (elog sid h).
Proof.
  induction h as [|o h IH] using rev_ind; auto. rewrite points_snoc, elog_snoc.
  assert (Hdel : forall f : point -> bool, (forall e, f (epoint sid e) = negb (dropped o sid (r_ts (snd e)))) ->
    filter (fun p => p_sid p =? sid) (filter f (points h)) =
    map (epoint sid) (filter (fun e => negb (dropped o sid (r_ts (snd e)))) (elog sid h))).
  { intros f Hf. rewrite filter_filter. transitivity (filter f (filter (fun p => p_sid p =? sid) (points h))).
    - rewrite filter_filter. apply filter_ext. intros; apply andb_comm.
    - rewrite IH, filter_map_swap. f_equal. apply filter_ext. auto. }
  destruct o as [s ver cols rows | sids trs | sids lo hi]; cbn [lstep].
  - rewrite filter_app, IH, filter_map_swap. cbn [p_sid]. destruct (Z.eqb_spec s sid) as [-> | E].
    + rewrite map_app. f_equal. rewrite filter_true by auto. rewrite map_map. reflexivity.
    + replace (filter (fun _ : mrow => false) rows) with (@nil mrow) by (clear; induction rows; auto). cbn [map]. apply app_nil_r.
  - apply Hdel. intros e. reflexivity.
  - apply Hdel. intros e. reflexivity.
Qed.
Lemma series_rows_elog sid cols h : series_rows sid cols (points h) = map (fun e => arow cols (fst e) (snd e)) (elog sid h).
Proof.
  unfold series_rows. rewrite points_elog, map_map. apply map_ext. intros e. unfold row_over, epoint, arow. cbn [p_ts p_vals].
  f_equal. apply map_ext. intros c. symmetry. apply field_of_assoc.
Qed.
Lemma schemas_ok_app l x : schemas_ok (l ++ [x]) -> schemas_ok l.
Proof.
  unfold schemas_ok. induction l as [|y l IH]; cbn [app]; intros H; [constructor|]. apply StronglySorted_inv in H as [H1 H2].
  constructor; auto. apply Forall_app in H2. tauto.
Qed.
Lemma write_ts_ok o : write_ok o -> ts_ok o.
Proof.
  destruct o as [s ver cols rows| |]; cbn; auto. intros [_ H]. eapply Forall_impl; [|exact H]. cbn. intros r Hr. unfold is_i64. lia.
Qed.
Lemma crun_strong parts h sid : (1 <= parts)%nat -> Forall write_ok h -> schemas_ok (schemas sid h) ->
  strong (sd_of (crun parts h) sid) (elog sid h) (schemas sid h) /\ (forall e, In e (elog sid h) -> r_ts (snd e) < I64_MAX).
Proof.
  intros Hp. induction h as [|o h IH] using rev_ind; intros Ho Hs.
  - unfold crun. cbn [fold_left elog]. rewrite sd_of_new. split; [apply strong_new|]. intros e [].
  - apply Forall_app in Ho as [Ho Ho']. inversion Ho' as [|? ? Hok _]; subst.
    assert (Ho2 : Forall ts_ok h) by (eapply Forall_impl; [|exact Ho]; apply write_ts_ok).
    destruct (crun_wk parts h Hp Ho2) as [A B]. rewrite crun_snoc, elog_snoc. rewrite schemas_app in *.
    destruct o as [s ver cols rows|sids trs|sids lo hi]; cbn [schemas] in *.
    + destruct (cstep_write (crun parts h) s ver cols rows sid) as [_ ->]; [lia|]. destruct (Z.eqb_spec s sid) as [-> | E].
      * destruct (IH Ho (schemas_ok_app _ _ Hs)) as [I1 I2]. destruct Hok as [K1 K2]. split.
        -- apply strong_write; auto.
        -- intros e He. apply in_app_iff in He as [He | He]; auto. apply in_map_iff in He as (r & <- & Hr). cbn [snd].
           rewrite Forall_forall in K2. destruct (K2 r Hr). lia.
      * rewrite app_nil_r in *. apply IH; auto.
    + rewrite app_nil_r in *. destruct (IH Ho Hs) as [I1 I2].
      destruct (cstep_delete (crun parts h) (CDelete sids trs) sid) as [_ ->]; auto; [lia|]. split.
      * apply (strong_filt (fun t => negb (dropped (CDelete sids trs) sid t))); auto.
      * intros e He. apply filter_In in He. apply I2. tauto.
    + rewrite app_nil_r in *. destruct (IH Ho Hs) as [I1 I2].
      destruct (cstep_delete (crun parts h) (CDeleteSeries sids lo hi) sid) as [_ ->]; auto; [lia|]. split.
      * apply (strong_filt (fun t => negb (dropped (CDeleteSeries sids lo hi) sid t))); auto.
      * intros e He. apply filter_In in He. apply I2. tauto.
Qed.
Lemma mc_latest_ok parts h inr sid : (1 <= parts)%nat -> Forall write_ok h -> schemas_ok (schemas sid h) ->
  let cols := last_columns sid h in
  merged (length cols) (filter (fun r => inr (r_ts r)) (series_rows sid cols (points h))) (mc_read inr (crun parts h) sid).
Proof.
  intros Hp Ho Hs. cbn zeta. assert (Ho2 : Forall ts_ok h) by (eapply Forall_impl; [|exact Ho]; apply write_ts_ok).
  destruct (crun_wk parts h Hp Ho2) as [_ B]. destruct (crun_strong parts h sid Hp Ho Hs) as [S1 S2].
  rewrite mc_read_sd. pose proof (sd_read_ok inr _ (B sid)) as M.
  assert (Hl : latest_cols (sd_of (crun parts h) sid) = last_columns sid h).
  { rewrite (strong_latest _ _ _ (0, []) S1). unfold last_columns. destruct (schemas sid h); auto. }
  rewrite Hl in M. rewrite series_rows_elog. set (cols := last_columns sid h) in *.
  eapply merged_rows; [|exact M]. intros t.
  assert (Hf : forall l, rows_at t (filter (fun r => inr (r_ts r)) l) = if inr t then rows_at t l else []).
  { intros l. unfold rows_at. rewrite filter_filter. destruct (inr t) eqn:Et.
    - apply filter_ext. intros r. destruct (Z.eqb_spec (r_ts r) t) as [-> | ?]; [rewrite Et; auto | apply andb_false_r].
    - induction l as [|r l IHl]; auto. cbn [filter]. destruct (Z.eqb_spec (r_ts r) t) as [-> | ?]; [rewrite Et; auto | rewrite andb_false_r; auto]. }
  rewrite !Hf. destruct (inr t); auto. rewrite rows_at_visible, logrows_dlog, !rows_at_map.
  destruct S1 as (S1 & _). rewrite S1. destruct (Z.ltb_spec t I64_MAX); auto.
  replace (eat t (elog sid h)) with (@nil ent); auto.
  symmetry. destruct (eat t (elog sid h)) as [|e l] eqn:Ee; auto. assert (In e (eat t (elog sid h))) as HI by (rewrite Ee; left; auto).
  unfold eat in HI. apply filter_In in HI as [HI Ht]. specialize (S2 e HI). lia.
Qed.

(** ** Any history: what is read was written *)
Definition loose (d : sdata) (L : list ent) (vs : list (Z * list Z)) : Prop :=
  (forall e, In e (dlog d) <-> In e L) /\ (forall g, In g (d_groups d) -> In (gsch g) vs) /\
  (vs = [] -> d_groups d = []) /\ (vs <> [] -> In (latest_cols d) (map snd vs)).
Lemma dlog_in d e : In e (dlog d) <-> exists g, In g (d_groups d) /\ fst e = s_cols (g_schema g) /\ In (snd e) (g_rows g).
Proof.
  unfold dlog. rewrite in_concat. split.
  - intros (l & Hl & He). apply in_map_iff in Hl as (g & <- & Hg). unfold glog in He. apply in_map_iff in He as (r & <- & Hr).
    exists g. rewrite <- in_rev in Hr. auto.
  - intros (g & Hg & E1 & E2). exists (glog g). split; [apply in_map; auto|]. unfold glog. destruct e as [c r]. cbn [fst snd] in *.
    subst. apply in_map. rewrite <- in_rev. auto.
Qed.
Lemma write_back_split gs g r : write_back gs g = Some r ->
  exists a x b, gs = a ++ x :: b /\ r = a ++ absorb x g :: b /\ s_ver (g_schema x) = s_ver (g_schema g).
Proof.
  revert r. induction gs as [|x gs IH]; intros r H; cbn [write_back] in H; [discriminate|].
  destruct (Z.eqb_spec (s_ver (g_schema x)) (s_ver (g_schema g))) as [E | E].
  - injection H as <-. exists [], x, gs. auto.
  - destruct (write_back gs g) as [r'|]; [|discriminate]. injection H as <-. destruct (IH r' eq_refl) as (a & y & b & -> & -> & E2).
    exists (x :: a), y, b. auto.
Qed.
Lemma latest_in d : d_groups d <> [] -> exists g, In g (d_groups d) /\ latest_cols d = s_cols (g_schema g).
Proof.
  intros H. unfold latest_cols. destruct (rev (d_groups d)) as [|g l] eqn:E.
  - apply (f_equal (@rev _)) in E. rewrite rev_involutive in E. destruct (H E).
  - exists g. split; auto. apply in_rev. rewrite E. left; auto.
Qed.
Lemma loose_write d L vs ver cols rs : loose d L vs -> one_schema (vs ++ [(ver, cols)]) ->
  loose (sd_write d (new_group (SC ver cols) rs)) (L ++ map (pair cols) rs) (vs ++ [(ver, cols)]).
Proof.
  intros (S1 & S2 & S3 & S4) Hone. destruct (new_group_ok (SC ver cols) rs) as (G1 & G2 & _). set (g := new_group (SC ver cols) rs) in *.
  assert (Hgr : forall r, In r (g_rows g) <-> In r rs) by (intros r; rewrite G2, sl_extend_in; cbn; tauto).
  assert (Hw : exists a b, (d_groups (sd_write d g) = a ++ g :: b /\ d_groups d = a ++ b) \/
     exists x, d_groups (sd_write d g) = a ++ absorb x g :: b /\ d_groups d = a ++ x :: b /\ s_ver (g_schema x) = ver).
  { unfold sd_write. cbn [d_groups]. destruct (write_back (rev (d_groups d)) g) as [r|] eqn:E.
    - destruct (write_back_split _ _ _ E) as (a & x & b & E1 & -> & Ev). exists (rev b), (rev a). right. exists x.
      rewrite rev_app_distr. cbn [rev]. rewrite <- app_assoc. split; auto. split; [|rewrite G1 in Ev; auto].
      apply (f_equal (@rev _)) in E1. rewrite rev_involutive, rev_app_distr in E1. cbn [rev] in E1. rewrite <- app_assoc in E1. auto.
    - exists (d_groups d), []. left. rewrite app_nil_r. auto. }
  assert (Hgsch : gsch g = (ver, cols)) by (unfold gsch; rewrite G1; auto).
  destruct Hw as (a & b & [[W1 W2] | (x & W1 & W2 & W3)]).
  - assert (P2 : forall y, In y (d_groups (sd_write d g)) -> In (gsch y) (vs ++ [(ver, cols)])).
    { intros y Hy. rewrite W1 in Hy. apply in_app_iff. apply in_app_iff in Hy as [Hy | [<- | Hy]].
      - left. apply S2. rewrite W2. apply in_app_iff; auto.
      - right. rewrite Hgsch. left; auto.
      - left. apply S2. rewrite W2. apply in_app_iff; auto. }
    split; [|split; [exact P2|split]].
    + intros e. rewrite dlog_in, in_app_iff, <- S1, dlog_in, W1, W2. split.
      * intros (y & Hy & E1 & E2). apply in_app_iff in Hy as [Hy | [<- | Hy]].
        -- left. exists y. rewrite in_app_iff. auto.
        -- right. destruct e as [c r]. cbn [fst snd] in *. rewrite G1 in E1. cbn [s_cols] in E1. subst c. apply in_map. apply Hgr; auto.
        -- left. exists y. rewrite in_app_iff. auto.
      * intros [(y & Hy & E1 & E2) | He].
        -- exists y. rewrite in_app_iff in *. cbn [In]. split; [tauto|auto].
        -- apply in_map_iff in He as (r & <- & Hr). exists g. rewrite in_app_iff, G1. cbn [In fst snd s_cols]. split; [auto|]. split; auto. apply Hgr; auto.
    + intros E. destruct vs; discriminate.
    + intros _. destruct (latest_in (sd_write d g)) as (y & Hy & ->); [rewrite W1; destruct a; discriminate|].
      apply P2 in Hy. change (s_cols (g_schema y)) with (snd (gsch y)). apply in_map; auto.
  - assert (Hx : In (gsch x) vs) by (apply S2; rewrite W2; apply in_app_iff; right; left; auto).
    assert (Hxc : s_cols (g_schema x) = cols).
    { apply (Hone ver); apply in_app_iff; [left | right; left; auto]. unfold gsch in Hx. rewrite W3 in Hx. auto. }
    assert (P2 : forall y, In y (d_groups (sd_write d g)) -> In (gsch y) (vs ++ [(ver, cols)])).
    { intros y Hy. rewrite W1 in Hy. apply in_app_iff. apply in_app_iff in Hy as [Hy | [<- | Hy]].
      - left. apply S2. rewrite W2. apply in_app_iff; auto.
      - right. change (gsch (absorb x g)) with (gsch g). rewrite Hgsch. left; auto.
      - left. apply S2. rewrite W2. apply in_app_iff; right; right; auto. }
    split; [|split; [exact P2|split]].
    + intros e. rewrite dlog_in, in_app_iff, <- S1, dlog_in, W1, W2. split.
      * intros (y & Hy & E1 & E2). apply in_app_iff in Hy as [Hy | [<- | Hy]].
        -- left. exists y. rewrite in_app_iff. auto.
        -- unfold absorb in E1, E2. cbn [g_schema g_rows] in *. rewrite G1 in E1. cbn [s_cols] in E1. apply sl_extend_in in E2 as [E2 | E2].
           ++ right. destruct e as [c r]. cbn [fst snd] in *. subst c. apply in_map, Hgr; auto.
           ++ left. exists x. rewrite in_app_iff. split; [right; left; auto|]. split; congruence.
        -- left. exists y. rewrite in_app_iff. split; [right; right; auto|auto].
      * intros [(y & Hy & E1 & E2) | He].
        -- apply in_app_iff in Hy as [Hy | [<- | Hy]].
           ++ exists y. rewrite in_app_iff. auto.
           ++ exists (absorb x g). rewrite in_app_iff. split; [right; left; auto|]. unfold absorb. cbn [g_schema g_rows]. rewrite G1. cbn [s_cols].
              split; [congruence|]. apply sl_extend_in. auto.
           ++ exists y. rewrite in_app_iff. split; [right; right; auto|auto].
        -- apply in_map_iff in He as (r & <- & Hr). exists (absorb x g). rewrite in_app_iff. split; [right; left; auto|].
           unfold absorb. cbn [g_schema g_rows fst snd]. rewrite G1. split; auto. apply sl_extend_in. left. apply Hgr; auto.
    + intros E. destruct vs; discriminate.
    + intros _. destruct (latest_in (sd_write d g)) as (y & Hy & ->); [rewrite W1; destruct a; discriminate|].
      apply P2 in Hy. change (s_cols (g_schema y)) with (snd (gsch y)). apply in_map; auto.
Qed.
Lemma loose_filt (k : Z -> bool) d L vs : loose d L vs -> loose (filt (fun r => k (r_ts r)) d) (filter (fun e => k (r_ts (snd e))) L) vs.
Proof.
  intros (S1 & S2 & S3 & S4). split; [|split; [|split]].
  - intros e. rewrite filter_In, <- S1, !dlog_in. unfold filt. cbn [d_groups]. split.
    + intros (g & Hg & E1 & E2). apply in_map_iff in Hg as (x & <- & Hx). cbn [g_schema g_rows] in *. apply filter_In in E2 as [E2 E3].
      split; auto. exists x. auto.
    + intros ((g & Hg & E1 & E2) & E3). eexists. split; [apply in_map; exact Hg|]. cbn [g_schema g_rows]. split; auto. apply filter_In; auto.
  - intros g Hg. unfold filt in Hg. cbn [d_groups] in Hg. apply in_map_iff in Hg as (x & <- & Hx). apply (S2 x Hx).
  - intros E. unfold filt. cbn [d_groups]. rewrite S3; auto.
  - intros E. rewrite latest_cols_filt. auto.
Qed.
Lemma crun_loose parts h sid : (1 <= parts)%nat -> Forall ts_ok h -> one_schema (schemas sid h) ->
  loose (sd_of (crun parts h) sid) (elog sid h) (schemas sid h).
Proof.
  intros Hp. induction h as [|o h IH] using rev_ind; intros Ho Hs.
  - unfold crun. cbn [fold_left elog]. rewrite sd_of_new. split; [cbn; tauto|split; [intros g []|split; [auto|intros E; destruct (E eq_refl)]]].
  - apply Forall_app in Ho as [Ho Ho']. inversion Ho' as [|? ? Hok _]; subst.
    destruct (crun_wk parts h Hp Ho) as [A B]. rewrite crun_snoc, elog_snoc. rewrite schemas_app in *.
    assert (Hs1 : one_schema (schemas sid h)) by (intros v c c' H1 H2; apply (Hs v); apply in_app_iff; auto).
    specialize (IH Ho Hs1).
    destruct o as [s ver cols rows|sids trs|sids lo hi]; cbn [schemas] in *.
    + destruct (cstep_write (crun parts h) s ver cols rows sid) as [_ ->]; [lia|]. destruct (Z.eqb_spec s sid) as [-> | E].
      * apply loose_write; auto.
      * rewrite app_nil_r in *. apply IH; auto.
    + rewrite app_nil_r in *. 
      destruct (cstep_delete (crun parts h) (CDelete sids trs) sid) as [_ ->]; auto; [lia|].
      apply (loose_filt (fun t => negb (dropped (CDelete sids trs) sid t))); auto.
    + rewrite app_nil_r in *.
      destruct (cstep_delete (crun parts h) (CDeleteSeries sids lo hi) sid) as [_ ->]; auto; [lia|].
      apply (loose_filt (fun t => negb (dropped (CDeleteSeries sids lo hi) sid t))); auto.
Qed.
Lemma last_value_in l v : last_value l = Some v -> In (Some v) l.
Proof.
  induction l as [|x l IH] using rev_ind; [discriminate|]. rewrite last_value_snoc, in_app_iff. destruct x as [w|].
  - intros H. injection H as ->. right; left; auto.
  - auto.
Qed.
Lemma last_value_none l : last_value l = None -> forall x, In x l -> x = None.
Proof.
  induction l as [|x l IH] using rev_ind; [intros _ x []|]. rewrite last_value_snoc. destruct x as [w|]; [discriminate|].
  intros H y Hy. apply in_app_iff in Hy as [Hy | [<- | []]]; auto.
Qed.
Lemma mc_any_ok parts h inr sid : (1 <= parts)%nat -> Forall ts_ok h -> one_schema (schemas sid h) ->
  exists cols, (schemas sid h <> [] -> In cols (map snd (schemas sid h))) /\
  let out := mc_read inr (crun parts h) sid in
  StronglySorted (fun a b => r_ts a < r_ts b) out /\
  (forall t, In t (map r_ts out) <-> inr t = true /\ t < I64_MAX /\ exists p, In p (points h) /\ p_sid p = sid /\ p_ts p = t) /\
  forall r, In r out -> length (r_cols r) = length cols /\
    forall i, (i < length cols)%nat ->
      match col i r with
      | Some v => exists p, In p (points h) /\ p_sid p = sid /\ p_ts p = r_ts r /\ assoc (nth i cols 0) (p_vals p) = Some v
      | None => forall p, In p (points h) -> p_sid p = sid -> p_ts p = r_ts r -> assoc (nth i cols 0) (p_vals p) = None
      end.
Proof.
  intros Hp Ho Hs. destruct (crun_wk parts h Hp Ho) as [_ B]. destruct (crun_loose parts h sid Hp Ho Hs) as (S1 & S2 & S3 & S4).
  exists (latest_cols (sd_of (crun parts h) sid)). split; [exact S4|]. cbn zeta. rewrite mc_read_sd.
  destruct (sd_read_ok inr _ (B sid)) as (M1 & M2 & M3). set (cols := latest_cols (sd_of (crun parts h) sid)) in *.
  assert (Hpe : forall p, In p (points h) /\ p_sid p = sid <-> exists e, In e (elog sid h) /\ p = epoint sid e).
  { intros p. pose proof (points_elog sid h) as E.
    assert (In p (filter (fun p => p_sid p =? sid) (points h)) <-> In p (map (epoint sid) (elog sid h))) as HH by (rewrite E; tauto).
    rewrite filter_In, Z.eqb_eq, in_map_iff in HH. rewrite HH. split; intros (e & ? & ?); exists e; auto. }
  assert (Hin : forall x, In x (logrows cols (flat (sd_of (crun parts h) sid))) <-> exists e, In e (elog sid h) /\ x = arow cols (fst e) (snd e)).
  { intros x. rewrite logrows_dlog, in_map_iff. split; intros (e & E1 & E2); exists e; split; auto; apply S1; auto. }
  split; [auto|]. split.
  - intros t. rewrite M2, in_map_iff. split.
    + intros (x & <- & Hx). apply filter_In in Hx as [Hx Hi]. unfold visible in Hx. apply filter_In in Hx as [Hx Hv].
      apply Hin in Hx as (e & He & ->). cbn [arow r_ts] in *. split; auto. split; [lia|].
      exists (epoint sid e). destruct (proj2 (Hpe (epoint sid e))) as [? ?]; [eauto|]. auto.
    + intros (Hi & Ht & p & Hp1 & Hp2 & <-). destruct (proj1 (Hpe p)) as (e & He & ->); [auto|]. cbn [epoint p_ts] in *.
      exists (arow cols (fst e) (snd e)). split; auto. apply filter_In. cbn [arow r_ts]. split; auto. unfold visible.
      apply filter_In. cbn [arow r_ts]. split; [apply Hin; eauto|lia].
  - intros r Hr. destruct (M3 r Hr) as [L C]. split; auto. intros i Hi. rewrite C by auto.
    assert (Ht : In (r_ts r) (map r_ts (filter (fun r => inr (r_ts r)) (visible (logrows cols (flat (sd_of (crun parts h) sid))))))) by (apply M2, in_map; auto).
    apply in_map_iff in Ht as (x0 & Ex0 & Hx0). apply filter_In in Hx0 as [Hx0 Hi0]. unfold visible in Hx0. apply filter_In in Hx0 as [_ Hv0].
    rewrite Ex0 in Hi0, Hv0.
    assert (Hrw : forall x, In x (rows_at (r_ts r) (filter (fun r => inr (r_ts r)) (visible (logrows cols (flat (sd_of (crun parts h) sid)))))) <->
       exists e, In e (elog sid h) /\ x = arow cols (fst e) (snd e) /\ r_ts (snd e) = r_ts r).
    { intros x. rewrite rows_at_in, filter_In. unfold visible. rewrite filter_In, Hin. split.
      - intros (((( e & He & ->) & _) & _) & E). exists e. auto.
      - intros (e & He & -> & E). cbn [arow r_ts]. rewrite E. sp; eauto. }
    set (R := rows_at (r_ts r) _) in *.
    destruct (last_value (map (col i) R)) as [v|] eqn:Ev.
    + apply last_value_in, in_map_iff in Ev as (x & Ex & Hx). apply Hrw in Hx as (e & He & -> & Et).
      rewrite arow_col, field_of_assoc in Ex by auto. exists (epoint sid e).
      destruct (proj2 (Hpe (epoint sid e))) as [? ?]; [eauto|]. auto.
    + intros p Hp1 Hp2 Hp3. destruct (proj1 (Hpe p)) as (e & He & ->); [auto|]. cbn [epoint p_ts p_vals] in *.
      rewrite <- field_of_assoc, <- (arow_col cols (fst e) (snd e) i) by auto.
      apply (last_value_none _ Ev). apply in_map, Hrw. eauto.
Qed.
