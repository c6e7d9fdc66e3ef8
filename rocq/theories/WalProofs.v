(** Proofs about the raft log store. *)
From Verif Require Import Prelude Bytes RecordModel RecordSpec RecordProofs RingModel RingSpec RingProofs WalModel WalSpec.

(** ** Lists of entries with consecutive indexes *)
Section Lists.
Context {E : Type}.
Variable idx : E -> Z.
Notation from := (from idx).
Lemma from_app i l1 l2 : from i (l1 ++ l2) <-> from i l1 /\ from (i + zlen l1) l2.
Proof.
  revert i. induction l1 as [|e l1 IH]; intros i; cbn [app WalSpec.from].
  - rewrite zlen_nil, Z.add_0_r. tauto.
  - rewrite IH, zlen_cons. replace (i + 1 + zlen l1) with (i + (1 + zlen l1)) by lia. tauto.
Qed.
Lemma from_in i l e : from i l -> In e l -> i <= idx e < i + zlen l.
Proof.
  revert i. induction l as [|x l IH]; intros i H HI; [destruct HI|]; destruct HI as [HI|HI]; cbn [WalSpec.from] in H; destruct H as [H1 H2]; rewrite zlen_cons; pose proof (zlen_nonneg l).
  - subst x. lia.
  - specialize (IH _ H2 HI). lia.
Qed.
Lemma from_filter_lt i l k : from i l -> k <= i -> filter (fun e => idx e <? k) l = [] /\ filter (fun e => k <=? idx e) l = l.
Proof.
  revert i. induction l as [|x l IH]; intros i H Hk; cbn [filter]; auto. destruct H as [H1 H2].
  replace (idx x <? k) with false by lia. replace (k <=? idx x) with true by lia. destruct (IH (i + 1) H2 ltac:(lia)) as [A B].
  rewrite A, B. auto.
Qed.
Lemma from_filter_ge i l k : from i l -> i + zlen l <= k -> filter (fun e => idx e <? k) l = l /\ filter (fun e => k <=? idx e) l = [].
Proof.
  revert i. induction l as [|x l IH]; intros i H Hk; cbn [filter]; auto. destruct H as [H1 H2]. rewrite zlen_cons in Hk.
  pose proof (zlen_nonneg l). replace (idx x <? k) with true by lia. replace (k <=? idx x) with false by lia.
  destruct (IH (i + 1) H2 ltac:(lia)) as [A B]. rewrite A, B. auto.
Qed.
Lemma from_split i l k : from i l -> l = filter (fun e => idx e <? k) l ++ filter (fun e => k <=? idx e) l.
Proof.
  revert i. induction l as [|x l IH]; intros i H; cbn [filter]; auto. destruct H as [H1 H2].
  destruct (idx x <? k) eqn:EX.
  - replace (k <=? idx x) with false by lia. cbn [app]. rewrite <- (IH _ H2). auto.
  - destruct (from_filter_lt (i + 1) l k H2 ltac:(lia)) as [A B]. rewrite A, B. replace (k <=? idx x) with true by lia. auto.
Qed.
Lemma from_first i l : from i l -> l <> [] -> first_index idx l = i.
Proof. destruct l; [congruence|]. cbn. intros [H _] _. auto. Qed.
Lemma last_of_snoc (l : list E) e : last_of (l ++ [e]) = Some e.
Proof. unfold last_of. rewrite rev_app_distr. auto. Qed.
Lemma last_of_app (l1 l2 : list E) : l2 <> [] -> last_of (l1 ++ l2) = last_of l2.
Proof.
  intros H. destruct l2 as [|e l2 _] using rev_ind; [congruence|]. rewrite app_assoc, !last_of_snoc. auto.
Qed.
Lemma last_index_app l1 l2 : l2 <> [] -> last_index idx (l1 ++ l2) = last_index idx l2.
Proof. intros H. unfold last_index. rewrite last_of_app by auto. auto. Qed.
Lemma first_index_app l1 l2 : l1 <> [] -> first_index idx (l1 ++ l2) = first_index idx l1.
Proof. destruct l1; [congruence|]. auto. Qed.
Lemma from_last i l : from i l -> l <> [] -> last_index idx l = i + zlen l - 1.
Proof.
  destruct l as [|e l _] using rev_ind; [congruence|]. intros H _. apply from_app in H as [_ [H _]]. unfold last_index.
  rewrite last_of_snoc, zlen_app, H, zlen_cons, zlen_nil. lia.
Qed.
Lemma from_filter_range_head i l e a b : from i l -> In e l -> idx e = a -> a < b ->
  filter (fun e => (a <=? idx e) && (idx e <? b))%bool l = e :: filter (fun e => (a + 1 <=? idx e) && (idx e <? b))%bool l.
Proof.
  revert i. induction l as [|x l IH]; intros i H HI Ha Hb; [destruct HI|]. cbn [filter WalSpec.from] in *. destruct H as [H1 H2], HI as [->|HI].
  - replace (a <=? idx e) with true by lia. replace (idx e <? b) with true by lia. replace (a + 1 <=? idx e) with false by lia. cbn [andb].
    f_equal. apply filter_ext_in. intros y Hy. pose proof (from_in _ _ _ H2 Hy). lia.
  - pose proof (from_in _ _ _ H2 HI). replace (a <=? idx x) with false by lia. replace (a + 1 <=? idx x) with false by lia. cbn [andb].
    eapply IH; eauto.
Qed.
Lemma from_inj i l e1 e2 : from i l -> In e1 l -> In e2 l -> idx e1 = idx e2 -> e1 = e2.
Proof.
  revert i. induction l as [|x l IH]; intros i H H1 H2 HE; [destruct H1|]. cbn [WalSpec.from] in H. destruct H as [HX HL].
  destruct H1 as [->|H1], H2 as [->|H2]; auto.
  - pose proof (from_in _ _ _ HL H2). lia.
  - pose proof (from_in _ _ _ HL H1). lia.
  - eapply IH; eauto.
Qed.
Lemma find_in i l e k : from i l -> In e l -> idx e = k -> find (fun e => idx e =? k) l = Some e.
Proof.
  intros H HI HE. destruct (find _ l) as [x|] eqn:EF.
  - apply find_some in EF as [A B]. f_equal. eapply from_inj; eauto. lia.
  - pose proof (find_none _ _ EF e HI). cbv beta in *. lia.
Qed.
Lemma find_notin l k : (forall e, In e l -> idx e <> k) -> find (fun e => idx e =? k) l = None.
Proof.
  intros H. destruct (find _ l) as [x|] eqn:EF; auto. apply find_some in EF as [A B]. specialize (H x A). lia.
Qed.
Lemma consecutive_from l : consecutive idx l -> exists i, 0 <= i /\ i + zlen l <= U64_MAX /\ from i l.
Proof. auto. Qed.
Lemma consecutive_app_l l1 l2 : consecutive idx (l1 ++ l2) -> consecutive idx l1.
Proof.
  intros (i&H1&H2&H3). apply from_app in H3 as [H3 _]. rewrite zlen_app in H2. pose proof (zlen_nonneg l2). exists i. split; auto. split; auto. lia.
Qed.
Lemma consecutive_app_r l1 l2 : consecutive idx (l1 ++ l2) -> consecutive idx l2.
Proof.
  intros (i&H1&H2&H3). apply from_app in H3 as [_ H3]. rewrite zlen_app in H2. pose proof (zlen_nonneg l1). exists (i + zlen l1). split; [lia|]. split; auto. lia.
Qed.
End Lists.

(** ** Directories *)
Lemma dir_get_at d1 id f d2 : (forall x, In x d1 -> fst x <> id) -> dir_get (d1 ++ (id, f) :: d2) id = f.
Proof.
  unfold dir_get. induction d1 as [|[i g] d1 IH]; cbn [app find fst]; intros H.
  - rewrite Z.eqb_refl. auto.
  - replace (i =? id) with false; [apply IH; intros; apply H; right; auto|]. specialize (H (i, g) (or_introl eq_refl)). cbn in H. lia.
Qed.
Lemma dir_get_none d id : (forall x, In x d -> fst x <> id) -> dir_get d id = [].
Proof.
  unfold dir_get. induction d as [|[i g] d IH]; cbn [find fst]; intros H; auto.
  replace (i =? id) with false; [apply IH; intros; apply H; right; auto|]. specialize (H (i, g) (or_introl eq_refl)). cbn in H. lia.
Qed.
Lemma dir_put_at d1 id f g d2 : (forall x, In x d1 -> fst x < id) -> dir_put (d1 ++ (id, f) :: d2) id g = d1 ++ (id, g) :: d2.
Proof.
  induction d1 as [|[i h] d1 IH]; cbn [app dir_put]; intros H.
  - rewrite Z.eqb_refl. auto.
  - pose proof (H (i, h) (or_introl eq_refl)) as X. cbn in X. replace (i =? id) with false by lia. replace (id <? i) with false by lia.
    rewrite IH; auto. intros x Hx. apply H. right. auto.
Qed.
Lemma dir_put_new d id g : (forall x, In x d -> fst x < id) -> dir_put d id g = d ++ [(id, g)].
Proof.
  induction d as [|[i h] d IH]; cbn [app dir_put]; intros H; auto.
  pose proof (H (i, h) (or_introl eq_refl)) as X. cbn in X. replace (i =? id) with false by lia. replace (id <? i) with false by lia.
  rewrite IH; auto. intros x Hx. apply H. right. auto.
Qed.
Lemma max_id_snoc d id f : (forall x, In x d -> fst x < id) -> 0 < id -> max_id (d ++ [(id, f)]) = id.
Proof.
  intros H H0. unfold max_id. rewrite fold_left_app. cbn [fold_left fst].
  assert (G : forall d m, m < id -> (forall x : Z * list Z, In x d -> fst x < id) -> fold_left (fun m x => if m <? fst x then fst x else m) d m < id).
  { clear. induction d as [|x d IH]; intros m Hm H; cbn [fold_left]; auto. apply IH; [|intros; apply H; right; auto].
    pose proof (H x (or_introl eq_refl)). destruct (m <? fst x); auto. }
  specialize (G d 0 H0 H). match goal with |- (if ?b then _ else _) = _ => destruct b eqn:EB end; lia.
Qed.

(** ** Files as lists of entries *)
Definition rinv (f : list Z) (r : reader) : Prop := inv f (reload_metadata f false r) /\ r_footer_pos r = r_flen r.
Lemma rinv_append f x r : rinv f r -> rinv (f ++ x) r.
Proof.
  intros [I HF]. split; auto. pose proof (zlen_nonneg x). destruct I as [Q1 Q2 Q3 Q4 Q5 Q6 Q7 Q8]. cbn [reload_metadata r_use r_len r_pos r_buf r_cap r_flen] in *.
  constructor; cbn [reload_metadata r_use r_len r_pos r_buf r_cap r_flen]; rewrite ?zlen_app; auto; try lia.
  rewrite slice_app_l by lia. exact Q6.
Qed.
Lemma rinv_truncate f r p : rinv f r -> r_pos r - r_use r + r_len r <= p <= zlen f -> rinv (slice f 0 p) r.
Proof.
  intros [I HF] Hp. split; auto. destruct I as [Q1 Q2 Q3 Q4 Q5 Q6 Q7 Q8]. cbn [reload_metadata r_use r_len r_pos r_buf r_cap r_flen] in *.
  assert (L : zlen (slice f 0 p) = p) by (rewrite zlen_slice; lia).
  constructor; cbn [reload_metadata r_use r_len r_pos r_buf r_cap r_flen]; rewrite ?L; auto; try lia.
  rewrite slice_slice by lia. rewrite Q6. f_equal; lia.
Qed.
Lemma rinv_new f : 4 <= zlen f -> rinv f (reader_new f).
Proof. intros H. split; [apply reload_inv, reader_new_inv; auto|reflexivity]. Qed.
Lemma rinv_open crc f : no_footer crc f -> 4 <= zlen f -> rinv f (reader_open crc f).
Proof.
  intros H H4. destruct (reader_open_inv crc f H H4) as (I&_&HF). split; [apply reload_inv; auto|]. rewrite HF. symmetry. apply I.
Qed.

Section Blocks.
Variable crc : list Z -> Z.
Hypothesis Hcrc : crc32_like crc.
Context {E : Type}.
Variables (e_index e_type : E -> Z) (enc : E -> list Z) (dec : list Z -> option E) (max_size : Z).
Notation idx := e_index.
Notation from := (WalSpec.from e_index).
Notation wb := (wal_bytes crc e_index e_type enc).
Notation data := (wal_data e_index e_type enc).
Notation coded := (WalSpec.coded e_type enc dec).
Notation first_index := (WalSpec.first_index e_index).
Notation last_index := (WalSpec.last_index e_index).
Definition it (e : E) : item := Item 1 8 (data e).
Lemma wb_cat es : wb es = cat crc (map it es).
Proof. unfold wal_bytes, cat. induction es; cbn [flat_map map]; auto. rewrite IHes. auto. Qed.
Lemma wb_app a b : wb (a ++ b) = wb a ++ wb b.
Proof. apply flat_map_app. Qed.
Lemma wb_one e : wb [e] = rb crc (it e).
Proof. unfold wal_bytes. cbn [flat_map]. rewrite app_nil_r. auto. Qed.
Lemma zlen_data e : zlen (data e) = 9 + zlen (enc e).
Proof. unfold wal_data. rewrite zlen_cons, zlen_app, zlen_be. lia. Qed.
Lemma zlen_rbe e : zlen (rb crc (it e)) = 23 + zlen (enc e).
Proof. rewrite zlen_rb. cbn [it it_data]. rewrite zlen_data. lia. Qed.
Lemma coded_fits e : coded e -> item_fits (it e).
Proof.
  intros (H1&H2&H3&_). split.
  - split; [cbn; unfold is_byte; lia|]. split; [cbn; unfold is_byte; lia|]. cbn [it it_data]. unfold wal_data. constructor; auto.
    apply Forall_app. split; auto. apply be_bytes_bytes.
  - cbn [it it_data]. rewrite zlen_data. lia.
Qed.
Lemma fits_all es : Forall coded es -> Forall item_fits (map it es).
Proof. induction 1; cbn [map]; constructor; auto. apply coded_fits; auto. Qed.
Lemma file_bytes es : Forall coded es -> Forall is_byte (FILE_MAGIC ++ wb es).
Proof. intros H. apply Forall_app. split; [apply Forall_magic|]. rewrite wb_cat. apply Forall_cat; auto. apply fits_all; auto. Qed.
Lemma zlen_file es : zlen (FILE_MAGIC ++ wb es) = 4 + zlen (wb es).
Proof. rewrite zlen_app. auto. Qed.
Lemma decode_data e : coded e -> decode_record dec (data e) = Some e.
Proof.
  intros (H1&H2&H3&H4). unfold decode_record. rewrite zlen_data. pose proof (zlen_nonneg (enc e)). replace (_ <? 9) with false by lia.
  unfold wal_data. change (skipn 9 (e_type e :: be_bytes 8 (idx e) ++ enc e)) with (skipn 8 (be_bytes 8 (idx e) ++ enc e)).
  rewrite skipn_app, be_bytes_length. rewrite skipn_all2 by (rewrite be_bytes_length; lia). cbn [app Nat.sub skipn]. auto.
Qed.

(** The index of a file: the entries' positions. *)
Fixpoint index_from (p : Z) (es : list E) : list (Z * Z) :=
  match es with [] => [] | e :: r => (idx e, p) :: index_from (p + zlen (rb crc (it e))) r end.
Lemma index_from_app p a b : index_from p (a ++ b) = index_from p a ++ index_from (p + zlen (wb a)) b.
Proof.
  revert p. induction a as [|e a IH]; intros p; cbn [app index_from]; [change (wb []) with (@nil Z); rewrite zlen_nil, Z.add_0_r; auto|].
  rewrite IH. cbn [app]. f_equal. f_equal. f_equal. change (e :: a) with ([e] ++ a). rewrite wb_app, zlen_app, wb_one. lia.
Qed.
Lemma index_from_length p es : length (index_from p es) = length es.
Proof. revert p. induction es; intros; cbn; auto. Qed.
Lemma index_from_fst p es : map fst (index_from p es) = map idx es.
Proof. revert p. induction es; intros; cbn; f_equal; auto. Qed.
Lemma index_find i p l1 e l2 : from i (l1 ++ e :: l2) ->
  find (fun x => fst x =? idx e) (index_from p (l1 ++ e :: l2)) = Some (idx e, p + zlen (wb l1)).
Proof.
  revert i p. induction l1 as [|x l1 IH]; intros i p H.
  - cbn [app index_from find fst]. rewrite Z.eqb_refl. change (wb []) with (@nil Z). rewrite zlen_nil, Z.add_0_r. auto.
  - cbn [app index_from find fst]. cbn [app WalSpec.from] in H. destruct H as [H1 H2].
    assert (HI : In e (l1 ++ e :: l2)) by (apply in_or_app; right; left; auto). pose proof (from_in idx _ _ _ H2 HI).
    replace (idx x =? idx e) with false by lia. rewrite (IH _ _ H2). f_equal. f_equal. change (x :: l1) with ([x] ++ l1).
    rewrite wb_app, zlen_app, wb_one. lia.
Qed.
Lemma index_find_none p es k : (forall e, In e es -> idx e <> k) -> find (fun x => fst x =? k) (index_from p es) = None.
Proof.
  revert p. induction es as [|e es IH]; intros p H; cbn [index_from find fst]; auto.
  pose proof (H e (or_introl eq_refl)). replace (idx e =? k) with false by lia. apply IH. intros; apply H; right; auto.
Qed.
Lemma bsearch_index i p es k : from i es -> bsearch (index_from p es) k = length (filter (fun e => idx e <? k) es).
Proof.
  intros _. unfold bsearch. revert p. induction es as [|e es IH]; intros p; cbn [index_from filter fst]; auto.
  destruct (idx e <? k); cbn [length]; auto.
Qed.

(** A block: a file, its purged and live entries, and its reader. *)
Record blk := Blk { b_id : Z; b_dead : list E; b_live : list E; b_reader : reader }.
Definition all (b : blk) : list E := b_dead b ++ b_live b.
Definition bytes (b : blk) : list Z := FILE_MAGIC ++ wb (all b).
Definition meta_of (b : blk) : fmeta :=
  Meta (b_id b) (first_index (b_live b)) (last_index (b_live b)) (b_reader b)
       (index_from (4 + zlen (wb (b_dead b))) (b_live b)).
Definition nonempty (b : blk) : bool := match b_live b with [] => false | _ => true end.
Definition metas_of (bs : list blk) : list fmeta := map meta_of (filter nonempty bs).
Definition dir_of (bs : list blk) : dir := map (fun b => (b_id b, bytes b)) bs.
Definition set_reader (b : blk) (r : reader) : blk := Blk (b_id b) (b_dead b) (b_live b) r.

Lemma zlen_bytes b : zlen (bytes b) = 4 + zlen (wb (all b)).
Proof. apply zlen_file. Qed.

(** *** Reading one entry *)
Lemma get_entry_ok d b l1 e l2 i : b_live b = l1 ++ e :: l2 -> Forall coded (all b) -> from i (b_live b) ->
  rinv (bytes b) (b_reader b) -> dir_get d (b_id b) = bytes b ->
  exists r', get_entry_by_index crc dec d (meta_of b) (idx e) = Some (GSome e, meta_of (set_reader b r')) /\ rinv (bytes b) r'.
Proof.
  intros EL HC HF [I HX] HD. unfold get_entry_by_index. cbn [meta_of m_index]. rewrite EL in *.
  rewrite (index_find i) by auto. cbn [meta_of m_id m_min m_max m_reader m_index]. rewrite HD. unfold has_footer. rewrite HX, Z.eqb_refl. cbn [negb].
  set (f := bytes b) in *. set (A := FILE_MAGIC ++ wb (b_dead b ++ l1)).
  assert (Ef : f = A ++ rb crc (it e) ++ wb l2).
  { unfold f, bytes, all. rewrite EL. unfold A. rewrite !wb_app. change (e :: l2) with ([e] ++ l2). rewrite wb_app, wb_one.
    rewrite <- !app_assoc. auto. }
  assert (LA : zlen A = 4 + zlen (wb (b_dead b)) + zlen (wb l1)) by (unfold A; rewrite zlen_file, wb_app, zlen_app; lia).
  assert (Hb : Forall is_byte f) by (apply file_bytes; auto).
  assert (He : coded e). { rewrite Forall_forall in HC. apply HC. unfold all. rewrite EL. apply in_or_app. right. apply in_or_app. right. left. auto. }
  assert (L : zlen f = zlen A + 23 + zlen (enc e) + zlen (wb l2)) by (rewrite Ef, !zlen_app, zlen_rbe; lia).
  pose proof (zlen_nonneg (enc e)). pose proof (zlen_nonneg (wb l2)). pose proof (zlen_nonneg (wb l1)). pose proof (zlen_nonneg (wb (b_dead b))).
  unfold read_record_at. rewrite <- LA.
  destruct (set_pos_ok f (reload_metadata f false (b_reader b)) (zlen A) I ltac:(lia)) as (r1 & E1 & I1 & P1 & F1).
  rewrite E1. cbn [obind].
  assert (F1' : r_footer_pos r1 = zlen f) by (rewrite F1; reflexivity).
  destruct (read_written crc Hcrc f A (wb l2) (it e) r1 Ef Hb (coded_fits e He) I1) as (r' & R & I' & P' & F'); [lia|intros; lia|lia|].
  rewrite R. cbn [seen_as rec_data it it_data]. rewrite decode_data by auto. exists r'. split.
  - unfold meta_of, set_reader. cbn [b_id b_dead b_live b_reader]. rewrite EL. auto.
  - split; [apply reload_inv; auto|]. rewrite F', F1'. symmetry. apply I'.
Qed.
Lemma get_entry_none d b k : (forall e, In e (b_live b) -> idx e <> k) ->
  get_entry_by_index crc dec d (meta_of b) k = Some (GNone, meta_of b).
Proof. intros H. unfold get_entry_by_index. cbn [meta_of m_index]. rewrite index_find_none by auto. auto. Qed.

(** ** The invariant *)
Fixpoint shape (bs : list blk) : Prop :=
  match bs with
  | [] => True
  | b :: r => (b_live b = [] -> b_dead b = []) /\ (b_live b <> [] -> Forall (fun b => b_dead b = []) r) /\ shape r
  end.
Definition lives (bs : list blk) : list E := flat_map b_live bs.
Definition deads (bs : list blk) : list E := flat_map b_dead bs.
Definition alls (bs : list blk) : list E := flat_map all bs.
Lemma lives_app a b : lives (a ++ b) = lives a ++ lives b. Proof. apply flat_map_app. Qed.
Lemma deads_app a b : deads (a ++ b) = deads a ++ deads b. Proof. apply flat_map_app. Qed.
Lemma alls_app a b : alls (a ++ b) = alls a ++ alls b. Proof. apply flat_map_app. Qed.
Lemma lives_one b : lives [b] = b_live b. Proof. apply app_nil_r. Qed.
Lemma deads_one b : deads [b] = b_dead b. Proof. apply app_nil_r. Qed.
Lemma alls_one b : alls [b] = all b. Proof. apply app_nil_r. Qed.
Lemma deads_nil bs : Forall (fun b => b_dead b = []) bs -> deads bs = [].
Proof. induction 1 as [|b bs H _ IH]; cbn [deads flat_map]; auto. rewrite H. exact IH. Qed.
Lemma alls_nodead bs : Forall (fun b => b_dead b = []) bs -> alls bs = lives bs.
Proof. induction 1 as [|b bs H _ IH]; cbn [alls lives flat_map]; auto. unfold all at 1. rewrite H. cbn [app]. f_equal. exact IH. Qed.
Lemma alls_split bs : shape bs -> alls bs = deads bs ++ lives bs.
Proof.
  induction bs as [|b bs IH]; cbn [shape alls deads lives flat_map]; auto. intros (H1&H2&H3).
  destruct (b_live b) as [|x l] eqn:EL.
  - unfold all at 1. rewrite H1, EL by auto. cbn [app]. apply IH. auto.
  - pose proof (H2 ltac:(discriminate)) as H4. fold (alls bs) (deads bs) (lives bs). rewrite (deads_nil _ H4), app_nil_r, (alls_nodead _ H4).
    unfold all at 1. rewrite EL, <- app_assoc. auto.
Qed.
Lemma shape_snoc bs b : shape (bs ++ [b]) <-> shape bs /\ (b_live b = [] -> b_dead b = []) /\ (lives bs <> [] -> b_dead b = []).
Proof.
  induction bs as [|x bs IH]; cbn [app shape].
  - split; [intros (H1&H2&H3); split; auto; split; auto; cbn; congruence|intros (H1&H2&H3); auto].
  - rewrite IH. rewrite Forall_app. cbn [lives flat_map]. fold (lives bs). split.
    + intros (H1&H2&H3&H4&H5). split; [split; auto; split; auto; intros X; apply H2; auto|]. split; auto.
      intros X. destruct (b_live x) eqn:EX; [apply H5; auto|]. specialize (H2 ltac:(discriminate)) as [_ H2]. inversion H2; auto.
    + intros ((H1&H2&H3)&H4&H5). split; auto. split; [|split; auto; split; auto].
      * intros X. split; auto. constructor; auto. apply H5. destruct (b_live x); [congruence|discriminate].
      * intros X. apply H5. destruct (b_live x); cbn; auto. discriminate.
Qed.
Lemma lives_nil bs : lives bs = [] -> filter nonempty bs = [].
Proof.
  induction bs as [|b bs IH]; cbn [lives flat_map filter]; auto. unfold nonempty at 1. intros H. apply app_eq_nil in H as [H1 H2]. rewrite H1.
  apply IH. exact H2.
Qed.
Lemma shape_deads_nil bs : shape bs -> lives bs = [] -> deads bs = [].
Proof.
  induction bs as [|b bs IH]; cbn [shape lives deads flat_map]; auto. intros (H1&_&H3) H. apply app_eq_nil in H as [H4 H5].
  rewrite H1 by auto. cbn [app]. apply IH; auto.
Qed.

Record binv (bs : list blk) : Prop := {
  bi_ids : StronglySorted Z.lt (map b_id bs);
  bi_pos : Forall (fun b => 0 < b_id b) bs;
  bi_shape : shape bs;
  bi_cons : consecutive idx (alls bs);
  bi_coded : Forall coded (alls bs);
  bi_reader : Forall (fun b => b_live b <> [] -> rinv (bytes b) (b_reader b)) bs }.

Definition Inv (s : store E) (L : log) : Prop := exists bs b pre c,
  binv (bs ++ [b]) /\ s_dir s = dir_of (bs ++ [b]) /\ s_cur s = b_id b /\ s_size s = zlen (bytes b) /\ s_metas s = metas_of (bs ++ [b]) /\
  l_purged L = pre ++ deads (bs ++ [b]) /\ l_entries L = lives (bs ++ [b]) /\
  (exists A, l_entries L = A ++ c) /\ length c = l_cached L /\ crep 256 (s_cache s) (map (fun e => (idx e, e)) c).

Lemma sorted_snoc l x : StronglySorted Z.lt (l ++ [x]) <-> StronglySorted Z.lt l /\ Forall (fun y => y < x) l.
Proof.
  induction l as [|a l IH]; cbn [app].
  - split; [intros; split; constructor|intros; repeat constructor].
  - split.
    + intros H. inversion H as [|? ? H1 H2]; subst. apply IH in H1 as [H1 H3]. apply Forall_app in H2 as [H2 H4]. inversion H4; subst.
      split; constructor; auto.
    + intros [H1 H2]. inversion H1; subst. inversion H2; subst. constructor; [apply IH; auto|]. apply Forall_app. auto.
Qed.
Lemma binv_lt bs b x : binv (bs ++ [b]) -> In x (dir_of bs) -> fst x < b_id b.
Proof.
  intros H Hx. destruct H. rewrite map_app in bi_ids0. apply sorted_snoc in bi_ids0 as [_ H]. rewrite Forall_forall in H.
  unfold dir_of in Hx. apply in_map_iff in Hx as (y&<-&Hy). cbn [fst]. apply H. apply in_map. auto.
Qed.
Lemma dir_of_app a b : dir_of (a ++ b) = dir_of a ++ dir_of b. Proof. apply map_app. Qed.
Lemma metas_of_app a b : metas_of (a ++ b) = metas_of a ++ metas_of b.
Proof. unfold metas_of. rewrite filter_app, map_app. auto. Qed.
Lemma reopen bs b : binv (bs ++ [b]) -> no_footer crc (bytes b) ->
  open_writer crc (dir_of (bs ++ [b])) = (dir_of (bs ++ [b]), b_id b, zlen (bytes b)).
Proof.
  intros H HN. unfold open_writer. rewrite dir_of_app. cbn [dir_of map].
  assert (HP : 0 < b_id b). { destruct H. rewrite Forall_app in bi_pos0. destruct bi_pos0 as [_ X]. inversion X; auto. }
  rewrite (max_id_snoc (dir_of bs)) by (auto; intros x Hx; eapply binv_lt; eauto).
  assert (HM : match dir_of bs ++ [(b_id b, bytes b)] with [] => 1 | _ :: _ => b_id b end = b_id b) by (destruct (dir_of bs); auto).
  rewrite HM. unfold open_file. rewrite dir_get_at by (intros x Hx; pose proof (binv_lt _ _ _ H Hx); lia).
  rewrite writer_open_id by (auto; unfold bytes; discriminate). rewrite dir_put_at; auto. intros x Hx. eapply binv_lt; eauto.
Qed.

Lemma init_inv : Inv (store_new crc []) (Log [] [] 0).
Proof.
  exists [], (Blk 1 [] [] (reader_new [])), [], []. cbn [app].
  split; [|split; [reflexivity|]; split; [reflexivity|]; split; [reflexivity|]; split; [reflexivity|]; split; [reflexivity|]; split; [reflexivity|]].
  - constructor; cbn [map b_id b_live b_dead shape alls all flat_map app].
    + constructor; constructor.
    + constructor; [reflexivity|constructor].
    + repeat split; auto.
    + exists 0. rewrite U64_MAX_eq. cbn. repeat split; discriminate.
    + constructor.
    + constructor; [cbn; congruence|constructor].
  - split; [exists []; auto|]. split; auto. cbn. destruct (@run_crep E 256 [] ltac:(lia)) as (c&Ec&CR). cbn in Ec. injection Ec as <-. exact CR.
Qed.

(** *** The entry cache *)
Definition ce (c : list E) : list (Z * E) := map (fun e => (idx e, e)) c.
Lemma ce_fst c : map fst (ce c) = map idx c.
Proof. unfold ce. rewrite map_map. auto. Qed.
Lemma from_sorted i l : from i l -> StronglySorted Z.lt (map idx l).
Proof.
  revert i. induction l as [|e l IH]; intros i H; cbn [map]; [constructor|]. destruct H as [H1 H2]. constructor; [eapply IH; eauto|].
  apply Forall_forall. intros x Hx. apply in_map_iff in Hx as (y&<-&Hy). pose proof (from_in idx _ _ _ H2 Hy). lia.
Qed.
Lemma ce_lookup c k : lookup (ce c) k = find (fun e => idx e =? k) c.
Proof. unfold lookup, ce. induction c as [|e c IH]; cbn [map find fst]; auto. destruct (idx e =? k); auto. Qed.
Lemma ce_filter (p : Z -> bool) c : filter (fun x => p (fst x)) (ce c) = ce (filter (fun e => p (idx e)) c).
Proof. unfold ce. induction c as [|e c IH]; cbn [map filter fst]; auto. destruct (p (idx e)); cbn [map]; rewrite IH; auto. Qed.
Lemma crep_len c C : crep 256 c (ce C) -> (length C <= 256)%nat.
Proof. intros ((_&_&H&_)&_). rewrite ce_fst, map_length in H. auto. Qed.
Lemma cache_get c C k : crep 256 c (ce C) -> kc_get c k = find (fun e => idx e =? k) C.
Proof. intros (_&_&H). unfold kc_get. rewrite H. apply ce_lookup. Qed.
Lemma cache_put c A C e : crep 256 c (ce C) -> (forall x, In x C -> idx x <> idx e) ->
  exists A' C', A ++ C ++ [e] = A' ++ C' /\ crep 256 (kc_put c (idx e) e) (ce C') /\ length C' = Nat.min 256 (length C + 1).
Proof.
  intros H HN. pose proof (crep_len _ _ H) as HL. pose proof (put_crep 256 c (ce C) (idx e) e ltac:(lia) H) as P. unfold s_put in P.
  rewrite ce_lookup, find_notin in P by auto. assert (LC : length (ce C) = length C) by (unfold ce; apply map_length). rewrite LC in P.
  destruct (Nat.ltb_spec (length C) 256) as [HX|HX].
  - exists A, (C ++ [e]). split; auto. split; [unfold ce in *; rewrite map_app; exact P|]. rewrite app_length. cbn [length]. lia.
  - destruct C as [|x C]; [cbn in HX; lia|]. exists (A ++ [x]), (C ++ [e]). split; [rewrite <- !app_assoc; auto|].
    split; [unfold ce in *; rewrite map_app; exact P|]. rewrite app_length. cbn [length] in *. lia.
Qed.
Lemma cache_del_before c C k i : crep 256 c (ce C) -> from i C ->
  exists c', kc_del_before c k = Some c' /\ crep 256 c' (ce (filter (fun e => k <=? idx e) C)).
Proof.
  intros H HF. destruct (step_crep 256 c (ce C) (KDelBefore k) ltac:(lia) H) as (c'&E1&CR). exists c'. split; [exact E1|].
  cbn [s_step] in CR. rewrite drop_filter in CR by (rewrite ce_fst; eapply from_sorted; eauto).
  rewrite (ce_filter (fun x => k <=? x)) in CR. exact CR.
Qed.
Lemma cache_del_after c C k i : crep 256 c (ce C) -> from i C ->
  exists c', kc_del_after c k = Some c' /\ crep 256 c' (ce (filter (fun e => idx e <? k) C)).
Proof.
  intros H HF. destruct (step_crep 256 c (ce C) (KDelAfter k) ltac:(lia) H) as (c'&E1&CR). exists c'. split; [exact E1|].
  cbn [s_step] in CR. rewrite drop_rev_filter in CR by (rewrite ce_fst; eapply from_sorted; eauto).
  rewrite (ce_filter (fun x => x <? k)) in CR. exact CR.
Qed.

(** *** Least and greatest index *)
Lemma nonempty_true b : nonempty b = true <-> b_live b <> [].
Proof. unfold nonempty. destruct (b_live b); split; intros; congruence. Qed.
Lemma max_seq (s : store E) bs : s_metas s = metas_of bs -> max_sequence s = last_index (lives bs).
Proof.
  intros H. unfold max_sequence. rewrite H. clear H. induction bs as [|b bs IH] using rev_ind; auto.
  rewrite metas_of_app, lives_app, lives_one. unfold metas_of at 2. cbn [filter]. unfold nonempty. destruct (b_live b) as [|x l] eqn:EL.
  - cbn [map]. rewrite !app_nil_r. exact IH.
  - cbn [map]. rewrite rev_app_distr. cbn [rev app meta_of m_max]. rewrite last_index_app by discriminate. rewrite EL. auto.
Qed.
Lemma min_seq (s : store E) bs : s_metas s = metas_of bs -> min_sequence s = first_index (lives bs).
Proof.
  intros H. unfold min_sequence. rewrite H. clear H. induction bs as [|b bs IH]; auto.
  unfold metas_of. cbn [filter lives flat_map]. unfold nonempty. destruct (b_live b) as [|x l] eqn:EL.
  - exact IH.
  - cbn [map meta_of m_min]. rewrite EL. auto.
Qed.

(** *** Appending *)
Ltac conj := repeat match goal with |- _ /\ _ => split end.
Lemma rolled s L : Inv s L -> Inv (roll crc max_size s) L.
Proof.
  intros HI. unfold roll. destruct (s_size s >? max_size); [|exact HI].
  destruct HI as (bs&b&pre&c&HB&HD&HC&HS&HM&HP&HE&HA&HL&HR).
  assert (HX : forall x, In x (dir_of (bs ++ [b])) -> fst x < b_id b + 1).
  { intros x Hx. rewrite dir_of_app in Hx. apply in_app_or in Hx as [Hx|[<-|[]]]; [pose proof (binv_lt _ _ _ HB Hx)|cbn]; lia. }
  unfold open_file. rewrite HD, HC. rewrite dir_get_none by (intros x Hx; specialize (HX x Hx); lia).
  rewrite dir_put_new by auto. cbn [writer_open].
  set (n := Blk (b_id b + 1) [] [] (reader_new [])). exists (bs ++ [b]), n, pre, c.
  assert (HL0 : lives ((bs ++ [b]) ++ [n]) = lives (bs ++ [b])) by (rewrite (lives_app _ [n]), lives_one; apply app_nil_r).
  assert (HD0 : deads ((bs ++ [b]) ++ [n]) = deads (bs ++ [b])) by (rewrite (deads_app _ [n]), deads_one; apply app_nil_r).
  assert (HA0 : alls ((bs ++ [b]) ++ [n]) = alls (bs ++ [b])) by (rewrite (alls_app _ [n]), alls_one; apply app_nil_r).
  destruct HB as [B1 B2 B3 B4 B5 B6].
  split; [|cbn [s_dir s_cur s_size s_metas s_cache]; rewrite HL0, HD0; conj; auto].
  - constructor; rewrite ?HA0; auto.
    + rewrite map_app. apply sorted_snoc. split; auto. apply Forall_forall. intros y Hy. apply in_map_iff in Hy as (z&<-&Hz).
      apply (HX (b_id z, bytes z)). unfold dir_of. apply in_map_iff. exists z. auto.
    + apply Forall_app. split; auto. constructor; auto. cbn [n b_id]. rewrite Forall_app in B2. destruct B2 as [_ B2]. apply Forall_inv in B2. lia.
    + apply shape_snoc. split; auto.
    + apply Forall_app. split; auto. constructor; auto. cbn. congruence.
  - rewrite (dir_of_app _ [n]). reflexivity.
  - rewrite HM. rewrite (metas_of_app _ [n]). symmetry. apply app_nil_r.
Qed.
Lemma metas_one b : b_live b <> [] -> metas_of [b] = [meta_of b].
Proof. intros H. apply nonempty_true in H. unfold metas_of. cbn [filter]. rewrite H. auto. Qed.
Lemma metas_one_nil b : b_live b = [] -> metas_of [b] = [].
Proof. intros H. unfold metas_of. cbn [filter]. unfold nonempty. rewrite H. auto. Qed.
Lemma mark_entry_ok b e i : b_live b <> [] -> from i (b_live b ++ [e]) -> 0 <= i -> i + zlen (b_live b ++ [e]) <= U64_MAX ->
  mark_entry (meta_of b) (idx e) (zlen (bytes b)) = meta_of (Blk (b_id b) (b_dead b) (b_live b ++ [e]) (b_reader b)).
Proof.
  intros HN HF H0 HU. rewrite zlen_app, zlen_cons, zlen_nil in HU. pose proof HF as HF2. apply from_app in HF as [HF [HE _]].
  assert (H1 : 1 <= zlen (b_live b)). { destruct (b_live b); [congruence|]. rewrite zlen_cons. pose proof (zlen_nonneg l). lia. }
  unfold mark_entry, meta_of. cbn [m_id m_min m_max m_reader m_index b_id b_dead b_live b_reader].
  rewrite first_index_app by auto. change (last_index (b_live b ++ [e])) with (match last_of (b_live b ++ [e]) with None => U64_MAX | Some e => idx e end). rewrite last_of_snoc.
  rewrite (from_first idx i) by auto. rewrite (from_last idx i) by auto.
  replace (i =? U64_MAX) with false by lia. replace (i >? idx e) with false by lia.
  replace (i + zlen (b_live b) - 1 =? U64_MAX) with false by lia. replace (_ <? idx e) with true by lia. cbn [orb].
  rewrite index_from_app. cbn [index_from]. replace (zlen (bytes b)) with (4 + zlen (wb (b_dead b)) + zlen (wb (b_live b))).
  - auto.
  - rewrite zlen_bytes. unfold all. rewrite wb_app, zlen_app. lia.
Qed.
Definition next_ok (l : list E) (e : E) : Prop := 0 <= idx e /\ idx e + 1 <= U64_MAX /\ (l <> [] -> idx e = last_index l + 1).
Lemma consecutive_snoc l e : consecutive idx l -> next_ok l e -> consecutive idx (l ++ [e]).
Proof.
  intros (i&H0&HU&HF) (N1&N2&N3). destruct l as [|x l].
  - exists (idx e). change (@nil E ++ [e]) with [e]. change (zlen [e]) with 1. cbn [WalSpec.from]. split; auto.
  - exists i. rewrite (from_last idx i _ HF) in N3 by discriminate. specialize (N3 ltac:(discriminate)).
    rewrite zlen_app. change (zlen [e]) with 1. split; auto. split; [lia|]. apply from_app. split; auto. cbn. split; auto. lia.
Qed.
Lemma consecutive_in l e : consecutive idx l -> In e l -> 0 <= idx e < U64_MAX.
Proof. intros (i&H0&HU&HF) H. pose proof (from_in idx _ _ _ HF H). lia. Qed.
Lemma upd_none (ms : list fmeta) id f : (forall m, In m ms -> m_id m <> id) -> upd_first (fun m => m_id m =? id) f ms = None.
Proof.
  induction ms as [|m ms IH]; intros H; cbn [upd_first]; auto. pose proof (H m (or_introl eq_refl)). replace (m_id m =? id) with false by lia.
  rewrite IH; auto. intros; apply H; right; auto.
Qed.
Lemma metas_ids bs m : In m (metas_of bs) -> exists b, In b bs /\ b_live b <> [] /\ m = meta_of b.
Proof.
  unfold metas_of. intros H. apply in_map_iff in H as (b&<-&Hb). apply filter_In in Hb as [H1 H2]. exists b. split; auto. split; auto. apply nonempty_true. auto.
Qed.
Lemma append_one s L e : Inv s L -> coded e -> next_ok (l_entries L) e ->
  exists s1 id pos, write_raft_entry crc e_index e_type enc max_size s e = Some (s1, id, pos) /\
    Inv (mark_write_wal crc e_index s1 e id pos) (Log (l_purged L) (l_entries L ++ [e]) (Nat.min 256 (l_cached L + 1))).
Proof.
  intros HI0 HC HN. unfold write_raft_entry. pose proof (rolled _ _ HI0) as HI. clear HI0. set (s1 := roll crc max_size s) in *. clearbody s1. clear s.
  destruct HI as (bs&b&pre&c&HB&HD&HU&HS&HM&HP&HE&HA&HL&HR).
  assert (HX : forall x, In x (dir_of bs) -> fst x < b_id b) by (intros; eapply binv_lt; eauto).
  rewrite HD, HU, dir_of_app. cbn [dir_of map]. rewrite dir_get_at by (intros x Hx; specialize (HX x Hx); lia).
  unfold write_record. pose proof HC as (K1&K2&K3&K4). rewrite zlen_data. replace (_ <? 2 ^ 32) with true by lia.
  rewrite dir_put_at by auto. do 3 eexists. split; [reflexivity|].
  destruct HB as [B1 B2 B3 B4 B5 B6]. rewrite HE in HN.
  assert (HCA : consecutive idx (alls (bs ++ [b]) ++ [e])).
  { apply consecutive_snoc; auto. rewrite (alls_split _ B3). destruct HN as (N1&N2&N3). split; auto. split; auto.
    destruct (lives (bs ++ [b])) as [|x l] eqn:EL; [rewrite (shape_deads_nil _ B3 EL); cbn [app]; congruence|].
    intros _. rewrite last_index_app by discriminate. apply N3. discriminate. }
  set (b' := Blk (b_id b) (b_dead b) (b_live b ++ [e]) (if nonempty b then b_reader b else reader_new (bytes b ++ rb crc (it e)))).
  assert (HB' : bytes b' = bytes b ++ rb crc (it e)).
  { unfold bytes, all, b'. cbn [b_dead b_live]. rewrite !wb_app, wb_one, <- !app_assoc. auto. }
  assert (HL0 : lives (bs ++ [b']) = lives (bs ++ [b]) ++ [e]) by (rewrite !lives_app, !lives_one, <- app_assoc; auto).
  assert (HD0 : deads (bs ++ [b']) = deads (bs ++ [b])) by (rewrite !deads_app, !deads_one; auto).
  assert (HA0 : alls (bs ++ [b']) = alls (bs ++ [b]) ++ [e]) by (rewrite !alls_app, !alls_one; unfold all, b'; cbn [b_dead b_live]; rewrite <- !app_assoc; auto).
  destruct HA as (A&HA).
  destruct (cache_put (s_cache s1) A c e HR) as (A'&c'&EA&CR&CL).
  { intros x Hx. destruct HCA as (i&_&_&HF). rewrite (alls_split _ B3), <- app_assoc in HF. apply from_app in HF as [_ HF]. rewrite <- HE, HA in HF.
    apply from_app in HF as [HF [HF2 _]]. assert (Hx' : In x (A ++ c)) by (apply in_or_app; auto). pose proof (from_in idx _ _ _ HF Hx'). lia. }
  exists bs, b', pre, c'. unfold mark_write_wal. cbn [s_dir s_cur s_size s_metas s_cache l_purged l_entries l_cached].
  rewrite HL0, HD0. conj; auto.
  - constructor; rewrite ?HA0; auto.
    + rewrite map_app in *. exact B1.
    + rewrite Forall_app in *. destruct B2 as [B2 B2']. split; auto. apply Forall_inv in B2'. constructor; auto.
    + apply shape_snoc in B3 as (S1&S2&S3). apply shape_snoc. split; auto. split; auto. cbn [b' b_live b_dead]. intros H. destruct (b_live b); discriminate.
    + apply Forall_app. split; auto.
    + rewrite Forall_app in *. destruct B6 as [B6 B6']. split; auto. apply Forall_inv in B6'. constructor; auto. intros _. rewrite HB'. cbn [b' b_reader].
      destruct (nonempty b) eqn:EN; [apply rinv_append, B6', nonempty_true; auto|]. apply rinv_new. rewrite zlen_app, zlen_bytes.
      pose proof (zlen_nonneg (wb (all b))). pose proof (zlen_nonneg (rb crc (it e))). lia.
  - rewrite dir_of_app. cbn [dir_of map]. rewrite HB'. auto.
  - rewrite HS, HB', zlen_app, zlen_rbe. lia.
  - rewrite HM. rewrite !metas_of_app. rewrite (metas_one b') by (cbn [b' b_live]; destruct (b_live b); discriminate).
    destruct (nonempty b) eqn:EN.
    + rewrite (metas_one b) by (apply nonempty_true; auto). rewrite rev_app_distr. cbn [rev app upd_first]. cbn [meta_of m_id]. rewrite Z.eqb_refl. cbn [rev]. rewrite rev_involutive. f_equal. f_equal.
      rewrite HS. apply nonempty_true in EN. destruct HCA as (i&HI0&HIU&HF). rewrite alls_app, alls_one in HF, HIU. unfold all in HF, HIU. rewrite <- !app_assoc in HF, HIU.
      apply from_app in HF as [_ HF]. apply from_app in HF as [_ HF].
      rewrite !zlen_app in HIU. pose proof (zlen_nonneg (alls bs)). pose proof (zlen_nonneg (b_dead b)).
      eapply (mark_entry_ok b e); eauto; [lia|rewrite zlen_app; lia].
    + rewrite (metas_one_nil b) by (unfold nonempty in EN; destruct (b_live b); congruence). rewrite !app_nil_r. rewrite upd_none.
      * f_equal. f_equal. unfold wal_reader. cbn [s_cur s_dir]. rewrite Z.eqb_refl. rewrite dir_get_at by (intros x Hx; specialize (HX x Hx); lia).
        assert (EL : b_live b = []) by (unfold nonempty in EN; destruct (b_live b); congruence).
        apply shape_snoc in B3 as (_&S2&_). specialize (S2 EL).
        unfold mark_entry, meta_of, b'. cbn [m_id m_min m_max m_reader m_index b_id b_dead b_live b_reader]. rewrite EL, S2. cbn [app index_from first_index WalSpec.first_index].
        replace (last_index [e]) with (idx e) by reflexivity. rewrite Z.eqb_refl. cbn [orb]. rewrite HS, zlen_bytes. unfold all. rewrite EL, S2.
        cbn [app]. change (wb []) with (@nil Z). rewrite zlen_nil. auto.
      * intros m Hm. apply in_rev in Hm. apply metas_ids in Hm as (x&H1&_&->). cbn [meta_of m_id].
        specialize (HX (b_id x, bytes x)). cbn in HX. assert (In (b_id x, bytes x) (dir_of bs)) by (unfold dir_of; apply in_map_iff; exists x; auto). specialize (HX H). lia.
  - rewrite HE. auto.
  - exists A'. rewrite HA, <- app_assoc. auto.
  - rewrite CL, HL. auto.
Qed.

Lemma last_index_snoc l e : last_index (l ++ [e]) = idx e.
Proof. rewrite last_index_app by discriminate. reflexivity. Qed.
Lemma append_ok es : forall s L, Inv s L -> Forall coded es -> consecutive idx es ->
  (l_entries L = [] \/ match es with [] => True | e :: _ => idx e = last_index (l_entries L) + 1 end) ->
  exists s', append_entries crc e_index e_type enc max_size s es = (s', true) /\
    Inv s' (Log (l_purged L) (l_entries L ++ es) (Nat.min 256 (l_cached L + length es))).
Proof.
  induction es as [|e es IH]; intros s L HI HC HF HN; cbn [append_entries].
  - exists s. split; auto. rewrite app_nil_r. cbn [length]. rewrite Nat.add_0_r.
    assert ((l_cached L <= 256)%nat). { destruct HI as (bs&b&pre&c&_&_&_&_&_&_&_&_&HL&HR). rewrite <- HL. eapply crep_len; eauto. }
    rewrite Nat.min_r by auto. destruct L; auto.
  - destruct HF as (i&H0&HU&HE&HF). rewrite zlen_cons in HU. pose proof (zlen_nonneg es).
    destruct (append_one s L e HI (Forall_inv HC)) as (s1&id&pos&E1&HI1).
    { split; [lia|]. split; [lia|]. intros HX. destruct HN as [HN|HN]; [congruence|auto]. }
    rewrite E1. destruct (IH _ _ HI1 (Forall_inv_tail HC)) as (s'&E2&HI2).
    + exists (i + 1). split; [lia|]. split; auto. lia.
    + right. destruct es as [|x es]; auto. cbn [l_entries]. rewrite last_index_snoc. destruct HF as [HF _]. lia.
    + exists s'. split; auto. cbn [l_purged l_entries l_cached] in HI2. rewrite <- app_assoc in HI2. cbn [app] in HI2.
      replace (Nat.min 256 (l_cached L + length (e :: es))) with (Nat.min 256 (Nat.min 256 (l_cached L + 1) + length es)) by (cbn [length]; lia). auto.
Qed.

(** *** Deleting before an index *)
Definition gone (k : Z) (b : blk) : bool := nonempty b && (last_index (b_live b) <? k).
Definition cut (k : Z) (b : blk) : blk :=
  Blk (b_id b) (b_dead b ++ filter (fun e => idx e <? k) (b_live b)) (filter (fun e => k <=? idx e) (b_live b)) (b_reader b).
Definition cuts (k : Z) (bs : list blk) : list blk := map (cut k) (filter (fun b => negb (gone k b)) bs).
Lemma all_cut i k b : from i (b_live b) -> all (cut k b) = all b.
Proof. intros H. unfold all, cut. cbn [b_dead b_live]. rewrite <- app_assoc. f_equal. symmetry. eapply from_split; eauto. Qed.
Lemma bytes_cut i k b : from i (b_live b) -> bytes (cut k b) = bytes b.
Proof. intros H. unfold bytes. erewrite all_cut; eauto. Qed.
Lemma sorted_inj bs x y : StronglySorted Z.lt (map b_id bs) -> In x bs -> In y bs -> b_id x = b_id y -> x = y.
Proof.
  induction bs as [|b bs IH]; intros H Hx Hy HE; [destruct Hx|]. cbn [map] in H. inversion H as [|? ? H1 H2]; subst. rewrite Forall_forall in H2.
  destruct Hx as [->|Hx], Hy as [->|Hy]; auto.
  - specialize (H2 (b_id y) (in_map b_id _ _ Hy)). lia.
  - specialize (H2 (b_id x) (in_map b_id _ _ Hx)). lia.
Qed.
Lemma sorted_filter p bs : StronglySorted Z.lt (map b_id bs) -> StronglySorted Z.lt (map b_id (filter p bs)).
Proof.
  induction bs as [|b bs IH]; intros H; cbn [filter map]; auto. cbn [map] in H. inversion H as [|? ? H1 H2]; subst. destruct (p b); auto. cbn [map]. constructor; auto.
  rewrite Forall_forall in *. intros z Hz. apply in_map_iff in Hz as (y&<-&Hy). apply filter_In in Hy as [Hy _]. apply H2. apply in_map. auto.
Qed.
Lemma ids_gone p bs b : StronglySorted Z.lt (map b_id bs) -> In b bs -> existsb (Z.eqb (b_id b)) (map b_id (filter p bs)) = p b.
Proof.
  intros H Hb. destruct (p b) eqn:EP.
  - apply existsb_exists. exists (b_id b). split; [|apply Z.eqb_refl]. apply in_map, filter_In. auto.
  - destruct (existsb _ _) eqn:EX; auto. apply existsb_exists in EX as (z&Hz&EZ). apply in_map_iff in Hz as (y&<-&Hy). apply filter_In in Hy as [Hy1 Hy2].
    assert (y = b) by (eapply sorted_inj; eauto; lia). congruence.
Qed.
Lemma from_block i b bs : from i (lives (b :: bs)) -> from i (b_live b) /\ from (i + zlen (b_live b)) (lives bs).
Proof. cbn [lives flat_map]. apply from_app. Qed.
Lemma first_of i l : from i l -> l <> [] -> first_index l = i. Proof. apply from_first. Qed.
(** Blocks entirely at or above [k]. *)
Lemma above i k bs : from i (lives bs) -> 0 <= i -> i + zlen (lives bs) <= U64_MAX -> k <= i ->
  forall b, In b bs -> gone k b = false /\ filter (fun e => idx e <? k) (b_live b) = [] /\ filter (fun e => k <=? idx e) (b_live b) = b_live b.
Proof.
  revert i. induction bs as [|x bs IH]; intros i HF H0 HU Hk b Hb; [destruct Hb|]. apply from_block in HF as [H1 H2].
  cbn [lives flat_map] in HU. fold (lives bs) in HU. rewrite zlen_app in HU.
  pose proof (zlen_nonneg (b_live x)). destruct Hb as [->|Hb]; [|eapply (IH _ H2); eauto; lia].
  destruct (from_filter_lt idx i (b_live b) k H1 Hk) as [A B]. split; auto. unfold gone. destruct (nonempty b) eqn:EN; auto. cbn [andb].
  apply nonempty_true in EN. rewrite (from_last idx i) by auto. destruct (b_live b) as [|y l]; [congruence|]. rewrite zlen_cons in *. pose proof (zlen_nonneg l). lia.
Qed.
Lemma cut_id k b : filter (fun e => idx e <? k) (b_live b) = [] -> filter (fun e => k <=? idx e) (b_live b) = b_live b -> cut k b = b.
Proof. intros H1 H2. unfold cut. rewrite H1, H2, app_nil_r. destruct b; auto. Qed.
Lemma cuts_above i k bs : from i (lives bs) -> 0 <= i -> i + zlen (lives bs) <= U64_MAX -> k <= i -> cuts k bs = bs.
Proof.
  intros HF H0 HU Hk. pose proof (above i k bs HF H0 HU Hk) as HA. clear HF HU. induction bs as [|b bs IH]; auto. unfold cuts. cbn [filter].
  destruct (HA b (or_introl eq_refl)) as (A1&A2&A3). rewrite A1. cbn [negb map]. rewrite cut_id by auto. f_equal. apply IH. intros; apply HA; right; auto.
Qed.
Lemma from_split_len i l k : from i l -> i <= k <= i + zlen l -> zlen (filter (fun e => idx e <? k) l) = k - i.
Proof.
  revert i. induction l as [|x l IH]; intros i H Hk; cbn [filter].
  - change (zlen (@nil E)) with 0 in *. lia.
  - destruct H as [H1 H2]. rewrite zlen_cons in Hk. destruct (idx x <? k) eqn:EX.
    + rewrite zlen_cons. rewrite (IH (i + 1)); auto; lia.
    + destruct (from_filter_lt idx (i + 1) l k H2 ltac:(lia)) as [A _]. rewrite A. change (zlen (@nil E)) with 0. lia.
Qed.
Lemma meta_cut i k b : from i (b_live b) -> 0 <= i -> i + zlen (b_live b) <= U64_MAX -> b_live b <> [] -> gone k b = false -> first_index (b_live b) < k ->
  meta_del_before (meta_of b) k = meta_of (cut k b).
Proof.
  intros HF H0 HU HN HG HK. unfold gone in HG. apply nonempty_true in HN as EN. rewrite EN in HG. cbn [andb] in HG.
  rewrite (from_first idx i) in HK by auto. rewrite (from_last idx i) in HG by auto.
  assert (HP : 1 <= zlen (b_live b)). { destruct (b_live b); [congruence|]. rewrite zlen_cons. pose proof (zlen_nonneg l). lia. }
  unfold meta_del_before. cbn [meta_of m_id m_min m_max m_reader m_index]. rewrite (from_first idx i) by auto.
  replace (i =? U64_MAX) with false by lia. replace (i >=? k) with false by lia. cbn [orb].
  unfold meta_of, cut. cbn [b_id b_dead b_live b_reader]. rewrite (bsearch_index i) by auto.
  pose proof (from_split idx i _ k HF) as HS. set (l1 := filter (fun e => idx e <? k) (b_live b)) in *. set (l2 := filter (fun e => k <=? idx e) (b_live b)) in *.
  assert (HF2 := HF). rewrite HS in HF2. apply from_app in HF2 as [G1 G2].
  assert (Z1 : zlen l1 = k - i) by (unfold l1; apply from_split_len; auto; lia).
  assert (Z2 : zlen (b_live b) = zlen l1 + zlen l2) by (rewrite HS at 1; apply zlen_app).
  assert (HN2 : l2 <> []) by (intros X; rewrite X in Z2; change (zlen (@nil E)) with 0 in Z2; lia).
  rewrite (from_first idx (i + zlen l1)) by auto. replace (i + zlen l1) with k by lia. f_equal.
  - rewrite HS at 1. apply last_index_app. auto.
  - rewrite HS at 1. rewrite index_from_app, skipn_app, skipn_all2, index_from_length, Nat.sub_diag by (rewrite index_from_length; auto).
    cbn [skipn app]. rewrite wb_app, zlen_app. f_equal. lia.
Qed.
Lemma before_loop_ok k bs : forall i, from i (lives bs) -> 0 <= i -> i + zlen (lives bs) <= U64_MAX ->
  before_loop k (metas_of bs) = (map b_id (filter (gone k) bs), map (fun b => if gone k b then meta_of b else meta_of (cut k b)) (filter nonempty bs)).
Proof.
  induction bs as [|b bs IH]; intros i HF H0 HU; auto.
  pose proof (above i k (b :: bs) HF H0 HU) as HA.
  pose proof HF as HF0. apply from_block in HF as [H1 H2]. pose proof HU as HU0. cbn [lives flat_map] in HU. fold (lives bs) in HU. rewrite zlen_app in HU.
  pose proof (zlen_nonneg (b_live b)) as HZ. pose proof (zlen_nonneg (lives bs)) as HZ2. specialize (IH _ H2 ltac:(lia) ltac:(lia)).
  unfold metas_of. cbn [filter]. destruct (nonempty b) eqn:EN.
  - pose proof EN as HN. apply nonempty_true in HN. cbn [map before_loop]. fold (metas_of bs). cbn [meta_of m_max m_min m_id].
    destruct (last_index (b_live b) <? k) eqn:EM.
    + assert (HG : gone k b = true) by (unfold gone; rewrite EN, EM; auto). rewrite HG, IH. auto.
    + assert (HG : gone k b = false) by (unfold gone; rewrite EN, EM; auto). rewrite HG. destruct (first_index (b_live b) <? k) eqn:EF.
      * rewrite IH. fold (meta_of b). f_equal. f_equal. eapply (meta_cut i); eauto; lia.
      * rewrite (from_first idx i) in EF by auto. specialize (HA ltac:(lia)).
        assert (GF : filter (gone k) bs = []).
        { clear -HA. induction bs as [|x bs IH]; auto. cbn [filter]. rewrite (proj1 (HA x (or_intror (or_introl eq_refl)))). apply IH. intros y Hy. apply HA. destruct Hy; [left|right; right]; auto. }
        rewrite GF. cbn [map]. f_equal. f_equal.
        -- destruct (HA b (or_introl eq_refl)) as (_&A2&A3). rewrite cut_id by auto. auto.
        -- unfold metas_of. clear - HA. apply map_ext_in. intros x Hx. apply filter_In in Hx as [Hx _]. destruct (HA x (or_intror Hx)) as (A1&A2&A3).
           rewrite A1, cut_id by auto. auto.
  - assert (HG : gone k b = false) by (unfold gone; rewrite EN; auto). rewrite HG. exact IH.
Qed.
Lemma settle bs : binv bs -> (forall b, In b bs -> no_footer crc (bytes b)) ->
  exists bs' b, open_writer crc (dir_of bs) = (dir_of (bs' ++ [b]), b_id b, zlen (bytes b)) /\ binv (bs' ++ [b]) /\
    metas_of (bs' ++ [b]) = metas_of bs /\ lives (bs' ++ [b]) = lives bs /\ deads (bs' ++ [b]) = deads bs.
Proof.
  intros HB HN. destruct bs as [|b bs' _] using rev_ind.
  - exists [], (Blk 1 [] [] (reader_new [])). split; [reflexivity|]. split; [|auto]. cbn [app].
    destruct init_inv as (bs&b&pre&c&IB&_). clear IB. constructor; cbn [map b_id b_live b_dead shape alls all flat_map app].
    + constructor; constructor.
    + constructor; [reflexivity|constructor].
    + repeat split; auto.
    + exists 0. rewrite U64_MAX_eq. cbn. repeat split; discriminate.
    + constructor.
    + constructor; [cbn; congruence|constructor].
  - exists bs', b. split; [apply reopen; auto; apply HN, in_or_app; right; left; auto|]. auto.
Qed.
Lemma in_lives i bs b : from i (lives bs) -> In b bs -> exists j, from j (b_live b).
Proof.
  revert i. induction bs as [|x bs IH]; intros i H Hb; [destruct Hb|]. apply from_block in H as [H1 H2]. destruct Hb as [->|Hb]; eauto.
Qed.
Lemma cuts_metas k i bs : StronglySorted Z.lt (map b_id bs) -> from i (lives bs) ->
  retain (map b_id (filter (gone k) bs)) (map (fun b => if gone k b then meta_of b else meta_of (cut k b)) (filter nonempty bs)) = metas_of (cuts k bs).
Proof.
  intros HS HF. unfold retain, metas_of, cuts.
  assert (G : forall l, (forall b, In b l -> In b bs) ->
    filter (fun m => negb (existsb (Z.eqb (m_id m)) (map b_id (filter (gone k) bs)))) (map (fun b => if gone k b then meta_of b else meta_of (cut k b)) (filter nonempty l)) =
    map meta_of (filter nonempty (map (cut k) (filter (fun b => negb (gone k b)) l)))).
  { induction l as [|b l IH]; intros Hl; auto. cbn [filter]. destruct (gone k b) eqn:EG.
    - cbn [negb]. replace (nonempty b) with true by (unfold gone in EG; destruct (nonempty b); auto). cbn [map filter]. rewrite EG. cbn [meta_of m_id].
      rewrite ids_gone by (auto; apply Hl; left; auto). rewrite EG. cbn [negb]. apply IH. intros; apply Hl; right; auto.
    - cbn [negb map filter]. destruct (nonempty b) eqn:EN.
      + cbn [map filter]. rewrite EG. cbn [cut meta_of m_id b_id]. rewrite ids_gone by (auto; apply Hl; left; auto). rewrite EG. cbn [negb].
        replace (nonempty (cut k b)) with true.
        * cbn [map]. f_equal. apply IH. intros; apply Hl; right; auto.
        * symmetry. apply nonempty_true. cbn [cut b_live]. destruct (in_lives i bs b HF (Hl b (or_introl eq_refl))) as (j&Hj).
          unfold gone in EG. rewrite EN in EG. cbn [andb] in EG. apply nonempty_true in EN. destruct (b_live b) as [|x y _] using rev_ind; [congruence|].
          rewrite last_index_snoc in EG. rewrite filter_app. cbn [filter]. replace (k <=? idx x) with true by lia. destruct (filter _ y); discriminate.
      + replace (nonempty (cut k b)) with false.
        * apply IH. intros; apply Hl; right; auto.
        * symmetry. unfold nonempty, cut in *. cbn [b_live] in *. destruct (b_live b); auto. discriminate. }
  apply G. auto.
Qed.
Lemma cuts_dir k i bs : StronglySorted Z.lt (map b_id bs) -> from i (lives bs) ->
  dir_remove (dir_of bs) (map b_id (filter (gone k) bs)) = dir_of (cuts k bs).
Proof.
  intros HS HF. unfold dir_remove, dir_of, cuts.
  assert (G : forall l, (forall b, In b l -> In b bs) ->
    filter (fun x => negb (existsb (Z.eqb (fst x)) (map b_id (filter (gone k) bs)))) (map (fun b => (b_id b, bytes b)) l) =
    map (fun b => (b_id b, bytes b)) (map (cut k) (filter (fun b => negb (gone k b)) l))).
  { induction l as [|b l IH]; intros Hl; auto. cbn [filter map fst]. rewrite ids_gone by (auto; apply Hl; left; auto).
    destruct (in_lives i bs b HF (Hl b (or_introl eq_refl))) as (j&Hj).
    destruct (gone k b) eqn:EG; cbn [negb map]; rewrite IH by (intros; apply Hl; right; auto); auto. rewrite (bytes_cut j) by auto. auto. }
  apply G. auto.
Qed.
Lemma cuts_lives k i bs : from i (lives bs) -> lives (cuts k bs) = filter (fun e => k <=? idx e) (lives bs).
Proof.
  revert i. induction bs as [|b bs IH]; intros i HF; auto. apply from_block in HF as [H1 H2]. specialize (IH _ H2). unfold cuts. cbn [filter lives flat_map].
  fold (lives bs). rewrite filter_app. destruct (gone k b) eqn:EG; cbn [negb].
  - fold (cuts k bs). rewrite IH. unfold gone in EG. apply andb_prop in EG as [E1 E2]. apply nonempty_true in E1. rewrite (from_last idx i) in E2 by auto.
    destruct (from_filter_ge idx i _ k H1 ltac:(lia)) as [_ B]. rewrite B. auto.
  - cbn [map lives flat_map]. fold (cuts k bs). fold (lives (cuts k bs)). rewrite IH. auto.
Qed.
Lemma cuts_alls k bs : forall i, from i (lives bs) -> 0 <= i -> i + zlen (lives bs) <= U64_MAX -> shape bs ->
  shape (cuts k bs) /\ exists X, alls bs = X ++ alls (cuts k bs).
Proof.
  induction bs as [|b bs IH]; intros i HF H0 HU HS; [split; auto; exists []; auto|].
  apply from_block in HF as [H1 H2]. cbn [lives flat_map] in HU. fold (lives bs) in HU. rewrite zlen_app in HU.
  pose proof (zlen_nonneg (b_live b)) as HZ. pose proof (zlen_nonneg (lives bs)) as HZ2. destruct HS as (S1&S2&S3).
  destruct (IH _ H2 ltac:(lia) ltac:(lia) S3) as (I1&X&I2). unfold cuts. cbn [filter alls flat_map]. destruct (gone k b) eqn:EG; cbn [negb].
  - fold (cuts k bs). fold (alls bs). split; auto. exists (all b ++ X). rewrite I2, app_assoc. auto.
  - cbn [map shape]. fold (cuts k bs). destruct (b_live b) as [|x y] eqn:EL.
    + specialize (S1 eq_refl). cbn [cut b_live b_dead]. rewrite EL, S1. cbn [filter app]. split; [split; auto; split; auto; congruence|].
      exists X. fold (alls bs). rewrite I2. assert (A1 : all b = []) by (unfold all; rewrite EL, S1; auto).
      assert (A2 : all (cut k b) = []) by (unfold all, cut; cbn [b_dead b_live]; rewrite EL, S1; auto).
      unfold alls at 2. cbn [flat_map]. rewrite A1, A2. auto.
    + assert (HK : k <= i + zlen (b_live b)).
      { unfold gone in EG. replace (nonempty b) with true in EG by (unfold nonempty; rewrite EL; auto). cbn [andb] in EG.
        rewrite (from_last idx i) in EG by (rewrite EL in *; auto; discriminate). rewrite EL in *. lia. }
      rewrite EL in HK. rewrite (cuts_above (i + zlen (x :: y)) k bs) by (auto; lia).
      split.
      * split; [|split; auto].
        -- intros HX. exfalso. cbn [cut b_live] in HX. unfold gone in EG. replace (nonempty b) with true in EG by (unfold nonempty; rewrite EL; auto). cbn [andb] in EG.
           destruct (b_live b) as [|e l _] using rev_ind; [discriminate|]. rewrite last_index_snoc in EG. rewrite filter_app in HX. apply app_eq_nil in HX as [_ HX].
           cbn [filter] in HX. replace (k <=? idx e) with true in HX by lia. discriminate.
        -- intros _. apply S2. discriminate.
      * exists []. cbn [alls flat_map app]. f_equal. symmetry. apply (all_cut i). rewrite EL. auto.
Qed.
Notation footers_ok := (WalSpec.footers_ok crc e_index e_type enc).
Lemma footer_block (s : store E) bs b es1 es2 : footers_ok s -> s_dir s = dir_of bs -> In b bs -> all b = es1 ++ es2 ->
  no_footer crc (FILE_MAGIC ++ wb es1).
Proof.
  intros HF HD Hb HE. apply (HF (b_id b) es1 es2). rewrite HD, <- HE. unfold dir_of. apply in_map_iff. exists b. auto.
Qed.
Lemma live_cons bs : shape bs -> consecutive idx (alls bs) -> exists i, from i (lives bs) /\ 0 <= i /\ i + zlen (lives bs) <= U64_MAX.
Proof. intros H HC. rewrite (alls_split _ H) in HC. apply consecutive_app_r in HC as (i&H1&H2&H3). eauto. Qed.
Lemma filter_cached i A C k : from i (A ++ C) ->
  length (filter (fun e => k <=? idx e) C) = Nat.min (length C) (length (filter (fun e => k <=? idx e) (A ++ C))).
Proof.
  intros HF. apply from_app in HF as [H1 H2]. rewrite filter_app, app_length. destruct (Z.le_gt_cases k (i + zlen A)).
  - destruct (from_filter_lt idx _ C k H2 H) as [_ B]. rewrite B. lia.
  - destruct (from_filter_ge idx _ A k H1 ltac:(lia)) as [_ B]. rewrite B. cbn [length].
    assert (length (filter (fun e => (k <=? idx e)%Z) C) <= length C)%nat; [|lia].
    clear. induction C as [|x C IH]; cbn [filter length]; auto. destruct (k <=? idx x); cbn [length]; lia.
Qed.
Lemma del_before_ok s L k : Inv s L -> 0 <= k <= U64_MAX -> footers_ok s ->
  exists s', mark_delete_before crc s k = Some s' /\
    Inv s' (Log (l_purged L ++ filter (fun e => idx e <? k) (l_entries L)) (filter (fun e => k <=? idx e) (l_entries L))
               (Nat.min (l_cached L) (length (filter (fun e => k <=? idx e) (l_entries L))))).
Proof.
  intros HI Hk HFO. unfold mark_delete_before.
  pose proof HI as (bs&b&pre&c&HB&HD&HU&HS&HM&HP&HE&HA&HL&HR). set (B := bs ++ [b]) in *.
  destruct (live_cons B) as (i&HF&H0&HUM); [apply HB|apply HB|].
  assert (HFC : exists j, from j c). { destruct HA as (A&HA). rewrite HE in HA. rewrite HA in HF. apply from_app in HF as [_ HF]. eauto. }
  rewrite (min_seq s B) by auto. destruct (first_index (lives B) >=? k) eqn:EK.
  - exists s. split; auto. rewrite HE. destruct (lives B) as [|x l] eqn:EL.
    + cbn [filter]. rewrite app_nil_r. cbn [length]. destruct HA as (A&HA). rewrite HE in HA. symmetry in HA. apply app_eq_nil in HA as [_ HA]. subst c.
      cbn [length] in HL. rewrite <- HL. cbn [Nat.min]. rewrite <- HE, HL. destruct L; exact HI.
    + rewrite (from_first idx i) in EK by (auto; discriminate). destruct (from_filter_lt idx i (x :: l) k HF ltac:(lia)) as [F1 F2]. rewrite F1, F2, app_nil_r.
      replace (Nat.min (l_cached L) (length (x :: l))) with (l_cached L); [rewrite <- HE; destruct L; exact HI|].
      destruct HA as (A&HA). rewrite HE in HA. rewrite HA, app_length, HL. lia.
  - destruct HFC as (j&HFC). rewrite HM, (before_loop_ok k B i) by auto.
    destruct (cache_del_before (s_cache s) c k j HR HFC) as (c'&EC&CR). rewrite EC. eexists. split; [reflexivity|].
    destruct HB as [B1 B2 B3 B4 B5 B6]. destruct (cuts_alls k B i HF H0 HUM B3) as (S1&X&SX).
    assert (HB' : binv (cuts k B)).
    { assert (IN : forall y, In y (cuts k B) -> exists x, In x B /\ y = cut k x).
      { unfold cuts. intros y Hy. apply in_map_iff in Hy as (x&<-&Hx). apply filter_In in Hx as [Hx _]. eauto. }
      constructor; auto.
      - unfold cuts. rewrite map_map. cbn [cut b_id]. apply (sorted_filter _ _ B1).
      - apply Forall_forall. intros y Hy. apply IN in Hy as (x&Hx&->). rewrite Forall_forall in B2. apply (B2 x Hx).
      - rewrite SX in B4. eapply consecutive_app_r; eauto.
      - rewrite SX in B5. apply Forall_app in B5 as [_ B5]. auto.
      - apply Forall_forall. intros y Hy. apply IN in Hy as (x&Hx&->). rewrite Forall_forall in B6. intros HN.
        destruct (in_lives i B x HF Hx) as (jx&Hjx). rewrite (bytes_cut jx) by auto. cbn [cut b_reader]. apply B6; auto. intros X0. apply HN. cbn [cut b_live]. rewrite X0. auto. }
    destruct (settle (cuts k B) HB') as (bs'&b'&EO&BI&EM&EL&ED).
    { intros y Hy. unfold cuts in Hy. apply in_map_iff in Hy as (x&<-&Hx). apply filter_In in Hx as [Hx _].
      destruct (in_lives i B x HF Hx) as (jx&Hjx). rewrite (bytes_cut jx) by auto. eapply (footer_block s B x (all x) []); eauto. rewrite app_nil_r. auto. }
    unfold rollback. cbn [s_dir s_metas s_cache]. rewrite HD, (cuts_dir k i) by auto. rewrite EO.
    exists bs', b', (pre ++ X), (filter (fun e => k <=? idx e) c). cbn [s_dir s_cur s_size s_metas s_cache l_purged l_entries l_cached].
    rewrite EL, ED, EM, (cuts_lives k i) by auto. conj; auto.
    + apply (cuts_metas k i); auto.
    + rewrite HP, HE, <- !app_assoc. f_equal.
      assert (Q : deads B ++ lives B = X ++ deads (cuts k B) ++ filter (fun e => k <=? idx e) (lives B)).
      { rewrite <- (alls_split B B3), SX. f_equal. rewrite (alls_split _ S1). rewrite (cuts_lives k i) by auto. auto. }
      rewrite (from_split idx i (lives B) k HF) in Q at 1. rewrite !app_assoc in Q. apply app_inv_tail in Q. exact Q.
    + rewrite HE. auto.
    + destruct HA as (A&HA). exists (filter (fun e => k <=? idx e) A). rewrite HA, filter_app. auto.
    + destruct HA as (A&HA). rewrite <- HL. rewrite HE in HA |- *. rewrite HA. rewrite HA in HF. eapply filter_cached; eauto.
Qed.

(** *** Deleting from an index on *)
Definition lost (k : Z) (b : blk) : bool := nonempty b && (first_index (b_live b) >=? k).
Definition straddle (k : Z) (b : blk) : bool := nonempty b && (first_index (b_live b) <? k) && (last_index (b_live b) >=? k).
Definition chop (k : Z) (b : blk) : blk := Blk (b_id b) (b_dead b) (filter (fun e => idx e <? k) (b_live b)) (b_reader b).
Definition chops (k : Z) (bs : list blk) : list blk := map (chop k) (filter (fun b => negb (lost k b)) bs).
Definition chop_pos (k : Z) (b : blk) : Z := 4 + zlen (wb (b_dead b ++ filter (fun e => idx e <? k) (b_live b))).
Definition trunc_of (k : Z) (bs : list blk) : option (Z * Z) :=
  match filter (straddle k) bs with [] => None | b :: _ => Some (b_id b, chop_pos k b) end.
Lemma nonempty_false b : nonempty b = false <-> b_live b = [].
Proof. unfold nonempty. destruct (b_live b); split; intros; congruence. Qed.
Lemma below i k bs : from i (lives bs) -> i + zlen (lives bs) <= k ->
  forall b, In b bs -> lost k b = false /\ straddle k b = false /\ chop k b = b.
Proof.
  revert i. induction bs as [|x bs IH]; intros i HF Hk b Hb; [destruct Hb|]. apply from_block in HF as [H1 H2].
  cbn [lives flat_map] in Hk. fold (lives bs) in Hk. rewrite zlen_app in Hk. pose proof (zlen_nonneg (lives bs)).
  destruct Hb as [->|Hb]; [|eapply (IH _ H2); eauto; lia].
  destruct (from_filter_ge idx i (b_live b) k H1 ltac:(lia)) as [A B]. unfold lost, straddle, chop. rewrite A. split; [|split; [|destruct b; auto]].
  - destruct (nonempty b) eqn:EN; auto. cbn [andb]. apply nonempty_true in EN. rewrite (from_first idx i) by auto.
    destruct (b_live b); [congruence|]. rewrite zlen_cons in Hk. pose proof (zlen_nonneg l). lia.
  - destruct (nonempty b) eqn:EN; auto. apply nonempty_true in EN. rewrite (from_last idx i) by auto. destruct (first_index (b_live b) <? k); cbn [andb]; auto. lia.
Qed.
Lemma chop_same k i b : from i (b_live b) -> lost k b = false -> straddle k b = false -> chop k b = b.
Proof.
  intros HF HL HS. destruct (nonempty b) eqn:EN.
  - unfold lost, straddle in *. rewrite EN in *. cbn [andb] in *. apply nonempty_true in EN. rewrite (from_first idx i) in * by auto.
    rewrite (from_last idx i) in HS by auto. replace (i <? k) with true in HS by lia. cbn [andb] in HS.
    destruct (from_filter_ge idx i (b_live b) k HF ltac:(lia)) as [A B]. unfold chop. rewrite A. destruct b; auto.
  - apply nonempty_false in EN. unfold chop. rewrite EN. cbn [filter]. destruct b; cbn in *; subst; auto.
Qed.
Lemma meta_chop i k b : from i (b_live b) -> 0 <= i -> i + zlen (b_live b) <= U64_MAX -> straddle k b = true ->
  meta_del_after (meta_of b) k = (meta_of (chop k b), chop_pos k b).
Proof.
  intros HF H0 HU HS. unfold straddle in HS. apply andb_prop in HS as [HS HS2]. apply andb_prop in HS as [EN HS]. apply nonempty_true in EN.
  rewrite (from_first idx i) in HS by auto. rewrite (from_last idx i) in HS2 by auto.
  unfold meta_del_after. cbn [meta_of m_id m_min m_max m_reader m_index]. rewrite (from_last idx i) by auto.
  replace (i + zlen (b_live b) - 1 =? U64_MAX) with false by lia. replace (_ <? k) with false by lia. cbn [orb]. replace (k =? 0) with false by lia.
  rewrite (bsearch_index i) by auto.
  pose proof (from_split idx i _ k HF) as HSP. unfold meta_of, chop, chop_pos. cbn [b_id b_dead b_live b_reader].
  pose proof (from_split_len i (b_live b) k HF ltac:(lia)) as Z1.
  set (l1 := filter (fun e => idx e <? k) (b_live b)) in *. set (l2 := filter (fun e => k <=? idx e) (b_live b)) in *.
  assert (HF2 := HF). rewrite HSP in HF2. apply from_app in HF2 as [G1 G2].
  assert (Z2 : zlen (b_live b) = zlen l1 + zlen l2) by (rewrite HSP at 1; apply zlen_app).
  assert (N1 : l1 <> []) by (intros X; rewrite X in Z1; change (zlen (@nil E)) with 0 in Z1; lia).
  assert (N2 : l2 <> []) by (intros X; rewrite X in Z2; change (zlen (@nil E)) with 0 in Z2; lia).
  f_equal.
  - f_equal.
    + rewrite HSP at 1. apply first_index_app. auto.
    + rewrite (from_last idx i) by auto. lia.
    + rewrite HSP at 1. rewrite index_from_app, firstn_app, index_from_length, Nat.sub_diag. cbn [firstn]. rewrite app_nil_r.
      apply firstn_all2. rewrite index_from_length. auto.
  - rewrite HSP at 1. rewrite index_from_app, nth_error_app2; rewrite index_from_length; auto. rewrite Nat.sub_diag.
    destruct l2 as [|x l2]; [congruence|]. cbn [index_from nth_error snd]. rewrite wb_app, zlen_app. lia.
Qed.
Lemma chop_pos_pos k b : 4 <= chop_pos k b.
Proof. unfold chop_pos. pose proof (zlen_nonneg (wb (b_dead b ++ filter (fun e => idx e <? k) (b_live b)))). lia. Qed.
Lemma after_loop_ok k bs : forall i, from i (lives bs) -> 0 <= i -> i + zlen (lives bs) <= U64_MAX ->
  exists ms, after_loop k (rev (metas_of bs)) = (rev (map b_id (filter (lost k) bs)), ms, trunc_of k bs) /\
    rev ms = map (fun b => if lost k b then meta_of b else meta_of (chop k b)) (filter nonempty bs).
Proof.
  induction bs as [|b bs IH] using rev_ind; intros i HF H0 HU; [exists []; auto|].
  pose proof HF as HF0. rewrite lives_app, lives_one in HF, HU. apply from_app in HF as [H1 H2]. rewrite zlen_app in HU.
  pose proof (zlen_nonneg (b_live b)) as HZ. pose proof (zlen_nonneg (lives bs)) as HZ2.
  pose proof (below i k bs H1) as HBL.
  rewrite metas_of_app, rev_app_distr. unfold trunc_of. rewrite !filter_app, map_app, map_app, rev_app_distr. cbn [filter].
  assert (DONE : i + zlen (lives bs) <= k -> filter (lost k) bs = [] /\ filter (straddle k) bs = [] /\
    map (fun b => if lost k b then meta_of b else meta_of (chop k b)) (filter nonempty bs) = metas_of bs).
  { intros Hk. specialize (HBL Hk). split; [|split].
    - clear -HBL. induction bs as [|x bs IH]; auto. cbn [filter]. rewrite (proj1 (HBL x (or_introl eq_refl))). apply IH. intros; apply HBL; right; auto.
    - clear -HBL. induction bs as [|x bs IH]; auto. cbn [filter]. rewrite (proj1 (proj2 (HBL x (or_introl eq_refl)))). apply IH. intros; apply HBL; right; auto.
    - unfold metas_of. apply map_ext_in. intros x Hx. apply filter_In in Hx as [Hx _]. destruct (HBL x Hx) as (L1&L2&L3). rewrite L1, L3. auto. }
  destruct (nonempty b) eqn:EN.
  - pose proof EN as HN. apply nonempty_true in HN. rewrite metas_one by auto. cbn [rev app after_loop]. cbn [meta_of m_min m_max m_id].
    destruct (first_index (b_live b) >=? k) eqn:EF.
    + assert (HG : lost k b = true) by (unfold lost; rewrite EN, EF; auto).
      assert (HS : straddle k b = false) by (unfold straddle; replace (first_index (b_live b) <? k) with false by lia; rewrite andb_false_r; auto).
      rewrite HG, HS, app_nil_r. destruct (IH i H1 H0 ltac:(lia)) as (ms&E1&E2). rewrite E1. fold (meta_of b).
      eexists. split; [reflexivity|]. cbn [rev]. rewrite E2. cbn [map]. rewrite HG. auto.
    + assert (HG : lost k b = false) by (unfold lost; rewrite EN, EF; auto).
      rewrite (from_first idx (i + zlen (lives bs))) in EF by auto. destruct (DONE ltac:(lia)) as (D1&D2&D3). rewrite HG, D1, D2, D3. cbn [map rev app].
      destruct (last_index (b_live b) >=? k) eqn:EL.
      * assert (HS : straddle k b = true). { unfold straddle. rewrite EN, EL, (from_first idx (i + zlen (lives bs))) by auto. replace (_ <? k) with true by lia. auto. }
        rewrite HS. fold (meta_of b). rewrite (meta_chop (i + zlen (lives bs))) by (auto; lia). pose proof (chop_pos_pos k b). replace (chop_pos k b >? 0) with true by lia.
        eexists. split; [reflexivity|]. cbn [rev map]. rewrite rev_involutive, HG. auto.
      * assert (HS : straddle k b = false) by (unfold straddle; rewrite EL, andb_false_r; auto). rewrite HS.
        fold (meta_of b). eexists. split; [reflexivity|]. cbn [rev map]. rewrite rev_involutive, HG. rewrite (chop_same k (i + zlen (lives bs))) by auto. auto.
  - assert (HG : lost k b = false) by (unfold lost; rewrite EN; auto). assert (HS : straddle k b = false) by (unfold straddle; rewrite EN; auto).
    rewrite HG, HS. apply nonempty_false in EN. rewrite metas_one_nil by auto. cbn [rev app map]. rewrite !app_nil_r. apply (IH i); auto. lia.
Qed.
Lemma existsb_rev {A} (p : A -> bool) l : existsb p (rev l) = existsb p l.
Proof.
  destruct (existsb p l) eqn:E1.
  - apply existsb_exists in E1 as (x&H1&H2). apply existsb_exists. exists x. split; auto. apply in_rev. rewrite rev_involutive. auto.
  - destruct (existsb p (rev l)) eqn:E2; auto. apply existsb_exists in E2 as (x&H1&H2). apply in_rev in H1.
    assert (existsb p l = true) by (apply existsb_exists; eauto). congruence.
Qed.
Lemma chop_nonempty k i b : from i (b_live b) -> lost k b = false -> nonempty (chop k b) = nonempty b.
Proof.
  intros HF HL. destruct (nonempty b) eqn:EN.
  - unfold lost in HL. rewrite EN in HL. cbn [andb] in HL. apply nonempty_true in EN. apply nonempty_true. cbn [chop b_live].
    destruct (b_live b) as [|x l]; [congruence|]. cbn in HL. cbn [filter]. replace (idx x <? k) with true by lia. discriminate.
  - apply nonempty_false in EN. apply nonempty_false. cbn [chop b_live]. rewrite EN. auto.
Qed.
Lemma chops_metas k i bs : StronglySorted Z.lt (map b_id bs) -> from i (lives bs) ->
  retain (rev (map b_id (filter (lost k) bs))) (map (fun b => if lost k b then meta_of b else meta_of (chop k b)) (filter nonempty bs)) = metas_of (chops k bs).
Proof.
  intros HS HF. unfold retain, metas_of, chops.
  assert (G : forall l, (forall b, In b l -> In b bs) ->
    filter (fun m => negb (existsb (Z.eqb (m_id m)) (rev (map b_id (filter (lost k) bs))))) (map (fun b => if lost k b then meta_of b else meta_of (chop k b)) (filter nonempty l)) =
    map meta_of (filter nonempty (map (chop k) (filter (fun b => negb (lost k b)) l)))).
  { induction l as [|b l IH]; intros Hl; auto. cbn [filter]. destruct (lost k b) eqn:EG.
    - cbn [negb]. replace (nonempty b) with true by (unfold lost in EG; destruct (nonempty b); auto). cbn [map filter]. rewrite EG. cbn [meta_of m_id].
      rewrite existsb_rev, ids_gone by (auto; apply Hl; left; auto). rewrite EG. cbn [negb]. apply IH. intros; apply Hl; right; auto.
    - cbn [negb map filter]. destruct (in_lives i bs b HF (Hl b (or_introl eq_refl))) as (j&Hj). rewrite (chop_nonempty k j) by auto. destruct (nonempty b) eqn:EN.
      + cbn [map filter]. rewrite EG. cbn [chop meta_of m_id b_id]. rewrite existsb_rev, ids_gone by (auto; apply Hl; left; auto). rewrite EG. cbn [negb map].
        f_equal. apply IH. intros; apply Hl; right; auto.
      + apply IH. intros; apply Hl; right; auto. }
  apply G. auto.
Qed.
Definition chop1 (k : Z) (b : blk) : blk := if straddle k b then chop k b else b.
Lemma chops_dir k i bs : StronglySorted Z.lt (map b_id bs) -> from i (lives bs) ->
  dir_remove (dir_of (map (chop1 k) bs)) (rev (map b_id (filter (lost k) bs))) = dir_of (chops k bs).
Proof.
  intros HS HF. unfold dir_remove, dir_of, chops.
  assert (G : forall l, (forall b, In b l -> In b bs) ->
    filter (fun x => negb (existsb (Z.eqb (fst x)) (rev (map b_id (filter (lost k) bs))))) (map (fun b => (b_id b, bytes b)) (map (chop1 k) l)) =
    map (fun b => (b_id b, bytes b)) (map (chop k) (filter (fun b => negb (lost k b)) l))).
  { induction l as [|b l IH]; intros Hl; auto. cbn [filter map fst]. replace (b_id (chop1 k b)) with (b_id b) by (unfold chop1; destruct (straddle k b); auto).
    rewrite existsb_rev, ids_gone by (auto; apply Hl; left; auto).
    destruct (in_lives i bs b HF (Hl b (or_introl eq_refl))) as (j&Hj).
    destruct (lost k b) eqn:EG; cbn [negb map]; rewrite IH by (intros; apply Hl; right; auto); auto. f_equal. unfold chop1.
    destruct (straddle k b) eqn:ES; auto. rewrite (chop_same k j) by auto. auto. }
  apply G. auto.
Qed.
Lemma chops_lives k i bs : from i (lives bs) -> lives (chops k bs) = filter (fun e => idx e <? k) (lives bs).
Proof.
  revert i. induction bs as [|b bs IH]; intros i HF; auto. apply from_block in HF as [H1 H2]. specialize (IH _ H2). unfold chops. cbn [filter lives flat_map].
  fold (lives bs). rewrite filter_app. destruct (lost k b) eqn:EG; cbn [negb].
  - fold (chops k bs). rewrite IH. unfold lost in EG. apply andb_prop in EG as [E1 E2]. apply nonempty_true in E1. rewrite (from_first idx i) in E2 by auto.
    destruct (from_filter_lt idx i _ k H1 ltac:(lia)) as [B _]. rewrite B. auto.
  - cbn [map lives flat_map]. fold (chops k bs). fold (lives (chops k bs)). rewrite IH. auto.
Qed.
Lemma chops_nil k bs : forall i, from i (lives bs) -> k <= i -> Forall (fun b => b_dead b = []) bs -> alls (chops k bs) = [].
Proof.
  induction bs as [|b bs IH]; intros i HF Hk HD; auto. apply from_block in HF as [H1 H2]. pose proof (zlen_nonneg (b_live b)).
  specialize (IH _ H2 ltac:(lia) (Forall_inv_tail HD)). apply Forall_inv in HD. unfold chops. cbn [filter].
  destruct (lost k b) eqn:EG; cbn [negb]; auto. cbn [map alls flat_map]. fold (chops k bs). fold (alls (chops k bs)). rewrite IH, app_nil_r.
  unfold all, chop. cbn [b_dead b_live]. rewrite HD. apply (from_filter_lt idx i _ k H1 Hk).
Qed.
Lemma chops_alls k bs : forall i, from i (lives bs) -> shape bs ->
  shape (chops k bs) /\ (exists Y, alls bs = alls (chops k bs) ++ Y) /\ (deads (chops k bs) = deads bs \/ deads (chops k bs) = []).
Proof.
  induction bs as [|b bs IH]; intros i HF HS; [split; auto; split; auto; exists []; auto|].
  apply from_block in HF as [H1 H2]. destruct HS as (S1&S2&S3). destruct (IH _ H2 S3) as (I1&(Y&I2)&I3).
  assert (DC : Forall (fun b => b_dead b = []) bs -> Forall (fun b => b_dead b = []) (chops k bs)).
  { intros D. rewrite Forall_forall in *. unfold chops. intros y Hy. apply in_map_iff in Hy as (x&<-&Hx). apply filter_In in Hx as [Hx _]. apply (D x Hx). }
  unfold chops. cbn [filter alls deads flat_map]. fold (alls bs) (deads bs). destruct (lost k b) eqn:EG; cbn [negb].
  - fold (chops k bs). assert (EN : b_live b <> []) by (apply nonempty_true; unfold lost in EG; destruct (nonempty b); auto).
    specialize (S2 EN). split; auto. assert (K : k <= i). { unfold lost in EG. apply andb_prop in EG as [_ EG]. rewrite (from_first idx i) in EG by auto. lia. }
    pose proof (zlen_nonneg (b_live b)). rewrite (chops_nil k bs _ H2) by (auto; lia). split; [eexists; reflexivity|]. right. apply deads_nil. auto.
  - cbn [map shape]. fold (chops k bs). destruct (nonempty b) eqn:EN.
    + pose proof EN as HN. apply nonempty_true in HN. specialize (S2 HN). pose proof (chop_nonempty k i b H1 EG) as CN. rewrite EN in CN. apply nonempty_true in CN.
      split; [split; [intros; congruence|split; auto]|]. split.
      * cbn [alls flat_map]. fold (alls (chops k bs)).
        assert (AB : all b = all (chop k b) ++ filter (fun e => k <=? idx e) (b_live b)).
        { unfold all, chop. cbn [b_dead b_live]. rewrite <- app_assoc. f_equal. eapply from_split; eauto. }
        destruct (Z.le_gt_cases k (i + zlen (b_live b))) as [HK|HK].
        -- rewrite (chops_nil k bs _ H2) by auto. rewrite app_nil_r, AB. exists (filter (fun e => k <=? idx e) (b_live b) ++ alls bs). rewrite app_assoc. auto.
        -- destruct (from_filter_ge idx i _ k H1 ltac:(lia)) as [_ B]. rewrite B, app_nil_r in AB. rewrite AB, I2. exists Y. rewrite app_assoc. auto.
      * left. cbn [deads flat_map]. fold (deads (chops k bs)). rewrite (deads_nil _ (DC S2)), (deads_nil _ S2). auto.
    + apply nonempty_false in EN. specialize (S1 EN). cbn [chop b_live b_dead]. rewrite EN, S1. cbn [filter]. split; [split; auto; split; auto; congruence|].
      assert (A1 : all b = []) by (unfold all; rewrite EN, S1; auto). assert (A2 : all (chop k b) = []) by (unfold all, chop; cbn [b_dead b_live]; rewrite EN, S1; auto).
      split; [exists Y|].
      * unfold alls at 2. cbn [flat_map]. rewrite A1, A2. auto.
      * unfold deads at 1 3. cbn [flat_map chop b_dead]. rewrite S1. auto.
Qed.
Lemma dir_put_same bs b f : StronglySorted Z.lt (map b_id bs) -> In b bs ->
  dir_get (dir_of bs) (b_id b) = bytes b /\
  dir_put (dir_of bs) (b_id b) f = map (fun x => (b_id x, if b_id x =? b_id b then f else bytes x)) bs.
Proof.
  intros HS Hb. apply in_split in Hb as (l1&l2&->). rewrite map_app in HS. cbn [map] in HS.
  assert (HX : forall x, In x l1 -> b_id x < b_id b).
  { clear -HS. induction l1 as [|y l1 IH]; intros x Hx; [destruct Hx|]. cbn [map app] in HS. inversion HS as [|? ? H1 H2]; subst.
    destruct Hx as [->|Hx]; [|auto]. rewrite Forall_app in H2. destruct H2 as [_ H2]. apply Forall_inv in H2. auto. }
  assert (HY : forall x, In x l2 -> b_id b < b_id x).
  { clear -HS. induction l1 as [|y l1 IH]; cbn [map app] in HS; inversion HS as [|? ? H1 H2]; subst; auto. intros x Hx. rewrite Forall_forall in H2. apply H2. apply in_map. auto. }
  assert (HD : forall x, In x (dir_of l1) -> fst x < b_id b) by (intros x Hx; unfold dir_of in Hx; apply in_map_iff in Hx as (y&<-&Hy); cbn [fst]; auto).
  rewrite dir_of_app. cbn [dir_of map]. split.
  - apply dir_get_at. intros x Hx. specialize (HD x Hx). lia.
  - fold (dir_of l2). rewrite dir_put_at by auto. rewrite map_app. cbn [map]. rewrite Z.eqb_refl. f_equal; [|f_equal].
    + unfold dir_of. apply map_ext_in. intros x Hx. specialize (HX x Hx). replace (b_id x =? b_id b) with false by lia. auto.
    + unfold dir_of. apply map_ext_in. intros x Hx. specialize (HY x Hx). replace (b_id x =? b_id b) with false by lia. auto.
Qed.
Lemma no_straddle k bs : forall i, from i (lives bs) -> k <= i -> filter (straddle k) bs = [].
Proof.
  induction bs as [|b bs IH]; intros i HF Hk; auto. apply from_block in HF as [H1 H2]. pose proof (zlen_nonneg (b_live b)). cbn [filter].
  replace (straddle k b) with false; [eapply IH; eauto; lia|]. symmetry. unfold straddle. destruct (nonempty b) eqn:EN; auto. apply nonempty_true in EN.
  rewrite (from_first idx i) by auto. replace (i <? k) with false by lia. auto.
Qed.
Lemma straddle_one k bs : forall i, from i (lives bs) -> filter (straddle k) bs = [] \/ exists b, filter (straddle k) bs = [b].
Proof.
  induction bs as [|b bs IH]; intros i HF; auto. apply from_block in HF as [H1 H2]. cbn [filter]. destruct (straddle k b) eqn:ES; [|eapply IH; eauto].
  right. exists b. f_equal. unfold straddle in ES. apply andb_prop in ES as [ES E2]. apply andb_prop in ES as [EN E1]. apply nonempty_true in EN.
  rewrite (from_last idx i) in E2 by auto. eapply no_straddle; eauto. lia.
Qed.
Lemma chop_bytes k i b : from i (b_live b) -> bytes b = bytes (chop k b) ++ wb (filter (fun e => k <=? idx e) (b_live b)) /\ chop_pos k b = zlen (bytes (chop k b)).
Proof.
  intros HF. split.
  - unfold bytes, all, chop. cbn [b_dead b_live]. rewrite (from_split idx i (b_live b) k HF) at 1. rewrite !wb_app, <- !app_assoc. auto.
  - rewrite zlen_bytes. reflexivity.
Qed.
Lemma wb_nonempty es : es <> [] -> 0 < zlen (wb es).
Proof.
  destruct es as [|e es]; [congruence|]. intros _. change (e :: es) with ([e] ++ es). rewrite wb_app, wb_one, zlen_app, zlen_rbe.
  pose proof (zlen_nonneg (enc e)). pose proof (zlen_nonneg (wb es)). lia.
Qed.
Lemma straddle_ge k i b : from i (b_live b) -> straddle k b = true -> filter (fun e => k <=? idx e) (b_live b) <> [].
Proof.
  intros HF HS. unfold straddle in HS. apply andb_prop in HS as [HS H2]. apply andb_prop in HS as [HS _]. apply nonempty_true in HS.
  destruct (b_live b) as [|e l _] using rev_ind; [congruence|]. rewrite last_index_snoc in H2. rewrite filter_app. cbn [filter]. replace (k <=? idx e) with true by lia.
  destruct (filter _ l); discriminate.
Qed.
Lemma truncated (s : store E) bs b k i : let B := bs ++ [b] in binv B -> s_dir s = dir_of B -> s_cur s = b_id b -> s_size s = zlen (bytes b) ->
  footers_ok s -> from i (lives B) ->
  let s1 := match trunc_of k B with Some (id, pos) => truncate_wal crc s id pos | None => s end in
  s_dir s1 = dir_of (map (chop1 k) B) /\ s_cache s1 = s_cache s.
Proof.
  intros B HB HD HC HS HFO HF s1. unfold s1, trunc_of. destruct (straddle_one k B i HF) as [ES|(x&ES)]; rewrite ES.
  - split; auto. rewrite HD. f_equal. rewrite <- (map_id B) at 1. apply map_ext_in. intros y Hy. unfold chop1. destruct (straddle k y) eqn:EY; auto.
    exfalso. assert (In y (filter (straddle k) B)) by (apply filter_In; auto). rewrite ES in H. destruct H.
  - assert (Hx : In x B /\ straddle k x = true). { apply (filter_In (straddle k) x B). rewrite ES. left. auto. } destruct Hx as [Hx HSx].
    destruct (in_lives i B x HF Hx) as (j&Hj). destruct (chop_bytes k j x Hj) as [CB CP].
    pose proof (wb_nonempty _ (straddle_ge k j x Hj HSx)) as WN.
    assert (LX : zlen (bytes x) = chop_pos k x + zlen (wb (filter (fun e => k <=? idx e) (b_live x)))) by (rewrite CB at 1; rewrite zlen_app, CP; auto).
    assert (SL : slice (bytes x) 0 (chop_pos k x) = bytes (chop k x)) by (rewrite CB, CP; apply slice_app_exact).
    assert (HDM : dir_put (dir_of B) (b_id x) (bytes (chop k x)) = dir_of (map (chop1 k) B)).
    { rewrite (proj2 (dir_put_same B x _ ltac:(apply HB) Hx)). unfold dir_of. rewrite map_map. apply map_ext_in. intros y Hy. unfold chop1.
      destruct (b_id y =? b_id x) eqn:EI.
      - assert (y = x) by (eapply sorted_inj; eauto; [apply HB|lia]). subst y. rewrite HSx. auto.
      - destruct (straddle k y) eqn:EY; auto. exfalso. assert (In y (filter (straddle k) B)) by (apply filter_In; auto). rewrite ES in H. destruct H as [->|[]]. lia. }
    destruct (dir_put_same B x (bytes x) ltac:(apply HB) Hx) as [DG DP].
    unfold truncate_wal. destruct (s_cur s =? b_id x) eqn:EC.
    + assert (x = b) by (eapply sorted_inj; eauto; [apply HB|unfold B; apply in_or_app; right; left; auto|lia]). subst x.
      rewrite HS, LX. replace (_ <=? chop_pos k b) with false by lia. cbn [s_dir s_cache]. split; auto. rewrite HD, DG, SL. auto.
    + unfold open_file. rewrite HD, DG. rewrite writer_open_id; [|unfold bytes; discriminate|eapply (footer_block s B x (all x) []); eauto; rewrite app_nil_r; auto].
      rewrite LX. replace (_ <=? chop_pos k x) with false by lia. cbn [s_dir s_cache]. split; auto.
      assert (SAME : dir_put (dir_of B) (b_id x) (bytes x) = dir_of B).
      { rewrite DP. unfold dir_of. apply map_ext_in. intros y Hy. destruct (b_id y =? b_id x) eqn:EI; auto.
        assert (y = x) by (eapply sorted_inj; eauto; [apply HB|lia]). subst; auto. }
      rewrite SAME, DG, SL. auto.
Qed.
Lemma filter_cached_after i A C k : from i (A ++ C) ->
  length (filter (fun e => (idx e <? k)%Z) C) = (length C - length (filter (fun e => (k <=? idx e)%Z) (A ++ C)))%nat.
Proof.
  intros HF. apply from_app in HF as [H1 H2]. rewrite filter_app, app_length. pose proof (from_split idx _ C k H2) as HS.
  assert (HL : length C = (length (filter (fun e => (idx e <? k)%Z) C) + length (filter (fun e => (k <=? idx e)%Z) C))%nat) by (rewrite HS at 1; apply app_length).
  destruct (Z.le_gt_cases k (i + zlen A)).
  - destruct (from_filter_lt idx _ C k H2 H) as [B1 B2]. rewrite B1, B2. cbn [length]. lia.
  - destruct (from_filter_ge idx _ A k H1 ltac:(lia)) as [_ B]. rewrite B. cbn [length]. lia.
Qed.
Lemma index_in i p l1 l2 k : from i (l1 ++ l2) -> l2 <> [] -> k = i + zlen l1 -> In (k, p + zlen (wb l1)) (index_from p (l1 ++ l2)).
Proof.
  intros HF HN HK. rewrite index_from_app. apply in_or_app. right. destruct l2 as [|e l2]; [congruence|]. apply from_app in HF as [_ [HE _]]. cbn [index_from]. left. f_equal. lia.
Qed.
Definition list_eq_nil {A} (l : list A) : bool := match l with [] => true | _ => false end.
Definition after_ok (s : store E) (k : Z) : Prop := forall m pos, In m (s_metas s) -> In (k, pos) (m_index m) ->
  r_pos (m_reader m) - r_use (m_reader m) + r_len (m_reader m) <= pos.
Lemma del_after_ok s L k : Inv s L -> 0 <= k -> after_ok s k -> footers_ok s ->
  exists s', mark_delete_after crc s k = Some s' /\
    Inv s' (Log (l_purged L) (filter (fun e => idx e <? k) (l_entries L)) (l_cached L - length (filter (fun e => (k <=? idx e)%Z) (l_entries L)))).
Proof.
  intros HI Hk HOK HFO. unfold mark_delete_after.
  pose proof HI as (bs&b&pre&c&HB&HD&HU&HS&HM&HP&HE&HA&HL&HR). set (B := bs ++ [b]) in *.
  destruct (live_cons B) as (i&HF&H0&HUM); [apply HB|apply HB|].
  rewrite (max_seq s B) by auto. destruct ((last_index (lives B) <? k) || (last_index (lives B) =? U64_MAX)) eqn:EK.
  - exists s. split; auto. rewrite HE.
    assert (HN : filter (fun e => idx e <? k) (lives B) = lives B /\ filter (fun e => k <=? idx e) (lives B) = []).
    { destruct (lives B) as [|x l] eqn:EL; auto. apply (from_filter_ge idx i); auto. rewrite (from_last idx i) in EK by (auto; discriminate). lia. }
    destruct HN as [-> ->]. cbn [length]. rewrite Nat.sub_0_r, <- HE. destruct L; exact HI.
  - apply orb_false_elim in EK as [EK1 EK2]. destruct HA as (A&HA).
    assert (HFC : from (i + zlen A) c). { rewrite HE in HA. rewrite HA in HF. apply from_app in HF as [_ HF]. auto. }
    rewrite HM. destruct (after_loop_ok k B i HF H0 HUM) as (ms&E1&E2). rewrite E1.
    destruct (truncated s bs b k i HB HD HU HS HFO HF) as [T1 T2]. fold B in T1, T2.
    set (s1 := match trunc_of k B with Some (id, pos) => truncate_wal crc s id pos | None => s end) in *. clearbody s1. rewrite T2.
    destruct (cache_del_after (s_cache s) c k _ HR HFC) as (c'&EC&CR). rewrite EC. eexists. split; [reflexivity|].
    destruct HB as [B1 B2 B3 B4 B5 B6]. destruct (chops_alls k B i HF B3) as (S1&(Y&SY)&SD).
    assert (IN : forall y, In y (chops k B) -> exists x, In x B /\ lost k x = false /\ y = chop k x).
    { unfold chops. intros y Hy. apply in_map_iff in Hy as (x&<-&Hx). apply filter_In in Hx as [Hx Hx2]. exists x. split; auto. split; auto. destruct (lost k x); auto; discriminate. }
    assert (HB' : binv (chops k B)).
    { constructor; auto.
      - unfold chops. rewrite map_map. cbn [chop b_id]. apply (sorted_filter _ _ B1).
      - apply Forall_forall. intros y Hy. apply IN in Hy as (x&Hx&_&->). rewrite Forall_forall in B2. apply (B2 x Hx).
      - rewrite SY in B4. eapply consecutive_app_l; eauto.
      - rewrite SY in B5. apply Forall_app in B5 as [B5 _]. auto.
      - apply Forall_forall. intros y Hy. apply IN in Hy as (x&Hx&HLx&->). rewrite Forall_forall in B6. intros HN.
        destruct (in_lives i B x HF Hx) as (jx&Hjx). cbn [chop b_reader]. assert (HNx : b_live x <> []) by (intros X0; apply HN; cbn [chop b_live]; rewrite X0; auto).
        specialize (B6 x Hx HNx). destruct (straddle k x) eqn:ESx; [|rewrite (chop_same k jx) by auto; auto].
        destruct (chop_bytes k jx x Hjx) as [CB CP]. pose proof CB as CB2. apply (f_equal (fun f => slice f 0 (chop_pos k x))) in CB2. rewrite CP in CB2 at 2. rewrite slice_app_exact in CB2.
        rewrite <- CB2. apply rinv_truncate; auto. split.
        + apply (HOK (meta_of x)); [rewrite HM; unfold metas_of; apply in_map, filter_In; split; auto; apply nonempty_true; auto|].
          cbn [meta_of m_index]. unfold chop_pos. rewrite wb_app, zlen_app. pose proof (straddle_ge k jx x Hjx ESx) as GE.
          rewrite (from_split idx jx (b_live x) k Hjx) at 2. rewrite Z.add_assoc. apply (index_in jx); auto; [rewrite <- (from_split idx jx (b_live x) k Hjx); auto|].
          unfold straddle in ESx. apply andb_prop in ESx as [ESx X2]. apply andb_prop in ESx as [_ X1]. rewrite (from_first idx jx) in X1 by auto. rewrite (from_last idx jx) in X2 by auto.
          rewrite (from_split_len jx (b_live x) k Hjx) by lia. lia.
        + rewrite CB, zlen_app, CP. pose proof (zlen_nonneg (wb (filter (fun e => k <=? idx e) (b_live x)))). lia. }
    destruct (settle (chops k B) HB') as (bs'&b'&EO&BI&EM&EL&ED).
    { intros y Hy. apply IN in Hy as (x&Hx&HLx&->). destruct (in_lives i B x HF Hx) as (jx&Hjx). unfold bytes.
      eapply (footer_block s B x _ (filter (fun e => k <=? idx e) (b_live x))); eauto. unfold all, chop. cbn [b_dead b_live]. rewrite <- app_assoc. f_equal.
      eapply from_split; eauto. }
    unfold rollback. cbn [s_dir s_metas s_cache]. rewrite T1, (chops_dir k i) by auto. rewrite EO, E2.
    exists bs', b', (if list_eq_nil (deads (chops k B)) then pre ++ deads B else pre), (filter (fun e => idx e <? k) c).
    cbn [s_dir s_cur s_size s_metas s_cache l_purged l_entries l_cached].
    rewrite EL, ED, EM, (chops_lives k i) by auto. conj; auto.
    + apply (chops_metas k i); auto.
    + rewrite HP. destruct (deads (chops k B)) as [|d ds] eqn:EDC; cbn [list_eq_nil]; [rewrite app_nil_r; auto|]. destruct SD as [SD|SD]; [|discriminate]. rewrite SD. auto.
    + rewrite HE. auto.
    + exists (filter (fun e => idx e <? k) A). rewrite HA, filter_app. auto.
    + rewrite <- HL. rewrite HA. rewrite HE in HA. rewrite HA in HF. eapply filter_cached_after; eauto.
Qed.

(** *** Reading *)
Definition same (b b' : blk) : Prop :=
  b_id b' = b_id b /\ b_dead b' = b_dead b /\ b_live b' = b_live b /\ (b_live b <> [] -> rinv (bytes b) (b_reader b')).
Lemma same_bytes b b' : same b b' -> bytes b' = bytes b.
Proof. intros (_&H1&H2&_). unfold bytes, all. rewrite H1, H2. auto. Qed.
Lemma same_nonempty b b' : same b b' -> nonempty b' = nonempty b.
Proof. intros (_&_&H&_). unfold nonempty. rewrite H. auto. Qed.
Lemma same_lives B B' : Forall2 same B B' -> lives B' = lives B /\ deads B' = deads B /\ alls B' = alls B /\ map b_id B' = map b_id B /\ dir_of B' = dir_of B.
Proof.
  induction 1 as [|b b' B B' H _ IH]; auto. destruct IH as (I1&I2&I3&I4&I5). pose proof (same_bytes _ _ H) as HBy. destruct H as (H1&H2&H3&_).
  unfold lives, deads, alls, dir_of in *. cbn [flat_map map]. unfold all at 1 3. rewrite H1, H2, H3, HBy, I1, I2, I3, I4, I5. auto.
Qed.
Lemma same_shape B B' : Forall2 same B B' -> shape B -> shape B'.
Proof.
  induction 1 as [|b b' B B' H HF IH]; auto. cbn [shape]. destruct H as (H1&H2&H3&_). rewrite H2, H3. intros (S1&S2&S3). split; auto. split; auto.
  intros HN. specialize (S2 HN). clear - HF S2. induction HF as [|b b' B B' (X1&X2&X3&_) _ IH]; constructor.
  - rewrite X2. apply (Forall_inv S2).
  - apply IH. apply (Forall_inv_tail S2).
Qed.
Lemma same_binv B B' : Forall2 same B B' -> binv B -> binv B'.
Proof.
  intros HF [B1 B2 B3 B4 B5 B6]. destruct (same_lives _ _ HF) as (E1&E2&E3&E4&E5). constructor; rewrite ?E3, ?E4; auto.
  - clear - HF B2. induction HF as [|b b' B B' (X1&_) _ IH]; constructor; [rewrite X1; apply (Forall_inv B2)|apply IH, (Forall_inv_tail B2)].
  - eapply same_shape; eauto.
  - clear - HF. induction HF as [|b b' B B' H _ IH]; constructor; auto. intros HN. rewrite (same_bytes _ _ H). destruct H as (_&_&H3&H4). apply H4. congruence.
Qed.
Lemma same_refl b : (b_live b <> [] -> rinv (bytes b) (b_reader b)) -> same b b.
Proof. intros H. unfold same. auto. Qed.
Lemma same_all B : binv B -> Forall2 same B B.
Proof. intros H. destruct H as [_ _ _ _ _ H]. induction H; constructor; auto. apply same_refl; auto. Qed.
Lemma lift B l : binv B -> Forall2 same (filter nonempty B) l -> exists B', Forall2 same B B' /\ filter nonempty B' = l.
Proof.
  intros HB. destruct HB as [_ _ _ _ _ HB]. revert l. induction HB as [|b B HR _ IH]; intros l H; cbn [filter] in H.
  - inversion H; subst. exists []. auto.
  - destruct (nonempty b) eqn:EN.
    + inversion H as [|? b' ? l' H1 H2]; subst. destruct (IH _ H2) as (B'&F&E1). exists (b' :: B'). split; [constructor; auto|]. cbn [filter].
      rewrite (same_nonempty _ _ H1), EN, E1. auto.
    + destruct (IH _ H) as (B'&F&E1). exists (b :: B'). split; [constructor; auto; apply same_refl; auto|]. cbn [filter]. rewrite EN. auto.
Qed.
Lemma same_inv s L bs b pre c l : binv (bs ++ [b]) -> s_dir s = dir_of (bs ++ [b]) -> s_cur s = b_id b -> s_size s = zlen (bytes b) ->
  l_purged L = pre ++ deads (bs ++ [b]) -> l_entries L = lives (bs ++ [b]) ->
  (exists A, l_entries L = A ++ c) -> length c = l_cached L -> crep 256 (s_cache s) (ce c) ->
  Forall2 same (filter nonempty (bs ++ [b])) l -> Inv (set_metas s (map meta_of l)) L.
Proof.
  intros HB HD HC HS HP HE HA HL HR HF. destruct (lift _ _ HB HF) as (B'&F&EL). destruct (same_lives _ _ F) as (E1&E2&E3&E4&E5).
  pose proof (same_binv _ _ F HB) as HB'. apply Forall2_app_inv_l in F as (bs'&l2&F1&F2&->). inversion F2 as [|? b' ? ? S1 S2]; subst. inversion S2; subst.
  exists bs', b', pre, c. cbn [set_metas s_dir s_cur s_size s_metas s_cache]. rewrite E1, E2, E5, (same_bytes _ _ S1). destruct S1 as (X1&_). rewrite X1.
  conj; auto.
Qed.
(** What is needed to read a block. *)
Definition readable (d : dir) (b : blk) : Prop :=
  b_live b <> [] /\ dir_get d (b_id b) = bytes b /\ Forall coded (all b) /\ (exists i, from i (b_live b) /\ 0 <= i /\ i + zlen (b_live b) <= U64_MAX) /\
  rinv (bytes b) (b_reader b).
Lemma readable_all B d b : binv B -> d = dir_of B -> In b (filter nonempty B) -> readable d b.
Proof.
  intros HB -> Hb. apply filter_In in Hb as [Hb EN]. apply nonempty_true in EN. pose proof HB as [B1 B2 B3 B4 B5 B6]. split; auto.
  split; [apply (dir_put_same B b [] B1 Hb)|]. split; [|split].
  - rewrite Forall_forall in *. intros e He. apply B5. unfold alls. apply in_flat_map. eauto.
  - apply in_split in Hb as (l1&l2&->). rewrite alls_app in B4. apply consecutive_app_r in B4. cbn [alls flat_map] in B4. apply consecutive_app_l in B4.
    unfold all in B4. apply consecutive_app_r in B4 as (i&X1&X2&X3). eauto.
  - rewrite Forall_forall in B6. auto.
Qed.
Lemma get_entry d b k : readable d b -> exists r, same b (set_reader b r) /\
  get_entry_by_index crc dec d (meta_of b) k = Some (match find (fun e => idx e =? k) (b_live b) with Some e => GSome e | None => GNone end, meta_of (set_reader b r)).
Proof.
  intros (HN&HD&HC&(i&HF&_)&HR). destruct (find _ (b_live b)) as [e|] eqn:EF.
  - apply find_some in EF as [HI HE]. assert (k = idx e) by lia. subst k. apply in_split in HI as (l1&l2&EL).
    destruct (get_entry_ok d b l1 e l2 i EL HC HF HR HD) as (r&E1&R1). exists r. split; auto. unfold same. cbn. auto.
  - exists (b_reader b). replace (set_reader b (b_reader b)) with b by (destruct b; auto). split; [apply same_refl; auto|]. apply get_entry_none.
    intros e He HX. pose proof (find_none _ _ EF e He). cbv beta in *. lia.
Qed.
Lemma readable_set d b r : readable d b -> same b (set_reader b r) -> readable d (set_reader b r).
Proof.
  intros (HN&HD&HC&HF&HR) HS. pose proof (same_bytes _ _ HS) as HB. destruct HS as (_&_&_&HS). unfold readable. rewrite HB. cbn [set_reader b_id b_live b_dead b_reader] in *. change (all (set_reader b r)) with (all b). conj; auto.
Qed.
Lemma same_forall l d : (forall b, In b l -> readable d b) -> Forall2 same l l.
Proof. induction l as [|b l IH]; intros H; constructor; [apply same_refl; intros; apply H; left; auto|apply IH; intros; apply H; right; auto]. Qed.
Lemma forall2_rev {A} (R : A -> A -> Prop) l l' : Forall2 R l l' -> Forall2 R (rev l) (rev l').
Proof. induction 1; cbn [rev]; auto. apply Forall2_app; auto. Qed.
Definition to_g (o : option E) : gres := match o with Some e => GSome e | None => GNone end.
Lemma read_in_ok d k l : (forall b, In b l -> readable d b) ->
  exists o l', read_in crc dec d k (map meta_of l) = Some (to_g o, map meta_of l') /\ Forall2 same l l' /\
    match o with Some e => idx e = k /\ exists b, In b l /\ In e (b_live b) | None => forall b e, In b l -> In e (b_live b) -> idx e <> k end.
Proof.
  induction l as [|b l IH]; intros H.
  - exists None, []. split; [reflexivity|]. split; [constructor|]. intros b e [].
  - pose proof (H b (or_introl eq_refl)) as Rb. pose proof Rb as (HN&HD&HC&(i&HF&_)&HR).
    cbn [map read_in]. cbn [meta_of m_min m_max]. fold (meta_of b). rewrite (from_first idx i), (from_last idx i) by auto.
    destruct ((k >=? i) && (k <=? i + zlen (b_live b) - 1)) eqn:EK.
    + destruct (get_entry d b k Rb) as (r&S1&->). destruct (find _ (b_live b)) as [e|] eqn:EF.
      * exists (Some e), (set_reader b r :: l). split; [reflexivity|]. split; [constructor; auto; eapply same_forall; intros; apply H; right; auto|].
        apply find_some in EF as [E1 E2]. split; [lia|]. exists b. split; [left|]; auto.
      * exfalso. assert (G : forall i l, from i l -> i <= k <= i + zlen l - 1 -> exists e, In e l /\ idx e = k).
        { clear. intros i l. revert i. induction l as [|x l IH]; intros i HF HK; [change (zlen (@nil E)) with 0 in HK; lia|]. destruct HF as [H1 H2]. rewrite zlen_cons in HK.
          destruct (Z.eq_dec (idx x) k); [exists x; split; [left|]; auto|]. destruct (IH (i + 1) H2 ltac:(lia)) as (e&E1&E2). exists e. split; [right|]; auto. }
        destruct (G i (b_live b) HF ltac:(lia)) as (e&E1&E2). pose proof (find_none _ _ EF e E1). cbv beta in *. lia.
    + destruct IH as (o&l'&E1&F1&P1); [intros; apply H; right; auto|]. rewrite E1. exists o, (b :: l'). split; [reflexivity|].
      split; [constructor; auto; apply same_refl; auto|]. destruct o as [e|].
      * destruct P1 as (P1&x&P2&P3). split; auto. exists x. split; [right|]; auto.
      * intros x e [<-|Hx] He; [|eauto]. pose proof (from_in idx _ _ _ HF He). lia.
Qed.
Lemma read_entry_ok s L k : Inv s L -> exists s', read_raft_entry crc dec s k = Some (to_g (find (fun e => idx e =? k) (l_entries L)), s') /\ Inv s' L.
Proof.
  intros HI. pose proof HI as (bs&b&pre&c&HB&HD&HU&HS&HM&HP&HE&(A&HA)&HL&HR). set (B := bs ++ [b]) in *.
  destruct (live_cons B) as (i&HF&H0&HUM); [apply HB|apply HB|].
  unfold read_raft_entry. rewrite (cache_get _ c) by auto. destruct (find _ c) as [e|] eqn:EF.
  - exists s. split; auto. apply find_some in EF as [E1 E2]. rewrite HE. rewrite (find_in idx i (lives B) e k); auto; [|lia].
    rewrite <- HE, HA. apply in_or_app. auto.
  - rewrite HM. unfold metas_of. rewrite <- map_rev.
    destruct (read_in_ok (s_dir s) k (rev (filter nonempty B))) as (o&l'&E1&F1&P1).
    { intros x Hx. apply in_rev in Hx. eapply readable_all; eauto. }
    rewrite E1. eexists. split.
    + f_equal. f_equal. f_equal. rewrite HE. destruct o as [e|].
      * destruct P1 as (P1&x&P2&P3). symmetry. apply (find_in idx i); auto. apply in_rev in P2. apply filter_In in P2 as [P2 _]. unfold lives. apply in_flat_map. eauto.
      * symmetry. apply find_notin. intros e He. unfold lives in He. apply in_flat_map in He as (x&X1&X2). apply (P1 x); auto. apply -> in_rev. apply filter_In. split; auto.
        apply nonempty_true. intros X. rewrite X in X2. destruct X2.
    + rewrite <- map_rev. eapply (same_inv s L bs b pre c); eauto. fold B. apply forall2_rev in F1. rewrite rev_involutive in F1. auto.
Qed.
Definition range (a b : Z) (l : list E) : list E := filter (fun e => (a <=? idx e) && (idx e <? b))%bool l.
Lemma range_empty a b l : b <= a -> range a b l = [].
Proof. intros H. unfold range. induction l as [|x l IH]; cbn [filter]; auto. replace ((a <=? idx x) && (idx x <? b))%bool with false by lia. auto. Qed.
Lemma range_skip a b l : (forall e, In e l -> idx e <> a) -> range a b l = range (a + 1) b l.
Proof. intros H. unfold range. apply filter_ext_in. intros e He. specialize (H e He). lia. Qed.
Lemma range_head i l a b : from i l -> a < b -> range a b l = match find (fun e => idx e =? a) l with Some e => [e] | None => [] end ++ range (a + 1) b l.
Proof.
  intros HF Hab. destruct (find _ l) as [e|] eqn:EF.
  - apply find_some in EF as [E1 E2]. apply (from_filter_range_head idx i); auto. lia.
  - apply range_skip. intros e He HX. pose proof (find_none _ _ EF e He). cbv beta in *. lia.
Qed.
Lemma read_range_ok d n : forall b a, readable d b ->
  exists r, same b (set_reader b r) /\ read_range crc dec d (meta_of b) a n = Some (range a (a + Z.of_nat n) (b_live b), true, meta_of (set_reader b r)).
Proof.
  induction n as [|n IH]; intros b a HR; cbn [read_range].
  - exists (b_reader b). replace (set_reader b (b_reader b)) with b by (destruct b; auto). split; [apply same_refl; intros; apply HR|].
    rewrite range_empty by lia. auto.
  - destruct (get_entry d b a HR) as (r&S1&->). pose proof (readable_set d b r HR S1) as HR1. destruct (IH _ (a + 1) HR1) as (r2&S2&E2).
    pose proof HR as (_&_&_&(i&HF&_)&_). rewrite (range_head i) by (auto; lia). replace (a + Z.of_nat (S n)) with (a + 1 + Z.of_nat n) by lia.
    exists r2. split.
    + destruct S2 as (_&_&_&S2). rewrite (same_bytes _ _ S1) in S2. unfold same. cbn [set_reader b_id b_dead b_live b_reader] in *. auto.
    + destruct (find _ (b_live b)); rewrite E2; auto.
Qed.
Lemma range_bounds i l a b : from i l -> range (Z.max i a) (Z.min (i + zlen l) b) l = range a b l.
Proof. intros HF. unfold range. apply filter_ext_in. intros e He. pose proof (from_in idx _ _ _ HF He). lia. Qed.
Lemma read_files_ok d a b l : (forall x, In x l -> readable d x) ->
  exists l', read_files crc dec d a b (map meta_of l) = Some (range a b (lives l), true, map meta_of l') /\ Forall2 same l l'.
Proof.
  induction l as [|x l IH]; intros H; cbn [map read_files].
  - exists []. auto.
  - pose proof (H x (or_introl eq_refl)) as Rx. pose proof Rx as (HN&_&_&(i&HF&H0&HU)&HR). destruct IH as (l'&E1&F1); [intros; apply H; right; auto|].
    unfold intersection. cbn [meta_of m_min m_max]. fold (meta_of x). rewrite (from_first idx i), (from_last idx i) by auto.
    assert (HP : 1 <= zlen (b_live x)). { destruct (b_live x); [congruence|]. rewrite zlen_cons. pose proof (zlen_nonneg l0). lia. }
    replace (i =? U64_MAX) with false by lia. replace (i + zlen (b_live x) - 1 =? U64_MAX) with false by lia. cbn [orb].
    replace (i + zlen (b_live x) - 1 + 1) with (i + zlen (b_live x)) by lia. cbn [lives flat_map]. fold (lives l). unfold range at 1. rewrite filter_app. fold (range a b (b_live x)) (range a b (lives l)).
    destruct (Z.max i a <=? Z.min (i + zlen (b_live x)) b) eqn:EI.
    + destruct (read_range_ok d (Z.to_nat (Z.min (i + zlen (b_live x)) b - Z.max i a)) x (Z.max i a) Rx) as (r&S1&E2). rewrite E2, E1.
      replace (Z.max i a + Z.of_nat _) with (Z.min (i + zlen (b_live x)) b) by lia. rewrite range_bounds by auto.
      exists (set_reader x r :: l'). split; auto.
    + rewrite E1. rewrite <- (range_bounds i (b_live x) a b) by auto. rewrite (range_empty (Z.max i a)) by lia. exists (x :: l'). split; auto. constructor; auto. apply same_refl; auto.
Qed.
Lemma from_cache_ok c C n : forall a l, crep 256 c (ce C) -> entries_from_cache c a n = Some l -> forall i A, from i (A ++ C) -> l = range a (a + Z.of_nat n) (A ++ C).
Proof.
  induction n as [|n IH]; intros a l HR H i A HF; cbn [entries_from_cache] in H.
  - injection H as <-. symmetry. apply range_empty. lia.
  - rewrite (cache_get _ C) in H by auto. destruct (find _ C) as [e|] eqn:EF; [|discriminate]. destruct (entries_from_cache c (a + 1) n) as [l1|] eqn:E1; [|discriminate].
    injection H as <-. rewrite (range_head i) by (auto; lia). apply find_some in EF as [H1 H2]. rewrite (find_in idx i (A ++ C) e a); auto; [|apply in_or_app; auto|lia].
    cbn [app]. f_equal. rewrite (IH _ _ HR E1 i A HF). f_equal. lia.
Qed.
Lemma read_entries_ok s L a b : Inv s L -> exists s', read_raft_entry_range crc dec s a b = Some (Some (range a b (l_entries L)), s') /\ Inv s' L.
Proof.
  intros HI. pose proof HI as (bs&x&pre&c&HB&HD&HU&HS&HM&HP&HE&(A&HA)&HL&HR). set (B := bs ++ [x]) in *.
  destruct (live_cons B) as (i&HF&H0&HUM); [apply HB|apply HB|].
  unfold read_raft_entry_range. destruct (entries_from_cache (s_cache s) a (Z.to_nat (b - a))) as [l|] eqn:EC.
  - exists s. split; auto. rewrite <- HE, HA in HF. rewrite HA. rewrite (from_cache_ok _ c _ _ _ HR EC i A HF). f_equal. f_equal. f_equal.
    destruct (Z.le_gt_cases a b); [f_equal; lia|]. rewrite !range_empty by lia. auto.
  - rewrite HM. unfold metas_of. destruct (read_files_ok (s_dir s) a b (filter nonempty B)) as (l'&E1&F1); [intros; eapply readable_all; eauto|].
    rewrite E1. eexists. split; [|eapply (same_inv s L bs x pre c); eauto]. f_equal. f_equal. f_equal. f_equal. rewrite HE. unfold lives. clear.
    induction B as [|y B IH]; auto. cbn [filter flat_map]. unfold nonempty at 1. destruct (b_live y) as [|e l] eqn:EY; cbn [app]; auto. cbn [flat_map]. rewrite EY, IH. auto.
Qed.
Lemma last_ok s L : Inv s L -> kc_last (s_cache s) = if (l_cached L =? 0)%nat then None else last_of (l_entries L).
Proof.
  intros (bs&x&pre&c&HB&HD&HU&HS&HM&HP&HE&(A&HA)&HL&HR). rewrite (last_crep 256 _ _ HR). rewrite <- HL, HA.
  destruct c as [|e c _] using rev_ind; auto. rewrite map_app, rev_app_distr. cbn [map rev app snd]. rewrite app_length. cbn [length].
  rewrite app_assoc, last_of_snoc. destruct (length c + 1 =? 0)%nat eqn:EX; auto. apply Nat.eqb_eq in EX. lia.
Qed.

(** *** Scanning a file that is truncated under the reader *)
Definition cov (f : list Z) (r : reader) : Prop := inv f r /\ r_pos r - r_use r + r_len r = zlen f.
Lemma fill_cov f g r n : cov f r -> 0 <= n -> r_pos r + n <= zlen f ->
  fill g r n = fill f r n /\ cov f (fill f r n) /\ r_pos (fill f r n) = r_pos r /\ r_footer_pos (fill f r n) = r_footer_pos r.
Proof.
  intros [I HC] Hn HB. unfold fill. set (r1 := if r_cap r <? n then _ else r).
  assert (E1 : r_len r1 = r_len r /\ r_use r1 = r_use r /\ r_pos r1 = r_pos r /\ r_footer_pos r1 = r_footer_pos r) by (unfold r1; destruct (r_cap r <? n); auto).
  assert (I1 : inv f r1). { unfold r1. destruct (r_cap r <? n) eqn:EC; auto. destruct I as [Q1 Q2 Q3 Q4 Q5 Q6 Q7 Q8]. constructor; cbn [r_use r_len r_pos r_buf r_cap r_flen]; auto; lia. }
  clearbody r1. destruct E1 as (E1&E2&E3&E4). rewrite E1, E2. replace (r_len r - r_use r <? n) with false by lia.
  split; auto. split; auto. split; auto. lia.
Qed.
Lemma set_pos_cov f g r p : cov f r -> r_pos r < p < zlen f ->
  exists r', set_pos g r p = Good tt r' /\ cov f r' /\ r_pos r' = p /\ r_footer_pos r' = r_footer_pos r.
Proof.
  intros [I HC] Hp. pose proof I as [Q1 Q2 Q3 Q4 Q5 Q6 Q7 Q8]. unfold set_pos. replace (r_pos r - r_use r =? p) with false by lia.
  replace (p >? r_flen r) with false by lia. replace (r_pos r >? p) with false by lia. replace (r_pos r <? p) with true by lia.
  replace (_ >? p - r_pos r) with true by lia. eexists. split; [reflexivity|]. split; [|split; reflexivity]. split.
  - constructor; cbn [r_use r_len r_pos r_buf r_cap r_flen]; auto; try lia. rewrite Q6. f_equal; lia.
  - cbn [r_use r_len r_pos]. lia.
Qed.
Lemma set_pos_end f g r p : cov f r -> r_pos r < p -> p = zlen f ->
  exists r', set_pos g r p = Good tt r' /\ r_pos r' = p /\ r_footer_pos r' = r_footer_pos r.
Proof.
  intros [I HC] Hp HE. pose proof I as [Q1 Q2 Q3 Q4 Q5 Q6 Q7 Q8]. unfold set_pos. replace (r_pos r - r_use r =? p) with false by lia.
  replace (p >? r_flen r) with false by lia. replace (r_pos r >? p) with false by lia. replace (r_pos r <? p) with true by lia.
  replace (_ >? p - r_pos r) with false by lia. eexists. split; [reflexivity|]. split; reflexivity.
Qed.
Lemma read_cov f g A B i r : f = A ++ rb crc i ++ B -> Forall is_byte f -> item_fits i -> 0 < zlen (it_data i) -> cov f r -> r_pos r = zlen A -> r_footer_pos r = zlen f ->
  exists r', read_record crc g r = Good (seen_as A i) r' /\ r_pos r' = zlen A + zlen (rb crc i) /\ r_footer_pos r' = zlen f /\ (B <> [] -> cov f r').
Proof.
  intros Ef Hb Hi Hd HC Hp Hf. pose proof HC as [I0 _]. pose proof Hi as [_ Hfit].
  destruct (rb_fields crc Hcrc A (rb crc i) B i Hi) as (S4 & S6 & Sz & Nt & Nv & Sc); [rewrite zlen_rb; pose proof (zlen_nonneg (it_data i)); lia|symmetry; apply slice_all; lia|].
  rewrite <- Ef in *.
  assert (L : zlen f = zlen A + 14 + zlen (it_data i) + zlen B) by (rewrite Ef, !zlen_app, zlen_rb; lia).
  pose proof (zlen_nonneg B). pose proof (zlen_nonneg A).
  destruct (read_written crc Hcrc f A B i r Ef Hb Hi I0) as (r'&R&_); [lia|intros; lia|lia|]. revert R. unfold read_record.
  replace (r_pos r + HEADER_LEN >=? r_footer_pos r) with false by (unfold HEADER_LEN; lia).
  rewrite !Nat.add_succ_r. cbn [find_record_header].
  destruct (fill_cov f g r 4 HC ltac:(lia) ltac:(lia)) as (F1&C1&P1&U1). rewrite F1. rewrite peek4_full by (auto; lia). rewrite Hp, S4.
  destruct (list_eq_dec Z.eq_dec RECORD_MAGIC RECORD_MAGIC) as [_|X]; [|congruence].
  destruct (fill_cov f g (fill f r 4) 14 C1 ltac:(lia) ltac:(lia)) as (F2&C2&P2&U2). unfold HEADER_LEN. rewrite F2. set (r2 := fill f (fill f r 4) 14) in *.
  assert (GH : got r2 14 = slice f (zlen A) 14). { unfold r2. rewrite fill_got by (try apply C1; lia). rewrite P1, Hp. auto. }
  assert (P2' : r_pos r2 = zlen A) by lia. clearbody r2. cbn [obind]. rewrite GH, P2'.
  assert (LH : zlen (slice f (zlen A) 14) = 14) by (rewrite zlen_slice; lia). rewrite LH. cbn [Z.ltb]. change (14 <? 14) with false. cbv iota.
  replace (of_be (slice (slice f (zlen A) 14) 6 4)) with (zlen (it_data i)).
  2: { rewrite slice_slice by lia. symmetry. exact Sz. }
  destruct (set_pos_cov f f r2 (zlen A + 14) C2 ltac:(lia)) as (r3&E3&C3&P3&U3). rewrite E3.
  assert (E3' : set_pos g r2 (zlen A + 14) = Good tt r3).
  { revert E3. unfold set_pos. destruct C2 as [[Q1 Q2 Q3 Q4 Q5 Q6 Q7 Q8] Q9]. replace (r_pos r2 - r_use r2 =? zlen A + 14) with false by lia.
    replace (zlen A + 14 >? r_flen r2) with false by lia. replace (r_pos r2 >? zlen A + 14) with false by lia. replace (r_pos r2 <? zlen A + 14) with true by lia.
    replace (_ >? zlen A + 14 - r_pos r2) with true by lia. auto. }
  rewrite E3'. cbn [obind]. destruct (fill_cov f g r3 (zlen (it_data i)) C3 ltac:(lia) ltac:(lia)) as (F4&C4&P4&U4). rewrite F4.
  set (r4 := fill f r3 (zlen (it_data i))) in *. clearbody r4.
  destruct (zlen (got r4 (zlen (it_data i))) <? zlen (it_data i)); [discriminate|].
  assert (E5 : exists r5, set_pos g r4 (zlen A + 14 + zlen (it_data i)) = Good tt r5 /\ r_pos r5 = zlen A + 14 + zlen (it_data i) /\ r_footer_pos r5 = r_footer_pos r4 /\ (B <> [] -> cov f r5)).
  { destruct B as [|x B0] eqn:EB.
    - change (zlen (@nil Z)) with 0 in L. destruct (set_pos_end f g r4 (zlen A + 14 + zlen (it_data i)) C4 ltac:(lia) ltac:(lia)) as (r5&X1&X2&X3).
      exists r5. split; auto. split; auto. split; auto. congruence.
    - rewrite zlen_cons in L. pose proof (zlen_nonneg B0). destruct (set_pos_cov f g r4 (zlen A + 14 + zlen (it_data i)) C4 ltac:(lia)) as (r5&X1&X2&X3&X4).
      exists r5. auto. }
  destruct E5 as (r5&E5&P5&U5&C5). rewrite E5.
  destruct (set_pos_ok f r4 (zlen A + 14 + zlen (it_data i)) ltac:(apply C4) ltac:(lia)) as (r6&E6&_). rewrite E6. cbn [obind].
  destruct (crc _ =? _).
  - intros R. exists r5. match type of R with Good ?x _ = Good ?y _ => assert (EX : x = y) by congruence end. rewrite EX. split; auto. split; [rewrite zlen_rb; lia|]. split; [congruence|auto].
  - destruct (set_pos f r6 (zlen A + 1)); discriminate.
Qed.
Fixpoint scans (G : list Z -> Prop) (r : reader) (p : Z) (es : list E) : Prop :=
  match es with
  | [] => forall g, G g -> exists r', read_record crc g r = Fail Eof r'
  | e :: es' => forall g, G g -> exists r', read_record crc g r = Good (Rec 8 1 (data e) p) r' /\ scans G r' (p + zlen (rb crc (it e))) es'
  end.
Lemma read_eof g r : r_footer_pos r <= r_pos r -> read_record crc g r = Fail Eof r.
Proof. intros H. unfold read_record. replace (_ >=? _) with true by (unfold HEADER_LEN; lia). auto. Qed.
Lemma scans_eq f es : forall A r, f = A ++ wb es -> Forall is_byte f -> Forall coded es -> inv f r -> r_pos r = zlen A -> r_footer_pos r = zlen f ->
  scans (eq f) r (zlen A) es.
Proof.
  induction es as [|e es IH]; intros A r Ef Hb HC I HP HF; cbn [scans]; intros g <-.
  - exists r. apply read_eof. rewrite HP, HF, Ef. change (wb []) with (@nil Z). rewrite app_nil_r. lia.
  - change (e :: es) with ([e] ++ es) in Ef. rewrite wb_app, wb_one in Ef.
    assert (L : zlen f = zlen A + (23 + zlen (enc e) + zlen (wb es))) by (rewrite Ef, !zlen_app, zlen_rbe; auto).
    pose proof (zlen_nonneg (enc e)). pose proof (zlen_nonneg (wb es)).
    destruct (read_written crc Hcrc f A (wb es) (it e) r Ef Hb (coded_fits e (Forall_inv HC)) I) as (r'&R&I'&P'&F'); [lia|intros; lia|lia|].
    exists r'. split; [exact R|]. rewrite <- zlen_app. apply IH; auto; [rewrite Ef, <- app_assoc; auto|apply (Forall_inv_tail HC)|congruence].
Qed.
Lemma scans_cov f es : forall A r, f = A ++ wb es -> Forall is_byte f -> Forall coded es -> (es <> [] -> cov f r) -> r_pos r = zlen A -> r_footer_pos r = zlen f ->
  scans (fun _ => True) r (zlen A) es.
Proof.
  induction es as [|e es IH]; intros A r Ef Hb HC I HP HF; cbn [scans]; intros g _.
  - exists r. apply read_eof. rewrite HP, HF, Ef. change (wb []) with (@nil Z). rewrite app_nil_r. lia.
  - change (e :: es) with ([e] ++ es) in Ef. rewrite wb_app, wb_one in Ef. pose proof (zlen_nonneg (enc e)).
    destruct (read_cov f g A (wb es) (it e) r Ef Hb (coded_fits e (Forall_inv HC))) as (r'&R&P'&F'&C'); auto.
    + cbn [it it_data]. rewrite zlen_data. lia.
    + apply I. discriminate.
    + exists r'. split; [exact R|]. rewrite <- zlen_app. apply IH; auto; [rewrite Ef, <- app_assoc; auto|apply (Forall_inv_tail HC)| |rewrite zlen_app; lia].
      intros HN. apply C'. destruct es as [|x es]; [congruence|]. change (x :: es) with ([x] ++ es). rewrite wb_app, wb_one. intros X.
      apply (f_equal zlen) in X. rewrite zlen_app, zlen_rbe in X. change (zlen (@nil Z)) with 0 in X. pose proof (zlen_nonneg (enc x)). pose proof (zlen_nonneg (wb es)). lia.
Qed.
Lemma scans_weaken (G H : list Z -> Prop) es : (forall g, H g -> G g) -> forall r p, scans G r p es -> scans H r p es.
Proof.
  intros HG. induction es as [|e es IH]; intros r p S; cbn [scans] in *; intros g Hg; [apply S; auto|]. destruct (S g (HG g Hg)) as (r'&R&S'). eauto.
Qed.
(** The reader with which recovery starts on a file. *)
Definition fresh (f : list Z) (r : reader) : Prop := r = Reader 4 [] (Z.min (wrap_u64 (zlen f - 4)) READER_BUF_SIZE) 0 0 (zlen f) (zlen f).
Lemma fresh_load f r : fresh f r -> 18 < zlen f <= 4 + READER_BUF_SIZE -> read_record crc f r = read_record crc f (load_buf f r) /\ cov f (load_buf f r)
  /\ r_pos (load_buf f r) = 4 /\ r_footer_pos (load_buf f r) = zlen f.
Proof.
  intros -> Hf. unfold fresh. assert (W : wrap_u64 (zlen f - 4) = zlen f - 4) by (apply wrap_u64_id; unfold is_u64; unfold READER_BUF_SIZE in Hf; rewrite U64_MAX_eq; lia).
  rewrite W. rewrite Z.min_l by lia. set (r := Reader 4 [] (zlen f - 4) 0 0 (zlen f) (zlen f)).
  destruct (load_buf_inv f r) as [I L]; [cbn [r r_pos]; lia|cbn [r r_cap]; lia|reflexivity|]. cbn [r r_cap r_pos] in L.
  assert (C : cov f (load_buf f r)). { split; auto. rewrite L. cbn [load_buf r_use r_pos r]. lia. }
  split; [|split; [auto|split; reflexivity]].
  assert (F1 : fill f r 4 = load_buf f r).
  { unfold fill. cbn [r r_cap r_len r_use r_pos r_buf r_footer_pos r_flen]. replace (zlen f - 4 <? 4) with false by lia. cbn [r_len r_use]. reflexivity. }
  assert (F2 : fill f (load_buf f r) 4 = load_buf f r).
  { unfold fill. change (r_cap (load_buf f r)) with (zlen f - 4). replace (zlen f - 4 <? 4) with false by lia. rewrite L. change (r_use (load_buf f r)) with 0. replace (_ <? 4) with false by lia. auto. }
  assert (FH : forall n, find_record_header (S n) f r = find_record_header (S n) f (load_buf f r)) by (intros n; cbn [find_record_header]; rewrite F1, F2; auto).
  unfold read_record. change (r_pos (load_buf f r)) with 4. change (r_footer_pos (load_buf f r)) with (zlen f). change (r_pos r) with 4. change (r_footer_pos r) with (zlen f).
  replace (_ >=? _) with false by (unfold HEADER_LEN; lia). rewrite !Nat.add_succ_r. rewrite FH. reflexivity.
Qed.
Definition tip (s : store E) : Prop := exists d f, s_dir s = d ++ [(s_cur s, f)] /\ s_size s = zlen f.
Lemma trunc_file (s : store E) d1 id f d2 pos : s_dir s = d1 ++ (id, f) :: d2 -> (forall x, In x d1 -> fst x < id) -> (forall x, In x d2 -> id < fst x) ->
  tip s -> f <> [] -> no_footer crc f -> 0 <= pos ->
  exists s', truncate_wal crc s id pos = s' /\ s_dir s' = d1 ++ (id, if zlen f <=? pos then f else slice f 0 pos) :: d2 /\ tip s' /\
    s_cur s' = s_cur s /\ s_metas s' = s_metas s /\ s_cache s' = s_cache s.
Proof.
  intros HD H1 H2 (d&g&HT&HS) HN HF Hp. unfold truncate_wal.
  assert (HG : dir_get (s_dir s) id = f) by (rewrite HD; apply dir_get_at; intros x Hx; specialize (H1 x Hx); lia).
  destruct (s_cur s =? id) eqn:EC.
  - assert (d2 = [] /\ g = f).
    { rewrite HD in HT. destruct d2 as [|x d2 _] using rev_ind.
      - apply app_inj_tail in HT as [_ HT]. injection HT as _ ->. auto.
      - exfalso. change (d1 ++ (id, f) :: d2 ++ [x]) with (d1 ++ ((id, f) :: d2) ++ [x]) in HT. rewrite app_assoc in HT. apply app_inj_tail in HT as [_ ->].
        specialize (H2 (s_cur s, g)). cbn in H2. assert (In (s_cur s, g) (d2 ++ [(s_cur s, g)])) by (apply in_or_app; right; left; auto). specialize (H2 H). lia. }
    destruct H as [-> ->]. rewrite HS. destruct (zlen f <=? pos) eqn:EL.
    + exists s. conj; auto. exists d, f. auto.
    + eexists. split; [reflexivity|]. cbn [s_dir s_cur s_metas s_cache]. rewrite HG, HD, dir_put_at by auto. conj; auto; [|lia].
      exists d1, (slice f 0 pos). cbn [s_dir s_cur s_size]. split; auto. rewrite zlen_slice by lia. lia.
  - unfold open_file. rewrite HG, writer_open_id by auto. rewrite HD, dir_put_at by auto. eexists. split; [reflexivity|]. cbn [s_dir s_cur s_size s_metas s_cache].
    destruct (zlen f <=? pos) eqn:EL.
    + conj; auto. exists d, g. cbn [s_dir s_cur s_size]. rewrite <- HT, HD. auto.
    + rewrite dir_get_at by (intros x Hx; specialize (H1 x Hx); lia). rewrite dir_put_at by auto. conj; auto.
      rewrite HD in HT. destruct d2 as [|x d2 _] using rev_ind.
      * apply app_inj_tail in HT as [_ HT]. injection HT as HT _. lia.
      * change (d1 ++ (id, f) :: d2 ++ [x]) with (d1 ++ ((id, f) :: d2) ++ [x]) in HT. rewrite app_assoc in HT. apply app_inj_tail in HT as [_ ->].
        exists (d1 ++ (id, slice f 0 pos) :: d2), g. cbn [s_dir s_cur s_size]. rewrite <- app_assoc. auto.
Qed.
Lemma mark_metas (s : store E) bs b e i : s_metas s = metas_of (bs ++ [b]) -> (forall x, In x bs -> b_id x < b_id b) -> b_dead b = [] ->
  from i (b_live b ++ [e]) -> 0 <= i -> i + zlen (b_live b ++ [e]) <= U64_MAX ->
  s_metas (mark_write_wal crc e_index s e (b_id b) (4 + zlen (wb (b_live b)))) =
    metas_of (bs ++ [Blk (b_id b) [] (b_live b ++ [e]) (if nonempty b then b_reader b else wal_reader crc s (b_id b))]).
Proof.
  intros HM HX HD HF H0 HU. assert (EB : 4 + zlen (wb (b_live b)) = zlen (bytes b)) by (rewrite zlen_bytes; unfold all; rewrite HD; auto).
  rewrite EB. unfold mark_write_wal. cbn [s_metas]. rewrite HM, !metas_of_app.
  rewrite (metas_one (Blk _ _ _ _)) by (cbn [b_live]; destruct (b_live b); discriminate). destruct (nonempty b) eqn:EN.
  - apply nonempty_true in EN as HN. rewrite (metas_one b) by auto. rewrite rev_app_distr. cbn [rev app upd_first]. cbn [meta_of m_id]. rewrite Z.eqb_refl. cbn [rev]. rewrite rev_involutive.
    f_equal. f_equal. fold (meta_of b). rewrite (mark_entry_ok b e i) by auto. rewrite HD. auto.
  - apply nonempty_false in EN. rewrite (metas_one_nil b) by auto. rewrite !app_nil_r. rewrite upd_none.
    + f_equal. f_equal. unfold mark_entry, meta_of. cbn [m_id m_min m_max m_reader m_index b_id b_dead b_live b_reader]. rewrite EN. cbn [app index_from first_index WalSpec.first_index].
      replace (last_index [e]) with (idx e) by reflexivity. rewrite Z.eqb_refl. cbn [orb]. rewrite <- EB, EN. change (wb []) with (@nil Z). rewrite zlen_nil. auto.
    + intros m Hm. apply in_rev in Hm. apply metas_ids in Hm as (x&H1&_&->). cbn [meta_of m_id]. specialize (HX x H1). lia.
Qed.
Definition kept (apply : option Z) (e : E) : bool := match apply with None => true | Some a => idx e <=? a end.
Lemma keep_filter apply l : keep e_index apply l = filter (kept apply) l.
Proof. destruct apply; cbn [keep kept]; auto. induction l as [|e l IH]; cbn [filter kept]; auto. f_equal. auto. Qed.
Lemma keep_split apply i l : from i l -> exists l2, l = filter (kept apply) l ++ l2 /\ forall e, In e l2 -> kept apply e = false.
Proof.
  intros H. destruct apply as [a|].
  - exists (filter (fun e => a + 1 <=? idx e) l). split.
    + rewrite (filter_ext (kept (Some a)) (fun e => idx e <? a + 1)) by (intros e; cbn [kept]; lia). apply (from_split idx i). auto.
    + intros e He. apply filter_In in He as [_ He]. cbn [kept]. lia.
  - exists []. split; [|intros e []]. rewrite app_nil_r. clear H. induction l as [|e l IH]; cbn [filter kept]; auto. f_equal. auto.
Qed.
Record rst (s : store E) (done : list blk) (cur : blk) (f : list Z) (rest : list blk) : Prop := {
  rs_dir : s_dir s = dir_of done ++ (b_id cur, f) :: dir_of rest;
  rs_tip : tip s;
  rs_metas : s_metas s = metas_of (done ++ [cur]);
  rs_dead : b_dead cur = [];
  rs_lt : forall x, In x done -> b_id x < b_id cur;
  rs_gt : forall x, In x rest -> b_id cur < b_id x;
  rs_cache : exists A c, lives (done ++ [cur]) = A ++ c /\ length c = Nat.min 256 (length (lives (done ++ [cur]))) /\ crep 256 (s_cache s) (ce c) }.
Lemma in_dir_of (P : Z -> Prop) bs : (forall x, In x bs -> P (b_id x)) -> forall x, In x (dir_of bs) -> P (fst x).
Proof. intros H x Hx. unfold dir_of in Hx. apply in_map_iff in Hx as (b&<-&Hb). exact (H b Hb). Qed.
Lemma rst_get s done cur f rest : rst s done cur f rest -> dir_get (s_dir s) (b_id cur) = f.
Proof.
  intros [R1 _ _ _ R5 _ _]. rewrite R1. apply dir_get_at. intros x Hx. pose proof (in_dir_of (fun i => i < b_id cur) done R5 x Hx). cbv beta in H. lia.
Qed.
Lemma rec_keep (G : list Z -> Prop) (apply : option Z) es1 : forall n s done cur f rest r es2, rst s done cur f rest -> G f -> scans G r (4 + zlen (wb (b_live cur))) (es1 ++ es2) ->
  consecutive idx (lives (done ++ [cur]) ++ es1) -> Forall coded es1 -> Forall (fun e => kept apply e = true) es1 ->
  (b_live cur <> [] -> b_reader cur = wal_reader crc s (b_id cur)) ->
  exists s' cur' r', recover_file crc e_index dec (length es1 + n) s (b_id cur) apply r = recover_file crc e_index dec n s' (b_id cur) apply r' /\
    rst s' done cur' f rest /\ b_id cur' = b_id cur /\ b_live cur' = b_live cur ++ es1 /\ (b_live cur' <> [] -> b_reader cur' = wal_reader crc s (b_id cur)) /\
    scans G r' (4 + zlen (wb (b_live cur'))) es2.
Proof.
  induction es1 as [|e es1 IH]; intros n s done cur f rest r es2 R HG HS HC HK HP HR.
  - exists s, cur, r. rewrite app_nil_r. conj; auto.
  - cbn [app scans] in HS. destruct (HS f HG) as (r1&RD&HS1). cbn [length Nat.add recover_file]. rewrite (rst_get _ _ _ _ _ R), RD.
    cbn [rec_data rec_pos]. rewrite (decode_data e) by (apply (Forall_inv HK)).
    replace (recover_record crc e_index s (b_id cur) e (4 + zlen (wb (b_live cur))) apply) with (mark_write_wal crc e_index s e (b_id cur) (4 + zlen (wb (b_live cur)))).
    2:{ unfold recover_record. apply Forall_inv in HP. destruct apply as [a|]; auto. cbn [kept] in HP. replace (_ >? _) with false by lia. auto. }
    set (cur' := Blk (b_id cur) [] (b_live cur ++ [e]) (if nonempty cur then b_reader cur else wal_reader crc s (b_id cur))).
    set (s' := mark_write_wal crc e_index s e (b_id cur) (4 + zlen (wb (b_live cur)))).
    destruct R as [R1 R2 R3 R4 R5 R6 (A&c&R7&R8&R9)].
    assert (HL : lives (done ++ [cur']) = lives (done ++ [cur]) ++ [e]) by (rewrite !lives_app, !lives_one, <- app_assoc; auto).
    change (e :: es1) with ([e] ++ es1) in HC. rewrite app_assoc, <- HL in HC.
    assert (R' : rst s' done cur' f rest).
    { constructor; auto.
      - unfold s'. pose proof (consecutive_app_l idx _ _ HC) as (i&I0&IU&IF). rewrite HL, lives_app, lives_one, <- app_assoc in IF, IU. apply from_app in IF as [_ IF].
        rewrite zlen_app in IU. pose proof (zlen_nonneg (lives done)). eapply (mark_metas s done cur e (i + zlen (lives done))); auto; lia.
      - destruct (cache_put (s_cache s) A c e R9) as (A'&c'&EA&CR&CL).
        { intros x Hx. pose proof (consecutive_app_l idx _ _ HC) as (i&I0&IU&IF). rewrite HL, R7 in IF. apply from_app in IF as [IF [IF2 _]].
          assert (Hx' : In x (A ++ c)) by (apply in_or_app; auto). pose proof (from_in idx _ _ _ IF Hx'). lia. }
        exists A', c'. rewrite HL, R7, <- app_assoc. conj; auto. rewrite CL, !app_length. rewrite R7, app_length in R8. cbn [length]. clear - R8. lia. }
    destruct (IH n s' done cur' f rest r1 es2 R' HG) as (s2&cur2&r2&E1&E2&E3&E4&E5&E6); auto.
    + cbn [cur' b_live]. rewrite wb_app, wb_one, zlen_app, Z.add_assoc. exact HS1.
    + apply (Forall_inv_tail HK).
    + apply (Forall_inv_tail HP).
    + intros _. cbn [cur' b_reader b_id]. destruct (nonempty cur) eqn:EN; auto. rewrite HR by (apply nonempty_true; auto). reflexivity.
    + exists s2, cur2, r2. conj; auto.
      * rewrite E4. cbn [cur' b_live]. rewrite <- app_assoc. auto.
Qed.
Lemma rec_end n s id apply r : (exists r', read_record crc (dir_get (s_dir s) id) r = Fail Eof r') -> recover_file crc e_index dec (S n) s id apply r = Some s.
Proof. intros (r'&H). cbn [recover_file]. rewrite H. auto. Qed.
Lemma rec_drop a es2 : forall n s done cur f rest r p, rst s done cur f rest -> scans (fun _ => True) r p es2 -> Forall coded es2 ->
  (forall e, In e es2 -> kept (Some a) e = false) -> 4 + zlen (wb (b_live cur)) <= p -> f <> [] -> no_footer crc f ->
  f = FILE_MAGIC ++ wb (b_live cur) ->
  exists s', recover_file crc e_index dec (length es2 + S n) s (b_id cur) (Some a) r = Some s' /\ rst s' done cur f rest.
Proof.
  induction es2 as [|e es2 IH]; intros n s done cur f rest r p R HS HK HP Hp HN HF Ef.
  - exists s. split; auto. apply rec_end. apply HS. auto.
  - cbn [scans] in HS. destruct (HS (dir_get (s_dir s) (b_id cur)) I) as (r1&RD&HS1). cbn [length Nat.add recover_file]. rewrite RD.
    cbn [rec_data rec_pos]. rewrite (decode_data e) by (apply (Forall_inv HK)). unfold recover_record.
    pose proof (HP e ltac:(left; auto)) as HE. cbn [kept] in HE. replace (_ >? a) with true by lia.
    destruct R as [R1 R2 R3 R4 R5 R6 R7]. pose proof (zlen_nonneg (wb (b_live cur))) as HZ.
    destruct (trunc_file s (dir_of done) (b_id cur) f (dir_of rest) p R1) as (s'&->&T2&T3&T4&T5&T6); auto; [apply (in_dir_of (fun i => i < b_id cur)); auto|apply (in_dir_of (fun i => b_id cur < i)); auto|lia|].
    assert (Lf : zlen f = 4 + zlen (wb (b_live cur))) by (rewrite Ef; apply zlen_file).
    replace (zlen f <=? p) with true in T2 by lia.
    eapply (IH n s' done cur f rest r1); eauto.
    + constructor; rewrite ?T5, ?T6; auto.
    + apply (Forall_inv_tail HK).
    + intros x Hx. apply HP. right. auto.
    + rewrite zlen_rbe. pose proof (zlen_nonneg (enc e)). lia.
Qed.
Lemma rec_drop1 a e es2 n s done cur f rest r : rst s done cur f rest -> scans (fun _ => True) r (4 + zlen (wb (b_live cur))) (e :: es2) -> Forall coded (e :: es2) ->
  (forall x, In x (e :: es2) -> kept (Some a) x = false) -> f = FILE_MAGIC ++ wb (b_live cur ++ e :: es2) -> no_footer crc f ->
  no_footer crc (FILE_MAGIC ++ wb (b_live cur)) ->
  exists s', recover_file crc e_index dec (length (e :: es2) + S n) s (b_id cur) (Some a) r = Some s' /\ rst s' done cur (FILE_MAGIC ++ wb (b_live cur)) rest.
Proof.
  intros R HS HK HP Ef HF HF2.
  cbn [scans] in HS. destruct (HS (dir_get (s_dir s) (b_id cur)) I) as (r1&RD&HS1). cbn [length Nat.add recover_file]. rewrite RD.
  cbn [rec_data rec_pos]. rewrite (decode_data e) by (apply (Forall_inv HK)). unfold recover_record.
  pose proof (HP e ltac:(left; auto)) as HE. cbn [kept] in HE. replace (_ >? a) with true by lia.
  destruct R as [R1 R2 R3 R4 R5 R6 R7]. pose proof (zlen_nonneg (wb (b_live cur))) as HZ.
  destruct (trunc_file s (dir_of done) (b_id cur) f (dir_of rest) (4 + zlen (wb (b_live cur))) R1) as (s'&->&T2&T3&T4&T5&T6); auto; [apply (in_dir_of (fun i => i < b_id cur)); auto|apply (in_dir_of (fun i => b_id cur < i)); auto|rewrite Ef; discriminate|lia|].
  pose proof (wb_nonempty (e :: es2) ltac:(discriminate)) as HW.
  assert (Lf : zlen f = 4 + zlen (wb (b_live cur)) + zlen (wb (e :: es2))) by (rewrite Ef, zlen_file, wb_app, zlen_app; lia).
  replace (zlen f <=? _) with false in T2 by lia.
  replace (slice f 0 _) with (FILE_MAGIC ++ wb (b_live cur)) in T2 by (rewrite Ef, wb_app, app_assoc; symmetry; rewrite <- (zlen_file (b_live cur)); apply slice_app_exact).
  eapply (rec_drop a es2 n s' done cur _ rest r1); eauto.
  - constructor; rewrite ?T5, ?T6; auto.
  - apply (Forall_inv_tail HK).
  - intros x Hx. apply HP. right. auto.
  - rewrite zlen_rbe. pose proof (zlen_nonneg (enc e)). lia.
  - discriminate.
Qed.
Lemma wal_fresh (s : store E) id f : dir_get (s_dir s) id = f -> no_footer crc f -> fresh f (wal_reader crc s id).
Proof.
  intros H HN. unfold wal_reader. rewrite H. destruct (id =? s_cur s); [reflexivity|]. unfold reader_open. apply no_footer_read in HN. rewrite HN. reflexivity.
Qed.
Lemma fresh_rinv f r p : fresh f r -> 4 <= p <= zlen f -> rinv (slice f 0 p) r.
Proof.
  intros -> Hp. apply rinv_truncate; [apply rinv_new; lia|]. cbn [r_pos r_use r_len]. lia.
Qed.
Lemma wb_long es : Z.of_nat (length es) <= zlen (wb es).
Proof.
  induction es as [|e es IH]; [apply Z.le_refl|]. change (e :: es) with ([e] ++ es). rewrite wb_app, wb_one, zlen_app, zlen_rbe, app_length. cbn [length].
  pose proof (zlen_nonneg (enc e)). lia.
Qed.
Lemma bytes_byte b : Forall coded (all b) -> Forall is_byte (bytes b).
Proof.
  intros H. unfold bytes. apply Forall_app. split; [repeat constructor; unfold is_byte; lia|].
  rewrite wb_cat. apply Forall_cat; auto. apply Forall_map. eapply Forall_impl; [|exact H]. intros. apply coded_fits. auto.
Qed.
Lemma rec_one apply s done b rest r0 i : rst s done (Blk (b_id b) [] [] r0) (bytes b) rest ->
  from i (all b) -> Forall coded (all b) -> consecutive idx (lives done ++ filter (kept apply) (all b)) ->
  (forall es1 es2, all b = es1 ++ es2 -> no_footer crc (FILE_MAGIC ++ wb es1)) ->
  (filter (kept apply) (all b) = all b \/ zlen (bytes b) <= 4 + READER_BUF_SIZE) ->
  exists s' cur, recover_file crc e_index dec (length (dir_get (s_dir s) (b_id b)) + 2) s (b_id b) apply (wal_reader crc s (b_id b)) = Some s' /\
    b_id cur = b_id b /\ b_dead cur = [] /\ b_live cur = filter (kept apply) (all b) /\ rst s' done cur (bytes cur) rest /\
    (b_live cur <> [] -> rinv (bytes cur) (b_reader cur)).
Proof.
  intros R HI HK HC HNF HZ. pose proof (rst_get _ _ _ _ _ R) as HG. cbn [b_id] in HG.
  pose proof (HNF (all b) [] ltac:(rewrite app_nil_r; auto)) as HN. fold (bytes b) in HN.
  pose proof (wal_fresh s (b_id b) (bytes b) HG HN) as HFR.
  destruct (keep_split apply i (all b) HI) as (es2&HS&HD). set (es1 := filter (kept apply) (all b)) in *.
  assert (HP1 : Forall (fun e => kept apply e = true) es1) by (apply Forall_forall; intros e He; apply filter_In in He; tauto).
  assert (HK12 : Forall coded es1 /\ Forall coded es2) by (rewrite HS in HK; apply Forall_app in HK; auto). destruct HK12 as [HK1 HK2].
  pose proof (bytes_byte b HK) as HB.
  assert (SC : exists r1, recover_file crc e_index dec (length (bytes b) + 2) s (b_id b) apply (wal_reader crc s (b_id b)) =
                          recover_file crc e_index dec (length (bytes b) + 2) s (b_id b) apply r1 /\
     scans (eq (bytes b)) r1 4 (es1 ++ es2) /\ (es2 <> [] -> scans (fun _ => True) r1 4 (es1 ++ es2))).
  { destruct es2 as [|e0 es2].
    - exists (wal_reader crc s (b_id b)). split; auto. split; [|congruence]. rewrite app_nil_r in HS. rewrite app_nil_r, <- HS.
      change 4 with (zlen FILE_MAGIC). apply scans_eq; auto; rewrite HFR; cbn [r_pos r_footer_pos]; auto. apply reader_new_inv. rewrite zlen_bytes. pose proof (zlen_nonneg (wb (all b))). lia.
    - destruct HZ as [HZ|HZ]. { exfalso. rewrite HZ in HS. rewrite <- (app_nil_r (all b)) in HS at 1. apply app_inv_head in HS. discriminate. }
      assert (L : 18 < zlen (bytes b)). { rewrite zlen_bytes, HS, wb_app, zlen_app. pose proof (zlen_nonneg (wb es1)). change (e0 :: es2) with ([e0] ++ es2). rewrite wb_app, wb_one, zlen_app, zlen_rbe.
        pose proof (zlen_nonneg (enc e0)). pose proof (zlen_nonneg (wb es2)). lia. }
      destruct (fresh_load _ _ HFR (conj L HZ)) as (E1&E2&E3&E4). exists (load_buf (bytes b) (wal_reader crc s (b_id b))).
      assert (S : scans (fun _ => True) (load_buf (bytes b) (wal_reader crc s (b_id b))) 4 (es1 ++ e0 :: es2)).
      { change 4 with (zlen FILE_MAGIC). rewrite <- HS. apply (scans_cov (bytes b)); auto. }
      split; [|split; auto; apply (scans_weaken (fun _ => True)); [intros; exact I|exact S]].
      rewrite !Nat.add_succ_r. cbn [recover_file]. rewrite HG, E1. reflexivity. }
  rewrite HG. destruct SC as (r1&->&S1&S2). clear HZ.
  assert (HFU : exists n, (length (bytes b) + 2)%nat = (length es1 + (length es2 + S n))%nat).
  { pose proof (wb_long (all b)). pose proof (zlen_bytes b). unfold zlen in *. rewrite HS, app_length in H. exists (length (bytes b) + 1 - length es1 - length es2)%nat. rewrite HS in *. lia. }
  destruct HFU as (n&->).
  destruct es2 as [|e0 es2].
  - destruct (rec_keep (eq (bytes b)) apply es1 (S n) s done _ (bytes b) rest r1 [] R eq_refl S1) as (s'&cur&r'&E1&E2&E3&E4&E5&E6); auto.
    + rewrite lives_app, lives_one. cbn [b_live]. rewrite app_nil_r. auto.
    + cbn [b_live]. congruence.
    + cbn [b_id b_live app] in *. pose proof (rs_dead _ _ _ _ _ E2) as E7. assert (EB : bytes cur = bytes b). { unfold bytes. f_equal. f_equal. unfold all at 1. rewrite E7, E4, HS, app_nil_r. auto. }
      exists s', cur. conj; auto.
      * cbn [length Nat.add]. rewrite E1. apply rec_end. pose proof (rst_get _ _ _ _ _ E2) as X. rewrite E3 in X. rewrite X. apply E6. auto.
      * rewrite EB. auto.
      * intros X. rewrite E5 by auto. rewrite EB. rewrite <- (slice_all (bytes b) (zlen (bytes b))) by lia. apply fresh_rinv; auto. rewrite zlen_bytes. pose proof (zlen_nonneg (wb (all b))). lia.
  - specialize (S2 ltac:(discriminate)). destruct apply as [a|]; [|specialize (HD e0 ltac:(left; auto)); discriminate].
    destruct (rec_keep (fun _ => True) (Some a) es1 (length (e0 :: es2) + S n) s done _ (bytes b) rest r1 (e0 :: es2) R I S2) as (s'&cur&r'&E1&E2&E3&E4&E5&E6); auto.
    + rewrite lives_app, lives_one. cbn [b_live]. rewrite app_nil_r. auto.
    + cbn [b_live]. congruence.
    + cbn [b_id b_live app] in *. pose proof (rs_dead _ _ _ _ _ E2) as E7. assert (EB : bytes cur = FILE_MAGIC ++ wb (b_live cur)). { unfold bytes, all. rewrite E7. auto. }
      destruct (rec_drop1 a e0 es2 n s' done cur (bytes b) rest r' E2 E6 HK2 HD) as (s2&F1&F2); auto.
      * rewrite E4, <- HS. auto.
      * rewrite E4. apply (HNF es1 (e0 :: es2)); auto.
      * exists s2, cur. rewrite E1, <- E3, F1. conj; auto; [rewrite EB; auto|]. intros X. rewrite E5 by auto.
        rewrite EB, E4. pose proof (zlen_nonneg (wb es1)). pose proof (zlen_nonneg (wb (e0 :: es2))).
        replace (FILE_MAGIC ++ wb es1) with (slice (bytes b) 0 (4 + zlen (wb es1))) by (unfold bytes; rewrite HS, wb_app, app_assoc; rewrite <- (zlen_file es1); apply slice_app_exact).
        apply fresh_rinv; auto. rewrite zlen_bytes, HS, wb_app, zlen_app. lia.
Qed.
Definition cached_tail (s : store E) (l : list E) : Prop :=
  exists A c, l = A ++ c /\ length c = Nat.min 256 (length l) /\ crep 256 (s_cache s) (ce c).
Definition settled (b : blk) : Prop := b_dead b = [] /\ (b_live b <> [] -> rinv (bytes b) (b_reader b)).
Lemma rec_files apply rest : forall s done i, s_dir s = dir_of (done ++ rest) -> tip s -> s_metas s = metas_of done ->
  StronglySorted Z.lt (map b_id (done ++ rest)) -> cached_tail s (lives done) -> from i (alls rest) -> Forall coded (alls rest) ->
  consecutive idx (lives done ++ filter (kept apply) (alls rest)) ->
  (forall b es1 es2, In b rest -> all b = es1 ++ es2 -> no_footer crc (FILE_MAGIC ++ wb es1)) ->
  (forall b, In b rest -> filter (kept apply) (all b) = all b \/ zlen (bytes b) <= 4 + READER_BUF_SIZE) ->
  exists s' done', recover_files crc e_index dec s (map b_id rest) apply = Some s' /\ s_dir s' = dir_of (done ++ done') /\ tip s' /\
    s_metas s' = metas_of (done ++ done') /\ map b_id done' = map b_id rest /\ Forall settled done' /\
    lives done' = filter (kept apply) (alls rest) /\ cached_tail s' (lives (done ++ done')).
Proof.
  induction rest as [|b rest IH]; intros s done i HD HT HM HS HC HF HK HCC HNF HZ.
  - exists s, []. rewrite !app_nil_r in *. conj; auto.
  - cbn [alls flat_map] in HF, HK, HCC. fold (alls rest) in HF, HK, HCC. rewrite filter_app in HCC. apply from_app in HF as [HF1 HF2]. apply Forall_app in HK as [HK1 HK2].
    assert (L0 : lives (done ++ [Blk (b_id b) [] [] (b_reader b)]) = lives done) by (rewrite lives_app, lives_one; cbn [b_live]; apply app_nil_r).
    assert (SRT : (forall x, In x done -> b_id x < b_id b) /\ (forall x, In x rest -> b_id b < b_id x)).
    { rewrite map_app in HS. cbn [map] in HS. clear - HS. induction done as [|d done IH]; cbn [map app] in HS.
      - split; [intros x []|]. inversion HS as [|? ? H1 H2]; subst. intros x Hx. rewrite Forall_forall in H2. apply H2. apply in_map. auto.
      - inversion HS as [|? ? H1 H2]; subst. destruct (IH H1) as [I1 I2]. split; auto. intros x [<-|Hx]; auto. rewrite Forall_forall in H2. apply H2. apply in_or_app. right. left. auto. }
    destruct SRT as [SR1 SR2].
    assert (R : rst s done (Blk (b_id b) [] [] (b_reader b)) (bytes b) rest).
    { constructor; auto.
      - rewrite HD, dir_of_app. auto.
      - rewrite HM, metas_of_app, metas_one_nil by auto. rewrite app_nil_r. auto.
      - rewrite L0. exact HC. }
    destruct (rec_one apply s done b rest (b_reader b) i R) as (s'&cur&E1&E2&E3&E4&E5&E6); auto.
    + rewrite app_assoc in HCC. apply (consecutive_app_l idx _ _ HCC).
    + intros es1 es2. apply HNF. left. auto.
    + apply HZ. left. auto.
    + cbn [map recover_files]. rewrite E1.
      destruct E5 as [R1 R2 R3 R4 R5 R6 R7].
      destruct (IH s' (done ++ [cur]) (i + zlen (all b))) as (s2&done'&F1&F2&F3&F4&F5&F6&F7&F8); auto.
      * rewrite <- app_assoc, dir_of_app. auto.
      * rewrite <- app_assoc. rewrite map_app in *. cbn [map app] in *. rewrite E2. auto.
      * rewrite lives_app, lives_one, E4, <- app_assoc. auto.
      * intros x es1 es2 Hx. apply HNF. right. auto.
      * intros x Hx. apply HZ. right. auto.
      * exists s2, (cur :: done'). rewrite <- !app_assoc in *. cbn [app] in *. conj; auto.
        -- cbn [map]. rewrite E2, F5. auto.
        -- constructor; auto. split; auto.
        -- cbn [lives alls flat_map]. fold (lives done') (alls rest). rewrite E4, F7, filter_app. auto.
Qed.
Lemma all_kept l apply : (forall e, In e l -> kept apply e = true) -> filter (kept apply) l = l.
Proof. induction l as [|x l IH]; intros H; cbn [filter]; auto. rewrite (H x) by (left; auto). f_equal. apply IH. intros. apply H. right. auto. Qed.
Lemma restart_ok s L apply : Inv s L -> footers_ok s -> op_ok e_index e_type enc dec s (ORestart apply) ->
  exists s' pre old, recover crc e_index dec (s_dir s) apply = Some s' /\ l_purged L = pre ++ old /\
    Inv s' (Log pre (keep e_index apply (old ++ l_entries L)) (Nat.min 256 (length (keep e_index apply (old ++ l_entries L))))).
Proof.
  intros (bs&b&pre&c&HB&HD&HU&HS&HM&HP&HE&HA&HL&HR) HFO HOP. set (B := bs ++ [b]) in *.
  assert (Hb : In b B) by (apply in_or_app; right; left; auto).
  unfold recover, store_new. rewrite HD. unfold B. rewrite reopen; auto.
  2:{ eapply (footer_block s B b (all b) []); eauto. rewrite app_nil_r. auto. }
  fold B. cbn [s_dir]. destruct HB as [B1 B2 B3 B4 B5 B6].
  pose proof B4 as (i&I0&IU&IF). pose proof (alls_split B B3) as HAL.
  replace (map fst (dir_of B)) with (map b_id B) by (unfold dir_of; rewrite map_map; auto).
  destruct (rec_files apply B (Store (dir_of B) (b_id b) (zlen (bytes b)) [] (kc_new 256)) [] i) as (s'&done&E1&E2&E3&E4&E5&E6&E7&E8); auto.
  - exists (dir_of bs), (bytes b). cbn [s_dir s_cur s_size]. unfold B. rewrite dir_of_app. auto.
  - exists [], []. cbn [s_cache lives flat_map]. conj; auto. destruct (@run_crep E 256 [] ltac:(lia)) as (c0&Ec&CR). cbn in Ec. injection Ec as <-. exact CR.
  - cbn [lives flat_map app]. destruct (keep_split apply i (alls B) IF) as (l2&HS2&_). exists i. rewrite HS2 in IF, IU. apply from_app in IF as [IF _]. rewrite zlen_app in IU.
    pose proof (zlen_nonneg l2). conj; auto. lia.
  - intros x es1 es2 Hx HX. eapply (footer_block s B x); eauto.
  - intros x Hx. destruct apply as [a|]; [|left; apply all_kept; auto]. destruct HOP as [Ha [HX|HX]].
    + left. apply all_kept. intros e He. cbn [kept]. rewrite (max_seq s B) in HX by auto.
      assert (HI : In e (alls B)) by (apply in_flat_map; eauto). destruct (lives B) as [|y l] eqn:EL.
      * pose proof (from_in idx _ _ _ IF HI). unfold WalSpec.last_index in HX. cbn [last_of rev] in HX. lia.
      * rewrite HAL in IF, IU, HI. assert (last_index (y :: l) = i + zlen (deads B ++ y :: l) - 1).
        { rewrite <- (last_index_app idx (deads B)) by discriminate. apply (from_last idx i); auto. intros X. apply app_eq_nil in X as [_ X]. discriminate. }
        pose proof (from_in idx _ _ _ IF HI). lia.
    + right. apply (HX (b_id x)). rewrite HD. unfold dir_of. apply in_map_iff. eauto.
  - rewrite E1. cbn [app] in *. assert (HNE : exists bs' b', done = bs' ++ [b']).
    { destruct done as [|b' bs' _] using rev_ind; eauto. exfalso. unfold B in E5. rewrite map_app in E5. cbn [map] in E5. destruct (map b_id bs); discriminate. }
    destruct HNE as (bs'&b'&->).
    assert (SD : Forall (fun b => b_dead b = []) (bs' ++ [b'])) by (eapply Forall_impl; [|exact E6]; intros x [H _]; auto).
    rewrite <- (alls_nodead _ SD) in E7. rewrite HAL in E7.
    assert (HI : Inv s' (Log pre (filter (kept apply) (deads B ++ l_entries L)) (Nat.min 256 (length (filter (kept apply) (deads B ++ l_entries L)))))).
    { rewrite HE. destruct E3 as (d&f&T1&T2). rewrite E2, dir_of_app in T1. cbn [dir_of map] in T1. apply app_inj_tail in T1 as [T1 T3]. injection T3 as T3 T4.
      destruct E8 as (A&c'&C1&C2&C3). exists bs', b', pre, c'. cbn [l_purged l_entries l_cached]. conj; auto.
      - constructor; auto.
        + rewrite E5. auto.
        + clear - B2 E5. revert E5 B2. generalize B. induction (bs' ++ [b']) as [|x l IH]; intros l' EQ H; [constructor|]. destruct l' as [|y l']; [discriminate|]. cbn [map] in EQ. injection EQ as EQ1 EQ2.
          inversion H; subst. constructor; [rewrite EQ1; auto|]. eapply IH; eauto.
        + clear - SD. induction SD; cbn [shape]; auto.
        + rewrite E7, <- HAL. destruct (keep_split apply i (alls B) IF) as (l2&HS2&_). exists i. rewrite HS2 in IF, IU. apply from_app in IF as [IF _]. rewrite zlen_app in IU.
          pose proof (zlen_nonneg l2). conj; auto. lia.
        + rewrite E7, <- HAL. apply incl_Forall with (l1 := alls B); auto. intros x Hx. apply filter_In in Hx. tauto.
        + eapply Forall_impl; [|exact E6]. intros x [_ H]. auto.
      - rewrite T2, <- T4. auto.
      - rewrite (deads_nil _ SD), app_nil_r. auto.
      - rewrite <- E7. apply alls_nodead. auto.
      - exists A. rewrite <- C1, <- E7. apply alls_nodead. auto.
      - rewrite C2, <- E7. rewrite alls_nodead; auto. }
    destruct apply as [a|]; [|exists s', pre, (deads B); rewrite keep_filter; conj; auto].
    exists s', pre, (deads B). rewrite keep_filter. conj; auto. unfold mark_delete_after.
    rewrite (max_seq s' (bs' ++ [b'])) by auto. rewrite <- (alls_nodead _ SD), E7. set (K := filter (kept (Some a)) (deads B ++ lives B)).
    destruct K as [|y l] eqn:EK; [rewrite orb_true_r; auto|]. replace (last_index (y :: l) <? a + 1) with true; auto. symmetry. apply Z.ltb_lt.
    unfold WalSpec.last_index, last_of. assert (HIN : forall e, In e (y :: l) -> idx e <= a). { rewrite <- EK. intros e He. apply filter_In in He as [_ He]. cbn [kept] in He. lia. }
    destruct (rev (y :: l)) as [|z l0] eqn:ER. { apply (f_equal (@length E)) in ER. rewrite rev_length in ER. discriminate. }
    enough (idx z <= a) by lia. apply HIN. apply in_rev. rewrite ER. left. auto.
Qed.

(** *** Every operation *)
Lemma max_seq_inv s L : Inv s L -> max_sequence s = last_index (l_entries L) /\ min_sequence s = first_index (l_entries L) /\ consecutive idx (l_entries L).
Proof.
  intros (bs&b&pre&c&HB&HD&HU&HS&HM&HP&HE&HA&HL&HR). rewrite HE. split; [apply max_seq; auto|]. split; [apply min_seq; auto|].
  destruct HB as [B1 B2 B3 B4 B5 B6]. rewrite (alls_split _ B3) in B4. apply (consecutive_app_r idx _ _ B4).
Qed.
Lemma sim s L o : Inv s L -> op_ok e_index e_type enc dec s o -> footers_ok s ->
  exists a s' L', step crc e_index e_type enc dec max_size s o = Some (a, s') /\ spec_step e_index L o a L' /\ Inv s' L'.
Proof.
  intros HI HO HF. destruct (max_seq_inv s L HI) as (MX&MN&HC). destruct L as [p l n]. cbn [l_entries] in *. destruct o as [es|k|k|k|a b| | |ap]; cbn [step].
  - destruct HO as (H1&H2&H3). destruct (append_ok es s _ HI H1 H2) as (s'&E1&E2).
    + cbn [l_entries]. rewrite <- MX. destruct H3 as [H3|H3]; auto. left. rewrite MX in H3. destruct l as [|x l0]; auto. exfalso.
      destruct HC as (i&I0&IU&IF). rewrite (from_last idx i) in H3 by (auto; discriminate). lia.
    + rewrite E1. do 3 eexists. split; [reflexivity|]. split; [constructor|exact E2].
  - destruct (del_before_ok s _ k HI HO HF) as (s'&E1&E2). rewrite E1. do 3 eexists. split; [reflexivity|]. split; [constructor|exact E2].
  - destruct HO as [H1 H2]. destruct (del_after_ok s _ k HI H1 H2 HF) as (s'&E1&E2). rewrite E1. do 3 eexists. split; [reflexivity|]. split; [constructor|exact E2].
  - destruct (read_entry_ok s _ k HI) as (s'&E1&E2). rewrite E1. cbn [l_entries] in *. exists (AEntry (find (fun e => idx e =? k) l)), s', (Log p l n).
    split; [destruct (find _ l); reflexivity|]. split; [constructor|exact E2].
  - destruct (read_entries_ok s _ a b HI) as (s'&E1&E2). rewrite E1. do 3 eexists. split; [reflexivity|]. split; [constructor|exact E2].
  - rewrite (last_ok s _ HI). do 3 eexists. split; [reflexivity|]. split; [constructor|exact HI].
  - rewrite MX, MN. do 3 eexists. split; [reflexivity|]. split; [constructor|exact HI].
  - destruct (restart_ok s _ ap HI HF HO) as (s'&pre&old&E1&E2&E3). rewrite E1. cbn [l_purged l_entries] in *. subst p. do 3 eexists. split; [reflexivity|]. split; [constructor|exact E3].
Qed.
Lemma run_inv s tr s' : runs crc e_index e_type enc dec max_size s tr s' -> forall L, Inv s L -> exists L', spec_run e_index L tr L' /\ Inv s' L'.
Proof.
  induction 1 as [s|s o a s1 tr s2 HO HF HS _ IH]; intros L HI.
  - exists L. split; auto. constructor.
  - destruct (sim s L o HI HO HF) as (a'&s1'&L'&E1&E2&E3). rewrite HS in E1. injection E1 as <- <-. destruct (IH L' E3) as (L2&F1&F2).
    exists L2. split; auto. econstructor; eauto.
Qed.
Lemma runs_app s tr1 s1 tr2 s2 : runs crc e_index e_type enc dec max_size s tr1 s1 -> runs crc e_index e_type enc dec max_size s1 tr2 s2 ->
  runs crc e_index e_type enc dec max_size s (tr1 ++ tr2) s2.
Proof. induction 1; cbn [app]; auto. intros. econstructor; eauto. Qed.
End Blocks.
