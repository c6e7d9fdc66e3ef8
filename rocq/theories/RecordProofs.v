(** Proofs about record files. *)
From Verif Require Import Prelude Bytes RecordModel RecordSpec.

(** ** Footers *)
Lemma no_footer_read crc f : no_footer crc f <-> read_footer crc f = None.
Proof.
  unfold no_footer, read_footer, crc_source_len, FOOTER_LEN. cbv zeta. destruct (Z.ltb_spec (zlen f) (4 + 32)); [split; [auto|intros; left; lia]|].
  replace (zlen f - 32 + 4) with (zlen f - 28) by lia.
  replace (if zlen f >? 4 + 1024 + 32 then 1024 else zlen f - (4 + 32)) with (Z.min 1024 (zlen f - 36)) by (destruct (Z.gtb_spec (zlen f) (4 + 1024 + 32)); lia).
  destruct (Z.eqb_spec (crc (slice f 4 (Z.min 1024 (zlen f - 36)))) (of_be (slice f (zlen f - 28) 4))) as [E|E]; split; auto; [intros [L|N]; [lia|contradiction]|discriminate].
Qed.

(** ** Slices *)
Lemma zlen_nonneg {A} (l : list A) : 0 <= zlen l. Proof. unfold zlen; lia. Qed.
Lemma zlen_app {A} (a b : list A) : zlen (a ++ b) = zlen a + zlen b.
Proof. unfold zlen. rewrite app_length. lia. Qed.
Lemma zlen_nil {A} : zlen (@nil A) = 0. Proof. reflexivity. Qed.
Lemma zlen_cons {A} (x : A) l : zlen (x :: l) = 1 + zlen l.
Proof. unfold zlen. cbn [length]. lia. Qed.
Ltac zl := rewrite ?zlen_app, ?zlen_cons, ?zlen_nil in *.
Lemma slice_spec l p n : 0 <= p -> 0 <= n -> slice l p n = firstn (Z.to_nat n) (skipn (Z.to_nat p) l).
Proof.
  intros Hp Hn. unfold slice, zlen.
  replace (skipn (Z.to_nat (Z.min p (Z.of_nat (length l)))) l) with (skipn (Z.to_nat p) l).
  2: { destruct (Z.le_gt_cases p (Z.of_nat (length l))); [f_equal; lia|]. rewrite !skipn_all2; auto; lia. }
  destruct (Z.le_gt_cases n (Z.of_nat (length l))).
  - f_equal; lia.
  - rewrite !firstn_all2; auto; rewrite skipn_length; lia.
Qed.
Lemma zlen_slice l p n : 0 <= p -> 0 <= n -> zlen (slice l p n) = Z.max 0 (Z.min n (zlen l - p)).
Proof. intros. rewrite slice_spec by auto. unfold zlen. rewrite firstn_length, skipn_length. lia. Qed.
Lemma slice_app_r a b p n : zlen a <= p -> 0 <= n -> slice (a ++ b) p n = slice b (p - zlen a) n.
Proof.
  intros Hp Hn. pose proof (zlen_nonneg a). rewrite !slice_spec by lia. rewrite skipn_app. unfold zlen in *.
  rewrite skipn_all2 by lia. cbn [app]. f_equal. f_equal; lia.
Qed.
Lemma slice_app_l a b p n : 0 <= p -> 0 <= n -> p + n <= zlen a -> slice (a ++ b) p n = slice a p n.
Proof.
  intros Hp Hn H. rewrite !slice_spec by lia. unfold zlen in *. rewrite skipn_app, firstn_app.
  rewrite skipn_length. replace (Z.to_nat n - (length a - Z.to_nat p))%nat with 0%nat by lia.
  rewrite firstn_O. apply app_nil_r.
Qed.
Lemma slice_all l n : zlen l <= n -> slice l 0 n = l.
Proof. intros H. pose proof (zlen_nonneg l). rewrite slice_spec by lia. apply firstn_all2. unfold zlen in *. lia. Qed.
Lemma slice_app_exact a b : slice (a ++ b) 0 (zlen a) = a.
Proof. pose proof (zlen_nonneg a). rewrite slice_app_l by lia. apply slice_all. lia. Qed.
Lemma skipn_skipn_add {A} a b (l : list A) : skipn a (skipn b l) = skipn (b + a) l.
Proof. revert l. induction b; intros [|x l]; cbn; auto. destruct a; reflexivity. Qed.
Lemma slice_slice l p n q m : 0 <= p -> 0 <= q -> 0 <= m -> q + m <= n -> slice (slice l p n) q m = slice l (p + q) m.
Proof.
  intros Hp Hq Hm H. rewrite !slice_spec by lia. rewrite skipn_firstn_comm, firstn_firstn.
  rewrite skipn_skipn_add. f_equal; [lia|f_equal; lia].
Qed.
Lemma slice_short l p n : 0 <= p -> 0 <= n -> slice l p n = slice l p (Z.max 0 (Z.min n (zlen l - p))).
Proof.
  intros. rewrite !slice_spec by lia. unfold zlen. destruct (Z.le_gt_cases n (Z.of_nat (length l) - p)).
  - f_equal; lia.
  - rewrite !firstn_all2; auto; rewrite skipn_length; lia.
Qed.
Lemma slice_cons l p n : 0 <= p < zlen l -> 0 < n -> slice l p n = nth (Z.to_nat p) l 0 :: slice l (p + 1) (n - 1).
Proof.
  intros Hp Hn. rewrite !slice_spec by lia. unfold zlen in *.
  replace (Z.to_nat n) with (S (Z.to_nat (n - 1))) by lia. replace (Z.to_nat (p + 1)) with (S (Z.to_nat p)) by lia.
  assert (E : (Z.to_nat p < length l)%nat) by lia. revert E. generalize (Z.to_nat p) as k, (Z.to_nat (n - 1)) as m.
  clear. intros k m. revert l. induction k; intros [|x l] H; cbn in H; try lia; cbn; auto.
  rewrite <- IHk by lia. reflexivity.
Qed.
Lemma slice_nil l p : 0 <= p -> slice l p 0 = [].
Proof. intros. rewrite slice_spec by lia. reflexivity. Qed.
Lemma slice_firstn l p n k : 0 <= p -> 0 <= n -> p + n <= Z.of_nat k -> slice (firstn k l) p n = slice l p n.
Proof.
  intros Hp Hn H. rewrite !slice_spec by lia. rewrite skipn_firstn_comm, firstn_firstn. f_equal; lia.
Qed.
Lemma firstn_slice l n : 0 <= n -> firstn (Z.to_nat n) l = slice l 0 n.
Proof. intros. rewrite slice_spec by lia. reflexivity. Qed.

(** ** The buffered reader sees the file *)
Record inv (f : list Z) (r : reader) : Prop := Inv {
  i_use : 0 <= r_use r <= r_len r; i_base : r_use r <= r_pos r; i_pos : r_pos r <= zlen f;
  i_end : r_pos r - r_use r + r_len r <= zlen f; i_buf : r_len r <= zlen (r_buf r);
  i_data : slice (r_buf r) 0 (r_len r) = slice f (r_pos r - r_use r) (r_len r);
  i_cap : 0 <= r_cap r; i_flen : r_flen r = zlen f }.

Lemma load_buf_inv f r : 0 <= r_pos r <= zlen f -> 0 <= r_cap r -> r_flen r = zlen f ->
  inv f (load_buf f r) /\ r_len (load_buf f r) = Z.min (r_cap r) (zlen f - r_pos r).
Proof.
  intros Hp Hc Hf. assert (L : zlen (slice f (r_pos r) (r_cap r)) = Z.min (r_cap r) (zlen f - r_pos r)).
  { rewrite zlen_slice by lia. lia. }
  split; [|exact L]. unfold load_buf. constructor; cbn [r_use r_len r_pos r_buf r_cap r_flen]; rewrite ?L; try lia.
  - rewrite zlen_app, L. pose proof (zlen_nonneg (skipn (length (slice f (r_pos r) (r_cap r))) (r_buf r))). lia.
  - rewrite <- L at 1. rewrite slice_app_exact. rewrite (slice_short f (r_pos r) (r_cap r)) by lia. f_equal; lia.
Qed.

Lemma fill_inv f r size : inv f r -> 0 <= size ->
  inv f (fill f r size) /\ r_pos (fill f r size) = r_pos r /\ r_footer_pos (fill f r size) = r_footer_pos r
  /\ Z.min size (zlen f - r_pos r) <= r_len (fill f r size) - r_use (fill f r size).
Proof.
  intros I Hs. unfold fill.
  set (r1 := if r_cap r <? size then _ else _).
  assert (H1 : inv f r1 /\ r_pos r1 = r_pos r /\ r_footer_pos r1 = r_footer_pos r /\ size <= r_cap r1).
  { unfold r1. destruct (r_cap r <? size) eqn:E; [|split; [exact I|split; [reflexivity|split; [reflexivity|lia]]]].
    destruct I. split; [constructor; cbn; auto; lia|]. cbn. split; [reflexivity|split; [reflexivity|lia]]. }
  destruct H1 as (I1 & P1 & F1 & C1). clearbody r1.
  destruct (r_len r1 - r_use r1 <? size) eqn:E.
  - destruct I1. destruct (load_buf_inv f r1) as [L1 L2]; try lia.
    split; [exact L1|]. split; [exact P1|]. split; [exact F1|]. rewrite L2. cbn [load_buf r_use]. lia.
  - split; [exact I1|]. split; [exact P1|]. split; [exact F1|]. lia.
Qed.

Lemma got_slice f r size : inv f r -> 0 <= size -> Z.min size (zlen f - r_pos r) <= r_len r - r_use r ->
  got r size = slice f (r_pos r) size.
Proof.
  intros I Hs Hl. destruct I. unfold got.
  set (n := Z.min (r_use r + size) (r_len r) - r_use r).
  assert (Hn : 0 <= n <= r_len r - r_use r) by (unfold n; lia).
  replace (slice (r_buf r) (r_use r) n) with (slice (slice (r_buf r) 0 (r_len r)) (r_use r) n).
  2: { rewrite slice_slice by lia. f_equal; lia. }
  rewrite i_data0, slice_slice by lia. replace (r_pos r - r_use r + r_use r) with (r_pos r) by lia.
  destruct (Z.le_gt_cases (r_use r + size) (r_len r)).
  - f_equal; unfold n; lia.
  - rewrite (slice_short f _ size) by lia. f_equal; unfold n; lia.
Qed.
Lemma fill_got f r size : inv f r -> 0 <= size -> got (fill f r size) size = slice f (r_pos r) size.
Proof.
  intros I Hs. destruct (fill_inv f r size I Hs) as (I1 & P1 & _ & L1). rewrite <- P1 in *. apply got_slice; auto.
Qed.

Lemma set_pos_ok f r p : inv f r -> 0 <= p <= zlen f ->
  exists r', set_pos f r p = Good tt r' /\ inv f r' /\ r_pos r' = p /\ r_footer_pos r' = r_footer_pos r.
Proof.
  intros I Hp. pose proof I as I'. destruct I'. unfold set_pos.
  destruct (_ =? _) eqn:E1.
  { eexists. split; [reflexivity|]. split; [|split; reflexivity]. constructor; cbn; try lia.
    rewrite i_data0. f_equal; lia. }
  replace (p >? r_flen r) with false by lia.
  destruct (r_pos r >? p) eqn:E2; [destruct (r_use r >? r_pos r - p) eqn:E3|].
  - eexists. split; [reflexivity|]. split; [|split; reflexivity]. constructor; cbn; try lia.
    rewrite i_data0. f_equal; lia.
  - eexists. split; [reflexivity|]. split; [|split; reflexivity]. apply load_buf_inv; cbn; auto; lia.
  - destruct (r_pos r <? p) eqn:E4; [destruct (r_len r - r_use r >? p - r_pos r) eqn:E5|].
    + eexists. split; [reflexivity|]. split; [|split; reflexivity]. constructor; cbn; try lia.
      rewrite i_data0. f_equal; lia.
    + eexists. split; [reflexivity|]. split; [|split; reflexivity]. apply load_buf_inv; cbn; auto; lia.
    + eexists. split; [reflexivity|]. split; [exact I|]. split; [lia|reflexivity].
Qed.
Lemma set_pos_eof f r p : inv f r -> zlen f < p -> set_pos f r p = Fail Eof r.
Proof.
  intros I Hp. destruct I. unfold set_pos. replace (_ =? p) with false by lia. replace (p >? r_flen r) with true by lia. reflexivity.
Qed.

Lemma slice_app_zeros b p : 0 <= p -> p + 4 <= zlen b -> slice (b ++ repeat 0 4) p 4 = slice b p 4.
Proof. intros. apply slice_app_l; lia. Qed.
Lemma buf_slice f r n : inv f r -> 0 <= n <= r_len r - r_use r -> slice (r_buf r) (r_use r) n = slice f (r_pos r) n.
Proof.
  intros I Hn. destruct I.
  replace (slice (r_buf r) (r_use r) n) with (slice (slice (r_buf r) 0 (r_len r)) (r_use r) n).
  2: { rewrite slice_slice by lia. f_equal; lia. }
  rewrite i_data0, slice_slice by lia. f_equal; lia.
Qed.
Lemma peek4_full f r : inv f r -> r_pos r + 4 <= zlen f -> peek4 (fill f r 4) = slice f (r_pos r) 4.
Proof.
  intros I H. destruct (fill_inv f r 4 I ltac:(lia)) as (I1 & P1 & _ & L1). unfold peek4.
  pose proof (i_buf _ _ I1). pose proof (i_use _ _ I1). rewrite slice_app_l by lia. rewrite <- P1. apply buf_slice; auto; lia.
Qed.
Lemma peek4_head f r : inv f r -> r_pos r < zlen f ->
  hd 0 (peek4 (fill f r 4)) = nth (Z.to_nat (r_pos r)) f 0.
Proof.
  intros I H. destruct (fill_inv f r 4 I ltac:(lia)) as (I1 & P1 & _ & L1). unfold peek4.
  pose proof (i_buf _ _ I1). pose proof (i_use _ _ I1). pose proof (i_base _ _ I1).
  assert (E : slice (r_buf (fill f r 4)) (r_use (fill f r 4)) 1 = slice f (r_pos r) 1).
  { rewrite <- P1. apply buf_slice; auto; lia. }
  rewrite (slice_cons (r_buf _) _ 1), (slice_cons f _ 1) in E by lia. rewrite slice_cons by (zl; change (zlen (repeat 0 4)) with 4; lia). injection E as E _.
  cbn [hd]. rewrite app_nth1 by (unfold zlen in *; lia). exact E.
Qed.

(** ** Scanning for a header *)
Lemma find_hit f q : q + HEADER_LEN <= zlen f -> slice f q 4 = RECORD_MAGIC ->
  forall d fuel r, inv f r -> r_pos r = q - Z.of_nat d -> (d < fuel)%nat ->
  (forall x, r_pos r <= x < q -> slice f x 4 <> RECORD_MAGIC) ->
  exists r', find_record_header fuel f r = Good (q, slice f q HEADER_LEN) r' /\ inv f r' /\ r_pos r' = q
    /\ r_footer_pos r' = r_footer_pos r.
Proof.
  intros Hq Hm. unfold HEADER_LEN in *. induction d as [|d IH]; intros [|n] r I Hd Hf Hno; try lia; cbn [find_record_header].
  all: pose proof (i_use _ _ I); pose proof (i_base _ _ I).
  all: destruct (fill_inv f r 4 I ltac:(lia)) as (I1 & P1 & F1 & _); rewrite peek4_full by (auto; lia).
  - replace (r_pos r) with q by lia. rewrite Hm. destruct (list_eq_dec _ _ _); [|congruence].
    destruct (fill_inv f _ 14 I1 ltac:(lia)) as (I2 & P2 & F2 & _).
    exists (fill f (fill f r 4) 14). unfold HEADER_LEN. rewrite fill_got by (auto; lia). rewrite P2, P1.
    replace (r_pos r) with q by lia. split; [reflexivity|]. split; [exact I2|]. split; [lia|congruence].
  - destruct (list_eq_dec _ _ _) as [e|_]; [exfalso; apply (Hno (r_pos r)); [lia|exact e]|].
    destruct (set_pos_ok f (fill f r 4) (r_pos (fill f r 4) + 1) I1) as (r2 & E & I2 & P2 & F2); [lia|].
    rewrite E. cbn [obind]. destruct (IH n r2 I2) as (r3 & E3 & I3 & P3 & F3); [lia|lia| |].
    + intros x Hx. apply Hno. lia.
    + exists r3. split; [exact E3|]. split; [exact I3|]. split; [exact P3|congruence].
Qed.

Lemma fill_last f r : inv f r -> r_pos r = zlen f - 1 ->
  hd 0 (r_buf (fill f r 4)) = nth (Z.to_nat (zlen f - 1)) f 0 /\ r_use (fill f r 4) = 0 /\ r_len (fill f r 4) = 1
  /\ zlen (r_buf (fill f r 4)) >= 1.
Proof.
  intros I Hp. destruct (fill_inv f r 4 I ltac:(lia)) as (I1 & P1 & F1 & L1).
  assert (U : r_use (fill f r 4) = 0).
  { unfold fill. set (r1 := if r_cap r <? 4 then _ else r).
    assert (E : r_len r1 - r_use r1 < 4).
    { unfold r1. destruct I. destruct (r_cap r <? 4); cbn; lia. }
    replace (_ <? 4) with true by lia. reflexivity. }
  pose proof (i_use _ _ I1). pose proof (i_end _ _ I1). pose proof (i_buf _ _ I1). pose proof (i_base _ _ I).
  pose proof (i_use _ _ I).
  assert (r_len (fill f r 4) = 1) by lia. split; [|split; [exact U|split; lia]].
  pose proof (buf_slice f _ 1 I1 ltac:(lia)) as E. rewrite U, (slice_cons (r_buf _) _ 1), (slice_cons f _ 1) in E by lia. injection E as E _.
  rewrite P1, Hp in E. rewrite <- E. change (Z.to_nat 0) with 0%nat. destruct (r_buf (fill f r 4)); reflexivity.
Qed.

Lemma find_miss f : forall d fuel r, inv f r -> r_pos r = zlen f - 1 - Z.of_nat d -> 0 <= r_pos r -> (d + 1 < fuel)%nat ->
  (forall x, r_pos r <= x <= zlen f - 4 -> slice f x 4 <> RECORD_MAGIC) ->
  (forall x, r_pos r <= x < zlen f -> zlen f - 4 < x -> nth (Z.to_nat x) f 0 <> 70) ->
  exists r', find_record_header fuel f r = Fail Eof r' /\ inv f r'.
Proof.
  induction d as [|d IH]; intros [|n] r I Hd H0 Hf Hno Hl; try lia; cbn [find_record_header].
  all: destruct (fill_inv f r 4 I ltac:(lia)) as (I1 & P1 & F1 & _).
  all: assert (Hne : peek4 (fill f r 4) <> RECORD_MAGIC) by
    (destruct (Z.le_gt_cases (r_pos r) (zlen f - 4));
     [rewrite peek4_full by (auto; lia); apply Hno; lia
     |intros E; pose proof (peek4_head f r I ltac:(lia)) as E2; rewrite E in E2; apply (Hl (r_pos r)); try lia; rewrite <- E2; reflexivity]).
  all: destruct (list_eq_dec _ _ _) as [e|_]; [congruence|].
  - (* last byte, then the empty read at the end *)
    destruct n as [|n]; [lia|]. destruct (fill_last f r I ltac:(lia)) as (B & U & L & BL). rewrite P1.
    replace (r_pos r + 1) with (zlen f) by lia. unfold set_pos. rewrite P1, U, L. pose proof (i_flen _ _ I1) as FL. rewrite FL.
    replace (r_pos r - 0 =? zlen f) with false by lia. replace (zlen f >? zlen f) with false by lia.
    replace (r_pos r >? zlen f) with false by lia. replace (r_pos r <? zlen f) with true by lia.
    replace (1 - 0 >? zlen f - r_pos r) with false by lia. cbn [obind].
    set (r2 := load_buf f _).
    assert (I2 : inv f r2 /\ r_len r2 = Z.min (r_cap (fill f r 4)) (zlen f - zlen f)).
    { apply load_buf_inv; cbn; try lia. apply (i_cap _ _ I1). }
    assert (D0 : forall c, slice f (zlen f) c = []).
    { intros c. unfold slice. rewrite skipn_all2 by (unfold zlen; lia). apply firstn_nil. }
    assert (B2 : r_buf r2 = r_buf (fill f r 4)) by (unfold r2, load_buf; cbn; rewrite D0; reflexivity).
    assert (P2 : r_pos r2 = zlen f) by reflexivity.
    assert (U2 : r_use r2 = 0) by reflexivity.
    destruct I2 as [I2 L2]. clearbody r2. pose proof (i_cap _ _ I1) as HC. replace (Z.min _ _) with 0 in L2 by lia.
    cbn [find_record_header].
    destruct (fill_inv f r2 4 I2 ltac:(lia)) as (I3 & P3 & F3 & _).
    assert (B3 : r_buf (fill f r2 4) = r_buf r2 /\ r_use (fill f r2 4) = 0).
    { unfold fill. destruct (r_cap r2 <? 4); cbn [r_len r_use]; rewrite L2, U2; cbn [Z.sub Z.ltb]; unfold load_buf; cbn; rewrite P2, D0; split; reflexivity. }
    destruct B3 as [B3 U3].
    assert (Hne2 : peek4 (fill f r2 4) <> RECORD_MAGIC).
    { unfold peek4. rewrite U3, B3, B2. rewrite slice_cons by (zl; change (zlen (repeat 0 4)) with 4; lia).
      rewrite app_nth1 by (unfold zlen in BL; lia). intros E. injection E as E _. apply (Hl (zlen f - 1)); try lia.
      rewrite <- B. change (Z.to_nat 0) with 0%nat in E. destruct (r_buf (fill f r 4)); cbn in *; auto. }
    destruct (list_eq_dec _ _ _) as [e|_]; [congruence|].
    rewrite set_pos_eof by (auto; lia). cbn [obind]. eexists. split; [reflexivity|exact I3].
  - destruct (set_pos_ok f (fill f r 4) (r_pos (fill f r 4) + 1) I1) as (r2 & E & I2 & P2 & F2); [lia|].
    rewrite E. cbn [obind]. apply IH; auto; try lia; intros x Hx; try apply Hno; try apply Hl; lia.
Qed.

(** ** One record *)
Lemma of_be_nonneg l : Forall is_byte l -> 0 <= of_be l.
Proof.
  intros H. unfold of_be. assert (G : forall a, 0 <= a -> 0 <= fold_left (fun acc b => acc * 256 + b) l a).
  { induction H as [|b l Hb Hl IH]; intros a Ha; cbn [fold_left]; auto. apply IH. unfold is_byte in Hb. lia. }
  apply G. lia.
Qed.
Lemma Forall_slice (P : Z -> Prop) l p n : Forall P l -> Forall P (slice l p n).
Proof. intros H. unfold slice. apply Forall_forall. intros x Hx. rewrite Forall_forall in H. apply H.
  assert (G : forall k (m : list Z), In x (firstn k m) -> In x m) by (intros k m HH; rewrite <- (firstn_skipn k m); apply in_or_app; auto).
  assert (G2 : forall k (m : list Z), In x (skipn k m) -> In x m) by (intros k m HH; rewrite <- (firstn_skipn k m); apply in_or_app; auto).
  eapply G2, G, Hx. Qed.

Lemma nth_slice l p n k : 0 <= p -> 0 <= k < n -> p + k < zlen l -> nth (Z.to_nat k) (slice l p n) 0 = nth (Z.to_nat (p + k)) l 0.
Proof.
  intros. rewrite slice_spec by lia. unfold zlen in *.
  rewrite <- (firstn_skipn (Z.to_nat p) l) at 2. rewrite app_nth2; rewrite firstn_length; [|lia].
  replace (Z.to_nat (p + k) - Nat.min (Z.to_nat p) (length l))%nat with (Z.to_nat k) by lia.
  rewrite <- (firstn_skipn (Z.to_nat n) (skipn (Z.to_nat p) l)) at 2. rewrite app_nth1; [reflexivity|].
  rewrite firstn_length, skipn_length. lia.
Qed.

Section Crc.
Variable crc : list Z -> Z.

(** What reading a record whose header starts at [q] gives, as a function of the file alone. *)
Definition size_at (f : list Z) (q : Z) : Z := of_be (slice f (q + 6) 4).
Definition rec_at (f : list Z) (q : Z) : record :=
  Rec (nth (Z.to_nat (q + 5)) f 0) (nth (Z.to_nat (q + 4)) f 0) (slice f (q + 14) (size_at f q)) q.
Definition crc_ok_at (f : list Z) (q : Z) : bool :=
  crc (slice f (q + 4) 6 ++ slice f (q + 14) (size_at f q)) =? of_be (slice f (q + 10) 4).

Lemma read_at_header f r q : Forall is_byte f -> inv f r -> r_pos r <= q -> q + 14 <= zlen f -> slice f q 4 = RECORD_MAGIC ->
  (forall x, r_pos r <= x < q -> slice f x 4 <> RECORD_MAGIC) -> r_pos r + 14 < r_footer_pos r ->
  exists r', inv f r' /\ r_footer_pos r' = r_footer_pos r /\
    if zlen f <? q + 14 + size_at f q then read_record crc f r = Fail (BadSize q (size_at f q)) r' /\ r_pos r' = q + 14
    else if crc_ok_at f q then read_record crc f r = Good (rec_at f q) r' /\ r_pos r' = q + 14 + size_at f q
    else read_record crc f r = Fail (BadCrc (rec_at f q)) r' /\ r_pos r' = q + 1.
Proof.
  intros Hb I Hp Hq Hm Hno Hf. pose proof (i_use _ _ I). pose proof (i_base _ _ I).
  assert (Hq0 : 0 <= q) by lia.
  destruct (find_hit f q Hq Hm (Z.to_nat (q - r_pos r)) (length f + 2) r I) as (r1 & E1 & I1 & P1 & F1); auto.
  { lia. } { unfold zlen in *. lia. }
  unfold read_record. unfold HEADER_LEN in *. replace (r_pos r + 14 >=? r_footer_pos r) with false by lia.
  rewrite E1. cbn [obind].
  assert (HL : zlen (slice f q 14) = 14) by (rewrite zlen_slice by lia; lia).
  rewrite HL. cbn [Z.ltb Z.compare Pos.compare Pos.compare_cont].
  rewrite !slice_slice by lia. fold (size_at f q).
  set (size := size_at f q). assert (Hs : 0 <= size) by (apply of_be_nonneg, Forall_slice, Hb).
  destruct (set_pos_ok f r1 (q + 14) I1) as (r2 & E2 & I2 & P2 & F2); [lia|]. rewrite E2. cbn [obind].
  destruct (fill_inv f r2 size I2 Hs) as (I3 & P3 & F3 & _).
  rewrite fill_got by auto. rewrite P2. rewrite zlen_slice by lia.
  destruct (zlen f <? q + 14 + size) eqn:EL.
  { replace (_ <? size) with true by lia. exists (fill f r2 size). split; [exact I3|]. split; [congruence|].
    split; [reflexivity|lia]. }
  replace (Z.max 0 (Z.min size (zlen f - (q + 14))) <? size) with false by lia.
  destruct (set_pos_ok f (fill f r2 size) (q + 14 + size) I3) as (r4 & E4 & I4 & P4 & F4); [lia|]. rewrite E4. cbn [obind].
  unfold crc_ok_at. fold size.
  assert (ER : Rec (nth 5 (slice f q 14) 0) (nth 4 (slice f q 14) 0) (slice f (q + 14) size) q = rec_at f q).
  { unfold rec_at. fold size. change 5%nat with (Z.to_nat 5). change 4%nat with (Z.to_nat 4). rewrite !nth_slice by lia. reflexivity. }
  rewrite ER. destruct (_ =? _).
  { exists r4. split; [exact I4|]. split; [congruence|]. split; [reflexivity|exact P4]. }
  destruct (set_pos_ok f r4 (q + 1) I4) as (r5 & E5 & I5 & P5 & F5); [lia|]. rewrite E5. cbn [obind].
  exists r5. split; [exact I5|]. split; [congruence|]. split; [reflexivity|exact P5].
Qed.

Lemma read_eof f r : r_pos r + 14 >= r_footer_pos r -> read_record crc f r = Fail Eof r.
Proof. intros H. unfold read_record, HEADER_LEN. replace (_ >=? _) with true by lia. reflexivity. Qed.
Lemma read_miss f r : inv f r -> r_pos r + 14 < r_footer_pos r -> r_footer_pos r <= zlen f ->
  (forall x, r_pos r <= x <= zlen f - 4 -> slice f x 4 <> RECORD_MAGIC) ->
  (forall x, r_pos r <= x < zlen f -> zlen f - 4 < x -> nth (Z.to_nat x) f 0 <> 70) ->
  exists r', read_record crc f r = Fail Eof r'.
Proof.
  intros I Hf Hfl Hno Hl. unfold read_record, HEADER_LEN. replace (_ >=? _) with false by lia.
  pose proof (i_use _ _ I). pose proof (i_base _ _ I).
  destruct (find_miss f (Z.to_nat (zlen f - 1 - r_pos r)) (length f + 2) r I) as (r' & E & _); auto; try lia.
  { unfold zlen in *. lia. }
  rewrite E. exists r'. reflexivity.
Qed.
End Crc.

(** ** Records written by the writer *)
Section Written.
Variable crc : list Z -> Z.
Hypothesis Hcrc : crc32_like crc.
Definition rb (i : item) : list Z := record_bytes crc (it_version i) (it_type i) (it_data i).
Definition item_fits (i : item) : Prop := item_ok i /\ zlen (it_data i) < 2 ^ 32.
Definition head10 (i : item) : list Z := [it_version i; it_type i] ++ be_bytes 4 (zlen (it_data i)).
Lemma rb_eq i : rb i = RECORD_MAGIC ++ head10 i ++ be_bytes 4 (crc (head10 i ++ it_data i)) ++ it_data i.
Proof. unfold rb, record_bytes, head10. rewrite <- !app_assoc. reflexivity. Qed.
Lemma zlen_be n z : zlen (be_bytes n z) = Z.of_nat n. Proof. unfold zlen. rewrite be_bytes_length. reflexivity. Qed.
Lemma zlen_head10 i : zlen (head10 i) = 6.
Proof. unfold head10. rewrite zlen_app, zlen_be. reflexivity. Qed.
Lemma zlen_rb i : zlen (rb i) = 14 + zlen (it_data i).
Proof. rewrite rb_eq, !zlen_app, zlen_head10, zlen_be. change (zlen RECORD_MAGIC) with 4. lia. Qed.
Lemma of_be4 z : 0 <= z < 2 ^ 32 -> of_be (be_bytes 4 z) = z.
Proof. intros H. rewrite of_be_be_bytes. change (256 ^ Z.of_nat 4) with (2 ^ 32). apply Z.mod_small. exact H. Qed.
Lemma Forall_rb i : item_ok i -> Forall is_byte (rb i).
Proof.
  intros (H1 & H2 & H3). rewrite rb_eq. unfold head10. rewrite !Forall_app. split; [|split; [split|split]].
  - repeat constructor; unfold is_byte; lia.
  - constructor; auto.
  - apply be_bytes_bytes.
  - apply be_bytes_bytes.
  - exact H3.
Qed.
Ltac lens := rewrite ?zlen_app, ?zlen_head10, ?zlen_be, ?zlen_rb in *; change (zlen RECORD_MAGIC) with 4 in *.
(** The header fields of a record (possibly torn after its header) at offset [zlen A]. *)
Lemma rb_fields A t B i : item_fits i -> 14 <= zlen t <= zlen (rb i) -> t = slice (rb i) 0 (zlen t) ->
  let f := A ++ t ++ B in let q := zlen A in
  slice f q 4 = RECORD_MAGIC /\ slice f (q + 4) 6 = head10 i /\ size_at f q = zlen (it_data i)
  /\ nth (Z.to_nat (q + 5)) f 0 = it_type i /\ nth (Z.to_nat (q + 4)) f 0 = it_version i
  /\ of_be (slice f (q + 10) 4) = crc (head10 i ++ it_data i).
Proof.
  intros [Hok Hfit] Ht Et f q. pose proof (zlen_nonneg A) as HA.
  assert (Eq : q = zlen A) by reflexivity. assert (Ef : f = A ++ t ++ B) by reflexivity. clearbody q f.
  assert (S : forall o n, 0 <= o -> 0 <= n -> o + n <= 14 -> slice f (q + o) n = slice (rb i) o n).
  { intros o n Ho Hn Hon. rewrite Ef, Eq. rewrite slice_app_r by lia. replace (zlen A + o - zlen A) with o by lia.
    rewrite slice_app_l by lia. rewrite Et. rewrite slice_slice by lia. f_equal; lia. }
  assert (S4 : slice f q 4 = RECORD_MAGIC).
  { replace q with (q + 0) by lia. rewrite S by lia. rewrite rb_eq. apply (slice_app_exact RECORD_MAGIC). }
  assert (S6 : slice f (q + 4) 6 = head10 i).
  { rewrite S by lia. rewrite rb_eq. rewrite slice_app_r by (change (zlen RECORD_MAGIC) with 4; lia).
    change (4 - zlen RECORD_MAGIC) with 0. rewrite <- (zlen_head10 i). apply slice_app_exact. }
  split; [exact S4|]. split; [exact S6|].
  assert (N : forall k, 4 <= k < 10 -> nth (Z.to_nat (q + k)) f 0 = nth (Z.to_nat (k - 4)) (head10 i) 0).
  { intros k Hk. rewrite <- S6. rewrite nth_slice; [replace (q + 4 + (k - 4)) with (q + k) by (clear; lia); reflexivity|clear - HA Eq; lia|clear - Hk; lia|]. rewrite Ef, Eq. zl. pose proof (zlen_nonneg B) as HB; clear - HA Hk HB Ht; lia. }
  split; [|split; [|split]].
  - unfold size_at. rewrite S by lia. rewrite rb_eq. rewrite slice_app_r by (change (zlen RECORD_MAGIC) with 4; lia).
    change (6 - zlen RECORD_MAGIC) with 2. rewrite slice_app_l by (rewrite ?zlen_head10; lia). unfold head10.
    rewrite slice_app_r by (unfold zlen; cbn [length]; lia). change (2 - zlen [it_version i; it_type i]) with 0.
    rewrite slice_all by (rewrite zlen_be; lia). apply of_be4. pose proof (zlen_nonneg (it_data i)). lia.
  - rewrite N by lia. reflexivity.
  - rewrite N by lia. reflexivity.
  - rewrite S by lia. rewrite rb_eq. rewrite slice_app_r by (change (zlen RECORD_MAGIC) with 4; lia).
    change (10 - zlen RECORD_MAGIC) with 6. rewrite slice_app_r by (rewrite ?zlen_head10; lia). rewrite zlen_head10.
    rewrite slice_app_l by (rewrite ?zlen_be; lia). rewrite slice_all by (rewrite zlen_be; lia). apply of_be4, Hcrc.
Qed.

Lemma read_written f A B i r : f = A ++ rb i ++ B -> Forall is_byte f -> item_fits i -> inv f r -> r_pos r <= zlen A ->
  (forall x, r_pos r <= x < zlen A -> slice f x 4 <> RECORD_MAGIC) -> r_pos r + 14 < r_footer_pos r ->
  exists r', read_record crc f r = Good (seen_as A i) r' /\ inv f r' /\ r_pos r' = zlen (A ++ rb i) /\ r_footer_pos r' = r_footer_pos r.
Proof.
  intros Ef Hb Hi I Hp Hno Hf.
  destruct (rb_fields A (rb i) B i Hi) as (S4 & S6 & Sz & Nt & Nv & Sc); [rewrite zlen_rb; pose proof (zlen_nonneg (it_data i)); lia|symmetry; apply slice_all; lia|].
  rewrite <- Ef in *.
  assert (L : zlen f = zlen A + 14 + zlen (it_data i) + zlen B) by (rewrite Ef; lens; lia).
  pose proof (zlen_nonneg (it_data i)). pose proof (zlen_nonneg B). pose proof (zlen_nonneg A).
  assert (D : slice f (zlen A + 14) (zlen (it_data i)) = it_data i).
  { rewrite Ef. rewrite slice_app_r by lia. replace (zlen A + 14 - zlen A) with 14 by lia.
    rewrite slice_app_l by (rewrite ?zlen_rb; lia). rewrite rb_eq.
    rewrite !slice_app_r by (lens; lia). lens. replace (14 - 4 - 6 - Z.of_nat 4) with 0 by lia. apply slice_all; lia. }
  destruct (read_at_header crc f r (zlen A)) as (r' & I' & F' & R); auto; [lia|].
  rewrite Sz in R. replace (zlen f <? zlen A + 14 + zlen (it_data i)) with false in R by lia.
  unfold crc_ok_at in R. rewrite Sz, S6, Sc, D, Z.eqb_refl in R. destruct R as [R P].
  exists r'. split; [|split; [exact I'|split; [|exact F']]].
  - rewrite R. unfold rec_at, seen_as. rewrite Sz, D, Nt, Nv. reflexivity.
  - rewrite P. lens. lia.
Qed.
Definition cat (l : list item) : list Z := flat_map rb l.
Fixpoint recs_from (p : Z) (l : list item) : list record :=
  match l with [] => [] | i :: l' => Rec (it_type i) (it_version i) (it_data i) p :: recs_from (p + zlen (rb i)) l' end.
Lemma recs_from_app p l1 l2 : recs_from p (l1 ++ l2) = recs_from p l1 ++ recs_from (p + zlen (cat l1)) l2.
Proof.
  revert p. induction l1 as [|i l1 IH]; intros p; cbn [app recs_from cat flat_map].
  - f_equal. rewrite zlen_nil. lia.
  - rewrite IH. cbn [app]. do 3 f_equal. fold (cat l1). rewrite zlen_app. lia.
Qed.

(** Reading through complete records. *)
Lemma read_through skip f B : forall l A r, f = A ++ cat l ++ B -> Forall is_byte f -> Forall item_fits l -> inv f r ->
  r_pos r = zlen A -> r_footer_pos r = zlen f ->
  (zlen B = 0 -> l <> [] -> zlen (it_data (last l (Item 0 0 []))) <> 0) ->
  exists r', inv f r' /\ r_pos r' = zlen A + zlen (cat l) /\ r_footer_pos r' = zlen f /\
    forall fuel, read_all crc (length l + fuel) skip f r
      = (recs_from (zlen A) l ++ fst (read_all crc fuel skip f r'), snd (read_all crc fuel skip f r')).
Proof.
  induction l as [|i l IH]; intros A r Ef Hb Hl I Hp Hf Hend; cbn [recs_from cat flat_map length].
  - exists r. split; [exact I|]. split; [rewrite zlen_nil; lia|]. split; [exact Hf|]. intros fuel. cbn [app plus].
    destruct (read_all crc fuel skip f r); reflexivity.
  - inversion Hl as [|? ? Hi Hl']; subst x l0. fold (cat l) in *.
    assert (Ef' : f = A ++ rb i ++ (cat l ++ B)) by (rewrite Ef; cbn [cat flat_map]; rewrite <- app_assoc; reflexivity).
    assert (L : zlen f = zlen A + 14 + zlen (it_data i) + zlen (cat l) + zlen B) by (rewrite Ef'; lens; lia).
    assert (Hlast : 0 < zlen (it_data i) + zlen (cat l) + zlen B).
    { pose proof (zlen_nonneg (it_data i)). pose proof (zlen_nonneg (cat l)). pose proof (zlen_nonneg B).
      destruct (Z.eq_dec (zlen B) 0) as [EB|]; [|lia]. specialize (Hend EB ltac:(discriminate)).
      destruct l as [|j l]; [cbn [last] in Hend; lia|]. cbn [cat flat_map]. lens. pose proof (zlen_nonneg (it_data j)).
      pose proof (zlen_nonneg (flat_map rb l)). lia. }
    destruct (read_written f A (cat l ++ B) i r Ef' Hb Hi I) as (r1 & R & I1 & P1 & F1); [lia|intros; lia|lia|].
    destruct (IH (A ++ rb i) r1) as (r' & I' & P' & F' & R'); auto.
    + rewrite Ef'. rewrite <- app_assoc. reflexivity.
    + congruence.
    + intros EB Hne. specialize (Hend EB ltac:(discriminate)). destruct l; [congruence|exact Hend].
    + exists r'. split; [exact I'|]. split; [rewrite P'; lens; lia|]. split; [exact F'|]. intros fuel. cbn [plus read_all].
      rewrite R, R'. cbn [app]. rewrite zlen_app. reflexivity.
Qed.

Lemma reader_open_inv f : no_footer crc f -> 4 <= zlen f ->
  inv f (reader_open crc f) /\ r_pos (reader_open crc f) = 4 /\ r_footer_pos (reader_open crc f) = zlen f.
Proof.
  intros Hn Hf. apply no_footer_read in Hn. unfold reader_open. rewrite Hn. split; [|split; reflexivity].
  constructor; cbn [r_use r_len r_pos r_buf r_cap r_flen]; try lia.
  - apply zlen_nonneg.
  - rewrite !slice_nil by lia. reflexivity.
  - pose proof (wrap_u64_is_u64 (zlen f - 4)) as H. unfold is_u64 in H. unfold READER_BUF_SIZE. lia.
Qed.
Lemma reader_new_inv f : 4 <= zlen f -> inv f (reader_new f).
Proof.
  intros Hf. unfold reader_new. constructor; cbn [r_use r_len r_pos r_buf r_cap r_flen]; try lia.
  - apply zlen_nonneg.
  - rewrite !slice_nil by lia. reflexivity.
  - pose proof (wrap_u64_is_u64 (zlen f - 4)) as H. unfold is_u64 in H. unfold READER_BUF_SIZE. lia.
Qed.
Lemma append_eq f i g : append crc f i = Some g -> g = f ++ rb i /\ zlen (it_data i) < 2 ^ 32.
Proof.
  unfold append, write_record. destruct (_ <? _) eqn:E; [|discriminate]. intros [= <-]. split; [reflexivity|lia].
Qed.
Lemma cat_app a b : cat (a ++ b) = cat a ++ cat b.
Proof. unfold cat. apply flat_map_app. Qed.
Lemma Forall_cat l : Forall item_fits l -> Forall is_byte (cat l).
Proof. induction 1 as [|i l [H _] Hl IH]; cbn [cat flat_map]; auto. apply Forall_app. split; [apply Forall_rb, H|exact IH]. Qed.
Lemma Forall_magic : Forall is_byte FILE_MAGIC.
Proof. repeat constructor; unfold is_byte; lia. Qed.
Lemma writer_open_id f : f <> [] -> no_footer crc f -> writer_open crc f = f.
Proof. intros H Hn. unfold writer_open. apply no_footer_read in Hn. destruct f; [congruence|]. rewrite Hn. reflexivity. Qed.

Lemma history_items f rs : history crc (no_footer crc) f rs ->
  exists l, Forall item_fits l /\ f = FILE_MAGIC ++ cat l /\ rs = recs_from 4 l.
Proof.
  induction 1 as [|f rs i g _ (l & Hl & Ef & Er) Hi Ha|f rs _ (l & Hl & Ef & Er) Hn].
  - exists []. split; [constructor|]. split; reflexivity.
  - destruct (append_eq f i g Ha) as [Eg Hfit]. exists (l ++ [i]). split; [|split].
    + apply Forall_app. split; [exact Hl|]. constructor; [split; auto|constructor].
    + rewrite cat_app. cbn [cat flat_map]. rewrite app_nil_r, Eg, Ef, <- app_assoc. reflexivity.
    + rewrite recs_from_app. cbn [recs_from]. rewrite Er. f_equal. unfold seen_as. rewrite Ef, zlen_app. reflexivity.
  - exists l. split; [exact Hl|]. split; [|exact Er]. rewrite writer_open_id; auto. rewrite Ef. discriminate.
Qed.
Lemma length_cat l : (length l <= length (cat l))%nat.
Proof. induction l as [|i l IH]; cbn [cat flat_map length]; [lia|]. rewrite app_length. pose proof (zlen_rb i) as H. pose proof (zlen_nonneg (it_data i)). unfold zlen in *. fold (cat l). lia. Qed.

Lemma last_app_one {A} (l : list A) x d : last (l ++ [x]) d = x.
Proof. induction l as [|y [|z l] IH]; cbn in *; auto. Qed.
Lemma recs_from_last l i p : exists q, recs_from p (l ++ [i]) = recs_from p l ++ [Rec (it_type i) (it_version i) (it_data i) q].
Proof. rewrite recs_from_app. cbn [recs_from]. eexists. reflexivity. Qed.
Lemma readable_snoc rs r : readable (rs ++ [r]) = if zlen (rec_data r) =? 0 then rs else rs ++ [r].
Proof.
  unfold readable. rewrite last_app_one, removelast_last. destruct (rs ++ [r]) eqn:E; [destruct rs; discriminate|]. reflexivity.
Qed.

Lemma read_eof_all n skip f r : skip Eof = false -> r_pos r + 14 >= r_footer_pos r -> read_all crc (S n) skip f r = ([], Some Eof).
Proof. intros Hs H. cbn [read_all]. rewrite read_eof by auto. rewrite Hs. reflexivity. Qed.

Lemma read_back skip f rs : skip Eof = false -> history crc (no_footer crc) f rs -> no_footer crc f ->
  read_file crc skip f = (readable rs, Some Eof).
Proof.
  intros Hs Hh Hn. destruct (history_items f rs Hh) as (l & Hl & Ef & Er).
  assert (Hb : Forall is_byte f) by (rewrite Ef; apply Forall_app; split; [apply Forall_magic|apply Forall_cat, Hl]).
  assert (L4 : zlen f = 4 + zlen (cat l)) by (rewrite Ef, zlen_app; reflexivity).
  pose proof (zlen_nonneg (cat l)).
  destruct (reader_open_inv f Hn ltac:(lia)) as (I & P & F). unfold read_file.
  assert (HF : exists k, (length f + 2 = length l + S k)%nat).
  { exists (length f + 1 - length l)%nat. pose proof (length_cat l). unfold zlen in L4. lia. }
  destruct HF as [k ->].
  assert (Hl' : l = [] \/ exists l' j, l = l' ++ [j]).
  { clear. induction l as [|x l _] using rev_ind; [left; reflexivity|right; eauto]. }
  destruct Hl' as [->|(l' & j & ->)].
  { rewrite Er. cbn [length plus]. apply read_eof_all; [exact Hs|]. rewrite P, F, L4. change (zlen (cat [])) with 0. lia. }
  destruct (recs_from_last l' j 4) as [q Eq]. rewrite Er, Eq, readable_snoc. cbn [rec_data].
  rewrite cat_app in *. cbn [cat flat_map] in *. rewrite app_nil_r in *. apply Forall_app in Hl. destruct Hl as [Hl1 Hl2].
  destruct (zlen (it_data j) =? 0) eqn:E0.
  - destruct (read_through skip f (rb j) l' FILE_MAGIC (reader_open crc f)) as (r' & I' & P' & F' & R); auto.
    { rewrite zlen_rb. lia. }
    rewrite app_length, <- Nat.add_assoc. cbn [length]. rewrite R. cbn [plus].
    rewrite read_eof_all; [|exact Hs|]. { cbn [fst snd]. rewrite app_nil_r. reflexivity. }
    rewrite P', F', L4. change (zlen FILE_MAGIC) with 4. fold (cat l'). rewrite zlen_app, zlen_rb. lia.
  - destruct (read_through skip f [] (l' ++ [j]) FILE_MAGIC (reader_open crc f)) as (r' & I' & P' & F' & R); auto.
    { rewrite Ef, cat_app. cbn [cat flat_map]. rewrite !app_nil_r. reflexivity. }
    { apply Forall_app. auto. }
    { intros _ _. rewrite last_app_one. lia. }
    rewrite R. change (zlen FILE_MAGIC) with 4 in *. rewrite Eq. rewrite read_eof_all; [|exact Hs|].
    { cbn [fst snd]. rewrite app_nil_r. reflexivity. }
    rewrite P', F', L4. rewrite cat_app. cbn [cat flat_map]. rewrite app_nil_r. fold (cat l'). lia.
Qed.

(** ** Random access through a handle on a growing file *)
Definition out_inv {A} (f : list Z) (o : outcome A) : Prop := match o with Good _ r => inv f r | Fail _ r => inv f r | _ => True end.
Lemma obind_inv {A B} f (o : outcome A) (k : A -> reader -> outcome B) :
  out_inv f o -> (forall a r, o = Good a r -> inv f r -> out_inv f (k a r)) -> out_inv f (obind o k).
Proof. destruct o; cbn; auto. Qed.
Lemma set_pos_inv f r p : inv f r -> 0 <= p -> out_inv f (set_pos f r p).
Proof.
  intros I Hp. destruct (Z.le_gt_cases p (zlen f)).
  - destruct (set_pos_ok f r p I ltac:(lia)) as (r' & -> & I' & _). exact I'.
  - rewrite set_pos_eof by (auto; lia). exact I.
Qed.
Lemma find_inv f : forall fuel r, inv f r ->
  match find_record_header fuel f r with Good (p, _) r' => inv f r' /\ 0 <= p | Fail _ r' => inv f r' | _ => True end.
Proof.
  induction fuel as [|n IH]; intros r I; cbn [find_record_header]; [exact Logic.I|].
  destruct (fill_inv f r 4 I ltac:(lia)) as (I1 & P1 & _).
  destruct (list_eq_dec _ _ _).
  - destruct (fill_inv f _ 14 I1 ltac:(lia)) as (I2 & P2 & _). split; [exact I2|]. pose proof (i_use _ _ I2). pose proof (i_base _ _ I2). unfold HEADER_LEN. lia.
  - pose proof (i_use _ _ I1). pose proof (i_base _ _ I1).
    pose proof (set_pos_inv f (fill f r 4) (r_pos (fill f r 4) + 1) I1 ltac:(lia)) as H1.
    destruct (set_pos f (fill f r 4) (r_pos (fill f r 4) + 1)); cbn [obind out_inv] in *; auto. apply IH, H1.
Qed.
Lemma read_record_inv f r : Forall is_byte f -> inv f r -> out_inv f (read_record crc f r).
Proof.
  intros Hb I. unfold read_record. destruct (_ >=? _); [exact I|].
  pose proof (find_inv f (length f + 2) r I) as H. destruct (find_record_header _ f r) as [[hp h] r1|e r1| |] eqn:E; cbn [obind]; auto.
  destruct H as [I1 Hp]. destruct (_ <? _) eqn:EL; [exact Logic.I|]. clear EL.
  assert (Hsz : Forall is_byte h).
  { revert E. generalize (length f + 2)%nat as n. intros n. clear - Hb I. revert r I. induction n as [|n IH]; intros r I; cbn [find_record_header]; [discriminate|].
    destruct (fill_inv f r 4 I ltac:(lia)) as (I1 & P1 & _). destruct (list_eq_dec _ _ _).
    - rewrite fill_got by (auto; unfold HEADER_LEN; lia). intros E. injection E as _ <- _. apply Forall_slice, Hb.
    - pose proof (i_use _ _ I1). pose proof (i_base _ _ I1).
      pose proof (set_pos_inv f (fill f r 4) (r_pos (fill f r 4) + 1) I1 ltac:(lia)) as H1.
      destruct (set_pos f (fill f r 4) (r_pos (fill f r 4) + 1)); cbn [obind out_inv] in *; try discriminate. apply IH, H1. }
  pose proof (of_be_nonneg _ (Forall_slice _ h 6 4 Hsz)) as Hs. unfold HEADER_LEN.
  apply obind_inv; [apply set_pos_inv; auto; lia|]. intros _ r2 _ I2.
  destruct (fill_inv f r2 (of_be (slice h 6 4)) I2 Hs) as (I3 & _). destruct (_ <? _); [exact I3|].
  apply obind_inv; [apply set_pos_inv; auto; lia|]. intros _ r4 _ I4. destruct (_ =? _); [exact I4|].
  apply obind_inv; [apply set_pos_inv; auto; lia|]. intros _ r5 _ I5. exact I5.
Qed.
Lemma reload_inv f r : inv f r -> inv f (reload_metadata f false r).
Proof. intros []. constructor; cbn [reload_metadata r_use r_len r_pos r_buf r_cap r_flen]; auto; try lia. Qed.
Lemma handle_inv f r : handle crc f r -> 4 <= zlen f /\ Forall is_byte f /\ inv f (reload_metadata f false r).
Proof.
  induction 1 as [f H4 Hb|f r bytes _ (H4 & Hb & I) Hbs|f r pos r' _ (H4 & Hb & I) Hp Hr].
  - split; [exact H4|]. split; [exact Hb|]. apply reload_inv, reader_new_inv, H4.
  - split; [rewrite zlen_app; pose proof (zlen_nonneg bytes); lia|]. split; [apply Forall_app; auto|].
    pose proof (zlen_nonneg bytes). destruct I. cbn [reload_metadata r_use r_len r_pos r_buf r_cap r_flen] in *.
    constructor; cbn [reload_metadata r_use r_len r_pos r_buf r_cap r_flen]; rewrite ?zlen_app; auto; try lia.
    rewrite slice_app_l by lia. exact i_data0.
  - split; [exact H4|]. split; [exact Hb|]. apply reload_inv.
    assert (O : out_inv f (read_record_at crc f (reload_metadata f false r) pos)).
    { unfold read_record_at. apply obind_inv; [apply set_pos_inv; auto|]. intros _ r1 _ I1. apply read_record_inv; auto. }
    destruct Hr as [[rec Hr]|[e Hr]]; rewrite Hr in O; exact O.
Qed.
Lemma in_recs_from rec l p : In rec (recs_from p l) ->
  exists l1 i l2, l = l1 ++ i :: l2 /\ rec = Rec (it_type i) (it_version i) (it_data i) (p + zlen (cat l1)).
Proof.
  revert p. induction l as [|j l IH]; intros p; cbn [recs_from]; [intros []|]. intros [<-|H].
  - exists [], j, l. split; [reflexivity|]. f_equal. change (zlen (cat [])) with 0. lia.
  - destruct (IH _ H) as (l1 & i & l2 & -> & E). exists (j :: l1), i, l2. split; [reflexivity|].
    rewrite E. f_equal. cbn [cat flat_map]. rewrite zlen_app. fold (cat l1). lia.
Qed.
Lemma in_readable l rec : In rec (readable (recs_from 4 l)) ->
  exists l1 i l2, l = l1 ++ i :: l2 /\ rec = Rec (it_type i) (it_version i) (it_data i) (4 + zlen (cat l1))
    /\ 0 < zlen (it_data i) + zlen (cat l2).
Proof.
  induction l as [|j l _] using rev_ind; [intros []|].
  destruct (recs_from_last l j 4) as [q Eq]. rewrite Eq, readable_snoc. cbn [rec_data].
  assert (G : In rec (recs_from 4 l) -> exists l1 i l2, l ++ [j] = l1 ++ i :: l2 /\
    rec = Rec (it_type i) (it_version i) (it_data i) (4 + zlen (cat l1)) /\ 0 < zlen (it_data i) + zlen (cat l2)).
  { intros H. destruct (in_recs_from _ _ _ H) as (l1 & i & l2 & -> & E). exists l1, i, (l2 ++ [j]).
    split; [rewrite <- app_assoc; reflexivity|]. split; [exact E|]. rewrite cat_app. cbn [cat flat_map]. rewrite app_nil_r, zlen_app, zlen_rb.
    pose proof (zlen_nonneg (it_data i)). pose proof (zlen_nonneg (cat l2)). pose proof (zlen_nonneg (it_data j)). lia. }
  destruct (zlen (it_data j) =? 0) eqn:E0; [exact G|]. intros H. apply in_app_or in H. destruct H as [H|[<-|[]]]; [exact (G H)|].
  exists l, j, []. split; [reflexivity|]. split.
  - rewrite recs_from_app in Eq. apply app_inv_head in Eq. cbn [recs_from] in Eq. injection Eq as <-. reflexivity.
  - pose proof (zlen_nonneg (it_data j)). pose proof (zlen_nonneg (cat [])). lia.
Qed.
Lemma read_at f rs r rec : history crc (no_footer crc) f rs -> handle crc f r -> In rec (readable rs) ->
  exists r', read_record_at crc f (reload_metadata f false r) (rec_pos rec) = Good rec r'.
Proof.
  intros Hh Hd Hin. destruct (history_items f rs Hh) as (l & Hl & Ef & ->).
  destruct (handle_inv f r Hd) as (H4 & Hb & I).
  destruct (in_readable l rec Hin) as (l1 & i & l2 & -> & -> & Hpos). cbn [rec_pos].
  apply Forall_app in Hl. destruct Hl as [_ Hl]. pose proof (Forall_inv Hl) as Hi.
  rewrite cat_app in Ef. cbn [cat flat_map] in Ef. fold (cat l2) in Ef.
  set (A := FILE_MAGIC ++ cat l1). assert (LA : zlen A = 4 + zlen (cat l1)) by (unfold A; rewrite zlen_app; reflexivity).
  assert (Ef' : f = A ++ rb i ++ cat l2) by (rewrite Ef; unfold A; rewrite <- app_assoc; reflexivity).
  assert (L : zlen f = zlen A + 14 + zlen (it_data i) + zlen (cat l2)) by (rewrite Ef', !zlen_app, zlen_rb; lia).
  pose proof (zlen_nonneg (cat l1)). pose proof (zlen_nonneg (it_data i)). pose proof (zlen_nonneg (cat l2)).
  unfold read_record_at. rewrite <- LA.
  destruct (set_pos_ok f (reload_metadata f false r) (zlen A) I ltac:(lia)) as (r1 & E1 & I1 & P1 & F1).
  rewrite E1. cbn [obind reload_metadata r_footer_pos] in *.
  destruct (read_written f A (cat l2) i r1 Ef' Hb Hi I1) as (r' & R & _); [lia|intros; lia|lia|].
  exists r'. exact R.
Qed.

(** ** A torn last append *)
Lemma torn_tail skip f rs i g k : (forall a b, skip (BadSize a b) = false) -> skip Eof = false ->
  history crc (no_footer crc) f rs -> item_ok i -> append crc f i = Some g ->
  zlen f < k < zlen g -> no_footer crc (slice g 0 k) ->
  read_file crc skip (slice g 0 k) = (rs, Some (if k - zlen f <=? 14 then Eof else BadSize (zlen f) (zlen (it_data i)))).
Proof.
  intros Hs1 Hs2 Hh Hi Ha Hk Hn. destruct (history_items f rs Hh) as (l & Hl & Ef & Er).
  destruct (append_eq f i g Ha) as [Eg Hfit].
  assert (Lg : zlen g = zlen f + 14 + zlen (it_data i)) by (rewrite Eg, zlen_app, zlen_rb; lia).
  set (t := slice (rb i) 0 (k - zlen f)). pose proof (zlen_nonneg f).
  assert (Lt : zlen t = k - zlen f) by (unfold t; rewrite zlen_slice by lia; rewrite zlen_rb; lia).
  assert (Eh : slice g 0 k = FILE_MAGIC ++ cat l ++ t).
  { rewrite app_assoc, <- Ef. rewrite Eg. rewrite slice_spec by lia. change (Z.to_nat 0) with 0%nat. cbn [skipn].
    rewrite firstn_app. unfold t. rewrite slice_spec by lia. change (Z.to_nat 0) with 0%nat. cbn [skipn].
    rewrite firstn_all2 by (unfold zlen in *; lia). do 2 f_equal. unfold zlen in *. lia. }
  set (h := slice g 0 k) in *.
  assert (Lh : zlen h = k) by (unfold h; rewrite zlen_slice by lia; lia). clearbody h.
  assert (Hb : Forall is_byte h).
  { rewrite Eh. rewrite !Forall_app. split; [apply Forall_magic|]. split; [apply Forall_cat, Hl|apply Forall_slice, Forall_rb, Hi]. }
  assert (L4 : zlen f = 4 + zlen (cat l)) by (rewrite Ef, zlen_app; reflexivity). pose proof (zlen_nonneg (cat l)).
  destruct (reader_open_inv h Hn ltac:(lia)) as (I & P & F).
  destruct (read_through skip h t l FILE_MAGIC (reader_open crc h)) as (r' & I' & P' & F' & R); auto.
  { intros E. lia. }
  unfold read_file. assert (HF : exists n, (length h + 2 = length l + S n)%nat).
  { exists (length h + 1 - length l)%nat. pose proof (length_cat l). unfold zlen in *. lia. }
  destruct HF as [n ->]. rewrite R. change (zlen FILE_MAGIC) with 4 in *. rewrite <- Er. cbn [read_all].
  destruct (k - zlen f <=? 14) eqn:E14.
  - rewrite read_eof by lia. rewrite Hs2. cbn [fst snd]. rewrite app_nil_r. reflexivity.
  - destruct (rb_fields f t [] i) as (S4 & _ & Sz & _); [split; auto|rewrite zlen_rb; lia|rewrite Lt; reflexivity|].
    rewrite app_nil_r in *.
    assert (Eh' : h = f ++ t) by (rewrite Eh, Ef, <- app_assoc; reflexivity). rewrite <- Eh' in *.
    destruct (read_at_header crc h r' (zlen f)) as (r2 & _ & _ & R2); auto; try lia.
    rewrite Sz in R2. replace (zlen h <? zlen f + 14 + zlen (it_data i)) with true in R2 by lia. destruct R2 as [-> _].
    rewrite Hs1. cbn [fst snd]. rewrite app_nil_r. reflexivity.
Qed.

(** ** Files with torn appends *)
Inductive piece := PF (i : item) | PT (i : item) (k : Z).
Definition pb (p : piece) : list Z := match p with PF i => rb i | PT i k => slice (rb i) 0 k end.
Definition pcat (ps : list piece) : list Z := flat_map pb ps.
Definition piece_ok (p : piece) : Prop :=
  match p with
  | PF i => item_fits i
  | PT i k => item_fits i /\ 0 < k < zlen (rb i) /\ (short_tear (slice (rb i) 0 k) \/ clean_tear (slice (rb i) 0 k))
  end.
Fixpoint precs (p : Z) (ps : list piece) : list record :=
  match ps with
  | [] => []
  | PF i :: ps' => Rec (it_type i) (it_version i) (it_data i) p :: precs (p + zlen (rb i)) ps'
  | PT i k :: ps' => precs (p + k) ps'
  end.
Fixpoint ptorn (p : Z) (ps : list piece) : list Z :=
  match ps with
  | [] => []
  | PF i :: ps' => ptorn (p + zlen (rb i)) ps'
  | PT i k :: ps' => p :: ptorn (p + k) ps'
  end.
Lemma zlen_pb p : piece_ok p -> zlen (pb p) = match p with PF i => zlen (rb i) | PT _ k => k end.
Proof. destruct p as [i|i k]; cbn [pb piece_ok]; [reflexivity|]. intros (_ & Hk & _). rewrite zlen_slice by lia. lia. Qed.
Lemma zlen_pb_pos p : piece_ok p -> 0 < zlen (pb p).
Proof. intros H. rewrite zlen_pb by auto. destruct p as [i|i k]; [rewrite zlen_rb; pose proof (zlen_nonneg (it_data i)); lia|]. destruct H as (_ & H & _). lia. Qed.
Lemma precs_app p l1 l2 : Forall piece_ok l1 -> precs p (l1 ++ l2) = precs p l1 ++ precs (p + zlen (pcat l1)) l2.
Proof.
  revert p. induction l1 as [|x l1 IH]; intros p H; cbn [app precs pcat flat_map].
  - f_equal. rewrite zlen_nil. lia.
  - pose proof (Forall_inv H) as Hx. apply Forall_inv_tail in H. rewrite zlen_app. fold (pcat l1). rewrite zlen_pb by auto.
    destruct x as [i|i k]; rewrite IH by auto; cbn [app]; rewrite Z.add_assoc; reflexivity.
Qed.
Lemma ptorn_app p l1 l2 : Forall piece_ok l1 -> ptorn p (l1 ++ l2) = ptorn p l1 ++ ptorn (p + zlen (pcat l1)) l2.
Proof.
  revert p. induction l1 as [|x l1 IH]; intros p H; cbn [app ptorn pcat flat_map].
  - f_equal. rewrite zlen_nil. lia.
  - pose proof (Forall_inv H) as Hx. apply Forall_inv_tail in H. rewrite zlen_app. fold (pcat l1). rewrite zlen_pb by auto.
    destruct x as [i|i k]; rewrite IH by auto; cbn [app]; rewrite Z.add_assoc; reflexivity.
Qed.
Lemma pcat_app a b : pcat (a ++ b) = pcat a ++ pcat b.
Proof. unfold pcat. apply flat_map_app. Qed.

(** The bytes between the reader and the next piece hide no header. *)
Definition gap_ok (f : list Z) (a b : Z) : Prop :=
  forall x, a <= x < b -> nth (Z.to_nat x) f 0 <> 70 \/ (forall y, x <= y < b -> nth (Z.to_nat y) f 0 <> 103).
Lemma magic_head f x : 0 <= x -> slice f x 4 = RECORD_MAGIC -> nth (Z.to_nat x) f 0 = 70.
Proof.
  intros Hx E. destruct (Z.le_gt_cases (zlen f) x).
  - exfalso. assert (L : zlen (slice f x 4) = 0) by (rewrite zlen_slice by lia; lia). rewrite E in L. discriminate.
  - rewrite slice_cons in E by lia. injection E as E _. exact E.
Qed.
Lemma magic_nth f x k : 0 <= x -> 0 <= k < 4 -> slice f x 4 = RECORD_MAGIC -> nth (Z.to_nat (x + k)) f 0 = nth (Z.to_nat k) RECORD_MAGIC 0.
Proof.
  intros Hx Hk E. assert (L : zlen (slice f x 4) = 4) by (rewrite E; reflexivity). rewrite zlen_slice in L by lia.
  rewrite <- E. symmetry. apply nth_slice; lia.
Qed.
Lemma gap_no_magic f a b : 0 <= a -> gap_ok f a b -> slice f b 4 = RECORD_MAGIC ->
  forall x, a <= x < b -> slice f x 4 <> RECORD_MAGIC.
Proof.
  intros Ha G Hb x Hx E. destruct (G x Hx) as [H|H]; [apply H, magic_head; auto; lia|].
  pose proof (magic_nth f x 3 ltac:(lia) ltac:(lia) E) as E3. change (nth (Z.to_nat 3) RECORD_MAGIC 0) with 103 in E3.
  destruct (Z.lt_ge_cases (x + 3) b); [apply (H (x + 3)); auto; lia|].
  pose proof (magic_nth f b (x + 3 - b) ltac:(lia) ltac:(lia) Hb) as E4. replace (b + (x + 3 - b)) with (x + 3) in E4 by lia.
  rewrite E3 in E4. assert (C : x + 3 - b = 0 \/ x + 3 - b = 1 \/ x + 3 - b = 2) by lia.
  destruct C as [C|[C|C]]; rewrite C in E4; discriminate.
Qed.

Lemma tear_nth A t B i k o : t = slice (rb i) 0 k -> zlen t = k -> 0 <= o < k ->
  nth (Z.to_nat (zlen A + o)) (A ++ t ++ B) 0 = nth (Z.to_nat o) t 0.
Proof.
  intros _ L Ho. pose proof (zlen_nonneg A). unfold zlen in *. rewrite app_nth2 by lia. rewrite app_nth1 by lia. f_equal; lia.
Qed.
Lemma tl_nth (P : Z -> Prop) t o : Forall P (tl t) -> 1 <= o < zlen t -> P (nth (Z.to_nat o) t 0).
Proof.
  intros H Ho. unfold zlen in Ho. destruct t as [|x t]; [cbn in Ho; lia|]. cbn [tl length] in *.
  replace (Z.to_nat o) with (S (Z.to_nat (o - 1))) by lia. cbn [nth]. rewrite Forall_forall in H. apply H, nth_In. lia.
Qed.
Lemma short_no_g i k : 0 < k <= 3 -> Forall (fun b => b <> 103) (slice (rb i) 0 k).
Proof.
  intros Hk. rewrite slice_spec by lia. change (Z.to_nat 0) with 0%nat. cbn [skipn].
  assert (C : k = 1 \/ k = 2 \/ k = 3) by lia. rewrite rb_eq.
  generalize (head10 i ++ be_bytes 4 (crc (head10 i ++ it_data i)) ++ it_data i) as u; intros u.
  destruct C as [-> | [-> | ->]]; [change (Z.to_nat 1) with 1%nat|change (Z.to_nat 2) with 2%nat|change (Z.to_nat 3) with 3%nat]; cbn [RECORD_MAGIC app firstn];
  repeat (apply Forall_cons; [discriminate|]); apply Forall_nil.
Qed.

(** The last piece is a complete record with data, or a long tear. *)
Definition ends_well (ps : list piece) : Prop :=
  match last ps (PF (Item 0 0 [0])) with PF i => zlen (it_data i) <> 0 | PT _ k => 14 <= k end.
Lemma ends_well_tl p ps : ps <> [] -> ends_well (p :: ps) -> ends_well ps.
Proof. unfold ends_well. destruct ps; [congruence|]. auto. Qed.

Lemma recover_pieces f : forall ps A r fuel, f = A ++ pcat ps -> Forall is_byte f -> Forall piece_ok ps -> inv f r ->
  r_footer_pos r = zlen f -> r_pos r <= zlen A -> gap_ok f (r_pos r) (zlen A) ->
  (ps = [] -> forall x, r_pos r <= x < zlen f -> nth (Z.to_nat x) f 0 <> 70) ->
  ends_well ps -> (forall p, In p (ptorn (zlen A) ps) -> slice f p 4 = RECORD_MAGIC -> torn_detected crc f p) ->
  (Z.to_nat (zlen f - r_pos r) < fuel)%nat ->
  read_all crc fuel skip_errors f r = (precs (zlen A) ps, Some Eof).
Proof.
  induction ps as [|p ps IH]; intros A r fuel Ef Hb Hps I Hf Hp G Hnil Hend Hdet Hfuel.
  - cbn [precs]. cbn [pcat flat_map] in Ef. rewrite app_nil_r in Ef. subst A. destruct fuel as [|n]; [lia|]. cbn [read_all].
    pose proof (i_use _ _ I). pose proof (i_base _ _ I).
    destruct (Z.le_gt_cases (zlen f) (r_pos r + 14)).
    { rewrite read_eof by lia. reflexivity. }
    destruct (read_miss crc f r I) as (r' & R); try lia.
    + intros x Hx E. apply (Hnil eq_refl x); [lia|]. apply magic_head; auto; lia.
    + rewrite R. reflexivity.
  - pose proof (Forall_inv Hps) as Hpk. pose proof (Forall_inv_tail Hps) as Hps'.
    pose proof (i_use _ _ I) as HU. pose proof (i_base _ _ I) as HB.
    cbn [pcat flat_map] in Ef. fold (pcat ps) in Ef.
    pose proof (zlen_pb_pos p Hpk) as Hpos. pose proof (zlen_pb p Hpk) as Hzl. pose proof (zlen_nonneg (pcat ps)) as Hrest.
    assert (L : zlen f = zlen A + zlen (pb p) + zlen (pcat ps)) by (rewrite Ef; rewrite !zlen_app; lia).
    destruct p as [i|i k]; cbn [pb] in *.
    + (* a complete record *)
      assert (Hlt : r_pos r + 14 < zlen f).
      { rewrite zlen_rb in L. destruct ps as [|p2 ps].
        - unfold ends_well in Hend. cbn [last] in Hend. pose proof (zlen_nonneg (it_data i)). lia.
        - pose proof (zlen_pb_pos p2 (Forall_inv Hps')) as H2. cbn [pcat flat_map] in L. rewrite zlen_app in L. pose proof (zlen_nonneg (flat_map pb ps)).
          pose proof (zlen_nonneg (it_data i)). lia. }
      destruct (rb_fields A (rb i) (pcat ps) i Hpk) as (S4 & _); [rewrite zlen_rb; pose proof (zlen_nonneg (it_data i)); lia|symmetry; apply slice_all; lia|].
      rewrite <- Ef in S4.
      destruct (read_written f A (pcat ps) i r Ef Hb Hpk I Hp) as (r1 & R & I1 & P1 & F1).
      { apply gap_no_magic; auto. lia. } { lia. }
      destruct fuel as [|n]; [lia|]. cbn [read_all precs]. rewrite R.
      rewrite (IH (A ++ rb i) r1 n); auto.
      * rewrite zlen_app. reflexivity.
      * rewrite Ef, <- app_assoc. reflexivity.
      * congruence.
      * rewrite P1. lia.
      * intros x Hx. rewrite P1 in Hx. lia.
      * intros -> x Hx. rewrite P1, zlen_app in Hx. change (zlen (pcat [])) with 0 in L. lia.
      * destruct ps; [unfold ends_well; cbn [last it_data]; discriminate|]. apply (ends_well_tl (PF i)); [discriminate|exact Hend].
      * intros q Hq. rewrite zlen_app in Hq. apply Hdet. exact Hq.
      * rewrite P1, zlen_app. lia.
    + (* a tear *)
      destruct Hpk as (Hi & Hk & Htear). set (t := slice (rb i) 0 k) in *.
      assert (Ef' : f = (A ++ t) ++ pcat ps) by (rewrite Ef, <- app_assoc; reflexivity).
      assert (LA : zlen (A ++ t) = zlen A + k) by (rewrite zlen_app; lia).
      assert (Nt : forall o, 0 <= o < k -> nth (Z.to_nat (zlen A + o)) f 0 = nth (Z.to_nat o) t 0).
      { intros o Ho. rewrite Ef. apply tear_nth with (i := i) (k := k); auto. }
      destruct (Z.lt_ge_cases k 14) as [Hshort|Hlong].
      * (* short tear: nothing is read here *)
        assert (Hk3 : k <= 3) by (destruct Htear as [H|[H _]]; unfold short_tear in *; lia).
        assert (Hne : ps <> []) by (intros ->; unfold ends_well in Hend; cbn [last] in Hend; lia).
        cbn [precs]. rewrite <- LA. apply IH; auto.
        -- lia.
        -- intros x Hx. rewrite LA in Hx. destruct (Z.lt_ge_cases x (zlen A)) as [Hx1|Hx1].
           ++ destruct (G x ltac:(lia)) as [H|H]; [left; exact H|right]. intros y Hy. rewrite LA in Hy.
              destruct (Z.lt_ge_cases y (zlen A)); [apply H; lia|].
              replace y with (zlen A + (y - zlen A)) by lia. rewrite Nt by lia.
              pose proof (short_no_g i k ltac:(lia)) as Hg. fold t in Hg. rewrite Forall_forall in Hg. apply Hg, nth_In. unfold zlen in *. lia.
           ++ right. intros y Hy. rewrite LA in Hy. replace y with (zlen A + (y - zlen A)) by lia. rewrite Nt by lia.
              pose proof (short_no_g i k ltac:(lia)) as Hg. fold t in Hg. rewrite Forall_forall in Hg. apply Hg, nth_In. unfold zlen in *. lia.
        -- apply (ends_well_tl (PT i k)); auto.
        -- intros q Hq. rewrite LA in Hq. apply Hdet. right. exact Hq.
      * (* long tear: rejected, then scanned *)
        assert (Hclean : Forall (fun b => b <> 70) (tl t)) by (destruct Htear as [H|[_ H]]; [unfold short_tear in H; lia|exact H]).
        destruct (rb_fields A t (pcat ps) i Hi) as (S4 & S6 & Sz & _ & _ & Sc); [lia|rewrite Hzl; reflexivity|].
        rewrite <- Ef in *.
        assert (N70 : forall x, zlen A < x < zlen A + k -> nth (Z.to_nat x) f 0 <> 70).
        { intros x Hx. replace x with (zlen A + (x - zlen A)) by lia. rewrite Nt by lia. apply tl_nth; [exact Hclean|]. lia. }
        cbn [precs]. rewrite <- LA.
        assert (Hstep : forall r' n, inv f r' -> r_footer_pos r' = zlen f -> zlen A < r_pos r' <= zlen A + k ->
          (Z.to_nat (zlen f - r_pos r') < n)%nat -> read_all crc n skip_errors f r' = (precs (zlen (A ++ t)) ps, Some Eof)).
        { intros r' n I' F' P' Hn. apply IH; auto.
          - lia.
          - intros x Hx. left. apply N70. lia.
          - intros -> x Hx. apply N70. change (zlen (pcat [])) with 0 in L. lia.
          - destruct ps; [unfold ends_well; cbn [last it_data]; discriminate|]. apply (ends_well_tl (PT i k)); [discriminate|exact Hend].
          - intros q Hq. rewrite LA in Hq. apply Hdet. right. exact Hq. }
        destruct fuel as [|n]; [lia|]. 
        destruct (Z.le_gt_cases (zlen f) (r_pos r + 14)).
        { (* nothing but this header is left *)
          cbn [read_all]. rewrite read_eof by lia. cbn [skip_errors].
          assert (zlen (pcat ps) = 0) by lia. destruct ps as [|p2 ps]; [reflexivity|].
          pose proof (zlen_pb_pos p2 (Forall_inv Hps')). cbn [pcat flat_map] in *. rewrite zlen_app in *. pose proof (zlen_nonneg (flat_map pb ps)). lia. }
        destruct (read_at_header crc f r (zlen A)) as (r' & I' & F' & R); auto; try lia.
        { apply gap_no_magic; auto. lia. }
        pose proof (Hdet (zlen A) (or_introl eq_refl) S4) as D. unfold torn_detected in D. fold (size_at f (zlen A)) in D.
        cbn [read_all]. destruct (_ <? _) eqn:E1; [|destruct (crc_ok_at crc f (zlen A)) eqn:E2].
        -- destruct R as [-> P']. cbn [skip_errors]. apply Hstep; auto; try lia.
        -- exfalso. unfold crc_ok_at in E2. destruct D as [D|D]; [lia|]. apply D. lia.
        -- destruct R as [-> P']. cbn [skip_errors]. apply Hstep; auto; try lia.
Qed.

Lemma slice_prefix f i k : zlen f < k < zlen (f ++ rb i) ->
  slice (f ++ rb i) 0 k = f ++ slice (rb i) 0 (k - zlen f) /\ slice (f ++ rb i) (zlen f) (k - zlen f) = slice (rb i) 0 (k - zlen f).
Proof.
  intros Hk. pose proof (zlen_nonneg f). split.
  - rewrite !slice_spec by lia. change (Z.to_nat 0) with 0%nat. cbn [skipn]. rewrite firstn_app.
    rewrite firstn_all2 by (unfold zlen in *; lia). do 2 f_equal. unfold zlen in *. lia.
  - rewrite slice_app_r by lia. f_equal; lia.
Qed.
Lemma crash_history_pieces f rs ts : crash_history crc (fun t => short_tear t \/ clean_tear t) f rs ts ->
  exists ps, Forall piece_ok ps /\ f = FILE_MAGIC ++ pcat ps /\ rs = precs 4 ps /\ ts = ptorn 4 ps.
Proof.
  induction 1 as [|f rs ts i g _ (ps & Hps & Ef & Er & Et) Hi Ha|f rs ts i g k _ (ps & Hps & Ef & Er & Et) Hi Ha Hk Ht Hn].
  - exists []. split; [constructor|]. split; [reflexivity|split; reflexivity].
  - destruct (append_eq f i g Ha) as [Eg Hfit]. exists (ps ++ [PF i]). split; [|split; [|split]].
    + apply Forall_app. split; [exact Hps|]. constructor; [split; auto|constructor].
    + rewrite pcat_app. cbn [pcat flat_map pb]. rewrite app_nil_r, Eg, Ef, <- app_assoc. reflexivity.
    + rewrite precs_app by auto. cbn [precs]. rewrite Er. f_equal. unfold seen_as. rewrite Ef, zlen_app. reflexivity.
    + rewrite ptorn_app by auto. cbn [ptorn]. rewrite app_nil_r. exact Et.
  - destruct (append_eq f i g Ha) as [Eg Hfit]. rewrite Eg in *. destruct (slice_prefix f i k Hk) as [E1 E2].
    rewrite writer_open_id; [|rewrite E1, Ef; discriminate|exact Hn]. rewrite E2 in Ht.
    exists (ps ++ [PT i (k - zlen f)]). split; [|split; [|split]].
    + apply Forall_app. split; [exact Hps|]. constructor; [|constructor]. split; [split; auto|]. rewrite zlen_app in Hk. split; [lia|exact Ht].
    + rewrite pcat_app. cbn [pcat flat_map pb]. rewrite app_nil_r, E1. rewrite Ef at 1. rewrite <- app_assoc. reflexivity.
    + rewrite precs_app by auto. cbn [precs]. rewrite app_nil_r. exact Er.
    + rewrite ptorn_app by auto. cbn [ptorn]. rewrite Et. f_equal. rewrite Ef, zlen_app. reflexivity.
Qed.
Lemma Forall_pcat ps : Forall piece_ok ps -> Forall is_byte (pcat ps).
Proof.
  induction 1 as [|p ps Hp _ IH]; cbn [pcat flat_map]; auto. apply Forall_app. split; [|exact IH].
  destruct p as [i|i k]; cbn [pb]; [apply Forall_rb, Hp|]. apply Forall_slice, Forall_rb. destruct Hp as (Hp & _). apply Hp.
Qed.
Lemma recover_file ps : let f := FILE_MAGIC ++ pcat ps in Forall piece_ok ps -> no_footer crc f -> ends_well ps ->
  (forall p, In p (ptorn 4 ps) -> slice f p 4 = RECORD_MAGIC -> torn_detected crc f p) ->
  read_file crc skip_errors f = (precs 4 ps, Some Eof).
Proof.
  intros f Hps Hn He Hd. pose proof (zlen_nonneg (pcat ps)).
  assert (L : zlen f = 4 + zlen (pcat ps)) by (unfold f; rewrite zlen_app; reflexivity).
  destruct (reader_open_inv f Hn ltac:(lia)) as (I & P & F). unfold read_file.
  change 4 with (zlen FILE_MAGIC). apply recover_pieces; auto.
  - apply Forall_app. split; [apply Forall_magic|apply Forall_pcat, Hps].
  - rewrite P. change (zlen FILE_MAGIC) with 4. lia.
  - intros x Hx. rewrite P in Hx. change (zlen FILE_MAGIC) with 4 in Hx. lia.
  - intros -> x Hx. change (zlen (pcat [])) with 0 in L. lia.
  - unfold zlen in *. lia.
Qed.
Lemma recover_after_write f rs ts i g : crash_history crc (fun t => short_tear t \/ clean_tear t) f rs ts ->
  item_ok i -> it_data i <> [] -> append crc f i = Some g -> no_footer crc g ->
  (forall p, In p ts -> slice g p 4 = RECORD_MAGIC -> torn_detected crc g p) ->
  read_file crc skip_errors g = (rs ++ [seen_as f i], Some Eof).
Proof.
  intros Hc Hi Hd Ha Hn Hdet. destruct (crash_history_pieces _ _ _ (CWrite _ _ f rs ts i g Hc Hi Ha)) as (ps & Hps & Ef & Er & Et).
  destruct (crash_history_pieces _ _ _ Hc) as (ps0 & Hps0 & Ef0 & Er0 & Et0). destruct (append_eq f i g Ha) as [Eg Hfit].
  assert (Eg' : g = FILE_MAGIC ++ pcat (ps0 ++ [PF i])).
  { rewrite pcat_app. cbn [pcat flat_map pb]. rewrite app_nil_r, Eg, Ef0, <- app_assoc. reflexivity. }
  clear ps Hps Ef Er Et. rewrite Eg' in *. rewrite recover_file; auto.
  - rewrite precs_app by auto. cbn [precs]. rewrite Er0. f_equal. unfold seen_as. rewrite Ef0, zlen_app. reflexivity.
  - apply Forall_app. split; [exact Hps0|]. constructor; [split; auto|constructor].
  - unfold ends_well. rewrite last_app_one. destruct (it_data i); [congruence|]. rewrite zlen_cons. pose proof (zlen_nonneg l). lia.
  - intros p Hp. rewrite ptorn_app in Hp by auto. cbn [ptorn] in Hp. rewrite app_nil_r in Hp. apply Hdet. rewrite Et0. exact Hp.
Qed.
Lemma recover_after_tear f rs ts i g k : crash_history crc (fun t => short_tear t \/ clean_tear t) f rs ts ->
  item_ok i -> append crc f i = Some g -> zlen f < k < zlen g -> clean_tear (slice g (zlen f) (k - zlen f)) ->
  no_footer crc (slice g 0 k) ->
  (forall p, In p ts -> slice (slice g 0 k) p 4 = RECORD_MAGIC -> torn_detected crc (slice g 0 k) p) ->
  read_file crc skip_errors (slice g 0 k) = (rs, Some Eof).
Proof.
  intros Hc Hi Ha Hk Ht Hn Hdet. destruct (append_eq f i g Ha) as [Eg Hfit].
  destruct (crash_history_pieces _ _ _ Hc) as (ps0 & Hps0 & Ef0 & Er0 & Et0). rewrite Eg in *.
  destruct (slice_prefix f i k Hk) as [E1 E2]. rewrite E2 in Ht. rewrite zlen_app in Hk.
  assert (Eg' : slice (f ++ rb i) 0 k = FILE_MAGIC ++ pcat (ps0 ++ [PT i (k - zlen f)])).
  { rewrite pcat_app. cbn [pcat flat_map pb]. rewrite app_nil_r, E1. rewrite Ef0 at 1. rewrite <- app_assoc. reflexivity. }
  assert (Hok : piece_ok (PT i (k - zlen f))) by (split; [split; auto|]; split; [lia|right; exact Ht]).
  assert (H14 : 14 <= k - zlen f).
  { destruct Ht as [H _]. rewrite zlen_slice in H by lia. lia. }
  assert (Lf : zlen f = 4 + zlen (pcat ps0)) by (rewrite Ef0, zlen_app; reflexivity).
  assert (Lh : zlen (slice (f ++ rb i) 0 k) = k) by (pose proof (zlen_nonneg f); rewrite zlen_slice by lia; rewrite zlen_app; lia).
  rewrite zlen_rb in Hk.
  destruct (rb_fields f (slice (rb i) 0 (k - zlen f)) [] i) as (_ & _ & Sz & _).
  { split; auto. } { pose proof (zlen_pb _ Hok) as Z1. cbn [pb] in Z1. rewrite Z1, zlen_rb. lia. }
  { pose proof (zlen_pb _ Hok) as Z1. cbn [pb] in Z1. rewrite Z1. reflexivity. }
  rewrite app_nil_r, <- E1 in Sz. unfold size_at in Sz.
  rewrite Eg' in *. rewrite recover_file; auto.
  - rewrite precs_app by auto. cbn [precs]. rewrite Er0, app_nil_r. reflexivity.
  - apply Forall_app. split; [exact Hps0|]. constructor; [exact Hok|constructor].
  - unfold ends_well. rewrite last_app_one. exact H14.
  - intros p Hp. rewrite ptorn_app in Hp by auto. cbn [ptorn] in Hp. apply in_app_or in Hp. destruct Hp as [Hp|[<-|[]]].
    + apply Hdet. rewrite Et0. exact Hp.
    + intros _. rewrite <- Lf. left. rewrite Sz, Lh. lia.
Qed.
End Written.
