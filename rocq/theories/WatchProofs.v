From Verif Require Import Prelude WatchModel WatchSpec.
Open Scope Z_scope.

(** * Arithmetic of the ring *)
Lemma succ_mod n c : (0 < c)%nat -> (S n mod c = if S (n mod c) =? c then 0 else S (n mod c))%nat.
Proof.
  intros H. pose proof (Nat.div_mod n c ltac:(lia)) as D. pose proof (Nat.mod_upper_bound n c ltac:(lia)) as B.
  destruct (S (n mod c) =? c)%nat eqn:E.
  - apply Nat.eqb_eq in E. symmetry. apply (Nat.mod_unique (S n) c (S (n / c))); [lia|]. 
    rewrite Nat.mul_succ_r. remember (n / c)%nat as q. remember (n mod c)%nat as m. lia.
  - apply Nat.eqb_neq in E. symmetry. apply (Nat.mod_unique (S n) c (n / c)%nat); [lia|].
    remember (n / c)%nat as q. remember (n mod c)%nat as m. lia.
Qed.
Lemma mod_neq j k c : (j < k)%nat -> (k < j + c)%nat -> (j mod c <> k mod c)%nat.
Proof.
  intros H1 H2 E. pose proof (Nat.div_mod j c ltac:(lia)) as D1. pose proof (Nat.div_mod k c ltac:(lia)) as D2. rewrite E in D1.
  remember (k mod c)%nat as m. remember (j / c)%nat as q1. remember (k / c)%nat as q2. clear Heqm Heqq1 Heqq2 E.
  destruct (le_lt_dec q2 q1) as [L|L].
  - pose proof (Nat.mul_le_mono_l q2 q1 c L). lia.
  - pose proof (Nat.mul_le_mono_l (S q1) q2 c ltac:(lia)). rewrite Nat.mul_succ_r in H. lia.
Qed.
Lemma pred_mod k c : (0 < c)%nat -> ((if S k mod c =? 0 then c - 1 else S k mod c - 1) = k mod c)%nat.
Proof.
  intros H. rewrite succ_mod by auto. pose proof (Nat.mod_upper_bound k c ltac:(lia)) as B.
  destruct (S (k mod c) =? c)%nat eqn:E.
  - apply Nat.eqb_eq in E. cbn [Nat.eqb]. lia.
  - cbn [Nat.eqb]. lia.
Qed.
Lemma put_len i x l : length (put_nth i x l) = length l.
Proof. revert i. induction l as [|y l IH]; intros i; destruct i; cbn [put_nth length]; auto. Qed.
Lemma put_same i x l : (i < length l)%nat -> nth i (put_nth i x l) entry0 = x.
Proof. revert i. induction l as [|y l IH]; intros i H; cbn [length] in H; [lia|]. destruct i; cbn [put_nth nth]; auto. apply IH. lia. Qed.
Lemma put_other i j x l : i <> j -> nth j (put_nth i x l) entry0 = nth j l entry0.
Proof.
  revert i j. induction l as [|y l IH]; intros i j H; destruct i, j; cbn [put_nth nth]; auto; try lia.
Qed.

Record rep (c : nat) (r : ring) (L : list entry) : Prop := {
  p_pos : (0 < c)%nat; p_cap : r_cap r = c; p_len : length (r_buf r) = c;
  p_w : r_writer r = (length L mod c)%nat; p_n : r_count r = Nat.min (length L) c;
  p_at : forall k, (k < length L)%nat -> (length L <= k + c)%nat -> nth (k mod c) (r_buf r) entry0 = nth k L entry0 }.
Lemma rep_new c : (0 < c)%nat -> rep c (ring_new c) [].
Proof.
  intros H. split; auto; cbn [ring_new r_buf r_writer r_count length].
  - apply repeat_length.
  - rewrite Nat.mod_0_l; lia.
  - intros k Hk. lia.
Qed.
Lemma rep_append c r L e : rep c r L -> rep c (ring_append r e) (L ++ [e]).
Proof.
  intros [P0 P1 P2 P3 P4 P5]. split; auto; unfold ring_append; cbn [r_cap r_buf r_writer r_count]; rewrite ?app_length; cbn [length].
  - rewrite put_len. auto.
  - rewrite P1, P3. replace (length L + 1)%nat with (S (length L)) by lia. rewrite succ_mod by auto. reflexivity.
  - rewrite P1, P4. destruct (Nat.min (length L) c <? c)%nat eqn:E; [apply Nat.ltb_lt in E|apply Nat.ltb_ge in E]; lia.
  - intros k Hk Hc. rewrite P3. destruct (Nat.eq_dec k (length L)) as [->|N].
    + rewrite put_same, app_nth2, Nat.sub_diag by (rewrite ?P2; try apply Nat.mod_upper_bound; lia). reflexivity.
    + rewrite put_other.
      * rewrite app_nth1 by lia. apply P5; lia.
      * intros E. symmetry in E. revert E. apply mod_neq; lia.
Qed.
Lemma find_ok c r L v : rep c r L -> forall n k, (n <= k <= length L)%nat -> (length L <= k - n + c)%nat ->
  match find_from r v n (k mod c)%nat with
  | Some i => exists j, (k - n <= j < k)%nat /\ i = (j mod c)%nat /\ l_ver (nth j L entry0) <= v /\ forall q, (j < q < k)%nat -> v < l_ver (nth q L entry0)
  | None => forall q, (k - n <= q < k)%nat -> v < l_ver (nth q L entry0)
  end.
Proof.
  intros R n. pose proof R as [P0 P1 P2 P3 P4 P5]. induction n as [|n IH]; intros k Hk Hc; cbn [find_from]; [intros; lia|].
  destruct k as [|k]; [lia|]. cbv zeta. rewrite P1, pred_mod by auto. rewrite P5 by lia.
  destruct (_ <=? v) eqn:E.
  - exists k. split; [lia|]. split; auto. split; [lia|]. intros; lia.
  - specialize (IH k ltac:(lia) ltac:(lia)). destruct (find_from r v n (k mod c)).
    + destruct IH as (j&A&B&C&D). exists j. split; [lia|]. split; auto. split; auto. intros q Hq.
      destruct (Nat.eq_dec q k) as [->|]; [lia|]. apply D. lia.
    + intros q Hq. destruct (Nat.eq_dec q k) as [->|]; [lia|]. apply IH. lia.
Qed.
Lemma read_ok c r L want : rep c r L -> forall fuel j, (j <= length L)%nat -> (length L < j + c)%nat -> (length L - j < fuel)%nat ->
  read_from r want fuel (j mod c)%nat = Some (filter want (skipn j L)).
Proof.
  intros [P0 P1 P2 P3 P4 P5]. induction fuel as [|fuel IH]; intros j Hj Hc Hf; [lia|]. cbn [read_from]. rewrite P3.
  destruct (Nat.eq_dec j (length L)) as [->|N].
  - rewrite Nat.eqb_refl, skipn_all. reflexivity.
  - replace ((j mod c =? length L mod c)%nat) with false by (symmetry; apply Nat.eqb_neq, mod_neq; lia).
    cbv zeta. rewrite P5 by lia. rewrite P1, Nat.add_mod_idemp_l, Nat.add_1_r by lia. rewrite IH by lia.
    assert (E : skipn j L = nth j L entry0 :: skipn (S j) L).
    { clear - Hj N. revert j Hj N. induction L as [|x L IH]; intros j Hj N; cbn [length] in *; [lia|]. destruct j; cbn [skipn nth]; auto.
      apply IH; lia. }
    rewrite E. cbn [filter]. reflexivity.
Qed.

(** * Numbered changes *)
Notation vsorted := (StronglySorted (fun a b : entry => l_ver a < l_ver b)).
Lemma numbered_ver ws : forall n e, In e (numbered n ws) -> n <= l_ver e < n + Z.of_nat (length ws).
Proof.
  induction ws as [|[[d k] v] ws IH]; intros n e; cbn [numbered In length]; [tauto|]. intros [<-|H]; cbn [l_ver]; [lia|].
  apply IH in H. lia.
Qed.
Lemma numbered_sorted ws : forall n, vsorted (numbered n ws).
Proof.
  induction ws as [|[[d k] v] ws IH]; intros n; cbn [numbered]; constructor; auto. rewrite Forall_forall. intros e H.
  apply numbered_ver in H. cbn. lia.
Qed.
Lemma numbered_app a b : forall n, numbered n (a ++ b) = numbered n a ++ numbered (n + Z.of_nat (length a)) b.
Proof.
  induction a as [|[[d k] v] a IH]; intros n; cbn [numbered app length]; [f_equal; lia|]. rewrite IH. cbn [app]. do 2 f_equal. f_equal. lia.
Qed.
Lemma numbered_len ws : forall n, length (numbered n ws) = length ws.
Proof. induction ws as [|[[d k] v] ws IH]; intros n; cbn; auto. Qed.
Lemma filter_none {A} (p : A -> bool) l : (forall x, In x l -> p x = false) -> filter p l = [].
Proof. induction l as [|x l IH]; intros H; cbn [filter]; auto. rewrite (H x (or_introl eq_refl)). apply IH. intros; apply H; right; auto. Qed.
Lemma filter_all {A} (p : A -> bool) l : (forall x, In x l -> p x = true) -> filter p l = l.
Proof. induction l as [|x l IH]; intros H; cbn [filter]; auto. rewrite (H x (or_introl eq_refl)). f_equal. apply IH. intros; apply H; right; auto. Qed.
Lemma after_split b a c : (forall e, In e a -> l_ver e <= b) -> (forall e, In e c -> b < l_ver e) -> after b (a ++ c) = c.
Proof.
  intros H1 H2. unfold after. rewrite filter_app, (filter_none _ a), filter_all; auto; intros e He; [specialize (H2 e He)|specialize (H1 e He)]; lia.
Qed.
Lemma sorted_split l b : vsorted l -> exists a c, l = a ++ c /\ (forall e, In e a -> l_ver e <= b) /\ (forall e, In e c -> b < l_ver e).
Proof.
  induction 1 as [|x l S (a&c&E&A&C) F].
  - exists [], []. split; auto. split; intros e [].
  - rewrite Forall_forall in F. destruct (Z_le_gt_dec (l_ver x) b) as [L|L].
    + exists (x :: a), c. rewrite E. split; auto. split; auto. intros e [<-|H]; auto.
    + exists [], (x :: l). split; auto. split; [intros e []|]. intros e [<-|H]; [lia|]. specialize (F e H). cbn in F. lia.
Qed.
Lemma upto_after f l s : vsorted l -> s <= f -> after s l = upto f (after s l) ++ after f l.
Proof.
  intros S H. assert (S' : vsorted (after s l)).
  { clear - S. unfold after. induction S as [|x l S IH F]; cbn [filter]; [constructor|]. destruct (_ <? _); auto. constructor; auto.
    rewrite Forall_forall in *. intros y Hy. apply filter_In in Hy as [Hy _]. auto. }
  assert (E : after f l = after f (after s l)).
  { unfold after. clear - H. induction l as [|x l IH]; cbn [filter]; auto. destruct (s <? l_ver x) eqn:E1; cbn [filter].
    - destruct (f <? l_ver x); rewrite IH; auto.
    - destruct (f <? l_ver x) eqn:E2; [lia|auto]. }
  rewrite E. destruct (sorted_split (after s l) f S') as (a&c&E'&A&C). rewrite E'. rewrite (after_split f a c) by auto.
  unfold upto. rewrite filter_app, (filter_all _ a), (filter_none _ c), app_nil_r; auto; intros e He; [specialize (C e He)|specialize (A e He)]; lia.
Qed.
Lemma after_big v l : (forall e, In e l -> l_ver e <= v) -> after v l = [].
Proof. intros H. apply filter_none. intros e He. specialize (H e He). lia. Qed.

Definition server_ok (c : nat) (s : server) (ws : list (bool * list Z * list Z)) : Prop :=
  v_ver s = Z.of_nat (length ws) /\ exists pre L, numbered 1 ws = pre ++ L /\ rep c (v_log s) L.
Lemma server_write c s ws w : server_ok c s ws -> server_ok c (sv_write s w) (ws ++ [w]).
Proof.
  intros (V&pre&L&E&R). destruct w as [[d k] v]. unfold sv_write. split; cbn [v_ver v_log].
  - rewrite app_length. cbn. lia.
  - exists pre, (L ++ [EL d (v_ver s + 1) k v]). split; [|apply rep_append; auto].
    rewrite numbered_app, E, <- app_assoc. cbn [numbered]. do 4 f_equal. lia.
Qed.
Lemma server_restart c s ws : server_ok c s ws -> server_ok c (sv_restart s) ws.
Proof.
  intros (V&pre&L&E&R). split; auto. exists (numbered 1 ws), []. rewrite app_nil_r. split; auto.
  unfold sv_restart. cbn [v_log]. rewrite (p_cap _ _ _ R). apply rep_new. apply (p_pos _ _ _ R).
Qed.
Lemma app_sorted_le pre L e f : vsorted (pre ++ L) -> In e pre -> In f L -> l_ver e < l_ver f.
Proof.
  induction pre as [|x pre IH]; cbn [app In]; [tauto|]. intros S [->|H] K; inversion S as [|? ? S' F]; subst; auto.
  rewrite Forall_forall in F. apply F. apply in_or_app; auto.
Qed.
Lemma nth_in_first (L : list entry) : forall j q, (q < j)%nat -> (q < length L)%nat -> In (nth q L entry0) (firstn j L).
Proof.
  induction L as [|x L IH]; intros j q H1 H2; cbn [length] in H2; [lia|]. destruct j; [lia|]. cbn [firstn].
  destruct q; cbn [nth]; [left; auto|right; apply IH; lia].
Qed.
Lemma nth_in_skip (L : list entry) : forall j q, (j <= q < length L)%nat -> In (nth q L entry0) (skipn j L).
Proof.
  induction L as [|x L IH]; intros j q H; cbn [length] in H; [lia|]. destruct j; cbn [skipn]; [apply nth_In; cbn; lia|].
  destruct q; [lia|]. cbn [nth]. apply IH. lia.
Qed.
Lemma read_change c s ws want b : server_ok c s ws -> 
  let d := read_change_logs s want b in
  d_full d = false -> 0 <= b <= v_ver s ->
  d_logs d = filter want (after b (numbered 1 ws)) /\
  (d_max d = v_ver s \/ d_max d = 0 /\ b = v_ver s) /\ (b = 0 -> v_ver s = 0).
Proof.
  intros (V&pre&L&E&R). pose proof R as [P0 P1 P2 P3 P4 P5].
  assert (Top : forall e, In e (numbered 1 ws) -> 1 <= l_ver e <= v_ver s) by (intros e H; apply numbered_ver in H; lia).
  assert (Mx : (L = [] /\ ring_max (v_log s) = None) \/ (L <> [] /\ ring_max (v_log s) = Some (v_ver s))).
  { unfold ring_max. rewrite P4. destruct L as [|x L']; [left; auto|]. right. split; [discriminate|].
    replace (Nat.min (length (x :: L')) c =? 0)%nat with false by (symmetry; apply Nat.eqb_neq; cbn [length]; lia). f_equal.
    rewrite P3, P1. cbn [length]. rewrite pred_mod by auto. rewrite P5 by (cbn [length]; lia).
    assert (E' : nth (length L') (x :: L') entry0 = nth (length ws - 1) (numbered 1 ws) entry0).
    { rewrite E, app_nth2; pose proof (numbered_len ws 1) as Q; rewrite E, app_length in Q; cbn [length] in Q; [f_equal; lia|lia]. }
    rewrite E'. assert (Hl : (0 < length ws)%nat). { pose proof (numbered_len ws 1) as Q; rewrite E, app_length in Q; cbn [length] in Q. lia. }
    rewrite V. clear - Hl. destruct (exists_last (l := ws)) as (l&[[d k] v]&->); [destruct ws; [cbn in Hl; lia|discriminate]|].
    rewrite numbered_app, app_length. cbn [length numbered]. replace (length l + 1 - 1)%nat with (length l) by lia.
    rewrite app_nth2; rewrite numbered_len; [|lia]. rewrite Nat.sub_diag. cbn. lia. }
  unfold read_change_logs. cbv zeta. destruct (b =? v_ver s) eqn:Eb.
  - apply Z.eqb_eq in Eb. subst b. cbn [d_full d_logs d_max]. intros _ _. rewrite after_big by (intros e H; apply Top in H; lia).
    split; auto. split; auto. destruct Mx as [[_ ->]|[_ ->]]; auto.
  - apply Z.eqb_neq in Eb. destruct (find_index (v_log s) b) as [i|] eqn:F; [|discriminate].
    unfold find_index in F. rewrite P4, P3 in F. destruct (Nat.min (length L) c =? 0)%nat eqn:E0; [discriminate|].
    apply Nat.eqb_neq in E0. pose proof (find_ok c _ L b R (Nat.min (length L) c) (length L) ltac:(lia) ltac:(lia)) as K. rewrite F in K.
    destruct K as (j&K1&K2&K3&K4).
    assert (Rd : read_entrys (v_log s) want i = Some (filter want (skipn (S j) L))).
    { unfold read_entrys. rewrite K2, P1, Nat.add_mod_idemp_l, Nat.add_1_r by lia. apply (read_ok c); auto; lia. }
    rewrite Rd. cbn [d_full d_logs d_max]. intros _ Hb.
    assert (Srt : vsorted (pre ++ L)) by (rewrite <- E; apply numbered_sorted).
    assert (SL : L = firstn (S j) L ++ skipn (S j) L) by (symmetry; apply firstn_skipn).
    split; [f_equal|split].
    + rewrite E. rewrite SL at 2. rewrite app_assoc. symmetry. apply after_split.
      * intros e He. apply in_app_or in He as [He|He].
        -- assert (In (nth j L entry0) L) by (apply nth_In; lia). pose proof (app_sorted_le _ _ _ _ Srt He H). lia.
        -- apply In_nth with (d := entry0) in He as (q&Hq&<-). rewrite firstn_length in Hq.
           assert (Hn : nth q (firstn (S j) L) entry0 = nth q L entry0).
           { rewrite SL at 2. rewrite app_nth1; auto. rewrite firstn_length. lia. }
           rewrite Hn. destruct (Nat.eq_dec q j) as [->|N]; [auto|].
           assert (SL' : vsorted L). { clear - Srt. induction pre; cbn [app] in Srt; auto. inversion Srt; auto. }
           enough (l_ver (nth q L entry0) < l_ver (nth j L entry0)) by lia.
           apply (app_sorted_le (firstn j L) (skipn j L)).
           ++ rewrite firstn_skipn; auto.
           ++ apply nth_in_first; lia.
           ++ apply nth_in_skip; lia.
      * intros e He. apply In_nth with (d := entry0) in He as (q&Hq&<-). rewrite skipn_length in Hq.
        assert (Hn : nth q (skipn (S j) L) entry0 = nth (S j + q) L entry0).
        { rewrite SL at 2. rewrite app_nth2; rewrite firstn_length; [f_equal; lia|lia]. }
        rewrite Hn. apply K4. lia.
    + destruct Mx as [[-> _]|[_ ->]]; [cbn in K1; lia|auto].
    + intros ->. assert (In (nth j L entry0) (numbered 1 ws)). { rewrite E. apply in_or_app. right. apply nth_In. lia. }
      apply Top in H. lia.
Qed.

Section W.
Variable c : nat.
Variable want : entry -> bool.
Record world_ok (w : world) (ws : list (bool * list Z * list Z)) (cut : Z) : Prop := {
  o_srv : server_ok c (w_srv w) ws;
  o_cut : 0 <= c_synced (w_cl w) <= cut /\ cut <= v_ver (w_srv w);
  o_seen : c_seen (w_cl w) = filter want (upto cut (after (c_synced (w_cl w)) (numbered 1 ws)));
  o_base : w_told w = true \/ c_base (w_cl w) = cut \/ c_base (w_cl w) = 0;
  o_wait : forall f, w_wait w = Some f -> w_told w = false /\ c_base (w_cl w) = cut /\ cut <= f <= v_ver (w_srv w) /\
     filter want (upto f (after cut (numbered 1 ws))) = [];
  o_news : forall d, w_news w = Some d -> d_full d = false -> cut = v_ver (w_srv w);
  o_told : w_told w = true -> w_wait w = None }.
Lemma upto_more v ws w : v = Z.of_nat (length ws) -> forall f s, f <= v -> upto f (after s (numbered 1 (ws ++ [w]))) = upto f (after s (numbered 1 ws)).
Proof.
  intros V f s H. rewrite numbered_app. unfold upto, after. rewrite !filter_app. destruct w as [[d k] x]. cbn [numbered filter l_ver].
  destruct (s <? _); cbn [filter l_ver]; [|rewrite app_nil_r; auto]. replace (1 + Z.of_nat (length ws) <=? f) with false by lia. apply app_nil_r.
Qed.
Lemma upto_all f s ws : Z.of_nat (length ws) <= f -> upto f (after s (numbered 1 ws)) = after s (numbered 1 ws).
Proof.
  intros H. apply filter_all. intros e He. apply filter_In in He as [He _]. apply numbered_ver in He. lia.
Qed.
Lemma seen_extend ws cut f s : s <= cut <= f -> filter want (upto f (after cut (numbered 1 ws))) = [] ->
  filter want (upto cut (after s (numbered 1 ws))) ++ filter want (after f (numbered 1 ws)) = filter want (after s (numbered 1 ws)).
Proof.
  intros H E. rewrite <- (app_nil_l (filter want (after f _))), <- E, <- filter_app, <- filter_app.
  rewrite <- (upto_after f _ cut) by (try apply numbered_sorted; lia). rewrite <- (upto_after cut _ s) by (try apply numbered_sorted; lia). reflexivity.
Qed.
Lemma deliver_ok w ws cut f : world_ok w ws cut -> w_told w = false ->
  cut <= f <= v_ver (w_srv w) -> filter want (upto f (after cut (numbered 1 ws))) = [] ->
  world_ok (deliver w (read_change_logs (w_srv w) want f)) ws (if d_full (read_change_logs (w_srv w) want f) then cut else v_ver (w_srv w)).
Proof.
  intros [O1 O2 O3 O4 O5 O6 O7] T Hf He. set (d := read_change_logs (w_srv w) want f). unfold deliver.
  destruct (d_full d) eqn:Fd.
  - split; cbn [w_srv w_cl w_wait w_told w_news]; auto.
    + discriminate.
    + intros d' E. injection E as E. subst d'. congruence.
  - destruct (read_change c _ _ want f O1 Fd ltac:(lia)) as (A&B&C). fold d in A, B.
    split; cbn [w_srv w_cl w_wait w_told w_news cl_answer c_synced c_seen c_base]; auto; try discriminate.
    + lia.
    + rewrite A, O3. destruct O1 as (V&_). rewrite (upto_all (v_ver (w_srv w))) by lia. apply seen_extend; auto. lia.
    + destruct B as [->|[-> _]]; auto.
Qed.
Lemma ask_ok w ws cut : world_ok w ws cut -> w_told w = false -> d_full (read_change_logs (w_srv w) want (c_base (w_cl w))) = false ->
  c_base (w_cl w) = cut.
Proof.
  intros [O1 O2 O3 O4 O5 O6 O7] T F. destruct O4 as [H|[H|H]]; auto; [congruence|].
  destruct (read_change c _ _ want _ O1 F ltac:(lia)) as (_&_&C). specialize (C H). lia.
Qed.
Lemma upto_self f s l : f <= s -> upto f (after s l) = [].
Proof. intros H. apply filter_none. intros e He. apply filter_In in He as [_ He]. lia. Qed.
Lemma wop_ok w ws cut o : world_ok w ws cut -> exists cut', world_ok (wop_run want w o) (ws ++ match o with PWrite x => [x] | _ => [] end) cut'.
Proof.
  intros O. pose proof O as [O1 O2 O3 O4 O5 O6 O7]. pose proof O1 as (V&_). destruct o as [x| | |late|]; cbn [wop_run].
  - exists cut. split; cbn [w_srv w_cl w_wait w_told w_news]; auto; try discriminate.
    + apply server_write; auto.
    + destruct x as [[d k] v]. cbn [sv_write v_ver]. lia.
    + rewrite O3. f_equal. symmetry. apply (upto_more (v_ver (w_srv w))); auto. lia.
    + intros f E. destruct (O5 f E) as (A&B&C&D). split; auto. split; auto. split.
      * destruct x as [[d k] v]. cbn [sv_write v_ver]. lia.
      * rewrite (upto_more (v_ver (w_srv w))); auto. lia.
  - rewrite app_nil_r. exists cut. split; cbn [w_srv w_cl w_wait w_told w_news]; auto; try discriminate. apply server_restart; auto.
  - rewrite app_nil_r. destruct (w_told w) eqn:T.
    + exists cut. split; cbn [w_srv w_cl w_wait w_told w_news]; auto; try discriminate.
    + unfold watch_start. destruct (need_return _ _) eqn:Nr.
      * destruct (d_full (read_change_logs (w_srv w) want (c_base (w_cl w)))) eqn:Fd.
        -- exists cut. unfold deliver. rewrite Fd. split; cbn [w_srv w_cl w_wait w_told w_news]; auto; try discriminate.
           intros d E. injection E as E. subst d. congruence.
        -- pose proof (ask_ok _ _ _ O T Fd) as B. eexists. apply deliver_ok with (cut := cut); auto; rewrite ?B.
           ++ lia.
           ++ rewrite upto_self by lia. reflexivity.
      * assert (Fd : d_full (read_change_logs (w_srv w) want (c_base (w_cl w))) = false).
        { unfold need_return in Nr. apply orb_false_iff in Nr as [Nr _]. apply orb_false_iff in Nr as [Nr _]. auto. }
        pose proof (ask_ok _ _ _ O T Fd) as B. exists cut. split; cbn [w_srv w_cl w_wait w_told w_news]; auto; try discriminate.
        intros f E. injection E as E. subst f. rewrite B. split; auto. split; auto. split; [lia|]. rewrite upto_self by lia. reflexivity.
  - rewrite app_nil_r. destruct (w_wait w) as [f|] eqn:Wt.
    + destruct (O5 f eq_refl) as (A&B&C&D). unfold watch_wake. destruct (need_return _ _ || late) eqn:Nr.
      * eexists. apply deliver_ok with (cut := cut); auto.
      * apply orb_false_iff in Nr as [Nr _]. unfold need_return in Nr. apply orb_false_iff in Nr as [Nr _]. apply orb_false_iff in Nr as [Fd Nl].
        destruct (read_change c _ _ want f O1 Fd ltac:(lia)) as (R1&R2&R3). rewrite R1 in Nl.
        assert (El : filter want (after f (numbered 1 ws)) = []). { destruct (filter want (after f (numbered 1 ws))); auto. discriminate. }
        exists cut. split; cbn [w_srv w_cl w_wait w_told w_news]; auto; try discriminate.
        -- intros f' E. injection E as E. split; auto. split; auto.
           set (d := read_change_logs (w_srv w) want f) in *. destruct (f <? d_max d) eqn:Ed.
           ++ assert (f' = v_ver (w_srv w)) by lia. subst f'. rewrite H. split; [lia|]. rewrite upto_all by lia.
              rewrite (upto_after f) by (try apply numbered_sorted; lia). rewrite filter_app, D, El. reflexivity.
           ++ subst f'. auto.
        -- intros H. congruence.
    + exists cut. split; cbn [w_srv w_cl w_wait w_told w_news]; auto; try discriminate.
  - rewrite app_nil_r. destruct (w_told w) eqn:T.
    + exists (v_ver (w_srv w)). split; cbn [w_srv w_cl w_wait w_told w_news cl_sync c_synced c_base c_seen]; auto; try discriminate.
      * lia.
      * rewrite upto_self by lia. reflexivity.
    + exists cut. split; cbn [w_srv w_cl w_wait w_told w_news]; auto; try discriminate.
Qed.
Lemma run_ok h : forall w ws cut, world_ok w ws cut -> exists cut', world_ok (fold_left (wop_run want) h w) (ws ++ writes_of h) cut'.
Proof.
  induction h as [|o h IH]; intros w ws cut O; cbn [fold_left].
  - exists cut. unfold writes_of. cbn. rewrite app_nil_r. auto.
  - destruct (wop_ok _ _ _ o O) as (cut'&O'). apply IH in O'. unfold writes_of in *. cbn [map concat]. rewrite app_assoc. exact O'.
Qed.
Lemma watch_ok h : (0 < c)%nat -> let w := wrun c want h in
  exists cut, cut <= v_ver (w_srv w) /\ v_ver (w_srv w) = Z.of_nat (length (changes h)) /\ c_seen (w_cl w) = filter want (upto cut (after (c_synced (w_cl w)) (changes h))) /\
    forall d, w_news w = Some d -> d_full d = false -> c_seen (w_cl w) = filter want (after (c_synced (w_cl w)) (changes h)).
Proof.
  intros Hc. destruct (run_ok h (WO (SV 0 (ring_new c)) (CL 0 0 []) None false None) [] 0) as (cut&[O1 O2 O3 O4 O5 O6 O7]).
  { split; cbn; auto; try discriminate; try lia. split; auto. exists [], []. split; auto. apply rep_new; auto. }
  fold (wrun c want h) in *. cbn [app] in *. exists cut. destruct O1 as (V&_). split; [lia|]. split; [unfold changes; rewrite numbered_len; auto|]. split; auto.
  intros d E F. rewrite O3. f_equal. rewrite (O6 d E F). apply upto_all. lia.
Qed.
End W.

(** * The filter *)
Lemma beqs_eq a b : beqs a b = true <-> a = b.
Proof.
  revert b. induction a as [|x a IH]; intros [|y b]; cbn [beqs]; split; intros H; try discriminate; auto.
  - apply andb_true_iff in H as [H1 H2]. apply Z.eqb_eq in H1. apply IH in H2. congruence.
  - injection H as -> ->. rewrite Z.eqb_refl. apply IH. auto.
Qed.
Lemma beqs_neq a b : a <> b -> beqs a b = false.
Proof. intros H. destruct (beqs a b) eqn:E; auto. apply beqs_eq in E. contradiction. Qed.
Lemma starts_iff p s : starts_with p s = true <-> exists r, s = p ++ r.
Proof.
  revert s. induction p as [|x p IH]; intros s; cbn [starts_with].
  - split; auto. intros _. exists s. auto.
  - destruct s as [|y s]; [split; [discriminate|intros (r&E); discriminate]|]. rewrite andb_true_iff, Z.eqb_eq, IH. split.
    + intros [-> (r&->)]. exists r. auto.
    + intros (r&E). injection E as -> ->. split; auto. exists r; auto.
Qed.
Lemma slash_cut a b x y : slash_free a -> slash_free b -> a ++ 47 :: x = b ++ 47 :: y -> a = b /\ x = y.
Proof.
  unfold slash_free. revert b. induction a as [|p a IH]; intros [|q b] Ha Hb E; cbn [app] in E.
  - injection E as E. auto.
  - injection E as E1 E2. destruct Hb. left; auto.
  - injection E as E1 E2. destruct Ha. left; auto.
  - injection E as E1 E2. subst. destruct (IH b) as [-> ->]; auto. { intros H; apply Ha; right; auto. } intros H; apply Hb; right; auto.
Qed.
Lemma before_ok t r : slash_free t -> before_slash (t ++ 47 :: r) = Some t.
Proof.
  induction t as [|x t IH]; intros H; cbn [app before_slash]; auto. destruct (x =? 47) eqn:E.
  - apply Z.eqb_eq in E. destruct H. left; auto.
  - rewrite IH; auto. intros K; apply H; right; auto.
Qed.
Lemma before_none t : slash_free t -> before_slash t = None.
Proof.
  induction t as [|x t IH]; intros H; cbn [before_slash]; auto. destruct (x =? 47) eqn:E.
  - apply Z.eqb_eq in E. destruct H. left; auto.
  - rewrite IH; auto. intros K; apply H; right; auto.
Qed.
Lemma one_slash c x s : slash_free s -> beqs (47 :: c ++ 47 :: x) (47 :: s) = false.
Proof. intros H. apply beqs_neq. intros E. injection E as E. apply H. rewrite <- E. apply in_or_app. right. left. auto. Qed.
Lemma filter_body c ts e x : l_key e = global_key c x -> beqs x str_incr_id = false ->
  watch_filter c ts e = if starts_with (str_tenants ++ [47]) x then
     match ts with [] => false | _ => if existsb (beqs []) ts then true else
        match before_slash (skipn 8 x) with Some t => existsb (beqs t) ts | None => false end end else true.
Proof.
  intros K N. unfold watch_filter. rewrite K. unfold global_key.
  assert (V1 : beqs (47 :: c ++ 47 :: x) key_version = false) by (apply one_slash; unfold slash_free; cbn; intros H; repeat (destruct H as [H|H]; [discriminate H|]); exact H).
  assert (V2 : beqs (47 :: c ++ 47 :: x) key_already_init = false) by (apply one_slash; unfold slash_free; cbn; intros H; repeat (destruct H as [H|H]; [discriminate H|]); exact H).
  assert (V3 : beqs (47 :: c ++ 47 :: x) (key_incr_id c) = false).
  { apply beqs_neq. intros E. unfold key_incr_id in E. injection E as E. apply app_inv_head in E. injection E as E. apply beqs_eq in E. congruence. }
  rewrite V1, V2, V3. cbn [orb].
  assert (P : starts_with (cluster_prefix c) (47 :: c ++ 47 :: x) = true).
  { apply starts_iff. exists x. unfold cluster_prefix. cbn [app]. rewrite <- app_assoc. reflexivity. }
  rewrite P. cbn [negb].
  assert (Q : starts_with (key_tenants c) (47 :: c ++ 47 :: x) = starts_with (str_tenants ++ [47]) x).
  { apply eq_true_iff_eq. rewrite !starts_iff. unfold key_tenants. split; intros (r&E).
    - cbn [app] in E. rewrite <- app_assoc in E. cbn [app] in E. injection E as E. apply app_inv_head in E. injection E as E. exists r. auto.
    - exists r. rewrite E. cbn [app]. rewrite <- !app_assoc. reflexivity. }
  unfold strip_prefix. rewrite Q. destruct (starts_with (str_tenants ++ [47]) x) eqn:S; cbn [negb]; auto.
  assert (Sk : skipn (length (key_tenants c)) (47 :: c ++ 47 :: x) = skipn 8 x).
  { apply starts_iff in S as (r&->). unfold key_tenants. replace (47 :: c ++ 47 :: (str_tenants ++ [47]) ++ r) with ((47 :: c ++ 47 :: str_tenants ++ [47]) ++ r).
    - rewrite skipn_app, skipn_all, Nat.sub_diag. reflexivity.
    - cbn [app]. rewrite <- !app_assoc. reflexivity. }
  rewrite Sk. reflexivity.
Qed.
