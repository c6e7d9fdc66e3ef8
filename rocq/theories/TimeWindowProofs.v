From Verif Require Import Prelude TimeWindowModel TimeWindowSpec.


Lemma wrap_small z : - 2 ^ 63 <= z < 2 ^ 63 -> wrap_i64 z = z.
Proof. intros H. apply wrap_i64_id. unfold is_i64, I64_MIN, I64_MAX. lia. Qed.

(** Start of the latest candidate window, without the wrapping. *)
Definition lstart (w s o t : Z) : Z := t - Z.rem (t - Z.rem o w + s) s.
Definition origin (w o : Z) : Z := Z.rem o w.

Lemma window_expr_eq w s o t i : no_overflow w s o t -> 0 <= i <= 100 ->
  window_expr w s o t i = (lstart w s o t - i * s, lstart w s o t - i * s + w).
Proof.
  intros (Hw&Hs&Ho&Ht) Hi. unfold window_expr, lstart.
  change (2 ^ 55) with 36028797018963968 in *. change (2 ^ 62) with 4611686018427387904 in *.
  assert (T63 : 2 ^ 63 = 9223372036854775808) by reflexivity.
  assert (His : 0 <= i * s <= 3602879701896396800) by nia.
  pose proof (Z.rem_bound_abs o w ltac:(lia)) as Hst. remember (Z.rem o w) as st eqn:E1. clear E1.
  rewrite (wrap_small (t - st)) by lia. rewrite (wrap_small (t - st + s)) by lia.
  pose proof (Z.rem_bound_abs (t - st + s) s ltac:(lia)) as Hr. remember (Z.rem (t - st + s) s) as r eqn:E2. clear E2.
  remember (i * s) as m eqn:E3. clear E3 Hi.
  rewrite (wrap_small (t - r)) by lia. rewrite (wrap_small m) by lia. rewrite (wrap_small (t - r - m)) by lia.
  rewrite wrap_small by lia. reflexivity.
Qed.

Lemma in_expr_list w s o t n a b : no_overflow w s o t -> 0 <= n <= 101 ->
  (In (a, b) (map (fun i => window_expr w s o t (Z.of_nat i)) (seq 0 (Z.to_nat n))) <->
   exists i, 0 <= i < n /\ a = lstart w s o t - i * s /\ b = a + w).
Proof.
  intros HN Hn. rewrite in_map_iff. split.
  - intros (i&HE&Hi). apply in_seq in Hi. rewrite window_expr_eq in HE by (auto; lia). inversion HE; subst. exists (Z.of_nat i). split; [lia|]. split; lia.
  - intros (i&Hi&Ha&Hb). exists (Z.to_nat i). split; [|apply in_seq; lia]. rewrite Z2Nat.id by lia. rewrite window_expr_eq by (auto; lia). subst. reflexivity.
Qed.

Lemma lstart_floor w s o t : 0 < s -> 0 <= t - origin w o + s ->
  exists k, lstart w s o t = origin w o + k * s /\ origin w o + k * s <= t < origin w o + k * s + s.
Proof.
  unfold lstart, origin. generalize (Z.rem o w). intros st Hs Hp. pose proof (Z.quot_rem' (t - st + s) s) as HQ.
  pose proof (Z.rem_bound_pos (t - st + s) s ltac:(lia) ltac:(lia)) as HR.
  exists (Z.quot (t - st + s) s - 1). revert HQ HR. generalize (Z.quot (t - st + s) s), (Z.rem (t - st + s) s). intros; lia.
Qed.
Lemma rem_align o w s : 0 < s -> (s | w) -> exists k, origin w o = o + k * s.
Proof.
  intros Hs [q ->]. unfold origin. pose proof (Z.quot_rem' o (q * s)) as HQ. exists (- (q * Z.quot o (q * s))). revert HQ.
  generalize (Z.quot o (q * s)), (Z.rem o (q * s)). intros; nia.
Qed.

(** Candidates i = 0 .. ceil(w/s)-1 are a superset of the windows containing [t]. *)
Lemma cand_complete w s o t a b : 0 < w -> 0 < s -> 0 <= t - origin w o + s -> (exists k, origin w o = o + k * s) ->
  is_window w s o (a, b) -> in_window t (a, b) ->
  exists i, 0 <= i < (w + s - 1) / s /\ a = lstart w s o t - i * s /\ b = a + w.
Proof.
  intros Hw Hs Hp (j&Hj) (k&Hk&Hb) Hin. cbn [fst snd] in *. unfold in_window in Hin. cbn [fst snd] in *.
  destruct (lstart_floor w s o t Hs Hp) as (m&Hm&Hm2). rewrite Hm.
  exists (j + m - k). split; [|split; [nia|lia]].
  split; [nia|]. apply Z.lt_le_trans with ((j + m - k) + 1); [lia|].
  apply Z.div_le_lower_bound; [lia|]. nia.
Qed.
Lemma cand_window w s o t a i : 0 < w -> 0 < s -> 0 <= t - origin w o + s -> (exists k, origin w o = o + k * s) ->
  a = lstart w s o t - i * s -> is_window w s o (a, a + w) /\ (0 <= i -> a <= t).
Proof.
  intros Hw Hs Hp (j&Hj) Ha. destruct (lstart_floor w s o t Hs Hp) as (m&Hm&Hm2). rewrite Hm in Ha. split.
  - exists (j + m - i). cbn [fst snd]. split; nia.
  - intros Hi. nia.
Qed.
Lemma ceil_one w s : 0 < w <= s -> (w + s - 1) / s = 1.
Proof. intros H. symmetry. apply Z.div_unique with (w - 1); lia. Qed.
Lemma ceil_div q s : 0 < s -> (q * s + s - 1) / s = q.
Proof. intros H. symmetry. apply Z.div_unique with (s - 1); lia. Qed.


Lemma windows_complete w s o t l : no_overflow w s o t -> not_far_before_origin w s o t ->
  (s | w) \/ Z.rem o w = o ->
  assign_windows w s o t = Some l -> forall win, is_window w s o win -> in_window t win -> In win l.
Proof.
  intros HN HP HD HA [a b] HW HI. pose proof HN as (Hw&Hs&_&_).
  assert (HK : exists k, origin w o = o + k * s). { destruct HD as [HD|HD]; [apply rem_align; auto; lia|exists 0; unfold origin; rewrite HD; lia]. }
  assert (HP' : 0 <= t - origin w o + s). { unfold not_far_before_origin in HP. change (Z.rem o w) with (origin w o) in HP. clear HD. lia. }
  clear HP HD.
  destruct (cand_complete w s o t a b) as (i&Hi&Ha&Hb); auto; try lia.
  unfold assign_windows in HA. destruct (is_tumbling w s) eqn:ET.
  - unfold is_tumbling in ET. assert (w = s) by lia. subst w. injection HA as HA; subst l. left.
    rewrite window_expr_eq by (first [exact HN|split; discriminate]). rewrite ceil_one in Hi by lia.
    assert (i = 0) by lia. subst. f_equal; lia.
  - rewrite (window_expr_eq w s o t 0 HN) in HA by (split; discriminate). cbv zeta in HA. unfold overlapping_windows in HA. destruct (100 <? (w + s - 1) / s) eqn:E100; [discriminate|]. injection HA as HA; subst l.
    assert (HIn : In (a, b) (map (fun i => window_expr w s o t (Z.of_nat i)) (seq 0 (Z.to_nat ((w + s - 1) / s))))).
    { apply in_expr_list; auto; [split; [apply Z.div_pos; lia|apply Z.ltb_ge in E100; apply Z.le_trans with 100; [exact E100|discriminate]]|]. exists i. auto. }
    destruct (w mod s =? 0); auto.
    destruct (_ && _)%bool eqn:EK; auto. exfalso.
    unfold in_window in HI. cbn [fst snd] in HI.
    destruct (lstart_floor w s o t) as (m&Hm&Hm2); [lia|lia|].
    rewrite Hm in EK, Ha. apply andb_false_iff in EK as [EK|EK]; [lia|].
    assert (0 <= i * s) by nia. lia.
Qed.

Lemma windows_exact w s o t l : no_overflow w s o t -> not_far_before_origin w s o t ->
  (s | w) \/ (w < s /\ Z.rem o w = o) ->
  assign_windows w s o t = Some l -> forall win, In win l <-> is_window w s o win /\ in_window t win.
Proof.
  intros HN HP HD HA [a b]. split; [|intros [H1 H2]; eapply windows_complete; eauto; tauto].
  pose proof HN as (Hw&Hs&_&_).
  assert (HK : exists k, origin w o = o + k * s). { destruct HD as [HD|[_ HD]]; [apply rem_align; auto; lia|exists 0; unfold origin; rewrite HD; lia]. }
  assert (HP' : 0 <= t - origin w o + s). { unfold not_far_before_origin in HP. change (Z.rem o w) with (origin w o) in HP. clear HD. lia. }
  assert (HD' : (s | w) \/ w < s) by tauto. clear HP HD.
  destruct (lstart_floor w s o t) as (m&Hm&Hm2); try lia.
  unfold assign_windows in HA. destruct (is_tumbling w s) eqn:ET.
  - unfold is_tumbling in ET. assert (w = s) by lia. subst w. injection HA as HA; subst l. intros [HIn|[]].
    rewrite window_expr_eq in HIn by (first [exact HN|split; discriminate]). inversion HIn; subst a b. clear HIn.
    destruct (cand_window s s o t (lstart s s o t - 0 * s) 0) as [A B]; auto; try lia.
    split; auto. unfold in_window. cbn [fst snd]. lia.
  - rewrite (window_expr_eq w s o t 0 HN) in HA by (split; discriminate). cbv zeta in HA. unfold overlapping_windows in HA. destruct (100 <? (w + s - 1) / s) eqn:E100; [discriminate|]. injection HA as HA; subst l.
    intros HIn.
    assert (HC : In (a, b) (map (fun i => window_expr w s o t (Z.of_nat i)) (seq 0 (Z.to_nat ((w + s - 1) / s))))
       /\ (w mod s = 0 \/ t < lstart w s o t + w)).
    { destruct (w mod s =? 0) eqn:EM; [split; auto; left; lia|].
      destruct (_ && _)%bool eqn:EK; [split; auto; right; lia|destruct HIn]. }
    clear HIn. destruct HC as [HC HC2]. apply in_expr_list in HC; auto.
    2: { split; [apply Z.div_pos; lia|apply Z.ltb_ge in E100; apply Z.le_trans with 100; [exact E100|discriminate]]. }
    destruct HC as (i&Hi&Ha&Hb). destruct (cand_window w s o t a i) as [A B]; auto; try lia.
    subst b. split; auto. unfold in_window. cbn [fst snd]. split; [apply B; lia|].
    destruct HD' as [[q Hq]|HD1].
    + subst w. rewrite ceil_div in Hi by lia. clear HC2 E100 ET HK HP'. rewrite Hm in Ha. nia.
    + rewrite ceil_one in Hi by lia. assert (i = 0) by lia. subst i.
      destruct HC2 as [E|E]; [|lia]. exfalso. rewrite Z.mod_small in E by lia. lia.
Qed.

Lemma windows_nodup w s o t l : no_overflow w s o t -> assign_windows w s o t = Some l -> NoDup l.
Proof.
  intros HN HA. pose proof HN as (Hw&Hs&_&_). unfold assign_windows in HA. destruct (is_tumbling w s); [inversion HA; subst; constructor; [tauto|constructor]|].
  cbv zeta in HA. unfold overlapping_windows in HA. destruct (100 <? (w + s - 1) / s) eqn:E; [discriminate|].
  assert (ND : NoDup (map (fun i => window_expr w s o t (Z.of_nat i)) (seq 0 (Z.to_nat ((w + s - 1) / s))))).
  { assert (G : forall n k, (k + n <= 100)%nat -> NoDup (map (fun i => window_expr w s o t (Z.of_nat i)) (seq k n))).
    { clear - HN Hs. induction n as [|n IH]; intros k Hk; cbn [seq map]; constructor; [|apply IH; lia].
      intros HIn. apply in_map_iff in HIn as (j&HE&Hj). apply in_seq in Hj.
      rewrite !window_expr_eq in HE by (auto; lia). inversion HE. nia. }
    apply G. lia. }
  destruct (w mod s =? 0); [inversion HA; subst; auto|].
  destruct (window_expr w s o t 0) as [a b]. destruct (_ && _)%bool; inversion HA; subst; auto. constructor.
Qed.
