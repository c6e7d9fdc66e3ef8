(** Proofs about retention. *)
From Verif Require Import Prelude TimeRangeModel PrecisionModel BucketModel BucketSpec BucketProofs TtlModel TtlSpec.

(** ** the clock arithmetic *)
Lemma unit_pos p : 1 <= unit_ns p.
Proof. destruct p; cbn; lia. Qed.
Lemma now_in_eq p t : 0 <= t <= I64_MAX -> now_in p t = t / unit_ns p.
Proof.
  intros H. assert (X : forall d, 1 <= d -> is_i64 (t / d)).
  { intros d Hd. pose proof (Z.div_pos t d ltac:(lia) ltac:(lia)). pose proof (Z.div_le_upper_bound t d I64_MAX ltac:(lia) ltac:(nia)).
    unfold is_i64. split; [|auto]. clear - H0. i64. lia. }
  destruct p; cbn [now_in unit_ns]; rewrite wrap_i64_id; auto; try (apply X; lia).
  - rewrite Z.div_1_r. auto.
  - rewrite <- (Z.div_1_r t). apply X; lia.
Qed.
Lemma to_precision_fits p ttl : ttl_fits p ttl -> to_precision ttl p = dur_ns ttl / unit_ns p /\ 0 <= dur_ns ttl / unit_ns p <= I64_MAX.
Proof.
  intros (HI&H0&HM). pose proof (unit_pos p) as HU.
  assert (B : 0 <= dur_ns ttl / unit_ns p <= I64_MAX).
  { split; [apply Z.div_pos; lia|]. apply Z.div_le_upper_bound; lia. }
  split; [|auto]. unfold to_precision. rewrite HI. destruct p; cbn [unit_ns] in *; try (apply Z.min_l; lia).
  rewrite Z.div_1_r in *. apply Z.min_l. lia.
Qed.
Definition thr (p : precision) (ttl : cnos_duration) (t : Z) : Z := t / unit_ns p - dur_ns ttl / unit_ns p.
Lemma expired_eq p ttl t : ttl_fits p ttl -> 0 <= t <= I64_MAX -> time_to_expired p ttl t = thr p ttl t.
Proof.
  intros HF HT. unfold time_to_expired, thr. rewrite now_in_eq by auto. destruct (to_precision_fits p ttl HF) as (->&B).
  apply wrap_i64_id. pose proof (unit_pos p) as HU. pose proof (Z.div_pos t (unit_ns p) ltac:(lia) ltac:(lia)) as X.
  pose proof (Z.div_le_upper_bound t (unit_ns p) I64_MAX ltac:(lia) ltac:(nia)) as Y.
  revert X Y B. generalize (t / unit_ns p), (dur_ns ttl / unit_ns p). clear. intros a b ? ? ?. unfold is_i64. i64. lia.
Qed.
Lemma thr_mono p ttl t t' : t <= t' -> thr p ttl t <= thr p ttl t'.
Proof. intros H. unfold thr. pose proof (unit_pos p). pose proof (Z.div_le_mono t t' (unit_ns p) ltac:(lia) H). lia. Qed.
(** a retained row is not below the threshold *)
Lemma retained_thr p ttl t ts : ttl_fits p ttl -> retained p ttl t ts -> thr p ttl t <= ts + 1.
Proof.
  intros (HI&_) [H|H]; [congruence|]. unfold thr. pose proof (unit_pos p) as HU.
  pose proof (Z.div_mod t (unit_ns p) ltac:(lia)) as D1. pose proof (Z.mod_pos_bound t (unit_ns p) ltac:(lia)) as M1.
  pose proof (Z.div_mod (dur_ns ttl) (unit_ns p) ltac:(lia)) as D2. pose proof (Z.mod_pos_bound (dur_ns ttl) (unit_ns p) ltac:(lia)) as M2.
  revert H D1 M1 D2 M2. generalize (t / unit_ns p), (t mod unit_ns p), (dur_ns ttl / unit_ns p), (dur_ns ttl mod unit_ns p).
  generalize (unit_ns p) HU. clear. intros u HU a r b q H -> M1 D2 M2. rewrite D2 in H. nia.
Qed.
Lemma retained_create p ttl t ts : ttl_fits p ttl -> retained p ttl t ts -> thr p ttl t <= ts.
Proof.
  intros (HI&_) [H|H]; [congruence|]. unfold thr. pose proof (unit_pos p) as HU.
  pose proof (Z.div_mod t (unit_ns p) ltac:(lia)) as D1. pose proof (Z.mod_pos_bound t (unit_ns p) ltac:(lia)) as M1.
  pose proof (Z.div_mod (dur_ns ttl) (unit_ns p) ltac:(lia)) as D2. pose proof (Z.mod_pos_bound (dur_ns ttl) (unit_ns p) ltac:(lia)) as M2.
  revert H D1 M1 D2 M2. generalize (t / unit_ns p), (t mod unit_ns p), (dur_ns ttl / unit_ns p), (dur_ns ttl mod unit_ns p).
  generalize (unit_ns p) HU. clear. intros u HU a r b q H -> M1 D2 M2. rewrite D2 in H. nia.
Qed.

(** ** what every node knows about buckets *)
Definition known_in (H : list bucket) (b : bucket) : Prop :=
  exists b0, In b0 H /\ b_id b0 = b_id b /\ b_start b0 = b_start b /\ b_end b0 = b_end b /\ incl (b_group b) (b_group b0).
Record wfH (H : list bucket) (next : Z) : Prop := {
  h_low : forall b x, In b H -> In x (bucket_ids b) -> x < next;
  h_id : forall b1 b2, In b1 H -> In b2 H -> b_id b1 = b_id b2 -> b1 = b2;
  h_grp : forall b1 b2 g1 g2, In b1 H -> In b2 H -> In g1 (b_group b1) -> In g2 (b_group b2) -> r_id g1 = r_id g2 ->
          b1 = b2 /\ g1 = g2 }.
Record W (s : sys) (H : list bucket) : Prop := {
  w_wf : wfH H (m_next (t_meta s));
  w_met : forall b, In b (m_buckets (t_meta s)) -> known_in H b;
  w_cac : forall n b, In b (snd (t_cache s n)) -> known_in H b;
  w_tod : forall n b gs, In (b, gs) (t_todo s n) -> known_in H b /\ incl gs (b_group b);
  w_row : forall r ts, In (r, ts) (t_rows s) -> exists b g, In b H /\ In g (b_group b) /\ r_id g = r /\ covers b ts }.

Lemma known_mono H H' b : incl H H' -> known_in H b -> known_in H' b.
Proof. intros I (b0&A&B). exists b0. split; auto. Qed.
Lemma known_self H b : In b H -> known_in H b.
Proof. intros I. exists b. repeat split; auto. apply incl_refl. Qed.
Lemma known_same H nx b1 b2 : wfH H nx -> known_in H b1 -> known_in H b2 -> b_id b1 = b_id b2 ->
  b_start b1 = b_start b2 /\ b_end b1 = b_end b2.
Proof.
  intros F (c1&I1&A1&S1&E1&_) (c2&I2&A2&S2&E2&_) E. assert (c1 = c2) by (eapply h_id; eauto; congruence). subst c2. split; congruence.
Qed.
Lemma known_grp H nx b1 b2 g1 g2 : wfH H nx -> known_in H b1 -> known_in H b2 -> In g1 (b_group b1) -> In g2 (b_group b2) ->
  r_id g1 = r_id g2 -> b_id b1 = b_id b2 /\ b_start b1 = b_start b2 /\ b_end b1 = b_end b2 /\ g1 = g2.
Proof.
  intros F (c1&I1&A1&S1&E1&G1) (c2&I2&A2&S2&E2&G2) X1 X2 E.
  destruct (h_grp _ _ F c1 c2 g1 g2 I1 I2 (G1 _ X1) (G2 _ X2) E) as (-> & ->). repeat split; congruence.
Qed.

Lemma bucket_by_in l ts b : bucket_by_timestamp l ts = Some b -> In b l /\ covers b ts.
Proof. unfold bucket_by_timestamp. intros H. apply find_some in H as (I&C). split; auto. unfold covers. lia. Qed.

Lemma create_spec m nodes mn ts m' : is_i64 ts -> is_i64 (m_dur m) -> 1 <= m_shards m -> 1 <= m_replica m ->
  process_create_bucket m nodes mn ts = Created m' ->
  exists b, m_buckets m' = b :: m_buckets m /\ m_next m <= m_next m' /\ m_dur m' = m_dur m /\ m_shards m' = m_shards m /\
    m_replica m' = m_replica m /\ (forall x, In x (bucket_ids b) -> m_next m <= x < m_next m') /\ NoDup (flat_map repl_ids (b_group b)) /\
    mn <= ts /\ (b_start b, b_end b) = get_time_range ts (m_dur m) /\
    Z.of_nat (length (b_group b)) = m_shards m /\ Forall (repl_ok nodes (eff_replica nodes (m_replica m))) (b_group b).
Proof.
  intros HT HD HS HR. unfold process_create_bucket.
  destruct (existsb _ _); [discriminate|]. destruct (_ <? _) eqn:EN; [discriminate|]. destruct (m_shards m =? 0); [discriminate|].
  destruct (ts <? mn) eqn:EM; [discriminate|]. cbv zeta. destruct (get_time_range ts (m_dur m)) as [a z] eqn:EG.
  destruct (allocation_replication_set _ _ _ _) as [[gs used]|] eqn:EA; [|discriminate].
  intros X. injection X as <-. cbn [m_buckets m_next m_dur m_shards m_replica].
  assert (nodes <> []). { destruct nodes; [cbn in EN; lia|discriminate]. }
  apply allocation_spec in EA as (L&U&N&R&O); auto; [|lia|lia].
  exists {| b_id := m_next m; b_start := a; b_end := z; b_group := gs |}. cbn [b_id b_start b_end b_group].
  split; [auto|]. split; [lia|]. split; [auto|]. split; [auto|]. split; [auto|].
  split. { intros x [X|X]; [cbn [b_id] in X; lia|]. cbn [b_group] in X. apply R in X. lia. }
  split; [auto|]. split; [lia|]. split; [congruence|]. split; auto.
Qed.

Lemma repl_id_in b g : In g (b_group b) -> In (r_id g) (bucket_ids b).
Proof. intros I. right. apply in_flat_map. exists g. split; auto. left; auto. Qed.
Lemma nodup_group gs g1 g2 : NoDup (flat_map repl_ids gs) -> In g1 gs -> In g2 gs -> r_id g1 = r_id g2 -> g1 = g2.
Proof.
  induction gs as [|g gs IH]; cbn [flat_map]; intros N I1 I2 E; [contradiction|].
  assert (N2 : NoDup (flat_map repl_ids gs)). { clear - N. revert N. generalize (repl_ids g). intros l. induction l; cbn; auto. intros N. inversion N; auto. }
  assert (D : forall x, In x (repl_ids g) -> In x (flat_map repl_ids gs) -> False).
  { clear - N. revert N. generalize (repl_ids g). intros l. induction l as [|a l IH]; cbn; intros N x; [tauto|].
    apply NoDup_cons_iff in N as (N1&N2). intros [<-|X] Y; [apply N1; apply in_or_app; auto|eauto]. }
  destruct I1 as [->|I1], I2 as [->|I2]; auto.
  - exfalso. apply (D (r_id g1)); [left; auto|]. apply in_flat_map. exists g2. split; auto. left; auto.
  - exfalso. apply (D (r_id g2)); [left; auto|]. apply in_flat_map. exists g1. split; auto. left; auto.
Qed.

Lemma wfH_cons H nx b nx' : wfH H nx -> nx <= nx' -> (forall x, In x (bucket_ids b) -> nx <= x < nx') ->
  NoDup (flat_map repl_ids (b_group b)) -> wfH (b :: H) nx'.
Proof.
  intros F L R N. constructor.
  - intros c x [<-|I] X. apply R in X. lia. pose proof (h_low _ _ F c x I X). lia.
  - intros c1 c2 [<-|I1] [<-|I2] E; auto.
    + exfalso. assert (X := h_low _ _ F c2 (b_id c2) I2 (or_introl eq_refl)). specialize (R (b_id b) (or_introl eq_refl)). lia.
    + exfalso. assert (X := h_low _ _ F c1 (b_id c1) I1 (or_introl eq_refl)). specialize (R (b_id b) (or_introl eq_refl)). lia.
    + eapply h_id; eauto.
  - intros c1 c2 g1 g2 [<-|I1] [<-|I2] G1 G2 E.
    + split; auto. eapply nodup_group; eauto.
    + exfalso. assert (X := h_low _ _ F c2 (r_id g2) I2 (repl_id_in _ _ G2)). specialize (R (r_id g1) (repl_id_in _ _ G1)). lia.
    + exfalso. assert (X := h_low _ _ F c1 (r_id g1) I1 (repl_id_in _ _ G1)). specialize (R (r_id g2) (repl_id_in _ _ G2)). lia.
    + eapply h_grp; eauto.
Qed.

Lemma drop_group_spec m bid r m' : drop_group m bid r = Some m' ->
  m_next m' = m_next m /\ m_dur m' = m_dur m /\ m_shards m' = m_shards m /\ m_replica m' = m_replica m /\
  (forall b, In b (m_buckets m') -> exists c, In c (m_buckets m) /\ b_id b = b_id c /\ b_start b = b_start c /\ b_end b = b_end c /\
     incl (b_group b) (b_group c) /\ (b_id b <> bid -> b = c) /\ (b_id b = bid -> b_group b <> [] /\ forall g, In g (b_group b) -> r_id g <> r)) /\
  (forall b, In b (m_buckets m) -> b_id b <> bid -> In b (m_buckets m')) /\
  (forall b g, In b (m_buckets m) -> In g (b_group b) -> r_id g <> r -> exists b', In b' (m_buckets m') /\ In g (b_group b')).
Proof.
  unfold drop_group. destruct (existsb _ _); [|discriminate]. intros X. injection X as <-. cbn [m_next m_dur m_shards m_replica m_buckets].
  do 4 (split; [auto|]). split; [|split].
  - intros b I. apply in_flat_map in I as (c&IC&I). exists c. split; [auto|]. destruct (b_id c =? bid) eqn:E.
    + set (gs := filter (fun g => negb (r_id g =? r)) (b_group c)) in *.
      assert (G : forall g, In g gs -> In g (b_group c) /\ r_id g <> r). { intros g X. apply filter_In in X as (X&Y). split; auto. lia. }
      destruct gs as [|g0 gs0] eqn:EG; [contradiction|]. destruct I as [<-|[]]. cbn [b_id b_start b_end b_group]. repeat split; auto.
      * intros g X. apply G; auto.
      * lia.
      * discriminate.
      * intros g X. apply G; auto.
    + destruct I as [<-|[]]. repeat split; auto. apply incl_refl. lia. lia.
  - intros b I N. apply in_flat_map. exists b. split; auto. replace (b_id b =? bid) with false by lia. left; auto.
  - intros b g I IG N. destruct (b_id b =? bid) eqn:E.
    + assert (Z1 : In g (filter (fun g => negb (r_id g =? r)) (b_group b))) by (apply filter_In; split; auto; lia).
      exists {| b_id := b_id b; b_start := b_start b; b_end := b_end b; b_group := filter (fun g => negb (r_id g =? r)) (b_group b) |}.
      split; [|auto]. apply in_flat_map. exists b. split; auto. rewrite E.
      destruct (filter (fun g => negb (r_id g =? r)) (b_group b)); [contradiction|]. left; auto.
    + exists b. split; auto. apply in_flat_map. exists b. split; auto. rewrite E. left; auto.
Qed.

Lemma upd_same {A} (f : Z -> A) n x : upd f n x n = x.
Proof. unfold upd. rewrite Z.eqb_refl. auto. Qed.
Lemma upd_other {A} (f : Z -> A) n x m : m <> n -> upd f n x m = f m.
Proof. intros H. unfold upd. replace (m =? n) with false by lia. auto. Qed.
Lemma upd_cases {A} (f : Z -> A) n x m (P : A -> Prop) : P x -> (m <> n -> P (f m)) -> P (upd f n x m).
Proof. intros H1 H2. unfold upd. destruct (m =? n) eqn:E; auto. apply H2. lia. Qed.

(** *** storing a row *)
Lemma put_cases s b hash ts s' a : put s b hash ts = (s', a) ->
  (s' = s /\ a = Broken) \/
  exists g, In g (b_group b) /\ is_shut s (r_leader_node g) (r_id g) = false /\ a = Acked (r_id g) /\
    s' = w_store s (r_vnodes g ++ t_disk s) ((r_id g, ts) :: t_rows s) (t_shut s).
Proof.
  unfold put. destruct (vnode_for b hash) as [g|] eqn:E; [|intros X; injection X as <- <-; auto].
  destruct (is_shut _ _ _) eqn:ES; intros X; injection X as <- <-; auto. right. exists g. split; auto.
  unfold vnode_for in E. destruct (_ =? 0); [discriminate|]. eapply nth_error_In; eauto.
Qed.

Lemma W_put s H b hash ts s' a : W s H -> known_in H b -> covers b ts -> put s b hash ts = (s', a) -> W s' H.
Proof.
  intros HW (b0&I0&A0&S0&E0&G0) C P. destruct (put_cases _ _ _ _ _ _ P) as [(->&_)|(g&I&_&_&->)]; auto.
  destruct HW. constructor; cbn; auto. intros r t [X|X]; auto. injection X as <- <-. exists b0, g. repeat split; auto; unfold covers in *; lia.
Qed.
Lemma W_sync s H n : W s H -> W (sync s n) H.
Proof.
  intros [F M C T R]. constructor; auto. cbn. intros m b. apply upd_cases; auto. intros _. apply C.
Qed.

Definition good_meta (m : meta) : Prop := is_i64 (m_dur m) /\ 1 <= m_shards m /\ 1 <= m_replica m.

Lemma W_create s H nodes mn ts m' : W s H -> good_meta (t_meta s) -> is_i64 ts -> process_create_bucket (t_meta s) nodes mn ts = Created m' ->
  exists b, m_buckets m' = b :: m_buckets (t_meta s) /\ W (w_meta s m') (b :: H) /\ good_meta m'.
Proof.
  intros HW (G1&G2&G3) HT E. destruct (create_spec _ _ _ _ _ HT G1 G2 G3 E) as (b&EB&L&D1&D2&D3&R&N&_).
  exists b. split; auto. split; [|unfold good_meta; rewrite D1, D2, D3; auto]. assert (HI : incl H (b :: H)) by (intros x X; right; auto). destruct HW as [F M C T RW].
  constructor; cbn.
  - eapply wfH_cons; eauto.
  - rewrite EB. intros c [<-|I]. apply known_self; left; auto. eapply known_mono; eauto.
  - intros n c I. eapply known_mono; eauto.
  - intros n c gs I. destruct (T n c gs I). split; auto. eapply known_mono; eauto.
  - intros r t I. destruct (RW r t I) as (c&g&X&Y). exists c, g. split; auto.
Qed.

Lemma W_write s H n nodes t hash ts s' a : W s H -> good_meta (t_meta s) -> is_i64 ts -> write s n nodes t hash ts = (s', a) ->
  exists H', incl H H' /\ W s' H' /\ good_meta (t_meta s').
Proof.
  intros HW HG HT. unfold write.
  assert (PM : forall s b s' a, put s b hash ts = (s', a) -> t_meta s' = t_meta s).
  { intros s0 b s0' a0 P. destruct (put_cases _ _ _ _ _ _ P) as [(->&_)|(g&_&_&_&->)]; auto. }
  destruct (bucket_by_timestamp (snd (t_cache s n)) ts) as [b|] eqn:EB.
  { intros P. apply bucket_by_in in EB as (I&C). exists H. split; [apply incl_refl|]. split; [|rewrite (PM _ _ _ _ P); auto].
    eapply W_put; eauto. eapply w_cac; eauto. }
  destruct (process_create_bucket _ _ _ _) as [m| | |] eqn:EC.
  - destruct (W_create _ _ _ _ _ _ HW HG HT EC) as (b&EM&HW'&HG'). destruct (bucket_by_timestamp (m_buckets m) ts) as [c|] eqn:EB2.
    + intros P. exists (b :: H). split; [intros x X; right; auto|]. split; [|rewrite (PM _ _ _ _ P); auto].
      apply bucket_by_in in EB2 as (I&C). apply (W_put _ _ _ _ _ _ _ (W_sync _ _ _ HW') (w_met _ _ HW' c I) C P).
    + intros P. injection P as <- <-. exists (b :: H). split; [intros x X; right; auto|]. split; auto. apply W_sync; auto.
  - destruct (bucket_by_timestamp (m_buckets (t_meta s)) ts) as [c|] eqn:EB2.
    + intros P. exists H. split; [apply incl_refl|]. split; [|rewrite (PM _ _ _ _ P); auto].
      apply bucket_by_in in EB2 as (I&C). apply (W_put _ _ _ _ _ _ _ (W_sync _ _ _ HW) (w_met _ _ HW c I) C P).
    + intros P. injection P as <- <-. exists H. split; [apply incl_refl|]. split; auto. apply W_sync; auto.
  - intros P. injection P as <- <-. exists H. split; [apply incl_refl|]; auto.
  - intros P. injection P as <- <-. exists H. split; [apply incl_refl|]; auto.
Qed.

(** *** deleting *)
Lemma W_todo s H n l : W s H -> (forall b gs, In (b, gs) l -> known_in H b /\ incl gs (b_group b)) -> W (w_todo s n l) H.
Proof. intros [F M C T R] HL. constructor; auto. cbn. intros m b gs. apply upd_cases; auto. intros _. apply T. Qed.
Lemma W_store s H d r h : W s H -> incl r (t_rows s) -> W (w_store s d r h) H.
Proof. intros [F M C T R] HL. constructor; auto. Qed.
Lemma W_meta_sub s H m : W s H -> m_next m = m_next (t_meta s) ->
  (forall b, In b (m_buckets m) -> exists c, In c (m_buckets (t_meta s)) /\ b_id b = b_id c /\ b_start b = b_start c /\ b_end b = b_end c /\ incl (b_group b) (b_group c)) ->
  W (w_meta s m) H.
Proof.
  intros [F M C T R] E HL. constructor; auto. cbn. rewrite E; auto. cbn. intros b I. destruct (HL b I) as (c&IC&A&S&EE&G).
  destruct (M c IC) as (b0&I0&A0&S0&E0&G0). exists b0. repeat split; auto; try congruence. eapply incl_tran; eauto.
Qed.
Lemma incl_filter' {A} (f : A -> bool) l : incl (filter f l) l.
Proof. intros x X. apply filter_In in X. tauto. Qed.
Lemma W_delete s H id : W s H -> W (w_meta s (process_delete_bucket (t_meta s) id)) H.
Proof.
  intros HW. apply W_meta_sub; auto. cbn. intros b I. exists b. apply incl_filter' in I. repeat split; auto. apply incl_refl.
Qed.

Lemma W_work s H n o : W s H -> W (work s n o) H.
Proof.
  intros HW. unfold work. pose proof (w_tod _ _ HW n) as HT. destruct (t_todo s n) as [|[b gs] rest]; auto.
  assert (HR : forall b0 gs0, In (b0, gs0) rest -> known_in H b0 /\ incl gs0 (b_group b0)) by (intros; apply HT; right; auto).
  destruct gs as [|g gs].
  { apply W_todo; auto. destruct o; auto. apply W_delete; auto. }
  assert (HR2 : forall b0 gs0, In (b0, gs0) ((b, gs) :: rest) -> known_in H b0 /\ incl gs0 (b_group b0)).
  { intros b0 gs0 [X|X]; auto. injection X as <- <-. destruct (HT b (g :: gs) (or_introl eq_refl)). split; auto. intros x X. apply H1. right; auto. }
  destruct (r_leader_node g =? n); [|apply W_todo; auto].
  destruct (_ || _)%bool; [apply W_todo; auto|].
  destruct o as [k| |].
  - apply W_todo; auto. apply W_store; auto. apply incl_refl.
  - apply W_todo; auto. apply W_store; auto. apply incl_filter'.
  - cbv zeta. destruct (drop_group _ _ _) as [m|] eqn:ED; [|apply W_todo; auto; apply W_store; auto; apply incl_filter'].
    apply W_todo; auto. destruct (drop_group_spec _ _ _ _ ED) as (E1&_&_&_&E5&_). apply W_meta_sub; auto.
    + apply W_store; auto. apply incl_filter'.
    + intros c IC. destruct (E5 c IC) as (c0&X&A&B&C&D&_). exists c0. repeat split; auto.
Qed.

Lemma W_step s H e : W s H -> good_meta (t_meta s) ->
  match e with EvWrite _ _ _ _ ts => is_i64 ts | EvAlter _ d sh r => is_i64 d /\ 1 <= sh /\ 1 <= r | _ => True end ->
  exists H', incl H H' /\ W (fst (step s e)) H' /\ good_meta (t_meta (fst (step s e))).
Proof.
  intros HW HG HE. destruct e as [n nodes t hash ts|n|n t|n o|ttl d sh r|n r|n]; cbn [step].
  - destruct (write s n nodes t hash ts) as [s' a] eqn:E. cbn [fst]. eapply W_write; eauto.
  - exists H. split; [apply incl_refl|]. split; auto. cbn. apply W_sync; auto.
  - exists H. split; [apply incl_refl|]. destruct (t_todo s n) eqn:ET; [|auto]. cbn. split; auto. apply W_todo; auto.
    intros b gs I. apply in_map_iff in I as (c&X&I). injection X as <- <-. split; [|apply incl_refl]. apply incl_filter' in I. eapply w_cac; eauto.
  - exists H. split; [apply incl_refl|]. cbn. split; [apply W_work; auto|].
    assert (X : forall m bid r m', drop_group m bid r = Some m' -> good_meta m -> good_meta m').
    { intros m bid r m' ED. destruct (drop_group_spec _ _ _ _ ED) as (_&A&B&C&_). unfold good_meta. rewrite A, B, C. auto. }
    unfold work. destruct (t_todo s n) as [|[b [|g gs]] rest]; auto. destruct o; auto.
    destruct (_ =? n); auto. destruct (_ || _)%bool; auto. destruct o; auto. cbv zeta. destruct (drop_group _ _ _) eqn:ED; auto. cbn. eauto.
  - exists H. split; [apply incl_refl|]. cbn. split; [|exact HE]. destruct HW. constructor; auto.
  - exists H. split; [apply incl_refl|]. destruct (in_cache s n r && negb (in_meta s r))%bool; cbn [fst]; auto. split; auto. apply W_store; auto. apply incl_refl.
  - exists H. split; [apply incl_refl|]. cbn [fst]. split; auto. apply W_todo; [|intros b gs []]. apply W_sync. apply W_store; auto. apply incl_refl.
Qed.
Lemma W_new p ttl next dur sh r : W (new_db p ttl next dur sh r) [].
Proof. constructor; cbn; try tauto. constructor; cbn; try tauto. Qed.

(** ** nothing retained is deleted *)
Record V (p : precision) (ttl : cnos_duration) (d sh r : Z) (th : Z) (s : sys) : Prop := {
  v_prec : t_prec s = p; v_ttl : t_ttl s = ttl;
  v_opt : m_dur (t_meta s) = d /\ m_shards (t_meta s) = sh /\ m_replica (t_meta s) = r;
  v_cttl : forall n, fst (t_cache s n) = ttl;
  v_cac : forall n b, In b (snd (t_cache s n)) -> th <= b_end b -> In b (m_buckets (t_meta s));
  v_tod : forall n b gs, In (b, gs) (t_todo s n) -> b_end b < th;
  v_shut : forall n x b g, In (n, x) (t_shut s) -> In b (m_buckets (t_meta s)) -> th <= b_end b -> In g (b_group b) -> r_id g <> x;
  v_grp : forall b, In b (m_buckets (t_meta s)) -> th <= b_end b -> b_group b <> [] }.

Lemma V_new p ttl next d sh r th : V p ttl d sh r th (new_db p ttl next d sh r).
Proof. constructor; cbn; auto; try tauto; contradiction. Qed.

Lemma V_put p ttl d sh r th s b hash ts s' a : V p ttl d sh r th s -> put s b hash ts = (s', a) -> V p ttl d sh r th s'.
Proof. intros [] P. destruct (put_cases _ _ _ _ _ _ P) as [(->&_)|(g&_&_&_&->)]; constructor; auto. Qed.
Lemma V_sync p ttl d sh r th s n : V p ttl d sh r th s -> V p ttl d sh r th (sync s n).
Proof.
  intros []. constructor; auto; cbn.
  - intros m. apply upd_cases; auto.
  - intros m b. apply upd_cases; cbn; auto. intros _. apply v_cac0.
Qed.
Lemma V_create p ttl d sh r th s H nodes mn ts m' : W s H -> (forall n x, In (n, x) (t_shut s) -> x < m_next (t_meta s)) ->
  V p ttl d sh r th s -> good_meta (t_meta s) -> is_i64 ts -> process_create_bucket (t_meta s) nodes mn ts = Created m' ->
  V p ttl d sh r th (w_meta s m').
Proof.
  intros HW HS HV (G1&G2&G3) HT E. destruct (create_spec _ _ _ _ _ HT G1 G2 G3 E) as (b&EB&L&D1&D2&D3&R&N&_&_&LG&_).
  destruct HV. constructor; cbn; auto.
  - rewrite D1, D2, D3. auto.
  - intros n c I T. rewrite EB. right. eauto.
  - intros n x c g I. rewrite EB. intros [<-|IC] T IG; [|eauto]. apply HS in I. apply repl_id_in, R in IG. lia.
  - intros c. rewrite EB. intros [<-|IC] T; [|eauto]. intros X. rewrite X in LG. cbn in LG. lia.
Qed.

(** groups shut down have been created before *)
Definition shut_low (s : sys) : Prop := forall n x, In (n, x) (t_shut s) -> x < m_next (t_meta s).
Lemma work_cases s n o : work s n o = s \/
  exists b gs rest, t_todo s n = (b, gs) :: rest /\
   ((gs = [] /\ (work s n o = w_todo s n rest \/ work s n o = w_todo (w_meta s (process_delete_bucket (t_meta s) (b_id b))) n rest)) \/
   exists g gs0, gs = g :: gs0 /\
    (work s n o = w_todo s n rest \/ (r_leader_node g <> n /\ work s n o = w_todo s n ((b, gs0) :: rest)) \/
     (r_leader_node g = n /\ in_cache s n (r_id g) = true /\ is_shut s n (r_id g) = false /\
      ((exists k, o = Fail k /\ work s n o = w_todo (w_store s (undisk (t_disk s) (firstn k (drop_order n g))) (t_rows s) (t_shut s)) n rest) \/
       (o = NoMeta \/ o = Done /\ drop_group (t_meta s) (b_id b) (r_id g) = None) /\
       work s n o = w_todo (w_store s (undisk (t_disk s) (drop_order n g)) (filter (fun x => negb (fst x =? r_id g)) (t_rows s)) ((n, r_id g) :: t_shut s)) n rest \/
       exists m, o = Done /\ drop_group (t_meta s) (b_id b) (r_id g) = Some m /\
         work s n o = w_todo (w_meta (w_store s (undisk (t_disk s) (drop_order n g)) (filter (fun x => negb (fst x =? r_id g)) (t_rows s)) ((n, r_id g) :: t_shut s)) m) n ((b, gs0) :: rest))))).
Proof.
  unfold work. destruct (t_todo s n) as [|[b gs] rest]; auto. right. exists b, gs, rest. split; auto. destruct gs as [|g gs0].
  { left. split; auto. destruct o; auto. }
  right. exists g, gs0. split; auto. destruct (r_leader_node g =? n) eqn:EL; [|right; left; split; [lia|auto]].
  destruct (in_cache s n (r_id g)) eqn:EC; cbn [negb orb]; auto. destruct (is_shut s n (r_id g)) eqn:ES; auto.
  right. right. split; [lia|]. split; auto. split; auto. destruct o as [k| |].
  - left. eauto.
  - right. left. auto.
  - cbv zeta. destruct (drop_group _ _ _) as [m|] eqn:ED; [|right; left; auto]. right. right. eauto.
Qed.

Lemma shut_step s H e : W s H -> good_meta (t_meta s) -> shut_low s -> shut_low (fst (step s e)).
Proof.
  intros HW HG HS. unfold shut_low in *. assert (P0 : forall s b h ts, (t_shut (fst (put s b h ts))) = t_shut s /\ t_meta (fst (put s b h ts)) = t_meta s).
  { intros s0 b h ts. destruct (put s0 b h ts) as [s' a] eqn:P. destruct (put_cases _ _ _ _ _ _ P) as [(->&_)|(g&_&_&_&->)]; auto. }
  destruct e as [n nodes t hash ts|n|n t|n o|ttl d sh r|n r|n]; cbn [step].
  - unfold write. destruct (bucket_by_timestamp _ _); [destruct (P0 s b hash ts) as (->&->); auto|].
    destruct (process_create_bucket _ _ _ _) as [m| | |] eqn:EC; auto.
    + assert (L : m_next (t_meta s) <= m_next m).
      { revert EC. unfold process_create_bucket. destruct (existsb _ _); [discriminate|]. destruct (Z.of_nat (length nodes) <? _) eqn:EN; [discriminate|].
        destruct (m_shards _ =? 0); [discriminate|]. destruct (ts <? _); [discriminate|]. cbv zeta. destruct (get_time_range _ _).
        destruct (allocation_replication_set _ _ _ _) as [[gs used]|] eqn:EA; [|intros X; discriminate X]. intros X. injection X as <-. cbn.
        destruct HG as (G1&G2&G3). assert (NN : nodes <> []) by (intros ->; cbn in EN; lia).
        eapply allocation_spec in EA as (_&U&_); [lia|exact NN|lia|lia]. }
      destruct (bucket_by_timestamp (m_buckets m) ts) as [c|]; [destruct (P0 (sync (w_meta s m) n) c hash ts) as (->&->)|]; cbn; intros k x X; apply HS in X; lia.
    + destruct (bucket_by_timestamp _ ts) as [c|]; [destruct (P0 (sync s n) c hash ts) as (->&->)|]; auto.
  - auto.
  - destruct (t_todo s n); auto.
  - destruct (work_cases s n o) as [E|(b&gs&rest&ET&X)]; [cbn [fst]; rewrite E; auto|]. cbn [fst].
    destruct X as [(_&[E|E])|(g&gs0&->&[E|[(_&E)|(EL&IC&_&[(k&_&E)|[(_&E)|(m&_&ED&E)]])]])]; rewrite E; cbn; auto.
    + intros k x [X|X]; [|eauto]. injection X as <- <-. destruct (w_tod _ _ HW n b (g :: gs0)) as ((b0&I0&_&_&_&G0)&G1); [rewrite ET; left; auto|].
      apply (h_low _ _ (w_wf _ _ HW) b0); auto. apply repl_id_in, G0, G1. left; auto.
    + destruct (drop_group_spec _ _ _ _ ED) as (EN&_). intros k x [X|X]; rewrite EN; [|eauto]. injection X as <- <-.
      destruct (w_tod _ _ HW n b (g :: gs0)) as ((b0&I0&_&_&_&G0)&G1); [rewrite ET; left; auto|].
      apply (h_low _ _ (w_wf _ _ HW) b0); auto. apply repl_id_in, G0, G1. left; auto.
  - auto.
  - destruct (in_cache s n r && negb (in_meta s r))%bool; auto. cbn. intros k x X. apply incl_filter' in X. eauto.
  - cbn. intros k x X. apply incl_filter' in X. eauto.
Qed.

Definition clock_ok (t : Z) (e : event) : Prop :=
  match e with EvWrite _ _ c _ ts => 0 <= c <= t /\ is_i64 ts | EvScan _ c => 0 <= c <= t | _ => True end.
Definition not_alter (e : event) : Prop := match e with EvAlter _ _ _ _ => False | _ => True end.
Record keep (p : precision) (ttl : cnos_duration) (r ts : Z) (s : sys) : Prop := {
  k_row : In (r, ts) (t_rows s);
  k_meta : exists b g, In b (m_buckets (t_meta s)) /\ In g (b_group b) /\ r_id g = r /\ covers b ts }.

Section Kept.
Variables (p : precision) (ttl : cnos_duration) (d sh rp T : Z).
Hypothesis (HF : ttl_fits p ttl) (HT : 0 <= T <= I64_MAX).
Notation th := (thr p ttl T).
Notation VV := (V p ttl d sh rp th).

Lemma V_todo s n l : VV s -> (forall b gs, In (b, gs) l -> b_end b < th) -> VV (w_todo s n l).
Proof. intros [] HL. constructor; auto. cbn. intros m b gs. apply upd_cases; eauto. Qed.

(** the bucket being deleted has nothing to do with a bucket that is not expired *)
Lemma todo_apart s H n b gs b' : W s H -> VV s -> In (b, gs) (t_todo s n) -> In b' (m_buckets (t_meta s)) -> th <= b_end b' ->
  b_id b' <> b_id b /\ forall g g', In g gs -> In g' (b_group b') -> r_id g' <> r_id g.
Proof.
  intros HW HV I IM HB. destruct (w_tod _ _ HW n b gs I) as (K&G). pose proof (v_tod _ _ _ _ _ _ _ HV n b gs I) as E.
  pose proof (w_met _ _ HW b' IM) as K'. split.
  - intros X. destruct (known_same _ _ _ _ (w_wf _ _ HW) K' K X). lia.
  - intros g g' IG IG' X. destruct (known_grp _ _ _ _ _ _ (w_wf _ _ HW) K' K IG' (G _ IG) X) as (_&_&Y&_). lia.
Qed.

Lemma V_work s H n o : W s H -> VV s -> VV (work s n o) /\
  (forall b, In b (m_buckets (t_meta s)) -> th <= b_end b -> In b (m_buckets (t_meta (work s n o)))) /\
  (forall r ts b g, In (r, ts) (t_rows s) -> In b (m_buckets (t_meta s)) -> th <= b_end b -> In g (b_group b) -> r_id g = r -> In (r, ts) (t_rows (work s n o))).
Proof.
  intros HW HV. destruct (work_cases s n o) as [E|(b&gs&rest&ET&X)]; [rewrite E; auto|].
  assert (I0 : In (b, gs) (t_todo s n)) by (rewrite ET; left; auto).
  assert (HR : forall b0 gs0, In (b0, gs0) rest -> b_end b0 < th) by (intros b0 gs0 Y; apply (v_tod _ _ _ _ _ _ _ HV n b0 gs0); rewrite ET; right; auto).
  pose proof (v_tod _ _ _ _ _ _ _ HV n b gs I0) as HB.
  assert (HR2 : forall gs1 b0 gs0, In (b0, gs0) ((b, gs1) :: rest) -> b_end b0 < th) by (intros gs1 b0 gs0 [Y|Y]; [injection Y as <- <-; auto|eauto]).
  pose proof (fun b' => todo_apart s H n b gs b' HW HV I0) as AP.
  destruct X as [(_&[E|E])|(g&gs0&->&[E|[(_&E)|(EL&IC&_&[(k&_&E)|[(_&E)|(m&_&ED&E)]])]])]; rewrite E; cbn [t_meta t_rows w_todo w_meta w_store].
  - split; auto. apply V_todo; auto.
  - split; [|split]; auto.
    + apply V_todo; auto. destruct HV. constructor; auto; cbn; auto.
      * intros m c IC TH. apply filter_In. split; [eauto|]. destruct (AP c (v_cac0 m c IC TH) TH). lia.
      * intros m x c g IS IM. apply incl_filter' in IM. eauto.
      * intros c IM. apply incl_filter' in IM. eauto.
    + cbn. intros c IM TH. apply filter_In. split; auto. destruct (AP c IM TH). lia.
  - split; auto. apply V_todo; auto.
  - split; auto. apply V_todo; eauto.
  - split; auto. apply V_todo; auto. destruct HV. constructor; auto.
  - assert (RP : forall (r ts : Z) (b0 : bucket) (g0 : repl), In (r, ts) (t_rows s) -> In b0 (m_buckets (t_meta s)) -> th <= b_end b0 -> In g0 (b_group b0) -> r_id g0 = r ->
       In (r, ts) (filter (fun x : Z * Z => negb (fst x =? r_id g)) (t_rows s))).
    { intros r ts b0 g0 IR IM TH IG <-. apply filter_In. split; auto. cbn [fst]. destruct (AP b0 IM TH) as (_&Y). specialize (Y g g0 (or_introl eq_refl) IG). lia. }
    split; [|split]; eauto. apply V_todo; auto. destruct HV. constructor; auto; cbn.
    intros m x c g' [Y|Y] IM TH IG; [|eauto]. injection Y as <- <-. destruct (AP c IM TH) as (_&Y). apply Y; auto. left; auto.
  - assert (RP : forall (r ts : Z) (b0 : bucket) (g0 : repl), In (r, ts) (t_rows s) -> In b0 (m_buckets (t_meta s)) -> th <= b_end b0 -> In g0 (b_group b0) -> r_id g0 = r ->
       In (r, ts) (filter (fun x : Z * Z => negb (fst x =? r_id g)) (t_rows s))).
    { intros r ts b0 g0 IR IM TH IG <-. apply filter_In. split; auto. cbn [fst]. destruct (AP b0 IM TH) as (_&Y). specialize (Y g g0 (or_introl eq_refl) IG). lia. }
    destruct (drop_group_spec _ _ _ _ ED) as (EN&E1&E2&E3&E5&E6&_).
    assert (OLD : forall c, In c (m_buckets m) -> th <= b_end c -> In c (m_buckets (t_meta s))).
    { intros c IM TH. destruct (E5 c IM) as (c0&I1&Q1&Q2&Q3&_&Q5&_). rewrite Q5; auto. rewrite Q1. destruct (AP c0 I1); auto. lia. }
    split; [|split]; eauto.
    + apply V_todo; eauto. destruct HV. constructor; auto; cbn.
      * rewrite E1, E2, E3. auto.
      * intros k c IC' TH. apply E6; eauto. destruct (AP c (v_cac0 k c IC' TH) TH). auto.
      * intros k x c g' [Y|Y] IM TH IG; [|eauto]. injection Y as <- <-. destruct (AP c (OLD c IM TH) TH) as (_&Y). apply Y; auto. left; auto.
    + intros c IM TH. apply E6; auto. destruct (AP c IM TH); auto.
Qed.

(** *** one event *)
Lemma V_write s H n nodes t hash ts s' a : W s H -> shut_low s -> VV s -> good_meta (t_meta s) -> is_i64 ts -> write s n nodes t hash ts = (s', a) ->
  VV s' /\ (forall b, In b (m_buckets (t_meta s)) -> In b (m_buckets (t_meta s'))) /\ incl (t_rows s) (t_rows s') /\
  (forall r, a = Acked r -> th <= ts -> keep p ttl r ts s').
Proof.
  intros HW HS HV HG HI. unfold write.
  assert (PUT : forall s0, VV s0 -> forall b s0' a0, In b (m_buckets (t_meta s0)) \/ (exists k, In b (snd (t_cache s0 k))) -> covers b ts -> put s0 b hash ts = (s0', a0) ->
     VV s0' /\ t_meta s0' = t_meta s0 /\ incl (t_rows s0) (t_rows s0') /\ (forall r, a0 = Acked r -> th <= ts -> keep p ttl r ts s0')).
  { intros s0 HV0 b s0' a0 IB C P. split; [eapply V_put; eauto|]. destruct (put_cases _ _ _ _ _ _ P) as [(->&->)|(g&IG&_&->&->)].
    - split; auto. split; [apply incl_refl|]. discriminate.
    - cbn. split; auto. split; [intros x X; right; auto|]. intros r X TH. injection X as <-. constructor; cbn; [auto|].
      exists b, g. repeat split; auto; try apply C. destruct IB as [IB|(k&IB)]; auto. eapply v_cac; eauto. unfold covers in C. lia. }
  destruct (bucket_by_timestamp (snd (t_cache s n)) ts) as [b|] eqn:EB.
  { intros P. apply bucket_by_in in EB as (I&C). destruct (PUT s HV b s' a ltac:(eauto) C P) as (A&B&D&E). rewrite B. auto. }
  destruct (process_create_bucket _ _ _ _) as [m| | |] eqn:EC.
  - pose proof (V_create _ _ _ _ _ _ _ _ _ _ _ _ HW HS HV HG HI EC) as HV1. apply (V_sync _ _ _ _ _ _ _ n) in HV1.
    destruct HG as (G1&G2&G3). destruct (create_spec _ _ _ _ _ HI G1 G2 G3 EC) as (b&EM&_).
    destruct (bucket_by_timestamp (m_buckets m) ts) as [c|] eqn:EB2.
    + intros P. apply bucket_by_in in EB2 as (I&C). destruct (PUT _ HV1 c s' a (or_introl I) C P) as (A&B&D&E). rewrite B. cbn [sync w_cache t_meta w_meta].
      split; auto. split; auto. rewrite EM. intros x X. right; auto.
    + intros P. injection P as <- <-. split; auto. cbn [sync w_cache t_meta w_meta t_rows]. split; [rewrite EM; intros x X; right; auto|]. split; [apply incl_refl|discriminate].
  - pose proof (V_sync _ _ _ _ _ _ _ n HV) as HV1. destruct (bucket_by_timestamp (m_buckets (t_meta s)) ts) as [c|] eqn:EB2.
    + intros P. apply bucket_by_in in EB2 as (I&C). destruct (PUT _ HV1 c s' a (or_introl I) C P) as (A&B&D&E). rewrite B. auto.
    + intros P. injection P as <- <-. split; auto. split; auto. split; [apply incl_refl|discriminate].
  - intros P. injection P as <- <-. split; auto. split; auto. split; [apply incl_refl|discriminate].
  - intros P. injection P as <- <-. split; auto. split; auto. split; [apply incl_refl|discriminate].
Qed.

Lemma V_step s H e : W s H -> shut_low s -> VV s -> good_meta (t_meta s) -> clock_ok T e -> not_alter e ->
  VV (fst (step s e)) /\
  (forall b, In b (m_buckets (t_meta s)) -> th <= b_end b -> In b (m_buckets (t_meta (fst (step s e))))) /\
  (forall r ts b g, In (r, ts) (t_rows s) -> In b (m_buckets (t_meta s)) -> th <= b_end b -> In g (b_group b) -> r_id g = r -> In (r, ts) (t_rows (fst (step s e)))).
Proof.
  intros HW HS HV HG HC HN. destruct e as [n nodes t hash ts|n|n t|n o|ttl' d' sh' r'|n r|n]; cbn [step clock_ok not_alter] in *.
  - destruct (write s n nodes t hash ts) as [s' a] eqn:E. cbn [fst]. destruct (V_write _ _ _ _ _ _ _ _ _ HW HS HV HG (proj2 HC) E) as (A&B&C&_). split; [auto|]. split; [auto|]. intros r0 ts0 b0 g0 I0 _ _ _ _. apply C; auto.
  - cbn [fst]. split; [apply V_sync; auto|]. split; auto.
  - destruct (t_todo s n) eqn:ET; [|auto]. cbn [fst]. split; [|split; auto]. apply V_todo; auto.
    intros b gs I. apply in_map_iff in I as (c&X&I). injection X as <- <-. unfold expired_bucket in I. apply filter_In in I as (_&I).
    rewrite (v_prec _ _ _ _ _ _ _ HV), (v_cttl _ _ _ _ _ _ _ HV), expired_eq in I by (auto; lia).
    pose proof (thr_mono p ttl t T ltac:(lia)). lia.
  - cbn [fst]. eapply V_work; eauto.
  - contradiction.
  - destruct (in_cache s n r && negb (in_meta s r))%bool; cbn [fst]; auto. split; [|split; auto]. destruct HV. constructor; auto. cbn. intros m x b g I. apply incl_filter' in I. eauto.
  - cbn [fst]. split; [|split; auto]. apply V_todo; [|intros b gs []]. apply V_sync. destruct HV. constructor; auto. cbn. intros m x b g I. apply incl_filter' in I. eauto.
Qed.

Definition INV (s : sys) : Prop := exists H, W s H /\ shut_low s /\ VV s /\ good_meta (t_meta s).
Lemma INV_step s e : INV s -> clock_ok T e -> not_alter e -> INV (fst (step s e)).
Proof.
  intros (H&HW&HS&HV&HG) HC HN. destruct (W_step s H e HW HG) as (H'&_&HW'&HG').
  { destruct e; cbn in *; tauto. }
  exists H'. split; auto. split; [eapply shut_step; eauto|]. split; auto. eapply V_step; eauto.
Qed.
Lemma INV_run tr : forall s, INV s -> clocks_upto T tr -> no_alter tr -> INV (run s tr).
Proof.
  induction tr as [|e tr IH]; intros s HI HC HN; cbn [run]; auto. apply IH.
  - apply INV_step; auto. apply (HC e); left; auto. apply (HN e); left; auto.
  - intros x X. apply HC. right; auto.
  - intros x X. apply HN. right; auto.
Qed.
Lemma INV_new next : is_i64 d -> 1 <= sh -> 1 <= rp -> INV (new_db p ttl next d sh rp).
Proof. intros. exists []. split; [apply W_new|]. split; [intros n x []|]. split; [apply V_new|]. repeat split; auto; apply H. Qed.

Lemma keep_step s e r ts : INV s -> clock_ok T e -> not_alter e -> th <= ts -> keep p ttl r ts s -> keep p ttl r ts (fst (step s e)).
Proof.
  intros (H&HW&HS&HV&HG) HC HN TH [KR (b&g&I&IG&E&C)]. destruct (V_step s H e HW HS HV HG HC HN) as (_&B&R).
  assert (TB : th <= b_end b) by (unfold covers in C; lia). constructor; eauto. exists b, g. auto.
Qed.
Lemma keep_run r ts tr : th <= ts -> forall s, INV s -> clocks_upto T tr -> no_alter tr -> keep p ttl r ts s -> keep p ttl r ts (run s tr).
Proof.
  intros TH. induction tr as [|e tr IH]; intros s HI HC HN K; cbn [run]; auto. apply IH.
  - apply INV_step; auto. apply (HC e); left; auto. apply (HN e); left; auto.
  - intros x X. apply HC. right; auto.
  - intros x X. apply HN. right; auto.
  - apply keep_step; auto. apply (HC e); left; auto. apply (HN e); left; auto.
Qed.
End Kept.

Lemma run_app tr1 tr2 s : run s (tr1 ++ tr2) = run (run s tr1) tr2.
Proof. revert s. induction tr1; intros s; cbn; auto. Qed.
Lemma query_in s n a z r ts b g : In (r, ts) (t_rows s) -> In b (snd (t_cache s n)) -> In g (b_group b) -> r_id g = r -> covers b ts ->
  a <= ts <= z -> In ts (query s n a z).
Proof.
  intros IR IB IG E C HB. unfold query. apply in_map_iff. exists (r, ts). split; auto. apply filter_In. split; auto. cbn [fst snd].
  rewrite andb_true_iff. split; [lia|]. apply existsb_exists. exists g. split; [|lia]. unfold prune_shards. apply in_flat_map. exists b. split; auto.
  unfold mapping_bucket. apply filter_In. split; auto. unfold covers in C. lia.
Qed.

Lemma kept p ttl next d sh rp tr1 n nodes c h ts r tr2 t q a z : ttl_fits p ttl -> 0 <= t <= I64_MAX -> is_i64 d -> 1 <= sh -> 1 <= rp ->
  clocks_upto t (tr1 ++ EvWrite n nodes c h ts :: tr2) -> no_alter (tr1 ++ EvWrite n nodes c h ts :: tr2) ->
  snd (step (run (new_db p ttl next d sh rp) tr1) (EvWrite n nodes c h ts)) = Acked r ->
  retained p ttl t ts -> a <= ts <= z ->
  In ts (query (run (new_db p ttl next d sh rp) (tr1 ++ EvWrite n nodes c h ts :: tr2 ++ [EvSync q])) q a z).
Proof.
  intros HF HT HD HS HR HC HN HA RE HB.
  pose proof (retained_create _ _ _ _ HF RE) as TH.
  assert (HI : INV p ttl d sh rp t (run (new_db p ttl next d sh rp) tr1)).
  { apply INV_run; auto; [apply INV_new; auto| |]; intros x X; [apply HC|apply HN]; apply in_or_app; auto. }
  assert (HC1 : clock_ok t (EvWrite n nodes c h ts)) by (apply (HC (EvWrite n nodes c h ts)); apply in_or_app; right; left; auto).
  rewrite run_app. cbn [run]. rewrite run_app. cbn [run step fst].
  set (s1 := run (new_db p ttl next d sh rp) tr1) in *.
  assert (K : keep p ttl r ts (fst (step s1 (EvWrite n nodes c h ts)))).
  { cbn [step] in *. destruct (write s1 n nodes c h ts) as [s' a'] eqn:E. cbn [fst snd] in *. destruct HI as (H&HW&HS1&HV&HG).
    eapply V_write; eauto. apply HC1. }
  assert (HI2 : INV p ttl d sh rp t (fst (step s1 (EvWrite n nodes c h ts)))) by (apply INV_step; auto; cbn; auto).
  assert (K2 : keep p ttl r ts (run (fst (step s1 (EvWrite n nodes c h ts))) tr2)).
  { apply (keep_run p ttl d sh rp t); auto; intros x X; [apply HC|apply HN]; apply in_or_app; right; right; auto. }
  destruct K2 as [KR (b&g&I&IG&E&C)]. apply (query_in _ _ _ _ r ts b g); auto. cbn. rewrite upd_same. auto.
Qed.

(** ** which writes are refused *)
Lemma vnode_for_some b h : b_group b <> [] -> 0 <= h -> exists g, vnode_for b h = Some g /\ In g (b_group b).
Proof.
  intros HG HH. unfold vnode_for. destruct (b_group b) as [|g0 gs] eqn:E; [congruence|].
  assert (0 < Z.of_nat (length (g0 :: gs))) by (cbn [length]; lia). replace (_ =? 0) with false by lia.
  pose proof (Z.mod_pos_bound h (Z.of_nat (length (g0 :: gs))) ltac:(lia)) as B.
  destruct (nth_error (g0 :: gs) (Z.to_nat (h mod Z.of_nat (length (g0 :: gs))))) as [g|] eqn:EN.
  - exists g. split; auto. eapply nth_error_In; eauto.
  - apply nth_error_None in EN. lia.
Qed.
Lemma vnode_eqb_eq a b : vnode_eqb a b = true <-> a = b.
Proof. unfold vnode_eqb. destruct a, b; cbn. rewrite andb_true_iff. split; [intros (?&?); f_equal; lia|intros X; injection X as <- <-; lia]. Qed.
Lemma is_shut_spec s n r : is_shut s n r = true <-> In (n, r) (t_shut s).
Proof.
  unfold is_shut. rewrite existsb_exists. split.
  - intros (x&I&E). apply vnode_eqb_eq in E. congruence.
  - intros I. exists (n, r). split; auto. apply vnode_eqb_eq; auto.
Qed.
Lemma put_acked p ttl d sh rp th s b h ts : V p ttl d sh rp th s -> In b (m_buckets (t_meta s)) -> th <= b_end b -> 0 <= h ->
  exists r, snd (put s b h ts) = Acked r.
Proof.
  intros HV I TH HH. destruct (vnode_for_some b h (v_grp _ _ _ _ _ _ _ HV b I TH) HH) as (g&E&IG). unfold put. rewrite E.
  destruct (is_shut s (r_leader_node g) (r_id g)) eqn:ES; [|cbn; eauto]. apply is_shut_spec in ES.
  exfalso. exact (v_shut _ _ _ _ _ _ _ HV _ _ _ _ ES I TH IG eq_refl).
Qed.
Lemma bucket_by_none l ts b : bucket_by_timestamp l ts = None -> In b l -> covers b ts -> False.
Proof. unfold bucket_by_timestamp. intros H I C. apply find_none with (x := b) in H; auto. unfold covers in C. lia. Qed.

Lemma accepted p ttl next d sh rp tr n nodes t h ts : ttl_fits p ttl -> 0 <= t <= I64_MAX -> is_i64 d -> 1 <= sh -> 1 <= rp ->
  clocks_upto t tr -> no_alter tr -> is_i64 ts -> ts <> I64_MAX -> 0 <= h -> rp <= Z.of_nat (length nodes) -> retained p ttl t ts ->
  exists r, snd (step (run (new_db p ttl next d sh rp) tr) (EvWrite n nodes t h ts)) = Acked r.
Proof.
  intros HF HT HD HS HR HC HN HI HX HH HL RE. pose proof (retained_create _ _ _ _ HF RE) as TH.
  destruct (INV_run p ttl d sh rp t HF HT tr _ (INV_new p ttl d sh rp t next HD HS HR) HC HN) as (H&HW&HS1&HV&HG).
  set (s := run (new_db p ttl next d sh rp) tr) in *. cbn [step]. unfold write.
  destruct (bucket_by_timestamp (snd (t_cache s n)) ts) as [b|] eqn:EB.
  { apply bucket_by_in in EB as (I&C). assert (thr p ttl t <= b_end b) by (unfold covers in C; lia). eapply put_acked; eauto. eapply v_cac; eauto. }
  assert (NE : nodes <> []) by (intros ->; cbn in HL; lia).
  destruct (v_opt _ _ _ _ _ _ _ HV) as (O1&O2&O3).
  destruct (process_create_bucket _ _ _ _) as [m| | |] eqn:EC.
  - pose proof (V_create _ _ _ _ _ _ _ _ _ _ _ _ HW HS1 HV HG HI EC) as HV1. apply (V_sync _ _ _ _ _ _ _ n) in HV1.
    destruct HG as (G1&G2&G3). destruct (create_spec _ _ _ _ _ HI G1 G2 G3 EC) as (b&EM&_&_&_&_&_&_&_&ER&_).
    assert (C : covers b ts). { pose proof (range_covers ts (m_dur (t_meta s)) HI G1 HX) as X. rewrite <- ER in X. exact X. }
    destruct (bucket_by_timestamp (m_buckets m) ts) as [c|] eqn:EB2; [|exfalso; eapply bucket_by_none; eauto; rewrite EM; left; auto].
    apply bucket_by_in in EB2 as (I&CC). eapply put_acked; eauto. unfold covers in CC. lia.
  - destruct (bucket_by_timestamp (m_buckets (t_meta s)) ts) as [c|] eqn:EB2.
    + apply bucket_by_in in EB2 as (I&CC). eapply put_acked; [apply V_sync; eauto|auto|unfold covers in CC; lia|auto].
    + exfalso. revert EC. unfold process_create_bucket. destruct (existsb _ _) eqn:EX.
      * apply existsb_exists in EX as (c&I&E). intros _. eapply bucket_by_none; eauto. unfold covers. lia.
      * destruct (_ <? _); [discriminate|]. destruct (_ =? 0); [discriminate|]. destruct (_ <? _); [discriminate|]. cbv zeta. destruct (get_time_range _ _).
        destruct (allocation_replication_set _ _ _ _) as [[? ?]|]; discriminate.
  - exfalso. revert EC. unfold process_create_bucket. destruct (existsb _ _); [discriminate|].
    rewrite O2, O3, (v_prec _ _ _ _ _ _ _ HV), (v_ttl _ _ _ _ _ _ _ HV), expired_eq by (auto; lia).
    replace (Z.of_nat (length nodes) <? rp) with false by lia. replace (sh =? 0) with false by lia. replace (ts <? thr p ttl t) with false by lia.
    cbv zeta. destruct (get_time_range _ _). destruct (allocation_replication_set _ _ _ _) as [[? ?]|]; discriminate.
  - exfalso. revert EC. unfold process_create_bucket. destruct (existsb _ _); [discriminate|].
    destruct (_ <? _); [discriminate|]. destruct (_ =? 0); [discriminate|]. destruct (_ <? _); [discriminate|]. cbv zeta. destruct (get_time_range _ _).
    destruct (allocation_some nodes (m_shards (t_meta s)) (m_replica (t_meta s)) (m_next (t_meta s) + 1) NE ltac:(lia)) as ([g u]&->). discriminate.
Qed.

Lemma refused p ttl next d sh rp tr n nodes t0 t h ts : ttl_fits p ttl -> 0 <= t <= I64_MAX -> 0 <= t0 <= I64_MAX -> is_i64 d -> 1 <= sh -> 1 <= rp ->
  clocks_upto t0 tr -> no_alter tr -> is_i64 ts ->
  (ts + 1) * unit_ns p + dur_ns ttl <= t ->
  (forall b, In b (m_buckets (t_meta (run (new_db p ttl next d sh rp) tr))) \/ In b (snd (t_cache (run (new_db p ttl next d sh rp) tr) n)) -> ~ covers b ts) ->
  step (run (new_db p ttl next d sh rp) tr) (EvWrite n nodes t h ts) = (run (new_db p ttl next d sh rp) tr, Refusal).
Proof.
  intros HF HT HT0 HD HS HR HC HN HI OLD NB.
  destruct (INV_run p ttl d sh rp t0 HF HT0 tr _ (INV_new p ttl d sh rp t0 next HD HS HR) HC HN) as (H&HW&HS1&HV&HG).
  set (s := run (new_db p ttl next d sh rp) tr) in *. cbn [step]. unfold write.
  destruct (bucket_by_timestamp (snd (t_cache s n)) ts) as [b|] eqn:EB.
  { apply bucket_by_in in EB as (I&C). exfalso. eapply NB; eauto. }
  replace (process_create_bucket _ _ _ _) with Refused; auto. symmetry. unfold process_create_bucket.
  replace (existsb _ _) with false.
  2: { symmetry. apply not_true_is_false. intros X. apply existsb_exists in X as (b&I&C). apply (NB b); auto. unfold covers. lia. }
  destruct (_ <? _); auto. destruct (_ =? 0); auto. rewrite (v_prec _ _ _ _ _ _ _ HV), (v_ttl _ _ _ _ _ _ _ HV), expired_eq by (auto; lia).
  replace (ts <? thr p ttl t) with true; auto. symmetry. apply Z.ltb_lt. unfold thr. pose proof (unit_pos p) as HU. clear - OLD HU.
  pose proof (Z.div_mod t (unit_ns p) ltac:(lia)) as D1. pose proof (Z.mod_pos_bound t (unit_ns p) ltac:(lia)) as M1.
  pose proof (Z.div_mod (dur_ns ttl) (unit_ns p) ltac:(lia)) as D2. pose proof (Z.mod_pos_bound (dur_ns ttl) (unit_ns p) ltac:(lia)) as M2.
  revert OLD D1 M1 D2 M2. generalize (t / unit_ns p), (t mod unit_ns p), (dur_ns ttl / unit_ns p), (dur_ns ttl mod unit_ns p).
  generalize (unit_ns p) HU. clear. intros u HU a r b q H -> M1 D2 M2. rewrite D2 in H. nia.
Qed.

(** ** storage nobody knows any more stays for ever *)
Lemma undisk_in v d vs : In v d -> ~ In v vs -> In v (undisk d vs).
Proof.
  intros I N. apply filter_In. split; auto. destruct (existsb (vnode_eqb v) vs) eqn:E; auto. apply existsb_exists in E as (x&X&Y).
  apply vnode_eqb_eq in Y. subst. contradiction.
Qed.
Lemma in_undisk v d vs : In v (undisk d vs) -> In v d /\ ~ In v vs.
Proof.
  intros I. apply filter_In in I as (I&E). split; auto. intros X. rewrite negb_true_iff in E. apply not_true_iff_false in E. apply E.
  apply existsb_exists. exists v. split; auto. apply vnode_eqb_eq; auto.
Qed.
Lemma in_drop_order n g v : In v (drop_order n g) <-> In v (r_vnodes g).
Proof.
  unfold drop_order. rewrite in_app_iff, !filter_In. destruct (snd v =? n); cbn; tauto.
Qed.
Lemma firstn_in {A} k (l : list A) x : In x (firstn k l) -> In x l.
Proof. revert l. induction k; intros [|a l]; cbn; try tauto. intros [<-|X]; auto. Qed.

Definition orph (v : Z * Z) (s : sys) : Prop := In v (t_disk s) /\ unknown s v.
Lemma unknown_sync s n v : unknown s v -> unknown (sync s n) v.
Proof.
  intros (L&O&C&T). split; [|split; [|split]]; auto. cbn. intros m b g. apply (upd_cases _ _ _ _ (fun x => In b (snd x) -> In g (b_group b) -> ~ In v (r_vnodes g))); eauto.
  cbn. intros I IG IV. apply O. exists b, g. auto.
Qed.
Lemma orph_put s b h ts s' a v : orph v s -> put s b h ts = (s', a) -> orph v s'.
Proof.
  intros (I&U) P. destruct (put_cases _ _ _ _ _ _ P) as [(->&_)|(g&_&_&_&->)]; [split; auto|]. split; [|exact U]. cbn. apply in_or_app. auto.
Qed.
Lemma orph_step s e v : good_meta (t_meta s) ->
  match e with EvWrite _ _ _ _ ts => is_i64 ts | EvAlter _ d sh r => is_i64 d /\ 1 <= sh /\ 1 <= r | _ => True end ->
  orph v s -> orph v (fst (step s e)) /\ good_meta (t_meta (fst (step s e))).
Proof.
  intros HG HE (I&U). pose proof HG as (G1&G2&G3). pose proof U as (L&O&C&T).
  destruct e as [n nodes t hash ts|n|n t|n o|ttl d sh r|n r|n]; cbn [step].
  - unfold write.
    assert (PUT : forall s0 b, orph v s0 -> good_meta (t_meta s0) -> orph v (fst (put s0 b hash ts)) /\ good_meta (t_meta (fst (put s0 b hash ts)))).
    { intros s0 b O0 GM. destruct (put s0 b hash ts) as [s' a] eqn:P. split; [eapply orph_put; eauto|]. destruct (put_cases _ _ _ _ _ _ P) as [(->&_)|(g&_&_&_&->)]; auto. }
    destruct (bucket_by_timestamp (snd (t_cache s n)) ts) as [b|]; [apply PUT; auto; split; auto|].
    destruct (process_create_bucket _ _ _ _) as [m| | |] eqn:EC.
    + destruct (create_spec _ _ _ _ _ HE G1 G2 G3 EC) as (b&EM&LN&D1&D2&D3&R&_).
      assert (GM : good_meta m) by (unfold good_meta; rewrite D1, D2, D3; auto).
      assert (O1 : orph v (sync (w_meta s m) n)).
      { split; auto. apply unknown_sync. split; [cbn; lia|]. split; [|split; auto]. intros (c&g&IC&IG&IV). cbn in IC. rewrite EM in IC. destruct IC as [<-|IC].
        - assert (X : In (fst v) (bucket_ids b)). { right. apply in_flat_map. exists g. split; auto. right. apply in_map. auto. } apply R in X. lia.
        - apply O. exists c, g. auto. }
      destruct (bucket_by_timestamp (m_buckets m) ts); [apply PUT; auto|split; auto].
    + assert (O1 : orph v (sync s n)) by (split; auto; apply unknown_sync; auto). destruct (bucket_by_timestamp _ ts); [apply PUT; auto|split; auto].
    + split; auto. split; auto.
    + split; auto. split; auto.
  - cbn [fst]. split; auto. split; auto. apply unknown_sync; auto.
  - destruct (t_todo s n) eqn:ET; [|cbn [fst]; split; auto; split; auto]. cbn [fst]. split; auto. split; auto. split; [|split; [|split]]; auto.
    cbn. intros m b gs g. apply (upd_cases _ _ _ _ (fun x => In (b, gs) x -> In g (b_group b) \/ In g gs -> ~ In v (r_vnodes g))); eauto.
    intros X. apply in_map_iff in X as (c&X&IC). injection X as <- <-. apply incl_filter' in IC. intros [Y|Y]; eauto.
  - cbn [fst]. destruct (work_cases s n o) as [E|(b&gs&rest&ET&X)]; [rewrite E; split; auto; split; auto|].
    assert (TR : forall gs1, incl gs1 gs -> forall m b0 gs0 g, In (b0, gs0) (upd (t_todo s) n ((b, gs1) :: rest) m) -> In g (b_group b0) \/ In g gs0 -> ~ In v (r_vnodes g)).
    { intros gs1 IN m b0 gs0 g. apply (upd_cases _ _ _ _ (fun x => In (b0, gs0) x -> In g (b_group b0) \/ In g gs0 -> ~ In v (r_vnodes g))); eauto.
      intros [X1|X1] Y; [|apply (T n b0 gs0); auto; rewrite ET; right; auto]. injection X1 as <- <-. apply (T n b gs); [rewrite ET; left; auto|]. destruct Y; auto. }
    assert (TR0 : forall m b0 gs0 g, In (b0, gs0) (upd (t_todo s) n rest m) -> In g (b_group b0) \/ In g gs0 -> ~ In v (r_vnodes g)).
    { intros m b0 gs0 g. apply (upd_cases _ _ _ _ (fun x => In (b0, gs0) x -> In g (b_group b0) \/ In g gs0 -> ~ In v (r_vnodes g))); eauto.
      intros X1 Y. apply (T n b0 gs0); auto. rewrite ET; right; auto. }
    destruct X as [(->&[E|E])|(g&gs0&->&[E|[(_&E)|(EL&IC&_&[(k&_&E)|[(_&E)|(m&_&ED&E)]])]])]; rewrite E.
    + split; auto. split; auto. split; [|split; [|split]]; auto.
    + split; auto. split; auto. split; [|split; [|split]]; auto. intros (c&g&IC&IG&IV). cbn in IC. apply incl_filter' in IC. apply O. exists c, g. auto.
    + split; auto. split; auto. split; [|split; [|split]]; auto.
    + split; auto. split; auto. split; [|split; [|split]]; auto. cbn. apply TR. intros x Y; right; auto.
    + split; auto. split; [|split; [|split; [|split]]; auto]. cbn. apply undisk_in; auto. intros Y. apply firstn_in, in_drop_order in Y.
      apply (T n b (g :: gs0) g); auto; [rewrite ET; left; auto|right; left; auto].
    + split; auto. split; [|split; [|split; [|split]]; auto]. cbn. apply undisk_in; auto. intros Y. apply in_drop_order in Y.
      apply (T n b (g :: gs0) g); auto; [rewrite ET; left; auto|right; left; auto].
    + destruct (drop_group_spec _ _ _ _ ED) as (EN&E1&E2&E3&E5&_). split; [|cbn; unfold good_meta; rewrite E1, E2, E3; auto]. split.
      * cbn. apply undisk_in; auto. intros Y. apply in_drop_order in Y. apply (T n b (g :: gs0) g); auto; [rewrite ET; left; auto|right; left; auto].
      * split; [cbn; rewrite EN; auto|]. split; [|split; auto; cbn; apply TR; intros x Y; right; auto].
        intros (c&g'&IC'&IG&IV). cbn in IC'. destruct (E5 c IC') as (c0&I0&_&_&_&IN&_). apply O. exists c0, g'. auto.
  - cbn [fst]. split; [split; auto|]. exact HE.
  - destruct (in_cache s n r && negb (in_meta s r))%bool; cbn [fst]; split; auto; split; auto.
  - cbn [fst]. split; auto. split; auto. destruct (unknown_sync s n v U) as (A&B&D&E). split; [|split; [|split]]; auto.
    cbn. intros m b gs g. apply (upd_cases _ _ _ _ (fun x => In (b, gs) x -> In g (b_group b) \/ In g gs -> ~ In v (r_vnodes g))); eauto.
Qed.
Lemma orphans_stay tr : forall s v, good_meta (t_meta s) -> valid_alter tr -> In v (t_disk s) -> unknown s v -> In v (t_disk (run s tr)).
Proof.
  assert (X : forall s v, good_meta (t_meta s) -> valid_alter tr -> orph v s -> orph v (run s tr)).
  { induction tr as [|e tr IH]; intros s v HG HV O; cbn [run]; auto. destruct (orph_step s e v HG) as (A&B); auto.
    - specialize (HV e (or_introl eq_refl)). destruct e; auto.
    - apply IH; auto. intros x Y. apply HV. right; auto. }
  intros s v HG HV I U. apply X; auto. split; auto.
Qed.

(** ** one node: storage goes with its bucket *)
Record R1 (n : Z) (s : sys) : Prop := {
  r_disk : forall v, In v (t_disk s) -> owned s v;
  r_j : forall b gs b' g, In (b, gs) (t_todo s n) -> In b' (m_buckets (t_meta s)) -> b_id b' = b_id b -> In g (b_group b') -> In g gs;
  r_k : forall b g, In b (snd (t_cache s n)) -> In g (b_group b) ->
        (exists b', In b' (m_buckets (t_meta s)) /\ In g (b_group b')) \/ In (n, r_id g) (t_shut s);
  r_l : forall b b' g, In b (snd (t_cache s n)) -> In b' (m_buckets (t_meta s)) -> b_id b' = b_id b -> In g (b_group b') -> In g (b_group b);
  r_lead : forall b g, In b (m_buckets (t_meta s)) \/ In b (snd (t_cache s n)) -> In g (b_group b) -> r_leader_node g = n;
  r_leadt : forall b gs g, In (b, gs) (t_todo s n) -> In g gs -> r_leader_node g = n }.


(** ids occur once in the stored bucket list *)
Definition gids (bs : list bucket) : list Z := flat_map (fun b => map r_id (b_group b)) bs.
Definition ND (m : meta) : Prop := NoDup (map b_id (m_buckets m)) /\ NoDup (gids (m_buckets m)).
Lemma NoDup_app_inv {A} (l1 l2 : list A) : NoDup (l1 ++ l2) -> NoDup l1 /\ NoDup l2 /\ forall x, In x l1 -> In x l2 -> False.
Proof.
  induction l1 as [|a l1 IH]; cbn; intros N; [repeat split; auto; constructor|]. apply NoDup_cons_iff in N as (N1&N2). destruct (IH N2) as (A1&A2&A3).
  split; [constructor; auto; intros X; apply N1; apply in_or_app; auto|]. split; auto. intros x [<-|X] Y; [apply N1; apply in_or_app; auto|eauto].
Qed.
Lemma NoDup_flat_sub {A B} (f : A -> list B) (g : A -> list A) l :
  (forall a x, In x (flat_map f (g a)) -> In x (f a)) -> (forall a, NoDup (f a) -> NoDup (flat_map f (g a))) ->
  NoDup (flat_map f l) -> NoDup (flat_map f (flat_map g l)).
Proof.
  intros H1 H2. assert (IN : forall l x, In x (flat_map f (flat_map g l)) -> In x (flat_map f l)).
  { clear - H1. intros l x X. apply in_flat_map in X as (a&X&Y). apply in_flat_map in X as (b&X&Z). apply in_flat_map. exists b. split; auto. apply H1. apply in_flat_map. eauto. }
  induction l as [|a l IH]; cbn [flat_map]; auto. intros N. apply NoDup_app_inv in N as (A1&A2&A3). rewrite flat_map_app.
  apply NoDup_app_iff'; auto. intros x X Y. apply (A3 x); auto.
Qed.
Lemma map_as_flat {A B} (f : A -> B) l : map f l = flat_map (fun a => [f a]) l.
Proof. induction l; cbn; f_equal; auto. Qed.
Lemma filter_as_flat {A} (f : A -> bool) l : filter f l = flat_map (fun a => if f a then [a] else []) l.
Proof. induction l as [|a l IH]; cbn; auto. destruct (f a); cbn; f_equal; auto. Qed.
Lemma NoDup_map_filter {A B} (h : A -> B) f l : NoDup (map h l) -> NoDup (map h (filter f l)).
Proof.
  induction l as [|a l IH]; cbn; auto. intros N. apply NoDup_cons_iff in N as (N1&N2). destruct (f a); cbn; auto. constructor; auto.
  intros X. apply N1. apply in_map_iff in X as (y&E&X). apply filter_In in X as (X&_). rewrite <- E. apply in_map; auto.
Qed.
Lemma ND_drop m bid r m' : drop_group m bid r = Some m' -> ND m -> ND m'.
Proof.
  unfold drop_group. destruct (existsb _ _); [|discriminate]. intros X. injection X as <-. intros (N1&N2). unfold ND, gids. cbn [m_buckets].
  rewrite map_as_flat in *. split; apply NoDup_flat_sub; auto.
  - intros a x. destruct (b_id a =? bid) eqn:E; [|cbn; tauto]. destruct (filter _ _); cbn; tauto.
  - intros a. destruct (b_id a =? bid) eqn:E; [|cbn; tauto]. destruct (filter _ _); cbn; [constructor|tauto].
  - intros a x. destruct (b_id a =? bid) eqn:E; [|cbn; rewrite app_nil_r; tauto]. intros X.
    assert (Y : In x (map r_id (filter (fun g => negb (r_id g =? r)) (b_group a)))).
    { destruct (filter _ _); [contradiction|]. cbn in X. rewrite app_nil_r in X. auto. }
    apply in_map_iff in Y as (g&<-&Y). apply incl_filter' in Y. apply in_map; auto.
  - intros a N. destruct (b_id a =? bid) eqn:E; [|cbn; rewrite app_nil_r; auto].
    pose proof (NoDup_map_filter r_id (fun g => negb (r_id g =? r)) _ N) as Y. destruct (filter _ _); [constructor|]. cbn. rewrite app_nil_r. auto.
Qed.
Lemma ND_delete m id : ND m -> ND (process_delete_bucket m id).
Proof.
  intros (N1&N2). unfold ND, gids. cbn [m_buckets process_delete_bucket]. split; [apply NoDup_map_filter; auto|].
  rewrite filter_as_flat. apply NoDup_flat_sub; auto.
  - intros a x. destruct (negb _); cbn; rewrite ?app_nil_r; tauto.
  - intros a. destruct (negb _); cbn; rewrite ?app_nil_r; auto. constructor.
Qed.
Lemma ND_create s H nodes mn ts m' : W s H -> good_meta (t_meta s) -> is_i64 ts -> process_create_bucket (t_meta s) nodes mn ts = Created m' ->
  ND (t_meta s) -> ND m'.
Proof.
  intros HW (G1&G2&G3) HT E (N1&N2). destruct (create_spec _ _ _ _ _ HT G1 G2 G3 E) as (b&EM&LN&_&_&_&R&N&_).
  unfold ND, gids. rewrite EM. cbn [map flat_map].
  assert (LOW : forall c x, In c (m_buckets (t_meta s)) -> x = b_id c \/ In x (map r_id (b_group c)) -> x < m_next (t_meta s)).
  { intros c x I X. destruct (w_met _ _ HW c I) as (b0&I0&E0&_&_&G0). apply (h_low _ _ (w_wf _ _ HW) b0); auto. destruct X as [->|X]; [left; auto|].
    apply in_map_iff in X as (g&<-&X). apply repl_id_in. auto. }
  split.
  - constructor; auto. intros X. apply in_map_iff in X as (c&E1&X). specialize (LOW c (b_id c) X (or_introl eq_refl)). specialize (R (b_id b) (or_introl eq_refl)). lia.
  - apply NoDup_app_iff'; auto.
    + clear - N. revert N. generalize (b_group b). induction l as [|g l IH]; cbn [flat_map map]; intros N; [constructor|]. cbn [repl_ids app] in N.
      apply NoDup_cons_iff in N as (N1&N2). apply NoDup_app_inv in N2 as (_&N2&_). constructor; auto. intros X. apply N1. apply in_or_app. right.
      apply in_map_iff in X as (g'&E&X). apply in_flat_map. exists g'. split; auto. left; auto.
    + intros x X Y. apply in_flat_map in Y as (c&IC&Y). specialize (LOW c x IC (or_intror Y)). apply in_map_iff in X as (g&<-&X). apply repl_id_in, R in X. lia.
Qed.
Lemma put_meta s b h ts : t_meta (fst (put s b h ts)) = t_meta s.
Proof. destruct (put s b h ts) as [s' a] eqn:P. destruct (put_cases _ _ _ _ _ _ P) as [(->&_)|(g&_&_&_&->)]; auto. Qed.
Lemma ND_step s H e : W s H -> good_meta (t_meta s) ->
  match e with EvWrite _ _ _ _ ts => is_i64 ts | _ => True end -> ND (t_meta s) -> ND (t_meta (fst (step s e))).
Proof.
  intros HW HG HE N. destruct e as [n nodes t hash ts|n|n t|n o|ttl d sh r|n r|n]; cbn [step]; auto.
  - unfold write. destruct (bucket_by_timestamp _ _); [rewrite put_meta; auto|].
    destruct (process_create_bucket _ _ _ _) as [m| | |] eqn:EC; auto.
    + pose proof (ND_create _ _ _ _ _ _ HW HG HE EC N). destruct (bucket_by_timestamp _ _); [rewrite put_meta|]; auto.
    + destruct (bucket_by_timestamp _ _); [rewrite put_meta|]; auto.
  - destruct (t_todo s n); auto.
  - cbn [fst]. destruct (work_cases s n o) as [E|(b&gs&rest&ET&X)]; [rewrite E; auto|].
    destruct X as [(->&[E|E])|(g&gs0&->&[E|[(_&E)|(EL&IC&_&[(k&_&E)|[(_&E)|(m&_&ED&E)]])]])]; rewrite E; auto.
    + cbn. apply ND_delete; auto.
    + cbn. eapply ND_drop; eauto.
  - destruct (in_cache s n r && negb (in_meta s r))%bool; auto.
Qed.
Lemma ND_same m b b' : ND m -> In b (m_buckets m) -> In b' (m_buckets m) -> b_id b' = b_id b -> b' = b.
Proof.
  intros (N&_) I I' E. revert N I I'. generalize (m_buckets m). clear - E. induction l as [|c l IH]; cbn; [tauto|].
  intros N. apply NoDup_cons_iff in N as (N1&N2). intros [->|I] [->|I']; auto; exfalso; apply N1; [rewrite <- E|rewrite E]; apply in_map; auto.
Qed.

Lemma R1_sync n s : ND (t_meta s) -> R1 n s -> R1 n (sync s n).
Proof.
  intros N [D J K L Q QT]. constructor; auto; cbn; rewrite ?upd_same; cbn [snd].
  - intros b g I IG. left. eauto.
  - intros b b' g I I' E IG. rewrite <- (ND_same _ _ _ N I I' E). auto.
  - intros b g [I|I] IG; eauto.
Qed.
Lemma R1_put n s b h ts : In b (m_buckets (t_meta s)) \/ In b (snd (t_cache s n)) -> R1 n s -> R1 n (fst (put s b h ts)).
Proof.
  intros I HR. destruct (put s b h ts) as [s' a] eqn:P. cbn [fst]. destruct (put_cases _ _ _ _ _ _ P) as [(->&_)|(g&IG&ES&_&->)]; auto.
  destruct HR as [D J K L Q QT]. constructor; auto. cbn. intros v X. apply in_app_or in X as [X|X]; [|apply D; auto].
  destruct I as [I|I]; [exists b, g; auto|]. destruct (K b g I IG) as [(b'&I'&IG')|X2]; [exists b', g; auto|].
  exfalso. apply is_shut_spec in X2. rewrite (Q b g (or_intror I) IG) in ES. congruence.
Qed.
Lemma R1_create n s H nodes mn ts m' : nodes = [n] -> W s H -> good_meta (t_meta s) -> is_i64 ts -> process_create_bucket (t_meta s) nodes mn ts = Created m' ->
  R1 n s -> R1 n (w_meta s m').
Proof.
  intros EN HW (G1&G2&G3) HT E [D J K L Q QT]. destruct (create_spec _ _ _ _ _ HT G1 G2 G3 E) as (b&EM&LN&_&_&_&R&N&_&_&_&O).
  assert (OLD : forall c, known_in H c -> b_id c < m_next (t_meta s)).
  { intros c (b0&I0&E0&_). rewrite <- E0. apply (h_low _ _ (w_wf _ _ HW) b0); auto. left; auto. }
  assert (NB : m_next (t_meta s) <= b_id b) by (apply R; left; auto).
  constructor; cbn; auto.
  - intros v I. destruct (D v I) as (c&g&IC&X). exists c, g. cbn. rewrite EM. split; [right|]; auto.
  - intros c gs b' g I. rewrite EM. intros [<-|I'] E1 IG; [|eauto]. exfalso. specialize (OLD c (proj1 (w_tod _ _ HW _ _ _ I))). lia.
  - intros c g I IG. destruct (K c g I IG) as [(b'&I'&X)|X]; auto. left. exists b'. rewrite EM. split; auto. right; auto.
  - intros c b' g I. rewrite EM. intros [<-|I'] E1 IG; [|eauto]. exfalso. specialize (OLD c (w_cac _ _ HW _ _ I)). lia.
  - intros c g [I|I] IG; [|eauto]. rewrite EM in I. destruct I as [<-|I]; [|eauto].
    rewrite Forall_forall in O. destruct (O g IG) as (_&V&LD&_). apply V in LD. cbn in LD. rewrite EN in LD. destruct LD as [LD|[]]. auto.
Qed.
Lemma R1_todo n s l : R1 n s -> (forall b gs, In (b, gs) l -> (forall g, In g gs -> r_leader_node g = n) /\
   forall b' g, In b' (m_buckets (t_meta s)) -> b_id b' = b_id b -> In g (b_group b') -> In g gs) -> R1 n (w_todo s n l).
Proof.
  intros [D J K L Q QT] HL. constructor; auto; cbn; rewrite upd_same.
  - intros b gs b' g I. apply (proj2 (HL b gs I)).
  - intros b gs g I. apply (proj1 (HL b gs I)).
Qed.
Lemma R1_step n s H e : W s H -> good_meta (t_meta s) -> ND (t_meta s) ->
  match e with EvWrite m nodes _ _ ts => is_i64 ts /\ m = n /\ nodes = [n]
   | EvSync m | EvScan m _ | EvWork m _ | EvForget m _ | EvRestart m => m = n | _ => True end ->
  R1 n s -> R1 n (fst (step s e)).
Proof.
  intros HW HG HN HE HR. destruct e as [m nodes t hash ts|m|m t|m o|ttl d sh r|m r|m]; cbn [step].
  - destruct HE as (HT&->&->). unfold write. destruct (bucket_by_timestamp (snd (t_cache s n)) ts) as [b|] eqn:EB.
    { apply bucket_by_in in EB as (I&_). apply R1_put; auto. }
    destruct (process_create_bucket _ _ _ _) as [m| | |] eqn:EC; auto.
    + pose proof (ND_create _ _ _ _ _ _ HW HG HT EC HN) as HN2. pose proof (R1_create _ _ _ _ _ _ _ eq_refl HW HG HT EC HR) as HR2.
      assert (HR3 : R1 n (sync (w_meta s m) n)) by (apply R1_sync; auto).
      destruct (bucket_by_timestamp (m_buckets m) ts) as [c|] eqn:EB2; auto. apply bucket_by_in in EB2 as (I&_). apply R1_put; auto.
    + pose proof (R1_sync n s HN HR) as HR3. destruct (bucket_by_timestamp (m_buckets _) _) as [c|] eqn:EB2; auto. apply bucket_by_in in EB2 as (I&_). apply R1_put; auto.
  - subst m. apply R1_sync; auto.
  - subst m. destruct (t_todo s n) eqn:ET; auto. cbn [fst]. apply R1_todo; auto. intros b gs I. apply in_map_iff in I as (c&X&I). injection X as <- <-.
    apply incl_filter' in I. destruct HR. split; [intros g IG; eauto|]. intros b' g I' E IG. eauto.
  - subst m. cbn [fst]. destruct (work_cases s n o) as [E|(b&gs&rest&ET&X)]; [rewrite E; auto|].
    assert (IT : In (b, gs) (t_todo s n)) by (rewrite ET; left; auto).
    assert (HR0 : forall b0 gs0, In (b0, gs0) rest -> In (b0, gs0) (t_todo s n)) by (intros; rewrite ET; right; auto).
    pose proof HR as [D J K L Q QT].
    destruct X as [(->&[E|E])|(g&gs0&->&[E|[(NL&E)|(EL&IC&_&[(k&_&E)|[(_&E)|(m&_&ED&E)]])]])]; rewrite E.
    + apply R1_todo; auto. intros b0 gs0 I0. split; eauto.
    + assert (OTH : forall c g, In c (m_buckets (t_meta s)) -> In g (b_group c) -> In c (filter (fun b0 => negb (b_id b0 =? b_id b)) (m_buckets (t_meta s)))).
      { intros c g I IG. apply filter_In. split; auto. destruct (b_id c =? b_id b) eqn:EQ; auto. exfalso. apply (J b [] c g IT I); [lia|auto]. }
      apply R1_todo; [constructor|]; cbn; auto.
      * intros v I. destruct (D v I) as (c&g&I1&I2&I3). exists c, g. cbn. eauto.
      * intros c gs b' g I I'. apply incl_filter' in I'. eauto.
      * intros c g I IG. destruct (K c g I IG) as [(b'&X1&X2)|X]; eauto.
      * intros c b' g I I'. apply incl_filter' in I'. eauto.
      * intros c g [I|I]; [apply incl_filter' in I|]; eauto.
      * intros b0 gs0 I0. split; [eauto|]. intros b' g I'. apply incl_filter' in I'. eauto.
    + apply R1_todo; auto. intros b0 gs1 I0. split; eauto.
    + exfalso. apply NL. apply (QT b (g :: gs0) g IT). left; auto.
    + apply R1_todo; [constructor|]; cbn; auto.
      * intros v I. apply in_undisk in I as (I&_). apply D; auto.
      * intros b0 gs1 I0. split; eauto.
    + apply R1_todo; [constructor|]; cbn; auto.
      * intros v I. apply in_undisk in I as (I&_). apply D; auto.
      * intros c g' I IG. destruct (K c g' I IG); auto.
      * intros b0 gs1 I0. split; eauto.
    + destruct (drop_group_spec _ _ _ _ ED) as (EN&E1&E2&E3&E5&_&E7). destruct (w_tod _ _ HW _ _ _ IT) as (KB&GB).
      apply R1_todo; [constructor|]; cbn; auto.
      * intros v I. apply in_undisk in I as (I&NI). destruct (D v I) as (c&g'&I1&I2&I3).
        assert (r_id g' <> r_id g). { intros X. destruct (known_grp _ _ _ _ _ _ (w_wf _ _ HW) (w_met _ _ HW c I1) KB I2 (GB g (or_introl eq_refl)) X) as (_&_&_&->).
          apply NI. apply in_drop_order. auto. }
        destruct (E7 c g' I1 I2) as (c'&X1&X2); auto. exists c', g'. auto.
      * intros c gs b' g' I I' EQ IG. destruct (E5 b' I') as (c0&I0&Q1&_&_&IN&_). apply (J c gs c0 g' I I0); auto. congruence.
      * intros c g' I IG. destruct (Z.eq_dec (r_id g') (r_id g)) as [X|X]; [rewrite X; auto|]. destruct (K c g' I IG) as [(b'&X1&X2)|Y]; auto.
        left. destruct (E7 b' g' X1 X2 X) as (c'&Y1&Y2). eauto.
      * intros c b' g' I I' EQ IG. destruct (E5 b' I') as (c0&I0&Q1&_&_&IN&_). apply (L c c0 g' I I0); auto. congruence.
      * intros c g' [I|I] IG; [|eauto]. destruct (E5 c I) as (c0&I0&_&_&_&IN&_). eauto.
      * intros b0 gs1 [X|X].
        -- injection X as <- <-. split; [intros g' IG; apply (QT b (g :: gs0)); auto; right; auto|]. intros b' g' I' EQ IG.
           destruct (E5 b' I') as (c0&I0&Q1&_&_&IN&_&Q6). destruct (Q6 EQ) as (_&Q7). assert (Y : In g' (g :: gs0)) by (apply (J b (g :: gs0) c0 g' IT I0); [congruence|auto]).
           destruct Y as [->|Y]; auto. exfalso. apply (Q7 g' IG). auto.
        -- apply HR0 in X. split; [eauto|]. intros b' g' I' EQ IG. destruct (E5 b' I') as (c0&I0&Q1&_&_&IN&_). apply (J b0 gs1 c0 g' X I0); auto. congruence.
  - destruct HR as [D J K L Q QT]. constructor; auto.
  - subst m. destruct (in_cache s n r && negb (in_meta s r))%bool eqn:EI; auto. cbn [fst]. destruct HR as [D J K L Q QT]. constructor; auto; cbn.
    intros b g I IG. destruct (K b g I IG) as [X|X]; auto.
    destruct (existsb (fun b' => existsb (fun g' => r_id g' =? r_id g) (b_group b')) (m_buckets (t_meta s))) eqn:EM.
    { left. apply existsb_exists in EM as (b'&I'&EM). apply existsb_exists in EM as (g'&IG'&EM). exists b'. split; auto.
      destruct (known_grp _ _ _ _ _ _ (w_wf _ _ HW) (w_cac _ _ HW _ _ I) (w_met _ _ HW _ I') IG IG' ltac:(lia)) as (_&_&_&->). auto. }
    right. apply filter_In. split; auto. destruct (vnode_eqb (n, r_id g) (n, r)) eqn:EQ; auto.
    exfalso. apply vnode_eqb_eq in EQ. injection EQ as EQ.
    assert (IC : in_cache s n r = true). { unfold in_cache. apply existsb_exists. exists b. split; auto. apply existsb_exists. exists g. split; auto. lia. }
    rewrite IC in EI. cbn [andb] in EI. apply negb_false_iff in EI. unfold in_meta in EI. subst r. congruence.
  - subst m. cbn [fst]. assert (X : R1 n (sync (w_store s (t_disk s) (t_rows s) (filter (fun x => negb (fst x =? n)) (t_shut s))) n)).
    { pose proof HR as [D J K L Q QT]. constructor; auto; cbn; rewrite ?upd_same; cbn [snd].
      - intros b g I IG. left. eauto.
      - intros b b' g I I' E IG. rewrite <- (ND_same _ _ _ HN I I' E). auto.
      - intros b g [I|I] IG; eauto. }
    apply R1_todo; auto. intros b gs [].
Qed.
Lemma reclaimed n tr : forall p ttl next d sh rp, is_i64 d -> 1 <= sh -> 1 <= rp -> valid_alter tr -> only_node n tr ->
  forall v, In v (t_disk (run (new_db p ttl next d sh rp) tr)) -> owned (run (new_db p ttl next d sh rp) tr) v.
Proof.
  assert (X : forall s H, W s H -> good_meta (t_meta s) -> ND (t_meta s) -> R1 n s -> valid_alter tr -> only_node n tr -> R1 n (run s tr)).
  { induction tr as [|e tr IH]; intros s H HW HG HN HR HV HO; cbn [run]; auto.
    assert (HE1 := HV e (or_introl eq_refl)). assert (HE2 := HO e (or_introl eq_refl)).
    destruct (W_step s H e HW HG) as (H'&_&HW'&HG'); [destruct e; auto|].
    apply (IH _ H'); auto.
    - eapply ND_step; eauto. destruct e; auto.
    - eapply R1_step; eauto. destruct e; auto.
    - intros x Y. apply HV. right; auto.
    - intros x Y. apply HO. right; auto. }
  intros p ttl next d sh rp HD HS HR HV HO. apply r_disk with (n := n). apply (X _ []); auto.
  - apply W_new.
  - repeat split; auto; apply HD.
  - split; constructor.
  - constructor; cbn; tauto.
Qed.

(** ** one node: what is expired goes *)
Definition ranged (d : Z) (m : meta) : Prop := m_dur m = d /\ forall b, In b (m_buckets m) -> exists t0, is_i64 t0 /\ (b_start b, b_end b) = get_time_range t0 d.
Lemma ranged_step d s e : good_meta (t_meta s) -> match e with EvWrite _ _ _ _ ts => is_i64 ts | _ => True end -> not_alter e ->
  ranged d (t_meta s) -> ranged d (t_meta (fst (step s e))).
Proof.
  intros (G1&G2&G3) HE HN (RD&R). destruct e as [n nodes t hash ts|n|n t|n o|ttl d' sh r|n r|n]; cbn [step]; try (split; auto; fail).
  - unfold write. destruct (bucket_by_timestamp _ _); [rewrite put_meta; split; auto|].
    destruct (process_create_bucket _ _ _ _) as [m| | |] eqn:EC; try (split; auto; fail).
    + destruct (create_spec _ _ _ _ _ HE G1 G2 G3 EC) as (b&EM&_&D1&_&_&_&_&_&ER&_).
      assert (ranged d m). { split; [congruence|]. intros c. rewrite EM. intros [<-|I]; auto. exists ts. rewrite <- RD. auto. }
      destruct (bucket_by_timestamp _ _); [rewrite put_meta|]; auto.
    + destruct (bucket_by_timestamp _ _); [rewrite put_meta|]; split; auto.
  - destruct (t_todo s n); split; auto.
  - cbn [fst]. destruct (work_cases s n o) as [E|(b&gs&rest&ET&X)]; [rewrite E; split; auto|].
    destruct X as [(->&[E|E])|(g&gs0&->&[E|[(_&E)|(EL&IC&_&[(k&_&E)|[(_&E)|(m&_&ED&E)]])]])]; rewrite E; try (split; auto; fail).
    + split; auto. cbn. intros c I. apply incl_filter' in I. auto.
    + destruct (drop_group_spec _ _ _ _ ED) as (_&D1&_&_&E5&_). split; cbn; [congruence|]. intros c I. destruct (E5 c I) as (c0&I0&_&S0&E0&_). rewrite S0, E0. auto.
  - contradiction.
  - destruct (_ && _)%bool; split; auto.
Qed.

Definition todo_gids (l : list (bucket * list repl)) : list Z := flat_map (fun x => map r_id (snd x)) l.
Record G1 (n th : Z) (s : sys) : Prop := {
  g_cov : forall b, In b (m_buckets (t_meta s)) -> b_end b < th -> exists b0 gs, In (b0, gs) (t_todo s n) /\ b_id b0 = b_id b;
  g_free : forall b gs g, In (b, gs) (t_todo s n) -> In g gs -> is_shut s n (r_id g) = false /\ in_cache s n (r_id g) = true;
  g_nd : NoDup (todo_gids (t_todo s n)) }.
Definition size (l : list (bucket * list repl)) : nat := list_sum (map (fun x => S (length (snd x))) l).

Lemma size_cons x l : size (x :: l) = (S (length (snd x)) + size l)%nat.
Proof. reflexivity. Qed.
Lemma gone_step n th s H : W s H -> R1 n s -> G1 n th s -> (0 < size (t_todo s n))%nat ->
  G1 n th (work s n Done) /\ (size (t_todo (work s n Done) n) < size (t_todo s n))%nat.
Proof.
  intros HW HR [C F N] HS. destruct (t_todo s n) as [|[b gs] rest] eqn:ET; [cbn in HS; lia|].
  unfold work. rewrite ET.
  assert (C2 : forall bs, (forall c, In c bs -> In c (m_buckets (t_meta s)) /\ b_id c <> b_id b) -> forall c, In c bs -> b_end c < th -> exists b0 gs0, In (b0, gs0) rest /\ b_id b0 = b_id c).
  { intros bs HB c I TH. destruct (HB c I) as (I1&I2). destruct (C c I1 TH) as (b0&gs0&[X|X]&E); [injection X as <- <-; congruence|eauto]. }
  destruct gs as [|g gs].
  { split; [|cbn [t_todo w_todo w_meta]; rewrite upd_same; rewrite ?size_cons; cbn [snd length]; lia]. constructor; cbn; rewrite upd_same.
    - apply C2. intros c I. apply filter_In in I as (I&E). split; auto. lia.
    - intros b0 gs0 g I. apply (F b0 gs0); right; auto.
    - unfold todo_gids in N. cbn in N. auto. }
  rewrite (r_leadt _ _ HR b (g :: gs) g); [|rewrite ET; left; auto|left; auto]. rewrite Z.eqb_refl.
  destruct (F b (g :: gs) g (or_introl eq_refl) (or_introl eq_refl)) as (F1&F2). rewrite F1, F2. cbn [negb orb]. cbv zeta.
  unfold todo_gids in N. cbn [flat_map snd map app] in N. apply NoDup_cons_iff in N as (N1&N2).
  assert (FR : forall b0 gs0 g0, In (b0, gs0) ((b, gs) :: rest) -> In g0 gs0 -> existsb (fun x => vnode_eqb x (n, r_id g0)) ((n, r_id g) :: t_shut s) = false).
  { intros b0 gs0 g0 I IG. cbn [existsb]. apply orb_false_iff. split.
    - destruct (vnode_eqb (n, r_id g) (n, r_id g0)) eqn:EQ; auto. exfalso. apply vnode_eqb_eq in EQ. injection EQ as EQ. apply N1. rewrite EQ.
      destruct I as [X|X]; [injection X as <- <-; apply in_or_app; left; apply in_map; auto|]. apply in_or_app. right. apply in_flat_map. exists (b0, gs0). split; auto. apply in_map; auto.
    - destruct I as [X|X]; [injection X as <- <-; apply (F b (g :: gs) g0); [left; auto|right; auto]|]. apply (F b0 gs0 g0); auto. right; auto. }
  destruct (drop_group _ _ _) as [m|] eqn:ED.
  - destruct (drop_group_spec _ _ _ _ ED) as (_&_&_&_&E5&_). split; [|cbn [t_todo w_todo w_meta w_store]; rewrite upd_same; rewrite ?size_cons; cbn [snd length]; lia].
    constructor; cbn; rewrite upd_same.
    + intros c I TH. destruct (E5 c I) as (c0&I0&Q1&_&Q3&_). destruct (C c0 I0 ltac:(lia)) as (b0&gs0&[X|X]&E); [injection X as <- <-|].
      * exists b, gs. split; [left; auto|congruence].
      * exists b0, gs0. split; [right; auto|congruence].
    + intros b0 gs0 g0 I IG. split; [exact (FR b0 gs0 g0 I IG)|]. destruct I as [X|X]; [injection X as <- <-; apply (F b (g :: gs) g0); [left; auto|right; auto]|]. apply (F b0 gs0 g0); auto. right; auto.
    + exact N2.
  - split; [|cbn [t_todo w_todo w_meta w_store]; rewrite upd_same; rewrite ?size_cons; cbn [snd length]; lia]. constructor; cbn; rewrite upd_same.
    + apply C2. intros c I. split; auto. intros X. unfold drop_group in ED. destruct (existsb _ _) eqn:EX; [discriminate|].
      apply not_true_iff_false in EX. apply EX. apply existsb_exists. exists c. split; auto. lia.
    + intros b0 gs0 g0 I IG. split; [exact (FR b0 gs0 g0 (or_intror I) IG)|]. apply (F b0 gs0 g0); auto. right; auto.
    + apply NoDup_app_inv in N2 as (_&N2&_). auto.
Qed.

Definition BND (n d : Z) (s : sys) : Prop := exists H, W s H /\ good_meta (t_meta s) /\ ND (t_meta s) /\ R1 n s /\ ranged d (t_meta s).
Lemma BND_step n d s e : BND n d s -> not_alter e ->
  match e with EvWrite m nodes _ _ ts => is_i64 ts /\ m = n /\ nodes = [n]
   | EvSync m | EvScan m _ | EvWork m _ | EvForget m _ | EvRestart m => m = n | _ => True end -> BND n d (fst (step s e)).
Proof.
  intros (H&HW&HG&HN&HR&HD) NA HE. destruct (W_step s H e HW HG) as (H'&_&HW'&HG'); [destruct e; try tauto; contradiction|].
  exists H'. split; auto. split; auto. split; [eapply ND_step; eauto; destruct e; tauto|]. split; [eapply R1_step; eauto|].
  apply ranged_step; auto. destruct e; tauto.
Qed.
Lemma BND_run n d tr : forall s, BND n d s -> no_alter tr -> valid_alter tr -> only_node n tr -> BND n d (run s tr).
Proof.
  induction tr as [|e tr IH]; intros s HB NA HV HO; cbn [run]; auto. apply IH.
  - specialize (NA e (or_introl eq_refl)). specialize (HV e (or_introl eq_refl)). specialize (HO e (or_introl eq_refl)). apply BND_step; auto. destruct e; tauto.
  - intros x Y. apply NA. right; auto.
  - intros x Y. apply HV. right; auto.
  - intros x Y. apply HO. right; auto.
Qed.
Lemma BND_new n p ttl next d sh rp : is_i64 d -> 1 <= sh -> 1 <= rp -> BND n d (new_db p ttl next d sh rp).
Proof.
  intros. exists []. split; [apply W_new|]. split; [repeat split; auto; apply H|]. split; [split; constructor|]. split; [constructor; cbn; tauto|]. split; cbn; tauto.
Qed.
Lemma gone_loop n d th k : forall s, BND n d s -> G1 n th s -> (size (t_todo s n) <= k)%nat ->
  BND n d (run s (repeat (EvWork n Done) k)) /\ forall b, In b (m_buckets (t_meta (run s (repeat (EvWork n Done) k)))) -> th <= b_end b.
Proof.
  induction k as [|k IH]; intros s HB HG HS; cbn [repeat run].
  - split; auto. intros b I. destruct (Z_lt_le_dec (b_end b) th) as [X|X]; auto. exfalso. destruct (g_cov _ _ _ HG b I X) as (b0&gs&Y&_).
    destruct (t_todo s n) as [|[b1 gs1] l]; [contradiction|]. rewrite size_cons in HS. lia.
  - assert (HB2 : BND n d (fst (step s (EvWork n Done)))) by (apply BND_step; cbn; auto).
    destruct (Nat.eq_dec (size (t_todo s n)) 0) as [Z|Z].
    + assert (E : fst (step s (EvWork n Done)) = s).
      { cbn [step fst]. unfold work. destruct (t_todo s n) as [|[b1 gs1] l]; auto. rewrite size_cons in Z. lia. }
      rewrite E. apply IH; auto. lia.
    + destruct HB as (H&HW&_&_&HR&_). destruct (gone_step n th s H HW HR HG ltac:(lia)) as (A&B). cbn [step fst] in *. apply IH; auto. lia.
Qed.

Lemma gone p ttl next d sh rp n tr t a z ts : ttl_fits p ttl -> 0 <= t <= I64_MAX -> is_i64 d -> 0 < d -> 1 <= sh -> 1 <= rp ->
  clocks_upto I64_MAX tr -> no_alter tr -> only_node n tr ->
  t_shut (run (new_db p ttl next d sh rp) tr) = [] -> t_todo (run (new_db p ttl next d sh rp) tr) n = [] ->
  (ts + d + 1) * unit_ns p + dur_ns ttl <= t ->
  exists k, forall j, (k <= j)%nat ->
    ~ In ts (query (run (new_db p ttl next d sh rp) (tr ++ [EvSync n; EvScan n t] ++ repeat (EvWork n Done) j ++ [EvSync n])) n a z).
Proof.
  intros HF HT HD HD0 HS HR HC HN HO ES ET OLD.
  assert (HV : valid_alter tr). { intros e I. specialize (HC e I). specialize (HN e I). destruct e; auto; tauto. }
  assert (HM : 0 <= I64_MAX <= I64_MAX) by (split; [i64; lia|lia]).
  destruct (INV_run p ttl d sh rp I64_MAX HF HM tr _ (INV_new p ttl d sh rp I64_MAX next HD HS HR) HC HN) as (H0&_&_&VV0&_).
  pose proof (BND_run n d tr _ (BND_new n p ttl next d sh rp HD HS HR) HN HV HO) as HB.
  set (s := run (new_db p ttl next d sh rp) tr) in *.
  assert (HB2 : BND n d (fst (step (fst (step s (EvSync n))) (EvScan n t)))) by (apply BND_step; [apply BND_step; [exact HB|exact I|reflexivity]|exact I|reflexivity]).
  set (s2 := fst (step (fst (step s (EvSync n))) (EvScan n t))) in *.
  assert (T2 : t_todo s2 n = map (fun b => (b, b_group b)) (filter (fun b => b_end b <? thr p ttl t) (m_buckets (t_meta s)))).
  { subst s2. cbn [step fst]. change (t_todo (sync s n) n) with (t_todo s n). rewrite ET. cbn. rewrite !upd_same. cbn [fst snd].
    rewrite (v_prec _ _ _ _ _ _ _ VV0), (v_ttl _ _ _ _ _ _ _ VV0). unfold expired_bucket. rewrite expired_eq by auto. auto. }
  assert (M2 : t_meta s2 = t_meta s). { subst s2. cbn [step fst]. change (t_todo (sync s n) n) with (t_todo s n). rewrite ET. auto. }
  assert (S2 : t_shut s2 = []). { subst s2. cbn [step fst]. change (t_todo (sync s n) n) with (t_todo s n). rewrite ET. auto. }
  assert (C2 : snd (t_cache s2 n) = m_buckets (t_meta s)). { subst s2. cbn [step fst]. change (t_todo (sync s n) n) with (t_todo s n). rewrite ET. cbn. rewrite upd_same. auto. }
  assert (HG : G1 n (thr p ttl t) s2).
  { constructor.
    - rewrite T2, M2. intros b I X. exists b, (b_group b). split; auto. apply in_map_iff. exists b. split; auto. apply filter_In. split; auto. lia.
    - rewrite T2. intros b gs g I IG. apply in_map_iff in I as (c&X&I). injection X as <- <-. apply incl_filter' in I. split.
      + unfold is_shut. rewrite S2. auto.
      + unfold in_cache. rewrite C2. apply existsb_exists. exists c. split; auto. apply existsb_exists. exists g. split; auto. lia.
    - rewrite T2. destruct HB2 as (H&_&_&(_&N)&_). rewrite M2 in N. revert N. generalize (m_buckets (t_meta s)). clear. intros l N.
      unfold todo_gids. rewrite flat_map_concat_map, map_map, <- flat_map_concat_map. cbn [snd]. rewrite filter_as_flat. apply (NoDup_flat_sub (fun b => map r_id (b_group b))); auto.
      + intros b x. destruct (_ <? _); cbn; rewrite ?app_nil_r; tauto.
      + intros b. destruct (_ <? _); cbn; rewrite ?app_nil_r; auto. constructor. }
  exists (size (t_todo s2 n)). intros j HJ IQ.
  destruct (gone_loop n d (thr p ttl t) j s2 HB2 HG HJ) as (HB3&END).
  rewrite run_app in IQ. cbn [app] in IQ. fold s in IQ. cbn [run] in IQ. fold s2 in IQ. rewrite run_app in IQ.
  set (s3 := run s2 (repeat (EvWork n Done) j)) in *. cbn [run step fst] in IQ.
  destruct HB3 as (H&HW&_&_&_&RD&RG). unfold query in IQ. apply in_map_iff in IQ as ([r ts']&E&I). cbn [snd] in E. subst ts'.
  apply filter_In in I as (IR&Q). cbn [fst snd] in Q. rewrite andb_true_iff in Q. destruct Q as (_&Q). apply existsb_exists in Q as (g&IG&EG).
  unfold prune_shards in IG. apply in_flat_map in IG as (b&IB&IG). unfold mapping_bucket in IB. apply incl_filter' in IB.
  cbn in IB. rewrite upd_same in IB. cbn [snd] in IB. cbn in IR.
  destruct (w_row _ _ HW r ts IR) as (b0&g0&I0&IG0&E0&C0).
  destruct (known_grp _ _ _ _ _ _ (w_wf _ _ HW) (w_met _ _ HW b IB) (known_self _ _ I0) IG IG0 ltac:(lia)) as (_&SS&EE&_).
  pose proof (END b IB) as TH. destruct (RG b IB) as (t0&HT0&ER). destruct (range_form t0 d HT0 HD HD0) as (k&EK&KB). rewrite EK in ER. injection ER as ER1 ER2.
  unfold covers in C0. assert (ND1 : b_end b <= ts + d).
  { rewrite ER2. rewrite <- SS, ER1 in C0. clear - C0. replace ((k + 1) * d) with (k * d + d) by ring. lia. }
  unfold thr in TH. clear - OLD TH ND1 HF. pose proof (unit_pos p) as HU.
  pose proof (Z.div_mod t (unit_ns p) ltac:(lia)) as D1. pose proof (Z.mod_pos_bound t (unit_ns p) ltac:(lia)) as M1.
  pose proof (Z.div_mod (dur_ns ttl) (unit_ns p) ltac:(lia)) as D2. pose proof (Z.mod_pos_bound (dur_ns ttl) (unit_ns p) ltac:(lia)) as M2.
  revert TH OLD D1 M1 D2 M2. generalize (t / unit_ns p), (t mod unit_ns p), (dur_ns ttl / unit_ns p), (dur_ns ttl mod unit_ns p).
  generalize (unit_ns p) HU. clear - ND1. intros u HU x r y q H1 H2 -> M1 D2 M2. rewrite D2 in H2.
  assert (x - y <= ts + d) by lia. nia.
Qed.

(** ** a node that does nothing learns nothing *)
Definition done_by (n : Z) (e : event) : bool :=
  match e with EvWrite m _ _ _ _ | EvSync m | EvScan m _ | EvWork m _ | EvRestart m => m =? n | _ => false end.
Lemma step_other s e n : done_by n e = false -> t_cache (fst (step s e)) n = t_cache s n /\ t_todo (fst (step s e)) n = t_todo s n.
Proof.
  intros H.
  assert (PT : forall s b h ts, t_cache (fst (put s b h ts)) n = t_cache s n /\ t_todo (fst (put s b h ts)) n = t_todo s n).
  { intros s0 b h ts. destruct (put s0 b h ts) as [s' a] eqn:P. destruct (put_cases _ _ _ _ _ _ P) as [(->&_)|(g&_&_&_&->)]; auto. }
  destruct e as [m nodes t hash ts|m|m t|m o|ttl d sh r|m r|m]; cbn [step done_by] in *.
  - assert (SY : forall s, t_cache (sync s m) n = t_cache s n) by (intros; cbn; apply upd_other; lia).
    unfold write. destruct (bucket_by_timestamp (snd _) _); auto. destruct (process_create_bucket _ _ _ _) as [m'| | |]; auto.
    + destruct (bucket_by_timestamp (m_buckets _) _); cbn [fst].
      * destruct (PT (sync (w_meta s m') m) b hash ts) as (->&->). rewrite SY. auto.
      * rewrite SY. auto.
    + destruct (bucket_by_timestamp (m_buckets _) _); cbn [fst].
      * destruct (PT (sync s m) b hash ts) as (->&->). rewrite SY. auto.
      * rewrite SY. auto.
  - cbn. rewrite upd_other by lia. auto.
  - destruct (t_todo s m); auto. cbn. rewrite upd_other by lia. auto.
  - cbn [fst]. destruct (work_cases s m o) as [E|(b&gs&rest&ET&X)]; [rewrite E; auto|].
    destruct X as [(->&[E|E])|(g&gs0&->&[E|[(_&E)|(EL&IC&_&[(k&_&E)|[(_&E)|(m'&_&ED&E)]])]])]; rewrite E; cbn; rewrite upd_other by lia; auto.
  - auto.
  - destruct (_ && _)%bool; auto.
  - cbn. rewrite !upd_other by lia. auto.
Qed.
Lemma run_other n tr : forall s, forallb (fun e => negb (done_by n e)) tr = true -> t_cache (run s tr) n = t_cache s n /\ t_todo (run s tr) n = t_todo s n.
Proof.
  induction tr as [|e tr IH]; intros s H; cbn [run forallb] in *; auto. apply andb_true_iff in H as (H1&H2). apply negb_true_iff in H1.
  destruct (IH (fst (step s e)) H2) as (->&->). apply step_other; auto.
Qed.
