(** Proofs about buckets and routing. *)
From Verif Require Import Prelude BucketModel BucketSpec.

(** ** get_time_range *)
Lemma range_form ts d : is_i64 ts -> is_i64 d -> 0 < d ->
  exists k, get_time_range ts d = (Z.max I64_MIN (k * d), Z.min I64_MAX ((k + 1) * d)) /\ k * d <= ts < (k + 1) * d.
Proof.
  intros Hts Hd H0. unfold get_time_range, sat_add, sat_sub.
  replace (d <=? 0) with false by lia. cbv zeta.
  assert (HM : I64_MIN < 0 < I64_MAX) by (i64; lia).
  destruct (0 <=? ts) eqn:E.
  - pose proof (Z.quot_rem' ts d) as HQ. pose proof (Z.rem_bound_pos ts d ltac:(lia) ltac:(lia)) as HR.
    pose proof (Z.quot_pos ts d ltac:(lia) ltac:(lia)) as HP.
    revert HQ HR HP. generalize (Z.quot ts d), (Z.rem ts d). intros q r HQ HR HP. exists q.
    assert (0 <= q * d <= ts) by nia.
    rewrite wrap_i64_id by (unfold is_i64 in *; lia). unfold is_i64 in *.
    replace ((q + 1) * d) with (q * d + d) by ring. split; [f_equal; lia|lia].
  - assert (HW : wrap_i64 (ts + 1) = ts + 1) by (apply wrap_i64_id; unfold is_i64 in *; lia). rewrite HW.
    pose proof (Z.quot_rem' (ts + 1) d) as HQ. assert (HR : - d < Z.rem (ts + 1) d <= 0). { pose proof (Z.rem_bound_pos (- (ts + 1)) d ltac:(lia) ltac:(lia)) as X. rewrite Z.rem_opp_l in X by lia. lia. }
    assert (HP : Z.quot (ts + 1) d <= 0). { rewrite <- (Z.opp_involutive (ts + 1)), Z.quot_opp_l by lia.
      pose proof (Z.quot_pos (- (ts + 1)) d ltac:(lia) ltac:(lia)). lia. }
    revert HQ HR HP. generalize (Z.quot (ts + 1) d), (Z.rem (ts + 1) d). intros q r HQ HR HP. exists (q - 1).
    assert (ts + 1 <= q * d <= 0) by nia.
    rewrite wrap_i64_id by (unfold is_i64 in *; lia). unfold is_i64 in *.
    replace ((q - 1) * d) with (q * d - d) by ring. replace (q - 1 + 1) with q by ring. split; [f_equal; lia|lia].
Qed.

Lemma range_covers ts d : is_i64 ts -> is_i64 d -> ts <> I64_MAX ->
  fst (get_time_range ts d) <= ts < snd (get_time_range ts d).
Proof.
  intros Hts Hd HX. destruct (Z_le_gt_dec d 0) as [H|H].
  - unfold get_time_range. replace (d <=? 0) with true by lia. cbn. unfold is_i64 in *. lia.
  - destruct (range_form ts d Hts Hd ltac:(lia)) as (k&E&Hk). rewrite E. cbn [fst snd]. unfold is_i64 in *. lia.
Qed.

Lemma range_same ts1 ts2 d t : is_i64 ts1 -> is_i64 ts2 -> is_i64 d ->
  fst (get_time_range ts1 d) <= t < snd (get_time_range ts1 d) ->
  fst (get_time_range ts2 d) <= t < snd (get_time_range ts2 d) ->
  get_time_range ts1 d = get_time_range ts2 d.
Proof.
  intros H1 H2 Hd. destruct (Z_le_gt_dec d 0) as [H|H].
  - unfold get_time_range. replace (d <=? 0) with true by lia. auto.
  - destruct (range_form ts1 d H1 Hd ltac:(lia)) as (k1&E1&Hk1). destruct (range_form ts2 d H2 Hd ltac:(lia)) as (k2&E2&Hk2).
    rewrite E1, E2. cbn [fst snd]. intros A B. assert (k1 = k2); [|subst; auto].
    assert (k1 * d < (k2 + 1) * d).
    { destruct (Z.eq_dec I64_MIN (Z.max I64_MIN (k1 * d))); unfold is_i64 in *; nia. }
    assert (k2 * d < (k1 + 1) * d).
    { destruct (Z.eq_dec I64_MIN (Z.max I64_MIN (k2 * d))); unfold is_i64 in *; nia. }
    nia.
Qed.

(** ** allocation *)
Lemma alloc_vnodes_spec nodes n : forall incr index vs i' x', 0 <= index -> alloc_vnodes nodes n incr index = Some (vs, i', x') ->
  i' = incr + Z.of_nat n /\ x' = index + Z.of_nat n /\ length vs = n /\
  (forall k, (k < n)%nat -> nth_error (map fst vs) k = Some (incr + Z.of_nat k)) /\
  (forall k, (k < n)%nat -> nth_error (map snd vs) k = nth_error nodes (Z.to_nat ((index + Z.of_nat k) mod Z.of_nat (length nodes)))).
Proof.
  induction n as [|n IH]; intros incr index vs i' x' HI H; cbn [alloc_vnodes] in H.
  - inversion H; subst. repeat split; try lia.
  - destruct (Z.of_nat (length nodes) =? 0); [discriminate|].
    destruct (nth_error nodes _) as [node|] eqn:EN; [|discriminate].
    destruct (alloc_vnodes nodes n (incr + 1) (index + 1)) as [[[vs1 i1] x1]|] eqn:EA; [|discriminate].
    injection H as <- <- <-. apply IH in EA as (A&B&C&D&E); [|lia].
    split; [lia|]. split; [lia|]. split; [cbn; lia|]. split.
    + intros [|k] Hk; cbn [map nth_error fst]; [f_equal; lia|]. rewrite D by lia. f_equal; lia.
    + intros [|k] Hk; cbn [map nth_error snd]; [rewrite <- EN; do 3 f_equal; lia|]. rewrite E by lia. do 3 f_equal; lia.
Qed.

Lemma alloc_vnodes_some nodes n : nodes <> [] -> forall incr index, 0 <= index -> exists p, alloc_vnodes nodes n incr index = Some p.
Proof.
  intros HN. induction n as [|n IH]; intros incr index HI; cbn [alloc_vnodes]; [eauto|].
  assert (0 < Z.of_nat (length nodes)) by (destruct nodes; [congruence|cbn; lia]).
  replace (Z.of_nat (length nodes) =? 0) with false by lia.
  destruct (nth_error nodes _) eqn:EN.
  - destruct (IH (incr + 1) (index + 1)) as [[[vs a] b] E]; [lia|]. rewrite E. eauto.
  - apply nth_error_None in EN. exfalso. pose proof (Z.mod_pos_bound index (Z.of_nat (length nodes)) ltac:(lia)). lia.
Qed.

Lemma seq_ids_nodup l incr : (forall k, (k < length l)%nat -> nth_error l k = Some (incr + Z.of_nat k)) ->
  NoDup l /\ (forall x, In x l -> incr <= x < incr + Z.of_nat (length l)).
Proof.
  intros H. split.
  - apply NoDup_nth_error. intros i j Hi E. destruct (Nat.lt_ge_cases j (length l)) as [Hj|Hj].
    + rewrite !H in E by auto. injection E. lia.
    + apply nth_error_None in Hj. rewrite Hj, H in E by auto. discriminate.
  - intros x Hx. apply In_nth_error in Hx as (k&Hk). assert (k < length l)%nat by (apply nth_error_Some; congruence).
    rewrite H in Hk by auto. injection Hk. lia.
Qed.

Lemma NoDup_app_iff' {A} (l1 l2 : list A) : NoDup l1 -> NoDup l2 -> (forall x, In x l1 -> In x l2 -> False) -> NoDup (l1 ++ l2).
Proof.
  intros H1 H2 H. induction H1 as [|a l N1 H1 IH]; cbn; auto. constructor.
  - rewrite in_app_iff. intros [X|X]; [auto|]. eapply H; [left; reflexivity|auto].
  - apply IH. intros x X1 X2. eapply H; [right; eauto|auto].
Qed.
Lemma alloc_groups_spec nodes replica shards : (replica <= length nodes)%nat ->
  forall incr index gs fin, 0 <= index -> alloc_groups nodes shards replica incr index = Some (gs, fin) ->
  length gs = shards /\ incr <= fin /\ NoDup (flat_map repl_ids gs) /\ (forall x, In x (flat_map repl_ids gs) -> incr <= x < fin) /\
  Forall (repl_ok nodes (Z.of_nat replica)) gs.
Proof.
  intros HR. induction shards as [|k IH]; intros incr index gs fin HI H; cbn [alloc_groups] in H.
  - injection H as <- <-. cbn. repeat split; try lia; try constructor; tauto.
  - destruct (alloc_vnodes nodes replica (incr + 1) index) as [[[vs i1] x1]|] eqn:EA; [|discriminate].
    destruct vs as [|[v0 n0] vs]; [discriminate|].
    destruct (alloc_groups nodes k replica i1 x1) as [[gs1 fin1]|] eqn:EG; [|discriminate].
    injection H as <- <-. apply alloc_vnodes_spec in EA as (A&B&C&D&E); [|lia].
    apply IH in EG as (L&F&N&R&O); [|lia].
    assert (LM : length (map fst ((v0, n0) :: vs)) = replica) by (rewrite map_length; auto).
    destruct (seq_ids_nodup (map fst ((v0, n0) :: vs)) (incr + 1)) as [N1 R1]; [intros j Hj; apply D; lia|].
    rewrite LM in R1.
    split; [cbn; lia|]. split; [lia|]. cbn [flat_map repl_ids r_id r_vnodes]. split; [|split].
    + cbn [app]. constructor.
      * rewrite in_app_iff. cbn [r_id]. intros [X|X]. apply R1 in X. clear - X. lia. apply R in X; lia.
      * apply NoDup_app_iff'. { exact N1. } { exact N. } intros x X1 X2. apply R1 in X1. apply R in X2. lia.
    + intros x [X|X]; [cbn [r_id] in X; subst x; clear - A F; lia|]. apply in_app_or in X as [X|X]; [apply R1 in X; lia|apply R in X; lia].
    + constructor; [|exact O]. unfold repl_ok. cbn [r_vnodes r_leader_vnode r_leader_node]. split; [lia|]. split; [|split; [left; auto|]].
      * intros v Hv. apply (in_map snd) in Hv. apply In_nth_error in Hv as (j&Hj).
        assert (j < replica)%nat by (rewrite <- C; rewrite <- (map_length snd); apply nth_error_Some; congruence).
        rewrite E in Hj by auto. eapply nth_error_In; eauto.
      * intros ND. apply NoDup_nth_error. intros i j Hi EQ. rewrite map_length, C in Hi.
        destruct (Nat.lt_ge_cases j replica) as [Hj|Hj].
        -- rewrite !E in EQ by auto. assert (0 < Z.of_nat (length nodes)) by lia.
           apply (proj1 (NoDup_nth_error nodes) ND) in EQ.
           2: { pose proof (Z.mod_pos_bound (index + Z.of_nat i) (Z.of_nat (length nodes)) ltac:(lia)). lia. }
           pose proof (Z.mod_pos_bound (index + Z.of_nat i) (Z.of_nat (length nodes)) ltac:(lia)).
           pose proof (Z.mod_pos_bound (index + Z.of_nat j) (Z.of_nat (length nodes)) ltac:(lia)).
           assert (EM : (index + Z.of_nat i) mod Z.of_nat (length nodes) = (index + Z.of_nat j) mod Z.of_nat (length nodes)) by lia.
           pose proof (Z.div_mod (index + Z.of_nat i) (Z.of_nat (length nodes)) ltac:(lia)) as Q1.
           pose proof (Z.div_mod (index + Z.of_nat j) (Z.of_nat (length nodes)) ltac:(lia)) as Q2.
           revert Q1 Q2. rewrite EM. generalize ((index + Z.of_nat i) / Z.of_nat (length nodes)), ((index + Z.of_nat j) / Z.of_nat (length nodes)).
           generalize ((index + Z.of_nat j) mod Z.of_nat (length nodes)). clear - Hi Hj HR. intros rr q1 q2 E1 E2. assert (q1 = q2) by nia. subst. lia.
        -- assert (X : nth_error (map snd ((v0, n0) :: vs)) j = None) by (apply nth_error_None; rewrite map_length; lia).
           rewrite X in EQ. rewrite E in EQ by auto. apply nth_error_None in EQ.
           pose proof (Z.mod_pos_bound (index + Z.of_nat i) (Z.of_nat (length nodes)) ltac:(lia)). lia.
Qed.

Lemma alloc_groups_some nodes replica shards : nodes <> [] -> (0 < replica)%nat ->
  forall incr index, 0 <= index -> exists p, alloc_groups nodes shards replica incr index = Some p.
Proof.
  intros HN HR. induction shards as [|k IH]; intros incr index HI; cbn [alloc_groups]; [eauto|].
  destruct (alloc_vnodes_some nodes replica HN (incr + 1) index HI) as ([[vs i1] x1]&EA). rewrite EA.
  pose proof EA as EB. apply alloc_vnodes_spec in EA as (A&B&C&_&_); [|lia].
  destruct vs as [|[v0 n0] vs]; [cbn in C; lia|].
  destruct (IH i1 x1) as ([gs fin]&EG); [lia|]. rewrite EG. eauto.
Qed.

Lemma eff_replica_bounds nodes r : nodes <> [] -> 0 <= r -> 1 <= eff_replica nodes r <= Z.of_nat (length nodes).
Proof.
  intros HN HR. unfold eff_replica. assert (1 <= Z.of_nat (length nodes)) by (destruct nodes; [congruence|cbn [length]; lia]).
  destruct (r =? 0) eqn:E1; [lia|]. destruct (_ <? _) eqn:E2; lia.
Qed.

Lemma allocation_spec nodes shards replica b gs used : nodes <> [] -> 0 <= replica -> 0 <= shards ->
  allocation_replication_set nodes shards replica b = Some (gs, used) ->
  Z.of_nat (length gs) = shards /\ 0 <= used /\ NoDup (flat_map repl_ids gs) /\
  (forall x, In x (flat_map repl_ids gs) -> b <= x < b + used) /\ Forall (repl_ok nodes (eff_replica nodes replica)) gs.
Proof.
  intros HN HR HS H. unfold allocation_replication_set in H. pose proof (eff_replica_bounds nodes replica HN HR) as HB.
  destruct (alloc_groups _ _ _ _ _) as [[g f]|] eqn:E; [|discriminate]. injection H as <- <-.
  apply alloc_groups_spec in E as (A&B&C&D&F); [|lia|lia]. rewrite Z2Nat.id in F by lia.
  split; [lia|]. split; [lia|]. split; [auto|]. split; [|auto]. intros x Hx. apply D in Hx. lia.
Qed.
Lemma allocation_some nodes shards replica b : nodes <> [] -> 0 <= replica -> exists p, allocation_replication_set nodes shards replica b = Some p.
Proof.
  intros HN HR. unfold allocation_replication_set. pose proof (eff_replica_bounds nodes replica HN HR).
  destruct (alloc_groups_some nodes (Z.to_nat (eff_replica nodes replica)) (Z.to_nat shards) HN ltac:(lia) b 0 ltac:(lia)) as ([g f]&E).
  rewrite E. eauto.
Qed.

(** ** histories *)
Lemma valid_app tr x : valid_trace (tr ++ [x]) -> valid_trace tr /\ valid_event (fst x).
Proof.
  intros H. split; [intros e a HI; apply (H e a); apply in_or_app; auto|]. destruct x as [e a]. apply (H e a). apply in_or_app. right; left; auto.
Qed.
Lemma dropped_app b tr x : bucket_dropped b tr -> bucket_dropped b (tr ++ x).
Proof. intros [a H]. exists a. apply in_or_app; auto. Qed.
Lemma set_cache_same f c l : set_cache f c l c = l.
Proof. unfold set_cache. rewrite Nat.eqb_refl. auto. Qed.

Lemma by_ts_some l ts b : bucket_by_timestamp l ts = Some b -> In b l /\ covers b ts.
Proof. unfold bucket_by_timestamp. intros H. apply find_some in H as [A B]. split; auto. unfold covers. lia. Qed.

Lemma create_created m nodes mn ts m' : process_create_bucket m nodes mn ts = Created m' ->
  1 <= m_replica m -> 0 <= m_shards m -> 
  (forall b, In b (m_buckets m) -> ~ covers b ts) /\
  exists b, m_buckets m' = b :: m_buckets m /\ m_dur m' = m_dur m /\ m_shards m' = m_shards m /\ m_replica m' = m_replica m /\
    b_id b = m_next m /\ (b_start b, b_end b) = get_time_range ts (m_dur m) /\
    b_group b <> [] /\ NoDup (bucket_ids b) /\ (forall x, In x (bucket_ids b) -> m_next m <= x < m_next m') /\
    Z.of_nat (length (b_group b)) = m_shards m /\ Forall (repl_ok nodes (m_replica m)) (b_group b).
Proof.
  unfold process_create_bucket. intros H HR HS. destruct (existsb _ _) eqn:EX; [discriminate|]. destruct (_ <? m_replica m) eqn:EN; [discriminate|].
  destruct (m_shards m =? 0) eqn:E0; [discriminate|]. destruct (ts <? mn); [discriminate|]. cbv zeta in H.
  destruct (get_time_range ts (m_dur m)) as [s e] eqn:EG.
  destruct (allocation_replication_set nodes (m_shards m) (m_replica m) (m_next m + 1)) as [[group used]|] eqn:EA; [|discriminate].
  injection H as <-. cbn [m_buckets m_dur m_shards m_replica m_next]. split.
  - intros b Hb HC. assert (existsb (fun b => ((b_start b <=? ts) && (ts <? b_end b))%bool) (m_buckets m) = true).
    { apply existsb_exists. exists b. split; auto. unfold covers in HC. lia. } congruence.
  - assert (NN : nodes <> []). { destruct nodes; [cbn in EN; lia|discriminate]. }
    assert (ER : eff_replica nodes (m_replica m) = m_replica m).
    { unfold eff_replica. replace (m_replica m =? 0) with false by lia. rewrite EN. auto. }
    apply allocation_spec in EA as (A&B&C&D&F); auto; try lia. rewrite ER in F.
    eexists. split; [reflexivity|]. cbn [b_id b_start b_end b_group]. repeat (split; [solve [auto]|]). split; [|split; [|split; [|split; auto]]].
    + destruct group; [cbn in A; lia|discriminate].
    + cbn [bucket_ids]. unfold bucket_ids. cbn [b_id b_group]. constructor; auto. intros X. apply D in X. lia.
    + unfold bucket_ids. cbn [b_id b_group]. intros x [X|X]; [lia|]. apply D in X. lia.
Qed.
Lemma create_no_panic m nodes mn ts : 1 <= m_replica m -> process_create_bucket m nodes mn ts <> Panic.
Proof.
  unfold process_create_bucket. intros HR. destruct (existsb _ _); [discriminate|]. destruct (_ <? m_replica m) eqn:EN; [discriminate|].
  destruct (m_shards m =? 0); [discriminate|]. destruct (ts <? mn); [discriminate|]. cbv zeta. destruct (get_time_range _ _).
  assert (NN : nodes <> []). { destruct nodes; [cbn in EN; lia|discriminate]. }
  destruct (allocation_some nodes (m_shards m) (m_replica m) (m_next m + 1) NN ltac:(lia)) as ([g u]&E). rewrite E. discriminate.
Qed.
Lemma create_exists m nodes mn ts : process_create_bucket m nodes mn ts = Exists_ -> exists b, In b (m_buckets m) /\ covers b ts.
Proof.
  unfold process_create_bucket. destruct (existsb _ _) eqn:EX.
  - intros _. apply existsb_exists in EX as (b&Hb&HC). exists b. unfold covers. split; auto; lia.
  - destruct (_ <? m_replica m); [discriminate|]. destruct (m_shards m =? 0); [discriminate|]. destruct (ts <? mn); [discriminate|].
    cbv zeta. destruct (get_time_range _ _). destruct (allocation_replication_set _ _ _ _) as [[? ?]|]; discriminate.
Qed.

Lemma vnode_for_some b h : b_group b <> [] -> 0 <= h -> exists r, vnode_for b h = Some r /\ In r (b_group b).
Proof.
  intros HG Hh. unfold vnode_for. assert (0 < Z.of_nat (length (b_group b))) by (destruct (b_group b); [congruence|cbn; lia]).
  replace (_ =? 0) with false by lia.
  destruct (nth_error (b_group b) _) as [r|] eqn:E; [exists r; split; auto; eapply nth_error_In; eauto|].
  apply nth_error_None in E. pose proof (Z.mod_pos_bound h (Z.of_nat (length (b_group b))) ltac:(lia)). lia.
Qed.
Lemma vnode_for_in b h r : vnode_for b h = Some r -> In r (b_group b).
Proof. unfold vnode_for. destruct (_ =? 0); [discriminate|]. apply nth_error_In. Qed.

Definition wf_meta (m : meta) : Prop := is_i64 (m_dur m) /\ 1 <= m_shards m /\ 1 <= m_replica m.

Record inv (tr : list (event * answer)) (s : sys) : Prop := {
  i_wf : wf_meta (s_meta s);
  i_group : forall b, In b (m_buckets (s_meta s)) -> b_group b <> [];
  i_cgroup : forall c b, In b (s_cache s c) -> b_group b <> [];
  i_cache : forall c b, In b (s_cache s c) -> In b (m_buckets (s_meta s)) \/ bucket_dropped b tr;
  i_nodup : NoDup (flat_map bucket_ids (m_buckets (s_meta s)));
  i_lt : forall x, In x (flat_map bucket_ids (m_buckets (s_meta s))) -> x < m_next (s_meta s);
  i_routed : forall c nodes mn h t b r, In (EWrite c nodes mn h t, ARouted b r) tr ->
     covers b t /\ vnode_for b h = Some r /\ (In b (m_buckets (s_meta s)) \/ bucket_dropped b tr) /\
     (In b (s_cache s c) \/ bucket_dropped b tr);
  i_nopanic : forall e, ~ In (e, APanic) tr }.

Lemma inv_init next d n r : is_i64 d -> 1 <= n -> 1 <= r -> inv [] (init next d n r).
Proof.
  intros. constructor; cbn; try tauto; try solve [constructor]. unfold wf_meta. cbn. auto.
Qed.

Lemma flat_ids_filter f l : NoDup (flat_map bucket_ids l) -> NoDup (flat_map bucket_ids (filter f l)).
Proof.
  induction l as [|b l IH]; cbn [flat_map filter]; auto. intros H.
  assert (N1 : NoDup (bucket_ids b) /\ NoDup (flat_map bucket_ids l) /\ forall x, In x (bucket_ids b) -> In x (flat_map bucket_ids l) -> False).
  { revert H. generalize (bucket_ids b) (flat_map bucket_ids l). clear. intros l1 l2. induction l1 as [|a l1 IH]; cbn; intros H.
    - repeat split; auto; constructor.
    - inversion H; subst. apply IH in H3 as (A&B&C). rewrite in_app_iff in H2. repeat split; auto; [constructor; auto|].
      intros x [->|X] Y; [tauto|eauto]. }
  destruct N1 as (A&B&C). destruct (f b); [|auto]. cbn [flat_map]. apply NoDup_app_iff'; auto.
  intros x X1 X2. apply (C x X1). apply in_flat_map in X2 as (b'&Hb'&Hx). apply filter_In in Hb' as [Hb' _]. apply in_flat_map. eauto.
Qed.

(** Answers of a write step. *)
Lemma after_create_routed l h ts b r : after_create l h ts = ARouted b r -> In b l /\ covers b ts /\ vnode_for b h = Some r.
Proof.
  unfold after_create. destruct (bucket_by_timestamp l ts) eqn:E; [|discriminate]. destruct (vnode_for b0 h) eqn:EV; [|discriminate].
  intros H; injection H as <- <-. apply by_ts_some in E as [A B]. auto.
Qed.
Lemma after_create_nopanic l h ts : (forall b, In b l -> b_group b <> []) -> 0 <= h -> after_create l h ts <> APanic.
Proof.
  intros HG Hh. unfold after_create. destruct (bucket_by_timestamp l ts) eqn:E; [|discriminate]. apply by_ts_some in E as [A B].
  destruct (vnode_for_some b h (HG b A) Hh) as (r&Hr&_). rewrite Hr. discriminate.
Qed.

Lemma inv_step tr s e a s' : inv tr s -> step s e a s' -> valid_event e -> inv (tr ++ [(e, a)]) s'.
Proof.
  intros HI HS HV. destruct HI as [WF IG ICG IC IN IL IR IP].
  assert (DR : forall b, bucket_dropped b tr -> bucket_dropped b (tr ++ [(e, a)])) by (intros; apply dropped_app; auto).
  (* the metadata grows and some client copy is replaced *)
  assert (REPL : forall s2 c l, (forall b, In b (m_buckets (s_meta s)) -> In b (m_buckets (s_meta s2))) ->
     s_cache s2 = set_cache (s_cache s) c l -> Permutation l (m_buckets (s_meta s2)) ->
     wf_meta (s_meta s2) -> (forall b, In b (m_buckets (s_meta s2)) -> b_group b <> []) ->
     NoDup (flat_map bucket_ids (m_buckets (s_meta s2))) -> (forall x, In x (flat_map bucket_ids (m_buckets (s_meta s2))) -> x < m_next (s_meta s2)) ->
     a <> APanic ->
     (forall c' nodes mn h t b r, (e, a) = (EWrite c' nodes mn h t, ARouted b r) -> c' = c /\ In b l /\ covers b t /\ vnode_for b h = Some r) ->
     inv (tr ++ [(e, a)]) s2).
  { intros s2 c l HM HC HP H1 H2 H3 H4 H5 H6.
    assert (LM : forall b, In b l <-> In b (m_buckets (s_meta s2))).
    { intros b. split; intros; [eapply Permutation_in; eauto|eapply Permutation_in; [apply Permutation_sym|]; eauto]. }
    constructor; auto.
    - intros c0 b. rewrite HC. unfold set_cache. destruct (Nat.eqb c0 c); [intros X; apply H2, LM; auto|apply ICG].
    - intros c0 b. rewrite HC. unfold set_cache. destruct (Nat.eqb c0 c); [intros X; left; apply LM; auto|].
      intros X. apply IC in X as [X|X]; auto.
    - intros c0 nodes mn h t b r X. apply in_app_or in X as [X|[X|[]]].
      + apply IR in X as (A&B&C&D). split; [auto|]. split; [auto|]. split; [destruct C; auto|].
        rewrite HC. unfold set_cache. destruct (Nat.eqb c0 c); [|destruct D; auto].
        destruct C as [C|C]; [left; apply LM; auto|auto].
      + apply H6 in X as (->&A&B&C). split; [auto|]. split; [auto|]. split; [left; apply LM; auto|].
        left. rewrite HC, set_cache_same. auto.
    - intros e0 X. apply in_app_or in X as [X|[X|[]]]; [eapply IP; eauto|congruence]. }
  inversion HS; subst; clear HS.
  - (* local *)
    apply by_ts_some in H as [A B]. constructor; auto.
    + intros c0 b0 X. destruct (IC c0 b0 X); auto.
    + intros c0 nodes0 mn0 h0 t0 b0 r0 X. apply in_app_or in X as [X|[X|[]]].
      * apply IR in X as (A1&B1&C1&D1). repeat (split; auto); [destruct C1; auto|destruct D1; auto].
      * injection X as -> -> -> -> -> -> ->. split; auto. split; auto. split; [destruct (IC c0 b0 A); auto|auto].
    + intros e0 X. apply in_app_or in X as [X|[X|[]]]; [eapply IP; eauto|congruence].
  - (* local panic *)
    exfalso. apply by_ts_some in H as [A B]. cbn in HV. destruct (vnode_for_some b h (ICG c b A) (proj2 HV)) as (r&Hr&_). congruence.
  - (* exists *)
    assert (LM : forall b, In b l -> In b (m_buckets (s_meta s))) by (intros; eapply Permutation_in; eauto).
    apply (REPL _ c l); cbn [s_meta s_cache]; auto.
    + apply after_create_nopanic; [intros; apply IG; auto|apply HV].
    + intros c' n' m' h' t' b r X. injection X as -> -> -> -> -> X. apply after_create_routed in X. tauto.
  - (* create *)
    destruct WF as (W1&W2&W3). apply create_created in H0 as (N&b&E1&E2&E3&E4&E5&E6&E7&E8&E9&E10&E11); auto; [|lia].
    assert (GG : forall b0, In b0 (m_buckets m') -> b_group b0 <> []).
    { intros b0. rewrite E1. intros [<-|X]; auto. }
    assert (LM : forall b, In b l -> In b (m_buckets m')) by (intros; eapply Permutation_in; eauto).
    apply (REPL _ c l); cbn [s_meta s_cache]; auto.
    + rewrite E1. intros; right; auto.
    + unfold wf_meta. rewrite E2, E3, E4. auto.
    + rewrite E1. cbn [flat_map]. apply NoDup_app_iff'; auto. intros x X1 X2. apply E9 in X1. apply IL in X2. lia.
    + rewrite E1. cbn [flat_map]. intros x X. apply in_app_or in X as [X|X]; [apply E9 in X; lia|]. apply IL in X.
      assert (m_next (s_meta s) < m_next m') by (specialize (E9 (b_id b) (or_introl eq_refl)); lia). lia.
    + apply after_create_nopanic; [intros; apply GG; auto|apply HV].
    + intros c' n' m'' h' t' b0 r X. injection X as -> -> -> -> -> X. apply after_create_routed in X. tauto.
  - (* refused *)
    constructor; auto.
    + intros c0 b0 X. destruct (IC c0 b0 X); auto.
    + intros c0 nodes0 mn0 h0 t0 b0 r0 X. apply in_app_or in X as [X|[X|[]]]; [|congruence].
      apply IR in X as (A1&B1&C1&D1). repeat (split; auto); [destruct C1; auto|destruct D1; auto].
    + intros e0 X. apply in_app_or in X as [X|[X|[]]]; [eapply IP; eauto|congruence].
  - exfalso. eapply create_no_panic; [|eauto]. apply WF.
  - (* sync *)
    apply (REPL _ c l); cbn [s_meta s_cache]; auto; [discriminate|]. intros; congruence.
  - (* delete *)
    assert (KEEP : forall b, In b (m_buckets (s_meta s)) -> In b (m_buckets (process_delete_bucket (s_meta s) id)) \/ bucket_dropped b (tr ++ [(EDelete id, ANone)])).
    { intros b Hb. destruct (Z.eq_dec (b_id b) id) as [E|E].
      - right. exists ANone. apply in_or_app. right; left. rewrite E; auto.
      - left. cbn. apply filter_In. split; auto. lia. }
    constructor; cbn [s_meta s_cache]; auto.
    + cbn. intros b X. apply filter_In in X as [X _]. auto.
    + intros c b X. destruct (IC c b X) as [Y|Y]; auto.
    + cbn. apply flat_ids_filter; auto.
    + cbn. intros x X. apply IL. apply in_flat_map in X as (b&Hb&Hx). apply filter_In in Hb as [Hb _]. apply in_flat_map; eauto.
    + intros c0 nodes0 mn0 h0 t0 b0 r0 X. apply in_app_or in X as [X|[X|[]]]; [|congruence].
      apply IR in X as (A1&B1&C1&D1). split; auto. split; auto. split; [destruct C1; auto|destruct D1; auto].
    + intros e0 X. apply in_app_or in X as [X|[X|[]]]; [eapply IP; eauto|congruence].
  - (* alter *)
    constructor; cbn [s_meta s_cache process_alter_db m_buckets m_next]; auto.
    + intros c b X. destruct (IC c b X) as [Y|Y]; auto.
    + intros c0 nodes0 mn0 h0 t0 b0 r0 X. apply in_app_or in X as [X|[X|[]]]; [|congruence].
      apply IR in X as (A1&B1&C1&D1). split; auto. split; auto. split; [destruct C1; auto|destruct D1; auto].
    + intros e0 X. apply in_app_or in X as [X|[X|[]]]; [eapply IP; eauto|congruence].
Qed.

Lemma inv_run s0 tr s : run s0 tr s -> forall next d n r, s0 = init next d n r -> is_i64 d -> 1 <= n -> 1 <= r -> valid_trace tr -> inv tr s.
Proof.
  induction 1 as [s|s tr s1 e a s2 HR IH HS]; intros next d n r -> Hd Hn Hr HV; [apply inv_init; auto|].
  apply valid_app in HV as [V1 V2]. eapply inv_step; eauto.
Qed.

(** Buckets of one duration never overlap. *)
Definition disj (bs : list bucket) : Prop := forall b1 b2, In b1 bs -> In b2 bs -> overlap b1 b2 -> b1 = b2.

Lemma disj_run s0 tr s : run s0 tr s -> forall next d n r, s0 = init next d n r -> is_i64 d -> 1 <= n -> 1 <= r -> valid_trace tr ->
  keeps_duration d tr -> no_write_at I64_MAX tr ->
  m_dur (s_meta s) = d /\ disj (m_buckets (s_meta s)) /\
  (forall b, In b (m_buckets (s_meta s)) -> exists t, is_i64 t /\ (b_start b, b_end b) = get_time_range t d).
Proof.
  induction 1 as [s|s tr s1 e a s2 HR IH HS]; intros next d n r -> Hd Hn Hr HV HK HM.
  { cbn. repeat split; auto; [intros ? ? []|intros ? []]. }
  pose proof (inv_run _ _ _ HR _ _ _ _ eq_refl Hd Hn Hr (proj1 (valid_app _ _ HV))) as INV.
  apply valid_app in HV as [V1 V2].
  assert (HK1 : keeps_duration d tr) by (intros d' n' r' a' X; eapply HK; apply in_or_app; left; eauto).
  assert (HM1 : no_write_at I64_MAX tr) by (intros c' n' m' h' a' X; eapply HM; apply in_or_app; left; eauto).
  destruct (IH _ _ _ _ eq_refl Hd Hn Hr V1 HK1 HM1) as (D1&D2&D3). clear IH.
  inversion HS; subst; clear HS; cbn [s_meta s_cache]; auto.
  - destruct (i_wf _ _ INV) as (W1&W2&W3). apply create_created in H0 as (N&b&E1&E2&E3&E4&E5&E6&_); auto; [|lia].
    cbn in V2. destruct V2 as [T1 _].
    assert (CT : covers b t).
    { assert (t <> I64_MAX). { intros ->. eapply HM. apply in_or_app. right. left. reflexivity. }
      pose proof (range_covers t (m_dur (s_meta s1)) T1 W1 H0) as RC. rewrite <- E6 in RC. exact RC. }
    assert (NEW : forall b1, In b1 (m_buckets (s_meta s1)) -> ~ overlap b1 b).
    { intros b1 Hb1 (x&C1&C2). destruct (D3 b1 Hb1) as (t1&T2&E).
      assert (get_time_range t1 (m_dur (s_meta s1)) = get_time_range t (m_dur (s_meta s1))).
      { apply range_same with x; auto; [rewrite <- E; exact C1|rewrite <- E6; exact C2]. }
      apply (N b1 Hb1). rewrite H0, <- E6 in E. injection E as EA EB. unfold covers in *. lia. }
    split; [auto|]. split.
    + intros b1 b2. rewrite E1. intros [<-|X1] [<-|X2] O; auto; exfalso.
      * eapply NEW; eauto. destruct O as (x&O1&O2). exists x; auto.
      * eapply NEW; eauto.
    + intros b0. rewrite E1. intros [<-|X]; [exists t; auto|auto].
  - split; [auto|]. split; cbn.
    + intros b1 b2 X1 X2. apply filter_In in X1 as [X1 _]. apply filter_In in X2 as [X2 _]. auto.
    + intros b X. apply filter_In in X as [X _]. auto.
  - assert (d0 = m_dur (s_meta s1)) by (eapply HK; apply in_or_app; right; left; reflexivity). subst. cbn. auto.
Qed.

Lemma prune_in bs b r a z t : In b bs -> covers b t -> In r (b_group b) -> a <= t <= z -> In r (prune_shards bs a z).
Proof.
  intros Hb HC Hr Ht. unfold prune_shards. apply in_flat_map. exists b. split; auto. apply filter_In. split; auto. unfold covers in HC. lia.
Qed.

(** One deterministic execution of the events (client copies in the stored order), used to exhibit concrete histories. *)
Definition exec1 (s : sys) (e : event) : answer * sys :=
  match e with
  | EWrite c nodes mn h t =>
      match bucket_by_timestamp (s_cache s c) t with
      | Some b => match vnode_for b h with Some r => (ARouted b r, s) | None => (APanic, s) end
      | None =>
          match process_create_bucket (s_meta s) nodes mn t with
          | Created m' => (after_create (m_buckets m') h t, {| s_meta := m'; s_cache := set_cache (s_cache s) c (m_buckets m') |})
          | Exists_ => (after_create (m_buckets (s_meta s)) h t, {| s_meta := s_meta s; s_cache := set_cache (s_cache s) c (m_buckets (s_meta s)) |})
          | Refused => (AError, s)
          | Panic => (APanic, s)
          end
      end
  | ESync c => (ANone, {| s_meta := s_meta s; s_cache := set_cache (s_cache s) c (m_buckets (s_meta s)) |})
  | EDelete id => (ANone, {| s_meta := process_delete_bucket (s_meta s) id; s_cache := s_cache s |})
  | EAlter d n r => (ANone, {| s_meta := process_alter_db (s_meta s) d n r; s_cache := s_cache s |})
  end.
Lemma exec1_step s e : step s e (fst (exec1 s e)) (snd (exec1 s e)).
Proof.
  destruct e as [c nodes mn h t|c|id|d n r]; cbn [exec1].
  - destruct (bucket_by_timestamp (s_cache s c) t) eqn:E1.
    + destruct (vnode_for b h) eqn:E2; cbn [fst snd]; [apply StepLocal; auto|eapply StepLocalPanic; eauto].
    + destruct (process_create_bucket (s_meta s) nodes mn t) eqn:E2; cbn [fst snd];
        [eapply StepCreate|eapply StepExists|eapply StepRefused|eapply StepPanic]; eauto.
  - apply StepSync; auto.
  - apply StepDelete.
  - apply StepAlter.
Qed.
Fixpoint exec (s : sys) (tr : list (event * answer)) (es : list event) : list (event * answer) * sys :=
  match es with [] => (tr, s) | e :: es' => exec (snd (exec1 s e)) (tr ++ [(e, fst (exec1 s e))]) es' end.
Lemma exec_run s0 es : forall s tr, run s0 tr s -> run s0 (fst (exec s tr es)) (snd (exec s tr es)).
Proof. induction es as [|e es IH]; intros s tr H; cbn [exec]; auto. apply IH. eapply RunSnoc; eauto. apply exec1_step. Qed.
Lemma exec_run0 s0 es : run s0 (fst (exec s0 [] es)) (snd (exec s0 [] es)).
Proof. apply exec_run. constructor. Qed.

(** Writes are routed. *)
Lemma by_ts_found l ts : (exists b, In b l /\ covers b ts) -> exists b, bucket_by_timestamp l ts = Some b /\ In b l /\ covers b ts.
Proof.
  intros (b&Hb&HC). destruct (bucket_by_timestamp l ts) as [b'|] eqn:E; [exists b'; split; auto; apply by_ts_some; auto|].
  unfold bucket_by_timestamp in E. pose proof (find_none _ _ E b Hb) as X. unfold covers in HC. cbv beta in X. lia.
Qed.
Lemma create_not_refused m nodes mn ts : 1 <= m_shards m -> m_replica m <= Z.of_nat (length nodes) -> mn <= ts ->
  process_create_bucket m nodes mn ts <> Refused.
Proof.
  intros H1 H2 H3. unfold process_create_bucket. destruct (existsb _ _); [discriminate|].
  replace (_ <? m_replica m) with false by lia. replace (m_shards m =? 0) with false by lia. replace (ts <? mn) with false by lia.
  cbv zeta. destruct (get_time_range _ _). destruct (allocation_replication_set _ _ _ _) as [[? ?]|]; discriminate.
Qed.
Lemma after_create_found l h ts : (exists b, In b l /\ covers b ts) -> (forall b, In b l -> b_group b <> []) -> 0 <= h ->
  exists b r, after_create l h ts = ARouted b r /\ covers b ts /\ In r (b_group b).
Proof.
  intros HE HG Hh. destruct (by_ts_found l ts HE) as (b&E&Hb&HC). destruct (vnode_for_some b h (HG b Hb) Hh) as (r&Hr&HI).
  exists b, r. unfold after_create. rewrite E, Hr. auto.
Qed.
Lemma write_routed tr s c nodes mn h ts a s' : inv tr s -> step s (EWrite c nodes mn h ts) a s' ->
  is_i64 ts -> ts <> I64_MAX -> 0 <= h -> mn <= ts -> m_replica (s_meta s) <= Z.of_nat (length nodes) ->
  exists b r, a = ARouted b r /\ covers b ts /\ In r (b_group b).
Proof.
  intros HI HS Hts HX Hh Hmn HN. destruct HI as [WF IG ICG IC IN IL IR IP]. destruct WF as (WD&WS&WR).
  inversion HS; subst.
  - match goal with H : bucket_by_timestamp _ _ = Some ?b, H2 : vnode_for _ _ = Some ?r |- _ => exists b, r; apply by_ts_some in H as [A B]; apply vnode_for_in in H2 end. auto.
  - exfalso. match goal with H : bucket_by_timestamp _ _ = Some ?b, H2 : vnode_for _ _ = None |- _ =>
      apply by_ts_some in H as [A B]; destruct (vnode_for_some b h (ICG _ _ A) Hh) as (r&Hr&_); congruence end.
  - match goal with H : Permutation l _, H2 : _ = Exists_ |- _ => rename H into HP; apply create_exists in H2 as (b&Hb&HC) end.
    apply after_create_found; auto.
    + exists b. split; auto. eapply Permutation_in; [apply Permutation_sym|]; eauto.
    + intros b' Hb'. apply IG. eapply Permutation_in; eauto.
  - match goal with H : Permutation l _, H2 : _ = Created _ |- _ => rename H into HP; apply create_created in H2 as (_&b&E1&_&_&_&_&E2&E3&_) end; [|lia|lia].
    rewrite E1 in HP. apply after_create_found; auto.
    + exists b. split; [eapply Permutation_in; [apply Permutation_sym; eauto|left; auto]|].
      pose proof (range_covers ts (m_dur (s_meta s)) Hts WD HX) as RC. rewrite <- E2 in RC. exact RC.
    + intros b' Hb'. apply (Permutation_in _ HP) in Hb' as [<-|Hb']; auto.
  - exfalso. apply (create_not_refused (s_meta s') nodes mn ts); auto.
  - exfalso. apply (create_no_panic (s_meta s') nodes mn ts); auto.
Qed.
