(** C33, C34: time buckets and routing.  Model: BucketModel.v; vocabulary: BucketSpec.v. *)
From Verif Require Import Prelude BucketModel BucketSpec BucketProofs.

(** C33. The bucket made for a timestamp covers it, for every duration.  Missing: ts = i64::MAX (C33_max_refuted). *)
Theorem C33_bucket_covers_partial : forall ts d, is_i64 ts -> is_i64 d -> ts <> I64_MAX ->
  fst (get_time_range ts d) <= ts < snd (get_time_range ts d).
Proof. exact range_covers. Qed.
Print Assumptions C33_bucket_covers_partial.

(** C33. It is the aligned interval of the configured duration that contains the timestamp, cut to the i64 range. *)
Theorem C33_bucket_duration : forall ts d, is_i64 ts -> is_i64 d -> 0 < d ->
  exists k, get_time_range ts d = (Z.max I64_MIN (k * d), Z.min I64_MAX ((k + 1) * d)) /\ k * d <= ts < (k + 1) * d.
Proof. exact range_form. Qed.
Print Assumptions C33_bucket_duration.
Example C33_duration_case : get_time_range (-25) 10 = (-30, -20) /\ get_time_range (-30) 10 = (-30, -20) /\ get_time_range 0 10 = (0, 10).
Proof. vm_compute. auto. Qed.

(** C33. In every history of writes through any number of clients, bucket drops, metadata syncs and ALTERs that keep the
    duration, no two stored buckets of the database overlap.  Missing: histories with a write at i64::MAX and ALTERs of
    the duration, for which it fails (next two theorems). *)
Theorem C33_buckets_disjoint_partial : forall next d n r tr s,
  is_i64 d -> 1 <= n -> 1 <= r -> run (init next d n r) tr s -> valid_trace tr ->
  keeps_duration d tr -> no_write_at I64_MAX tr ->
  forall b1 b2, In b1 (m_buckets (s_meta s)) -> In b2 (m_buckets (s_meta s)) -> overlap b1 b2 -> b1 = b2.
Proof. intros next d n r tr s Hd Hn Hr HR HV HK HM. apply (disj_run _ _ _ HR _ _ _ _ eq_refl Hd Hn Hr HV HK HM). Qed.
Print Assumptions C33_buckets_disjoint_partial.

(** C33 fails at i64::MAX: the write is answered with an error, and each attempt leaves one more bucket that overlaps the
    previous ones. *)
Theorem C33_max_refuted : exists tr s, run (init 1 10 1 1) tr s /\ valid_trace tr /\ keeps_duration 10 tr /\
  In (EWrite 0 [7] 0 0 I64_MAX, AError) tr /\
  exists b1 b2, In b1 (m_buckets (s_meta s)) /\ In b2 (m_buckets (s_meta s)) /\ b1 <> b2 /\ overlap b1 b2.
Proof.
  set (es := [EWrite 0 [7] 0 0 I64_MAX; EWrite 0 [7] 0 0 I64_MAX]).
  exists (fst (exec (init 1 10 1 1) [] es)), (snd (exec (init 1 10 1 1) [] es)). split; [apply exec_run0|].
  split. { intros e a H. vm_compute in H. destruct H as [H|[H|[]]]; inversion H; subst; cbn [valid_event]; unfold is_i64; i64; lia. }
  split. { intros d' n' r' a H. vm_compute in H. destruct H as [H|[H|[]]]; discriminate. }
  split; [left; vm_compute; reflexivity|].
  eexists _, _. split; [right; left; vm_compute; reflexivity|]. split; [left; vm_compute; reflexivity|].
  split; [discriminate|]. exists 9223372036854775800. unfold covers. cbn. lia.
Qed.
Print Assumptions C33_max_refuted.

(** C33/C34 fail when ALTER DATABASE changes the duration: the new bucket overlaps an old one, and two writes of the same
    series at the same timestamp, through two clients, are routed to different replica sets. *)
Theorem C34_alter_duration_refuted : exists tr s h ts b1 r1 b2 r2 nodes,
  run (init 1 10 1 1) tr s /\ valid_trace tr /\ no_write_at I64_MAX tr /\
  In (EWrite 0 nodes 0 h ts, ARouted b1 r1) tr /\ In (EWrite 1 nodes 0 h ts, ARouted b2 r2) tr /\
  ~ bucket_dropped b1 tr /\ ~ bucket_dropped b2 tr /\ r_id r1 <> r_id r2 /\ b1 <> b2 /\ overlap b1 b2.
Proof.
  set (es := [EWrite 0 [7] 0 0 5; EAlter 100 1 1; EWrite 1 [7] 0 0 50; EWrite 1 [7] 0 0 5]).
  exists (fst (exec (init 1 10 1 1) [] es)), (snd (exec (init 1 10 1 1) [] es)), 0, 5.
  eexists _, _, _, _, [7]. split; [apply exec_run0|].
  split. { intros e a H. vm_compute in H. destruct H as [H|[H|[H|[H|[]]]]]; inversion H; subst; cbn [valid_event]; unfold is_i64; i64; lia. }
  split. { intros c' n' r' h' a H. vm_compute in H. destruct H as [H|[H|[H|[H|[]]]]]; discriminate. }
  split; [left; vm_compute; reflexivity|]. split; [right; right; right; left; vm_compute; reflexivity|].
  split. { intros [a H]. vm_compute in H. destruct H as [H|[H|[H|[H|[]]]]]; discriminate. }
  split. { intros [a H]. vm_compute in H. destruct H as [H|[H|[H|[H|[]]]]]; discriminate. }
  split; [discriminate|]. split; [discriminate|]. exists 5. unfold covers. cbn. lia.
Qed.
Print Assumptions C34_alter_duration_refuted.

(** C34. A row accepted through a client is reached by every later query through the same client whose time range
    includes the row's timestamp, as long as its bucket is not dropped.  Histories are arbitrary (ALTERs included). *)
Theorem C34_query_reaches : forall next d n r tr s c nodes mn h ts b rs a z,
  is_i64 d -> 1 <= n -> 1 <= r -> run (init next d n r) tr s -> valid_trace tr ->
  In (EWrite c nodes mn h ts, ARouted b rs) tr -> ~ bucket_dropped b tr -> a <= ts <= z ->
  In rs (prune_shards (s_cache s c) a z).
Proof.
  intros next d n r tr s c nodes mn h ts b rs a z Hd Hn Hr HR HV HW HD HT.
  destruct (i_routed _ _ (inv_run _ _ _ HR _ _ _ _ eq_refl Hd Hn Hr HV) _ _ _ _ _ _ _ HW) as (A&B&_&[C|C]); [|tauto].
  eapply prune_in; eauto. eapply vnode_for_in; eauto.
Qed.
Print Assumptions C34_query_reaches.

(** C34. Through any other client, as soon as that client has received the metadata again. *)
Theorem C34_query_reaches_after_sync : forall next d n r tr s s' c c' nodes mn h ts b rs a z,
  is_i64 d -> 1 <= n -> 1 <= r -> run (init next d n r) tr s -> valid_trace tr ->
  In (EWrite c nodes mn h ts, ARouted b rs) tr -> ~ bucket_dropped b tr -> a <= ts <= z ->
  step s (ESync c') ANone s' -> In rs (prune_shards (s_cache s' c') a z).
Proof.
  intros next d n r tr s s' c c' nodes mn h ts b rs a z Hd Hn Hr HR HV HW HD HT HS.
  destruct (i_routed _ _ (inv_run _ _ _ HR _ _ _ _ eq_refl Hd Hn Hr HV) _ _ _ _ _ _ _ HW) as (A&B&[C|C]&_); [|tauto].
  inversion HS; subst. cbn [s_cache]. rewrite set_cache_same.
  eapply prune_in; eauto; [|eapply vnode_for_in; eauto]. eapply Permutation_in; [apply Permutation_sym|]; eauto.
Qed.
Print Assumptions C34_query_reaches_after_sync.

(** C34. All writes of one series at one timestamp go to one replica set, whichever clients they go through and however
    their copies are ordered, unless a bucket was dropped in between.  Missing: as in C33. *)
Theorem C34_one_replica_set_partial : forall next d n r tr s c1 n1 mn1 c2 n2 mn2 h ts b1 r1 b2 r2,
  is_i64 d -> 1 <= n -> 1 <= r -> run (init next d n r) tr s -> valid_trace tr ->
  keeps_duration d tr -> no_write_at I64_MAX tr ->
  In (EWrite c1 n1 mn1 h ts, ARouted b1 r1) tr -> In (EWrite c2 n2 mn2 h ts, ARouted b2 r2) tr ->
  ~ bucket_dropped b1 tr -> ~ bucket_dropped b2 tr -> r1 = r2 /\ In r1 (b_group b1).
Proof.
  intros next d n r tr s c1 n1 mn1 c2 n2 mn2 h ts b1 r1 b2 r2 Hd Hn Hr HR HV HK HM W1 W2 D1 D2.
  pose proof (inv_run _ _ _ HR _ _ _ _ eq_refl Hd Hn Hr HV) as INV.
  destruct (i_routed _ _ INV _ _ _ _ _ _ _ W1) as (A1&B1&[C1|C1]&_); [|tauto].
  destruct (i_routed _ _ INV _ _ _ _ _ _ _ W2) as (A2&B2&[C2|C2]&_); [|tauto].
  destruct (disj_run _ _ _ HR _ _ _ _ eq_refl Hd Hn Hr HV HK HM) as (_&DJ&_).
  assert (b1 = b2) by (apply DJ; auto; exists ts; auto). subst. split; [congruence|eapply vnode_for_in; eauto].
Qed.
Print Assumptions C34_one_replica_set_partial.

(** C34. After every history, a write whose timestamp is not older than the retention limit [mn], with at least the
    configured number of nodes alive, is accepted and routed to a replica set of a bucket that covers its timestamp.
    Missing: the timestamp i64::MAX, which is answered with an error (C33_max_refuted). *)
Theorem C34_write_routed_partial : forall next d n r tr s c nodes mn h ts a s',
  is_i64 d -> 1 <= n -> 1 <= r -> run (init next d n r) tr s -> valid_trace tr ->
  step s (EWrite c nodes mn h ts) a s' ->
  is_i64 ts -> ts <> I64_MAX -> 0 <= h -> mn <= ts -> m_replica (s_meta s) <= Z.of_nat (length nodes) ->
  exists b g, a = ARouted b g /\ b_start b <= ts < b_end b /\ In g (b_group b).
Proof.
  intros next d n r tr s c nodes mn h ts a s' Hd Hn Hr HR HV. apply write_routed with (tr := tr).
  exact (inv_run _ _ _ HR _ _ _ _ eq_refl Hd Hn Hr HV).
Qed.
Print Assumptions C34_write_routed_partial.

(** C34. Routing never crashes, whatever the history (given at least one shard and replica, and any set of live nodes). *)
Theorem C34_routing_never_panics : forall next d n r tr s e,
  is_i64 d -> 1 <= n -> 1 <= r -> run (init next d n r) tr s -> valid_trace tr -> ~ In (e, APanic) tr.
Proof.
  intros next d n r tr s e Hd Hn Hr HR HV. apply (i_nopanic _ _ (inv_run _ _ _ HR _ _ _ _ eq_refl Hd Hn Hr HV)).
Qed.
Print Assumptions C34_routing_never_panics.

(** C34. Bucket, replica set and vnode ids of the stored buckets are all different. *)
Theorem C34_ids_distinct : forall next d n r tr s,
  is_i64 d -> 1 <= n -> 1 <= r -> run (init next d n r) tr s -> valid_trace tr ->
  NoDup (flat_map bucket_ids (m_buckets (s_meta s))).
Proof. intros next d n r tr s Hd Hn Hr HR HV. apply (i_nodup _ _ (inv_run _ _ _ HR _ _ _ _ eq_refl Hd Hn Hr HV)). Qed.
Print Assumptions C34_ids_distinct.

(** C34. A new bucket has the configured number of shards; each is a replica set with the configured number of vnodes on
    different live nodes. *)
Theorem C34_placement : forall nodes shards replica b gs used,
  nodes <> [] -> NoDup nodes -> 1 <= replica <= Z.of_nat (length nodes) -> 0 <= shards ->
  allocation_replication_set nodes shards replica b = Some (gs, used) ->
  Z.of_nat (length gs) = shards /\
  forall r, In r gs -> Z.of_nat (length (r_vnodes r)) = replica /\ NoDup (map snd (r_vnodes r)) /\
    (forall v, In v (r_vnodes r) -> In (snd v) nodes) /\ In (r_leader_vnode r, r_leader_node r) (r_vnodes r).
Proof.
  intros nodes shards replica b gs used HN ND HR HS H. apply allocation_spec in H as (A&B&C&D&F); auto; [|lia].
  split; auto. rewrite Forall_forall in F. intros r Hr. destruct (F r Hr) as (F1&F2&F3&F4).
  assert (eff_replica nodes replica = replica).
  { unfold eff_replica. replace (replica =? 0) with false by lia. destruct (_ <? _) eqn:E; lia. }
  rewrite H in F1. auto.
Qed.
Print Assumptions C34_placement.

(** Non-vacuity: two clients, two nodes, three shards, a drop; everything is routed and the hypotheses hold. *)
Example C34_case :
  let es := [EWrite 0 [7; 8] 0 4 5; EWrite 1 [7; 8] (-100) 4 (-3); EWrite 1 [7; 8] 0 4 5; EDelete 1; EWrite 0 [8; 7] 0 2 12] in
  let tr := fst (exec (init 1 10 3 2) [] es) in
  let s := snd (exec (init 1 10 3 2) [] es) in
  run (init 1 10 3 2) tr s /\ map b_id (m_buckets (s_meta s)) = [21; 11] /\
  map (fun x => match snd x with ARouted b r => (b_id b, r_id r) | _ => (0, 0) end) tr = [(1, 5); (11, 15); (1, 5); (0, 0); (21, 28)].
Proof. intros es tr s. split; [apply exec_run0|]. vm_compute. auto. Qed.
