(** Watching metadata changes (C38). *)
From Verif Require Import Prelude WatchModel WatchSpec WatchProofs.
Open Scope Z_scope.

(** C38, for one server whose state only changes by applying commands: after every history of changes,
    requests, wake-ups, server restarts and resynchronisations, what the client received since its last full
    synchronisation is, in order and once each, exactly the changes of interest up to some version; and
    whenever an answer arrives that does not tell it to resynchronise, up to the present.
    Missing: installed snapshots, replicas that lag behind, tenants added later, the record of the tenant
    itself (the refuted theorems below). *)
Theorem C38_watch_exact_partial : forall cap want h, (0 < cap)%nat ->
  let w := wrun cap want h in
  exists cut, cut <= v_ver (w_srv w) /\ v_ver (w_srv w) = Z.of_nat (length (changes h)) /\
    c_seen (w_cl w) = filter want (upto cut (after (c_synced (w_cl w)) (changes h))) /\
    forall d, w_news w = Some d -> d_full d = false ->
      c_seen (w_cl w) = filter want (after (c_synced (w_cl w)) (changes h)).
Proof. intros cap want h H. exact (watch_ok cap want h H). Qed.
Print Assumptions C38_watch_exact_partial.

(** Which changes are of interest: those of the cluster that do not belong to a tenant, except its id
    counter; those inside a watched tenant (the empty name stands for all); none of another cluster. *)
Theorem C38_filter : forall c ts e, slash_free c ->
  (forall rest, l_key e = global_key c rest -> ~ (exists r, rest = str_tenants ++ 47 :: r) -> rest <> str_incr_id -> watch_filter c ts e = true) /\
  (forall t rest, slash_free t -> l_key e = in_tenant_key c t rest -> (watch_filter c ts e = true <-> In [] ts \/ In t ts)) /\
  (l_key e = key_incr_id c -> watch_filter c ts e = false) /\
  (forall c' rest, slash_free c' -> c' <> c -> l_key e = global_key c' rest -> watch_filter c ts e = false).
Proof.
  intros c ts e Hc. assert (X : forall t, existsb (beqs t) ts = true <-> In t ts).
  { intros t. rewrite existsb_exists. split; [intros (x&Hx&E); apply beqs_eq in E; subst; auto|intros H; exists t; split; auto; apply beqs_eq; auto]. }
  split; [|split; [|split]].
  - intros rest K N1 N2. rewrite (filter_body c ts e rest K) by (apply beqs_neq; auto).
    destruct (starts_with _ rest) eqn:S; auto. destruct N1. apply starts_iff in S as (r&->). exists r. rewrite <- app_assoc. reflexivity.
  - intros t rest Ht K. rewrite (filter_body c ts e (str_tenants ++ 47 :: t ++ 47 :: rest) K) by reflexivity.
    replace (starts_with (str_tenants ++ [47]) (str_tenants ++ 47 :: t ++ 47 :: rest)) with true.
    2:{ symmetry. apply starts_iff. exists (t ++ 47 :: rest). rewrite <- app_assoc. reflexivity. }
    change (skipn 8 (str_tenants ++ 47 :: t ++ 47 :: rest)) with (t ++ 47 :: rest). rewrite before_ok by auto.
    destruct ts as [|t0 ts']; [cbn; split; [discriminate|tauto]|]. rewrite <- (X []), <- (X t).
    destruct (existsb (beqs []) (t0 :: ts')); intuition congruence.
  - intros K. unfold watch_filter. rewrite K. rewrite (proj2 (beqs_eq (key_incr_id c) (key_incr_id c)) eq_refl), !orb_true_r. reflexivity.
  - intros c' rest Hc' N K. unfold watch_filter. rewrite K.
    destruct (_ || _); auto. replace (starts_with (cluster_prefix c) (global_key c' rest)) with false; auto.
    destruct (starts_with _ _) eqn:S; auto. apply starts_iff in S as (r&E). unfold global_key, cluster_prefix in E. cbn [app] in E.
    injection E as E. rewrite <- app_assoc in E. apply slash_cut in E; auto; destruct E as [E _]; contradiction.
Qed.
Print Assumptions C38_filter.

Definition c0 : list Z := [99].
Definition t0 : list Z := [116].
Definition change (t : list Z) (v : Z) : bool * list Z * list Z := (false, in_tenant_key c0 t [100], [v]).
(** A client that receives changes, is told to resynchronise when the ring of three has overflowed, and goes
    on after a restart of the server. *)
Example C38_nonvacuous :
  let w := wrun 3 (watch_filter c0 [t0]) [PWrite (change t0 1); PAsk; PAsk; PWrite (change [117] 2); PWake false; PWrite (change t0 3); PWake false;
             PWrite (change t0 4); PWrite (change t0 5); PWrite (change t0 6); PWrite (change t0 7); PAsk; PWrite (change t0 8); PSync; PRestart; PWrite (change t0 9); PAsk; PSync;
             PWrite (change t0 10); PWrite (change [117] 11); PAsk] in
  map l_ver (c_seen (w_cl w)) = [10] /\ c_synced (w_cl w) = 9 /\ c_base (w_cl w) = 11 /\ v_ver (w_srv w) = 11.
Proof. vm_compute. auto. Qed.
(** Before the overflow: both changes of the tenant, not the one of the other tenant. *)
Example C38_nonvacuous_seen :
  let w := wrun 3 (watch_filter c0 [t0]) [PWrite (change t0 1); PSync; PAsk; PSync; PAsk; PWrite (change [117] 2); PWake false; PWrite (change t0 3); PWake false] in
  map l_ver (c_seen (w_cl w)) = [3] /\ c_synced (w_cl w) = 1 /\ w_told w = false.
Proof. vm_compute. auto. Qed.

(** False when the server installs a snapshot: the store jumps to a later version, the ring is kept, and the
    changes in between are passed over silently. *)
Theorem C38_snapshot_refuted : exists h x d,
  let w := wrun 8192 (fun _ => true) h in
  let base := c_base (w_cl w) in
  w_told w = false /\ base = 2 /\ v_ver (w_srv w) = 2 /\
  watch_start (sv_write (sv_restore (w_srv w) 5) x) (fun _ => true) base = Some d /\
  d_full d = false /\ d_max d = 6 /\ map l_ver (d_logs d) = [6].
Proof.
  exists [PWrite (change t0 1); PAsk; PSync; PWrite (change t0 2); PAsk], (change t0 6). eexists.
  cbv zeta. repeat (split; [vm_compute; reflexivity|]). vm_compute. reflexivity.
Qed.
Print Assumptions C38_snapshot_refuted.

(** False when the client turns to a replica that has applied less than it has seen: the version it asks from
    goes back and changes arrive twice. *)
Theorem C38_lagging_replica_refuted : exists leader replica d1 d2 x,
  let base := c_base (w_cl (wrun 8192 (fun _ => true) leader)) in
  map l_ver (c_seen (w_cl (wrun 8192 (fun _ => true) leader))) = [2; 3] /\
  watch_wake (w_srv (wrun 8192 (fun _ => true) replica)) (fun _ => true) base base true = inl d1 /\ d_full d1 = false /\
  watch_start (sv_write (w_srv (wrun 8192 (fun _ => true) replica)) x) (fun _ => true) (d_max d1) = Some d2 /\ d_full d2 = false /\
  map l_ver (d_logs d2) = [3].
Proof.
  exists [PWrite (change t0 1); PAsk; PSync; PWrite (change t0 2); PAsk; PWrite (change t0 3); PAsk], [PWrite (change t0 1); PWrite (change t0 2)].
  eexists _, _, (change t0 3). cbv zeta. repeat (split; [vm_compute; reflexivity|]). vm_compute. reflexivity.
Qed.
Print Assumptions C38_lagging_replica_refuted.

(** The record of a watched tenant itself (its options, its removal) is not delivered, unless all tenants are
    watched. *)
Theorem C38_tenant_record_refuted : forall c ts t e, slash_free t -> l_key e = tenant_key c t ->
  ~ In [] ts -> watch_filter c ts e = false.
Proof.
  intros c ts t e Ht K N. rewrite (filter_body c ts e (str_tenants ++ 47 :: t) K) by reflexivity.
  replace (starts_with (str_tenants ++ [47]) (str_tenants ++ 47 :: t)) with true.
  2:{ symmetry. apply starts_iff. exists t. rewrite <- app_assoc. reflexivity. }
  change (skipn 8 (str_tenants ++ 47 :: t)) with t. rewrite before_none by auto.
  destruct ts as [|t1 ts']; auto. destruct (existsb (beqs []) (t1 :: ts')) eqn:E; auto.
  apply existsb_exists in E as (x&Hx&E). apply beqs_eq in E. subst. contradiction.
Qed.
Print Assumptions C38_tenant_record_refuted.

(** When a tenant is added to the watched ones, the version to ask from is meant to become the smaller of the
    client's and the one the tenant was read at; it stays the client's.  Changes to the tenant in between,
    which the running request filtered out, never arrive. *)
Theorem C38_new_tenant_refuted : exists h read_at e,
  let w := wrun 8192 (watch_filter c0 []) h in
  let base := add_tenant_base (c_base (w_cl w)) read_at in
  In e (changes h) /\ watch_filter c0 [t0] e = true /\ read_at < l_ver e /\
  base = v_ver (w_srv w) /\
  read_change_logs (w_srv w) (watch_filter c0 [t0]) base = WD false (v_ver (w_srv w)) [] /\ l_ver e <= base.
Proof.
  exists [PWrite (change t0 1); PAsk; PSync; PAsk; PWrite (change t0 2); PWake true], 1, (EL false 2 (in_tenant_key c0 t0 [100]) [2]).
  cbv zeta. split; [vm_compute; auto|]. split; [vm_compute; reflexivity|]. split; [cbn; lia|]. split; [vm_compute; reflexivity|].
  split; [vm_compute; reflexivity|]. vm_compute. discriminate.
Qed.
Print Assumptions C38_new_tenant_refuted.

(** The log knows the versions it holds: of a log of [cap] entries after the changes [es], the least version is that of the oldest of the
    last [cap] changes and the greatest that of the last; of an empty log, none. *)
Theorem C38_log_range : forall cap es e, (0 < cap)%nat ->
  let r := fold_left ring_append (es ++ [e]) (ring_new cap) in
  ring_min (ring_new cap) = None /\ ring_max (ring_new cap) = None /\ ring_max r = Some (l_ver e) /\
  ring_min r = Some (l_ver (nth (length (es ++ [e]) - cap) (es ++ [e]) e)).
Proof.
  intros cap es e P r. split; [reflexivity|]. split; [reflexivity|].
  assert (R : rep cap r (es ++ [e])).
  { unfold r. generalize (es ++ [e]). intros l. assert (G : forall l r0 L, rep cap r0 L -> rep cap (fold_left ring_append l r0) (L ++ l)).
    { clear. induction l as [|a l IH]; intros r0 L H; [rewrite app_nil_r; auto|]. cbn [fold_left]. replace (L ++ a :: l) with ((L ++ [a]) ++ l) by (rewrite <- app_assoc; auto). apply IH, rep_append; auto. }
    apply (G l (ring_new cap) []). apply rep_new; auto. }
  clearbody r. set (L := es ++ [e]) in *. assert (N : (0 < length L)%nat) by (unfold L; rewrite app_length; cbn [length]; lia).
  assert (LE : nth (length L - 1) L entry0 = e) by (unfold L; rewrite app_length; cbn [length]; replace (length es + 1 - 1)%nat with (length es) by lia; rewrite app_nth2, Nat.sub_diag by lia; reflexivity).
  destruct R as [P0 P1 P2 P3 P4 P5]. assert (C0 : (r_count r =? 0)%nat = false) by (apply Nat.eqb_neq; lia).
  split.
  - unfold ring_max. rewrite C0. do 2 f_equal. rewrite P3, P1. rewrite <- LE.
    destruct (length L) as [|k] eqn:Q; [lia|]. replace (S k - 1)%nat with k by lia. rewrite pred_mod by auto. apply P5; lia.
  - unfold ring_min. rewrite C0. do 2 f_equal. rewrite (nth_indep L e entry0) by lia. destruct (r_count r =? r_cap r)%nat eqn:Q.
    + apply Nat.eqb_eq in Q. rewrite P3. assert (M : (length L mod cap = (length L - cap) mod cap)%nat).
      { replace (length L) with ((length L - cap) + 1 * cap)%nat at 1 by lia. apply Nat.mod_add. lia. }
      rewrite M. apply P5; lia.
    + apply Nat.eqb_neq in Q. replace (length L - cap)%nat with 0%nat by lia. replace 0%nat with (0 mod cap)%nat at 1 by (apply Nat.mod_0_l; lia). apply P5; lia.
Qed.
Print Assumptions C38_log_range.
