(** C69: the limits of a tenant. *)
From Verif Require Import Prelude RateModel RateSpec RateProofs LimitModel LimitSpec LimitProofs.

(** Whatever a cluster of [k] nodes lets through between [t0] and [T] is bounded by the capacity of the bucket in the meta service, one
    refill per elapsed interval, and what each node may have at its start and owe at the end; lost replies do not matter. *)
Theorem C69_bounded_partial : forall c k r t0 T evs,
  config_ok c -> remote_new c t0 = Some r -> rate_fits r -> t0 <= T -> Forall (within t0 T) evs ->
  exists K, zsum (snd (run c (start c k t0) evs)) <= (Z.of_nat k + restarts evs) * (c_initial c + overdraft c) + rmax r + K * refill r /\ 0 <= K /\
    (K = 0 \/ (K - 1) * (interval r * 1000000) < T - t0).
Proof. exact bounded. Qed.
Print Assumptions C69_bounded_partial.

(** Exactly which requests a node with a maximum [m] lets through. *)
Theorem C69_decision : forall b r m n t, l_max b = Some m -> 0 <= m <= I64_MAX -> - m <= l_count b -> rate_fits r -> 0 <= n ->
  (fst (fst (check b (Some r) n [] (Some t))) = true <->
   if 0 <? l_count b then n < l_count b + m else n <= m /\ n < l_count b + Z.min (available r t) (m - l_count b)).
Proof. exact decision. Qed.
Print Assumptions C69_decision.

(** A request smaller than the maximum is let through if the meta service has what the node owes and may hold. *)
Theorem C69_served : forall b r m n t, l_max b = Some m -> 0 <= m <= I64_MAX -> - m <= l_count b -> rate_fits r -> 0 <= n < m ->
  m + Z.max 0 (- l_count b) <= available r t -> fst (fst (check b (Some r) n [] (Some t))) = true.
Proof.
  intros b r m n t LM M LB R N A. apply (decision b r m n t); auto; [lia|]. destruct (Z.ltb_spec 0 (l_count b)); lia.
Qed.
Print Assumptions C69_served.

(** A request that is too large is never let through, on no node and after no history. *)
Theorem C69_oversize : forall c k t0 evs s i n lost last m, config_ok c -> c_max c = Some m ->
  (forall t r, remote_new c t = Some r -> rate_fits r) ->
  Forall (fun ev => match ev with Check _ n _ _ => 0 <= n | _ => True end) evs -> s = fst (run c (start c k t0) evs) ->
  Z.max (c_initial c) m + m <= n -> snd (step c s (Check i n lost last)) = 0.
Proof. exact oversize. Qed.
Print Assumptions C69_oversize.

(** Two nodes, 10 units each at the start and 10 more on credit; 100 units in the meta service and 5 more every second. *)
Definition c0 : config := Config 10 (Some 10) (Some (Some 100, 100, 5, 1000)).
Definition evs0 : list event :=
  [Check 0 9 [] None; Check 0 5 [] None; Check 0 3 [2000000] (Some 3000000); Check 1 15 [] None; Check 1 9 [] (Some 4000000); Restart 1; Check 1 7 [] None; Check 0 12 [] (Some 5000000)].
Example C69_nonvacuous : exists r,
  config_ok c0 /\ remote_new c0 0 = Some r /\ rate_fits r /\ Forall (within 0 5000000) evs0 /\
  snd (run c0 (start c0 2 0) evs0) = [9; 5; 3; 15; 9; 0; 7; 12] /\
  available r 0 = 100 /\ fst (fst (check (Local (-4) (Some 10)) (Some r) 9 [] (Some 0))) = true /\
  fst (fst (check (Local (-4) (Some 10)) (Some r) 10 [] (Some 0))) = false /\ snd (step c0 (start c0 2 0) (Check 0 20 [] (Some 0))) = 0 /\
  (forall t r, remote_new c0 t = Some r -> rate_fits r).
Proof.
  eexists. split; [split; [cbn; lia|cbn; rewrite I64_MAX_eq; lia]|]. split; [reflexivity|]. split; [vm_compute; repeat split; discriminate|].
  split; [repeat constructor; vm_compute; discriminate|]. split; [vm_compute; reflexivity|]. split; [reflexivity|]. split; [vm_compute; reflexivity|].
  split; [vm_compute; reflexivity|]. split; [vm_compute; reflexivity|].
  intros t r H. cbn in H. injection H as <-. unfold rate_fits, rate_ok. cbn. rewrite I64_MAX_eq. lia.
Qed.

(** FINDING.  With a local maximum of 1, as for "one query at a time", every second request is refused although the meta service sets
    no limit: the node asks for one unit, gets it, and then wants more than one (local_request_limiter.rs:147). *)
Theorem C69_every_second_refuted : exists c, config_ok c /\ c_remote c = None /\ c_max c = Some 1 /\
  forall k, zsum (snd (run c (start c 1 0) (repeat (Check 0 1 [] (Some 0)) (2 * k)))) = Z.of_nat k.
Proof. exists (Config 0 (Some 1) None). split; [split; [cbn; lia|cbn; rewrite I64_MAX_eq; lia]|]. split; auto. split; auto. exact every_second. Qed.
Print Assumptions C69_every_second_refuted.
(** FINDING.  The same strict comparison refuses every request of exactly the maximum on a node that owes nothing, however much the
    meta service has. *)
Theorem C69_exact_maximum_refuted : forall r m t, rate_fits r -> 0 <= m <= I64_MAX -> fst (fst (check (Local 0 (Some m)) (Some r) m [] (Some t))) = false.
Proof.
  intros r m t R M. apply not_true_is_false. intros H. apply (decision _ r m) in H; cbn [l_count l_max]; auto; try lia. cbn in H. lia.
Qed.
Print Assumptions C69_exact_maximum_refuted.
(** FINDING.  Without a local maximum the first request is refused although the meta service granted all of it. *)
Theorem C69_first_refuted : forall n r t, 0 < n <= I64_MAX -> rate_fits r -> n <= available r t -> c_max (Config 0 None None) = None /\
  exists b r', check (Local 0 None) (Some r) n [] (Some t) = (false, b, r') /\ l_count b = n.
Proof.
  intros n r t N R A. split; auto. unfold check, require. cbn [l_count l_max]. destruct (Z.ltb_spec n 0); [lia|]. cbn [lose].
  destruct (request_ok r t n R) as (a&r'&E&_&_&_&X). rewrite E. cbn [inc l_count l_max].
  rewrite X by (i64; lia). rewrite Z.min_r by auto. destruct (Z.ltb_spec n (0 + n)); [lia|]. exists (Local (0 + n) None), (Some r'). split; auto.
Qed.
Print Assumptions C69_first_refuted.
(** FINDING.  A node keeps the units it took for one small request; another node is refused although the tenant used 1 of 10 units. *)
Theorem C69_hoard_refuted : exists c evs r, config_ok c /\ remote_new c 0 = Some r /\ rate_fits r /\ available r 0 = 10 /\ Forall (within 0 0) evs /\
  evs = [Check 0 1 [] (Some 0); Check 1 1 [] (Some 0)] /\ snd (run c (start c 2 0) evs) = [1; 0].
Proof.
  exists (Config 0 (Some 10) (Some (Some 10, 10, 0, 1000))). do 2 eexists. split; [split; [cbn; lia|cbn; rewrite I64_MAX_eq; lia]|].
  split; [reflexivity|]. split; [vm_compute; repeat split; discriminate|]. split; [reflexivity|]. split; [|split; [reflexivity|vm_compute; reflexivity]].
  repeat constructor; vm_compute; discriminate.
Qed.
Print Assumptions C69_hoard_refuted.
(** FINDING.  A lost reply loses the units: a node that asks again after two lost replies is refused although nothing was let through. *)
Theorem C69_lost_refuted : exists c n r, config_ok c /\ remote_new c 0 = Some r /\ rate_fits r /\
  snd (run c (start c 1 0) [Check 0 n [] (Some 0)]) = [n] /\ snd (run c (start c 1 0) [Check 0 n [0; 0] (Some 0)]) = [0].
Proof.
  exists (Config 0 (Some 10) (Some (Some 20, 20, 0, 1000))), 5. eexists. split; [split; [cbn; lia|cbn; rewrite I64_MAX_eq; lia]|].
  split; [reflexivity|]. split; [vm_compute; repeat split; discriminate|]. split; vm_compute; reflexivity.
Qed.
Print Assumptions C69_lost_refuted.
(** FINDING.  ALTER TENANT, even of the comment, fills the bucket in the meta service again: with it more is let through at one instant
    than C69_bounded_partial allows. *)
Theorem C69_alter_refuted : exists c evs r, config_ok c /\ remote_new c 0 = Some r /\ rate_fits r /\
  (forall n i lost last, In (Check i n lost last) evs -> last = Some 0 /\ lost = []) /\
  1 * (c_initial c + overdraft c) + rmax r + 1 * refill r < zsum (snd (run c (start c 1 0) evs)).
Proof.
  exists (Config 0 (Some 10) (Some (Some 10, 10, 0, 1000))), [Check 0 9 [] (Some 0); Check 0 10 [] (Some 0); Alter 0; Check 0 1 [] (Some 0); Check 0 8 [] (Some 0)].
  eexists. split; [split; [cbn; lia|cbn; rewrite I64_MAX_eq; lia]|]. split; [reflexivity|]. split; [vm_compute; repeat split; discriminate|]. split.
  - intros n i lost last I. cbn in I. repeat (destruct I as [I|I]; [inversion I; subst; auto|]). destruct I.
  - vm_compute. reflexivity.
Qed.
Print Assumptions C69_alter_refuted.
