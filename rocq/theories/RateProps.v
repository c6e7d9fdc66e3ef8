(** C30: the rate limiter.  Model: RateModel.v.  [rate_ok]: positive interval and 0 <= balance <= max; [zsum]: sum. *)
From Verif Require Import Prelude RateModel RateSpec RateProofs.

(** In any window [t0, T] of clock readings (in any order), the units granted are at most the maximum balance plus K
    refills, where K-1 whole intervals fit strictly inside the window. *)
Theorem C30_budget : forall r t0 T qs,
  rate_ok r -> t0 <= T -> Forall (fun q => 0 <= req_permits q) qs -> Forall (fun q => t0 <= req_time q <= T) qs ->
  exists K, zsum (fst (serve_all r qs)) <= rmax r + K * refill r /\ 0 <= K /\
            (K = 0 \/ (K - 1) * (interval r * NS_PER_MS) < T - t0).
Proof. exact budget. Qed.
Print Assumptions C30_budget.

(** A new limiter is well formed and stays so: the balance never exceeds the maximum. *)
Theorem C30_balance_bounded : forall mx i ref int now qs,
  0 <= i -> 0 <= ref -> 0 < int -> (forall m, mx = Some m -> 0 <= m) -> Forall (fun q => 0 <= req_permits q) qs ->
  let r := snd (serve_all (build mx i ref int now) qs) in rate_ok r /\ 0 <= balance r <= rmax r.
Proof.
  intros mx i ref int now qs H1 H2 H3 H4 H5 r. assert (X : rate_ok r) by (apply run_ok; auto; apply build_ok; auto).
  split; auto. apply X.
Qed.
Print Assumptions C30_balance_bounded.

(** No request gets more than it asked for, and the all-or-nothing form grants everything or nothing. *)
Theorem C30_request_bounded : forall r t p, rate_ok r -> 0 <= p ->
  0 <= fst (acquire_closed r t p) <= p /\
  (fst (acquire r t p) = true <-> p <= balance (update_critical r t) \/ p = 0).
Proof.
  intros r t p HO HP. split; [apply (serve_ok r (ReqClosed t p) HO HP)|].
  unfold acquire. pose proof (update_ok r t HO) as (_&_&HB). destruct (p =? 0) eqn:E; cbn; [split; auto; lia|]. destruct (_ <=? _) eqn:E2; cbn; split; auto; try lia; intros H; discriminate.
Qed.
Print Assumptions C30_request_bounded.

(** Refills are not lost: once the deadline has passed, the balance is topped up by one refill per elapsed interval, up to
    the maximum, provided the product fits 64 bits. *)
Theorem C30_refill_exact_partial : forall r now, rate_ok r -> deadline r <= now -> rmax r <= U64_MAX ->
  (Z.quot (now - deadline r) (interval r * NS_PER_MS) + 1) * refill r <= U64_MAX ->
  balance (update_critical r now) =
    Z.min (rmax r) (balance r + (Z.quot (now - deadline r) (interval r * NS_PER_MS) + 1) * refill r).
Proof. exact refill_exact. Qed.
Print Assumptions C30_refill_exact_partial.

(** What is missing: with a refill of 2^63, two elapsed intervals multiply to 0 (mod 2^64) and nothing is added. *)
Theorem C30_refill_wrap_refuted : exists r now, rate_ok r /\ deadline r <= now /\ rmax r <= U64_MAX /\
  balance r = 0 /\ 0 < refill r <= rmax r /\ interval r * NS_PER_MS <= now - deadline r /\ balance (update_critical r now) = 0.
Proof.
  exists {| refill := 2 ^ 63; interval := 100; rmax := U64_MAX; balance := 0; deadline := 0 |}, 100000000.
  vm_compute. repeat split; intros H; discriminate.
Qed.
Print Assumptions C30_refill_wrap_refuted.

(** Non-vacuity: 5 initial, refill 1 per 10 ms; 9 requests of 1 unit in 25 ms get 5 + 2 units; the bound allows K <= 3. *)
Example C30_case :
  let r := build (Some 5) 5 1 10 0 in
  let qs := map (fun t => Req (t * 1000000) 1) [1; 2; 3; 4; 5; 6; 12; 21; 26] in
  rate_ok r /\ fst (serve_all r qs) = [1; 1; 1; 1; 1; 0; 1; 1; 0].
Proof. vm_compute. repeat split; intros H; discriminate. Qed.
