(** Proofs about the rate limiter. *)
From Verif Require Import Prelude RateModel RateSpec.

Lemma drain_spec dl int now tk dl' : 0 < int -> calculate_drain dl int now = Some (tk, dl') ->
  dl <= now /\ 1 <= tk /\ dl + (tk - 1) * (int * NS_PER_MS) <= now /\ dl + tk * (int * NS_PER_MS) <= dl' /\ now < dl' /\
  dl' < dl + tk * (int * NS_PER_MS) + NS_PER_MS.
Proof.
  unfold calculate_drain, NS_PER_MS. intros Hi. destruct (now <? dl) eqn:E; [discriminate|]. intros H. injection H as <- <-.
  pose proof (Z.quot_rem' (now - dl) 1000000) as Q1. pose proof (Z.rem_bound_pos (now - dl) 1000000 ltac:(lia) ltac:(lia)) as R1.
  pose proof (Z.quot_pos (now - dl) 1000000 ltac:(lia) ltac:(lia)) as P1.
  revert Q1 R1 P1. generalize (Z.quot (now - dl) 1000000) (Z.rem (now - dl) 1000000). intros s f Q1 R1 P1.
  pose proof (Z.quot_rem' s int) as Q2. pose proof (Z.rem_bound_pos s int ltac:(lia) ltac:(lia)) as R2.
  pose proof (Z.quot_pos s int ltac:(lia) ltac:(lia)) as P2.
  revert Q2 R2 P2. generalize (Z.quot s int) (Z.rem s int). intros q m Q2 R2 P2.
  assert (E1 : q * (int * 1000000) = (s - m) * 1000000) by (subst s; ring).
  replace (q + 1 - 1) with q by ring. replace ((q + 1) * (int * 1000000)) with ((s - m) * 1000000 + int * 1000000) by (subst s; ring).
  rewrite E1. lia.
Qed.

Lemma update_ok r now : rate_ok r -> rate_ok (update_critical r now).
Proof.
  intros (A&B&C). unfold update_critical. destruct (calculate_drain _ _ _) as [[tk dl]|] eqn:E; [|repeat split; lia].
  unfold rate_ok, sat_add_u. cbn. pose proof (wrap_u64_is_u64 (tk * refill r)) as [X _]. unfold U64_MAX. repeat split; lia.
Qed.
Lemma update_fields r now : refill (update_critical r now) = refill r /\ interval (update_critical r now) = interval r /\ rmax (update_critical r now) = rmax r.
Proof. unfold update_critical. destruct (calculate_drain _ _ _) as [[tk dl]|]; auto. Qed.

Lemma serve_shape r q : rate_ok r ->
  (req_permits q = 0 /\ serve r q = (0, r)) \/
  exists g, serve r q = (g, set_balance (update_critical r (req_time q)) (balance (update_critical r (req_time q)) - g)) /\
    (0 <= req_permits q -> 0 <= g <= req_permits q) /\ (0 <= req_permits q -> g <= balance (update_critical r (req_time q))) /\
    (g = 0 \/ g = req_permits q \/ g = balance (update_critical r (req_time q))).
Proof.
  intros HO. apply update_ok with (now := req_time q) in HO as (_&_&HB). destruct q as [t p|t p]; cbn [serve req_time req_permits] in *.
  - unfold acquire_closed. destruct (p =? 0) eqn:E; [left; split; [lia|auto]|right]. cbv zeta.
    destruct (p <=? balance (update_critical r t)) eqn:E2.
    + exists p. repeat split; auto; lia.
    + exists (balance (update_critical r t)). rewrite Z.sub_diag. repeat split; auto; lia.
  - unfold acquire. destruct (p =? 0) eqn:E; [left; split; [lia|]; replace p with 0 by lia; auto|right]. cbv zeta.
    destruct (p <=? balance (update_critical r t)) eqn:E2.
    + exists p. repeat split; auto; lia.
    + exists 0. rewrite Z.sub_0_r. repeat split; auto; try lia. unfold set_balance. destruct (update_critical r t); auto.
Qed.

Lemma serve_ok r q : rate_ok r -> 0 <= req_permits q -> rate_ok (snd (serve r q)) /\ 0 <= fst (serve r q) <= req_permits q /\
  interval (snd (serve r q)) = interval r /\ refill (snd (serve r q)) = refill r /\ rmax (snd (serve r q)) = rmax r.
Proof.
  intros HO HP. destruct (serve_shape r q HO) as [[E1 E2]|(g&E&G1&G2&_)].
  - rewrite E2. cbn. repeat split; try apply HO; lia.
  - rewrite E. cbn. pose proof (update_ok r (req_time q) HO) as (A&B&C). destruct (update_fields r (req_time q)) as (F1&F2&F3).
    specialize (G1 HP). specialize (G2 HP). unfold rate_ok. cbn. rewrite F1, F2, F3 in *. repeat split; try lia.
Qed.

(** Invariant after the first refreshing call: D1 is the deadline it set. *)
Lemma budget_run qs : forall r D1 T K granted, rate_ok r ->
  Forall (fun q => 0 <= req_permits q) qs -> Forall (fun q => req_time q <= T) qs ->
  granted + balance r <= rmax r + K * refill r -> 0 <= K -> D1 + K * (interval r * NS_PER_MS) <= deadline r ->
  (K = 0 \/ D1 + (K - 1) * (interval r * NS_PER_MS) <= T) ->
  exists K', granted + zsum (fst (serve_all r qs)) <= rmax r + K' * refill r /\ 0 <= K' /\
    (K' = 0 \/ D1 + (K' - 1) * (interval r * NS_PER_MS) <= T).
Proof.
  induction qs as [|q qs IH]; intros r D1 T K granted HO HP HT HG HK HD HB; cbn [serve_all].
  - exists K. cbn. destruct HO as (_&_&HB2). repeat split; auto; lia.
  - inversion HP as [|? ? P1 P2]; inversion HT as [|? ? T1 T2]; subst.
    destruct (serve_ok r q HO P1) as (HO1&_&F1&F2&F3).
    destruct (serve r q) as [g r1] eqn:ES. cbn [fst snd] in *.
    destruct (serve_all r1 qs) as [gs r2] eqn:EA. cbn [fst zsum fold_right].
    assert (STEP : exists K1, granted + g + balance r1 <= rmax r + K1 * refill r /\ 0 <= K1 /\ D1 + K1 * (interval r * NS_PER_MS) <= deadline r1 /\
       (K1 = 0 \/ D1 + (K1 - 1) * (interval r * NS_PER_MS) <= T)).
    { destruct (serve_shape r q HO) as [[E1 E2]|(g'&E&_&G2&_)]; rewrite ES in *.
      - injection E2 as -> ->. exists K. repeat split; auto; lia.
      - injection E as -> ->. cbn [balance set_balance deadline]. unfold update_critical in *.
        destruct (calculate_drain (deadline r) (interval r) (req_time q)) as [[tk dl]|] eqn:EC.
        + destruct HO as (O1&O2&O3). apply drain_spec in EC as (C1&C2&C3&C4&C5&C6); auto. cbn [balance deadline] in *.
          exists (K + tk). unfold sat_add_u in *.
          assert (W : wrap_u64 (tk * refill r) <= tk * refill r). { unfold wrap_u64. apply Z.mod_le; [nia|lia]. }
          assert (X : D1 + (K + tk) * (interval r * NS_PER_MS) <= dl) by (rewrite Z.mul_add_distr_r; lia).
          assert (Y : D1 + (K + tk - 1) * (interval r * NS_PER_MS) <= T).
          { replace ((K + tk - 1) * (interval r * NS_PER_MS)) with (K * (interval r * NS_PER_MS) + (tk - 1) * (interval r * NS_PER_MS)) by ring. lia. }
          split; [|split; [lia|split; [exact X|right; exact Y]]].
          rewrite Z.mul_add_distr_r. lia.
        + exists K. repeat split; auto; lia. }
    destruct STEP as (K1&S1&S2&S3&S4).
    destruct (IH r1 D1 T K1 (granted + g)) as (K2&R1&R2&R3); auto; rewrite ?F1, ?F2, ?F3; auto.
    rewrite EA in R1. cbn [fst] in R1. rewrite F1, F2, F3 in *. exists K2. repeat split; auto. unfold zsum in *. lia.
Qed.

Lemma zsum_nonneg r qs : rate_ok r -> Forall (fun q => 0 <= req_permits q) qs -> 0 <= zsum (fst (serve_all r qs)).
Proof.
  revert r. induction qs as [|q qs IH]; intros r HO HP; cbn [serve_all]; [cbn; lia|]. inversion HP; subst.
  destruct (serve_ok r q HO H1) as (A&B&_). destruct (serve r q) as [g r1]. cbn [fst snd] in *. specialize (IH r1 A H2).
  destruct (serve_all r1 qs). cbn [fst zsum fold_right] in *. unfold zsum in *. lia.
Qed.

Lemma budget r t0 T qs : rate_ok r -> t0 <= T -> Forall (fun q => 0 <= req_permits q) qs -> Forall (fun q => t0 <= req_time q <= T) qs ->
  exists K, zsum (fst (serve_all r qs)) <= rmax r + K * refill r /\ 0 <= K /\ (K = 0 \/ (K - 1) * (interval r * NS_PER_MS) < T - t0).
Proof.
  intros HO H0 HP HT. induction qs as [|q qs IH]; [exists 0; cbn; destruct HO as (?&?&?); repeat split; auto; lia|].
  cbn [serve_all]. inversion HP as [|? ? P1 P2]; inversion HT as [|? ? T1 T2]; subst.
  destruct (serve_shape r q HO) as [[E1 E2]|(g&E&_&G2&_)].
  - rewrite E2. destruct (IH P2 T2) as (K&A&B&C). destruct (serve_all r qs) as [gs r2]. cbn [fst zsum fold_right] in *.
    exists K. repeat split; auto; unfold zsum in *; lia.
  - pose proof (update_ok r (req_time q) HO) as HU. destruct (update_fields r (req_time q)) as (F1&F2&F3).
    assert (HD : req_time q < deadline (update_critical r (req_time q))).
    { unfold update_critical. destruct (calculate_drain (deadline r) (interval r) (req_time q)) as [[tk dl]|] eqn:EC.
      - apply drain_spec in EC as (_&_&_&_&X&_); [cbn; auto|apply HO].
      - unfold calculate_drain in EC. destruct (_ <? _) eqn:EL; [lia|discriminate]. }
    destruct (serve_ok r q HO P1) as (HO1&_&J1&J2&J3). rewrite E in *. cbn [fst snd] in *.
    set (r1 := set_balance _ _) in *.
    destruct (budget_run qs r1 (deadline r1) T 0 g) as (K&A&B&C); auto; try (cbn; lia).
    + revert T2. apply Forall_impl. intros; lia.
    + cbn [balance set_balance r1]. rewrite J3. destruct HU as (_&_&HB). rewrite F3 in HB. subst r1; cbn; lia.
    + rewrite J1, J2, J3 in *. destruct (serve_all r1 qs) as [gs r2]. cbn [fst zsum fold_right] in *.
      exists K. split; [unfold zsum in *; lia|]. split; [auto|]. destruct C as [C|C]; auto. right. subst r1. cbn [deadline set_balance] in C. lia.
Qed.

Lemma run_ok qs : forall r, rate_ok r -> Forall (fun q => 0 <= req_permits q) qs -> rate_ok (snd (serve_all r qs)).
Proof.
  induction qs as [|q qs IH]; intros r HO HP; cbn [serve_all]; auto. inversion HP; subst.
  destruct (serve_ok r q HO H1) as (A&_). destruct (serve r q) as [g r1]. cbn [snd] in A. specialize (IH r1 A H2).
  destruct (serve_all r1 qs). auto.
Qed.

Lemma build_ok mx i ref int now : 0 <= i -> 0 <= ref -> 0 < int -> (forall m, mx = Some m -> 0 <= m) -> rate_ok (build mx i ref int now).
Proof.
  intros. unfold rate_ok, build. cbn. assert (0 <= match mx with Some m => m | None => sat_mul_u (Z.max ref i) 10 end).
  { destruct mx; [auto|]. unfold sat_mul_u, U64_MAX. lia. } repeat split; lia.
Qed.

Lemma refill_exact r now : rate_ok r -> deadline r <= now -> rmax r <= U64_MAX ->
  (Z.quot (now - deadline r) (interval r * NS_PER_MS) + 1) * refill r <= U64_MAX ->
  balance (update_critical r now) = Z.min (rmax r) (balance r + (Z.quot (now - deadline r) (interval r * NS_PER_MS) + 1) * refill r).
Proof.
  intros (A&B&C) HD HM HW. unfold update_critical, calculate_drain. replace (now <? deadline r) with false by lia. cbn [balance].
  rewrite Z.quot_quot by (unfold NS_PER_MS; lia). rewrite (Z.mul_comm NS_PER_MS).
  assert (0 <= Z.quot (now - deadline r) (interval r * NS_PER_MS)) by (apply Z.quot_pos; unfold NS_PER_MS; lia).
  revert HW H. generalize (Z.quot (now - deadline r) (interval r * NS_PER_MS)). intros q HW Hq.
  rewrite wrap_u64_id by (split; [nia|auto]). unfold sat_add_u. lia.
Qed.
