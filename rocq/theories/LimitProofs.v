(** Proofs for C69. *)
From Verif Require Import Prelude RateModel RateSpec RateProofs LimitModel LimitSpec.

Lemma serve_all_app : forall a b r, serve_all r (a ++ b) = (fst (serve_all r a) ++ fst (serve_all (snd (serve_all r a)) b), snd (serve_all (snd (serve_all r a)) b)).
Proof.
  induction a as [|q a IH]; intros b r; cbn [app serve_all].
  - cbn [fst snd app]. destruct (serve_all r b); reflexivity.
  - destruct (serve r q) as [g r1]. rewrite IH. destruct (serve_all r1 a) as [gs r2]. cbn [fst snd app]. destruct (serve_all r2 b); reflexivity.
Qed.
Lemma zsum_app : forall a b, zsum (a ++ b) = zsum a + zsum b.
Proof. unfold zsum. induction a as [|x a IH]; intros b; cbn [app fold_right]; [lia|]. rewrite IH. lia. Qed.
Lemma wrap_i64_small : forall z, 0 <= z <= I64_MAX -> wrap_i64 z = z.
Proof. intros z H. apply wrap_i64_id. i64. lia. Qed.

(** * One request to the meta service *)
Lemma request_ok : forall r t mx, rate_fits r ->
  exists a r', limiter_request (Some r) t mx = (a, Some r') /\ rate_fits r' /\ serve r (ReqClosed t (wrap_u64 mx)) = (a, r') /\
    0 <= a <= wrap_u64 mx /\ (is_u64 mx -> a = Z.min (available r t) mx).
Proof.
  intros r t mx (RO&RM). unfold limiter_request. cbn [serve]. pose proof (wrap_u64_is_u64 mx) as W.
  destruct (serve_ok r (ReqClosed t (wrap_u64 mx)) RO) as (S1&S2&_); [cbn; i64; lia|]. cbn [serve req_permits] in S1, S2.
  destruct (acquire_closed r t (wrap_u64 mx)) as [a r'] eqn:E. cbn [fst snd] in *.
  pose proof (update_ok r t RO) as (_&_&UB). destruct (update_fields r t) as (_&_&UM).
  unfold acquire_closed in E.
  assert (X : a <= balance (update_critical r t) /\ rmax r' = rmax r /\ (is_u64 mx -> a = Z.min (available r t) mx)).
  { destruct (Z.eqb_spec (wrap_u64 mx) 0) as [Z0|Z0].
    - injection E as <- <-. split; [lia|]. split; auto. intros U. rewrite wrap_u64_id in Z0 by auto. subst mx. unfold available. lia.
    - destruct (Z.leb_spec (wrap_u64 mx) (balance (update_critical r t))) as [L|L]; injection E as <- <-; (split; [lia|]); cbn [rmax set_balance]; (split; [auto|]);
        intros U; rewrite ?wrap_u64_id in * by auto; unfold available; lia. }
  destruct X as (X1&X2&X3). exists a, r'. rewrite wrap_i64_small by lia. split; auto. split; [split; auto; lia|]. auto.
Qed.
Definition asked (mx : Z) (lost : list Z) : list request := map (fun t => ReqClosed t (wrap_u64 mx)) lost.
Lemma lose_ok : forall lost r mx, rate_fits r -> exists r', lose (Some r) mx lost = Some r' /\ rate_fits r' /\ snd (serve_all r (asked mx lost)) = r'.
Proof.
  induction lost as [|t lost IH]; intros r mx R; cbn [lose asked map serve_all]; [exists r; auto|].
  destruct (request_ok r t mx R) as (a&r1&E&R1&S&_). rewrite E, S. cbn [snd]. destruct (IH r1 mx R1) as (r2&E2&R2&S2). exists r2. split; auto. split; auto.
  fold (asked mx lost). destruct (serve_all r1 (asked mx lost)) as [gs rr]. exact S2.
Qed.
Lemma asked_ok : forall mx lost, Forall (fun q => 0 <= req_permits q) (asked mx lost).
Proof. intros mx lost. apply Forall_forall. intros q I. apply in_map_iff in I. destruct I as (t&<-&_). cbn. pose proof (wrap_u64_is_u64 mx). i64. lia. Qed.
Lemma asked_times : forall (P : Z -> Prop) mx lost, Forall P lost -> Forall (fun q => P (req_time q)) (asked mx lost).
Proof. intros P mx lost F. apply Forall_forall. intros q I. apply in_map_iff in I. destruct I as (t&<-&I). rewrite Forall_forall in F. cbn. auto. Qed.

(** * One check *)
Definition lower (c : config) (b : local) : Prop := l_max b = c_max c /\ - overdraft c <= l_count b.
Lemma check_ok : forall c b r n lost last ok b' r1 (P : Z -> Prop), config_ok c -> rate_fits r -> lower c b -> 0 <= n ->
  Forall P lost -> match last with Some t => P t | None => True end ->
  check b (Some r) n lost last = (ok, b', r1) ->
  exists qs r', r1 = Some r' /\ rate_fits r' /\ lower c b' /\ snd (serve_all r qs) = r' /\ Forall (fun q => 0 <= req_permits q) qs /\ Forall (fun q => P (req_time q)) qs /\
    (if ok : bool then n else 0) + l_count b' <= l_count b + zsum (fst (serve_all r qs)).
Proof.
  intros c b r n lost last ok b' r1 P C R (LM&LB) N FL FT E. unfold check in E.
  assert (NO : forall ok0 b0, lower c b0 -> (if ok0 : bool then n else 0) + l_count b0 <= l_count b -> (ok0, b0, Some r) = (ok, b', r1) ->
    exists qs r', r1 = Some r' /\ rate_fits r' /\ lower c b' /\ snd (serve_all r qs) = r' /\ Forall (fun q => 0 <= req_permits q) qs /\ Forall (fun q => P (req_time q)) qs /\
    (if ok : bool then n else 0) + l_count b' <= l_count b + zsum (fst (serve_all r qs))).
  { intros ok0 b0 L0 S Q. injection Q as -> -> <-. exists [], r. cbn. sp; auto; try constructor; try apply R. lia. }
  assert (LK : forall mx, match last with
      | None => (false, b, lose (Some r) mx lost)
      | Some t => let '(a, r2) := limiter_request (lose (Some r) mx lost) t mx in
                  let b1 := inc b a in if n <? l_count b1 then (true, dec b1 n, r2) else (false, b1, r2) end = (ok, b', r1) ->
    exists qs r', r1 = Some r' /\ rate_fits r' /\ lower c b' /\ snd (serve_all r qs) = r' /\ Forall (fun q => 0 <= req_permits q) qs /\ Forall (fun q => P (req_time q)) qs /\
    (if ok : bool then n else 0) + l_count b' <= l_count b + zsum (fst (serve_all r qs))).
  { intros mx Q. destruct (lose_ok lost r mx R) as (r2&E2&R2&S2). rewrite E2 in Q.
    pose proof (zsum_nonneg r (asked mx lost) (proj1 R) (asked_ok mx lost)) as ZN.
    destruct last as [t|].
    - destruct (request_ok r2 t mx R2) as (a&r3&E3&R3&S3&A3&_). rewrite E3 in Q. cbv zeta in Q.
      exists (asked mx (lost ++ [t])), r3.
      assert (SA : serve_all r (asked mx (lost ++ [t])) = (fst (serve_all r (asked mx lost)) ++ [a], r3)).
      { unfold asked. rewrite map_app. fold (asked mx lost). rewrite serve_all_app, S2. cbn [map serve_all]. rewrite S3. reflexivity. }
      rewrite SA. cbn [fst snd]. rewrite zsum_app. change (zsum [a]) with (a + 0).
      unfold inc, dec in Q. cbn [l_count l_max] in Q.
      assert (FF : Forall (fun q => P (req_time q)) (asked mx (lost ++ [t]))) by (apply asked_times; apply Forall_app; auto).
      pose proof (asked_ok mx (lost ++ [t])) as FO.
      assert (OD : 0 <= overdraft c) by (unfold overdraft; destruct C as (_&C2); destruct (c_max c); lia).
      destruct (Z.ltb_spec n (l_count b + a)) as [L|L]; injection Q as <- <- <-; cbn [l_count l_max]; (split; [auto|]); (split; [auto|]);
        (split; [split; cbn [l_count l_max]; auto; lia|]); (split; [auto|]); (split; [auto|]); (split; [auto|]); lia.
    - injection Q as <- <- <-. exists (asked mx lost), r2. split; auto. split; auto. split; [split; auto|]. split; auto. split; [apply asked_ok|].
      split; [apply asked_times; auto|]. lia. }
  unfold require in E. rewrite LM in E.
  assert (OD : 0 <= overdraft c) by (unfold overdraft; destruct C as (_&C2); destruct (c_max c); lia).
  destruct (Z.ltb_spec n 0); [lia|]. destruct (Z.ltb_spec n (l_count b)) as [L|L].
  - revert E. apply NO; [split; cbn; auto; lia|cbn; lia].
  - destruct (c_max c) as [m|] eqn:CM; [|exact (LK n E)].
    assert (OM : overdraft c = m) by (unfold overdraft; rewrite CM; auto).
    destruct ((l_count b <=? 0) && (n <=? m)); [exact (LK _ E)|].
    destruct ((0 <? l_count b) && (n <? l_count b + m)) eqn:B.
    + apply andb_true_iff in B. destruct B as (B1&B2). apply Z.ltb_lt in B1, B2. revert E. apply NO; [split; cbn; [rewrite LM; congruence|lia]|cbn; lia].
    + revert E. apply NO; [split; auto; congruence|lia].
Qed.

(** * Histories *)
Definition total (s : state) : Z := zsum (map l_count (nodes s)).
Lemma set_nth_sum : forall l i b b', nth_error l i = Some b -> zsum (map l_count (set_nth i b' l)) = zsum (map l_count l) - l_count b + l_count b'.
Proof.
  unfold zsum. induction l as [|x l IH]; intros [|i] b b' H; cbn [nth_error] in H; try discriminate; cbn [set_nth map fold_right].
  - injection H as ->. lia.
  - rewrite (IH i b b' H). lia.
Qed.
Lemma set_nth_none : forall l i b', nth_error l i = None -> set_nth i b' l = l.
Proof. induction l as [|x l IH]; intros [|i] b' H; cbn [nth_error] in H; try discriminate; cbn [set_nth]; auto. f_equal; auto. Qed.
Lemma set_nth_forall : forall (P : local -> Prop) l i b', Forall P l -> P b' -> Forall P (set_nth i b' l).
Proof. intros P. induction l as [|x l IH]; intros [|i] b' F H; cbn [set_nth]; auto; inversion F; subst; constructor; auto. Qed.
Lemma set_nth_length : forall l i b', length (set_nth i b' l) = length l.
Proof. induction l as [|x l IH]; intros [|i] b'; cbn [set_nth length]; auto. Qed.

Lemma run_bound : forall c t0 T, config_ok c -> forall evs s r, rate_fits r -> remote s = Some r -> Forall (lower c) (nodes s) -> Forall (within t0 T) evs ->
  exists qs, Forall (fun q => 0 <= req_permits q) qs /\ Forall (fun q => t0 <= req_time q <= T) qs /\
    Forall (lower c) (nodes (fst (run c s evs))) /\ length (nodes (fst (run c s evs))) = length (nodes s) /\
    zsum (snd (run c s evs)) + total (fst (run c s evs)) <= total s + zsum (fst (serve_all r qs)) + restarts evs * (c_initial c + overdraft c).
Proof.
  intros c t0 T C. induction evs as [|ev evs IH]; intros s r R RS F W.
  - exists []. cbn [run fst snd serve_all]. sp; auto. unfold restarts. cbn. lia.
  - inversion W as [|? ? W1 W2]; subst. cbn [run]. destruct (step c s ev) as [s1 a] eqn:ST.
    assert (X : exists qs r1, remote s1 = Some r1 /\ rate_fits r1 /\ Forall (lower c) (nodes s1) /\ length (nodes s1) = length (nodes s) /\ snd (serve_all r qs) = r1 /\
       Forall (fun q => 0 <= req_permits q) qs /\ Forall (fun q => t0 <= req_time q <= T) qs /\
       a + total s1 <= total s + zsum (fst (serve_all r qs)) + match ev with Restart _ => c_initial c + overdraft c | _ => 0 end).
    { destruct ev as [i n lost last|i|now]; cbn [step within] in *; [| |destruct W1].
      - destruct (nth_error (nodes s) i) as [b|] eqn:NB.
        + destruct (check b (remote s) n lost last) as [[ok b'] r'] eqn:CK. injection ST as <- <-. rewrite RS in CK. destruct W1 as (N0&FL&FT).
          assert (LB : lower c b) by (rewrite Forall_forall in F; apply F; eapply nth_error_In; eauto).
          destruct (check_ok c b r n lost last ok b' r' (fun t => t0 <= t <= T) C R LB N0 FL FT CK) as (qs&r1&E1&R1&L1&S1&P1&T1&Q1).
          exists qs, r1. cbn [remote nodes]. split; auto. split; auto. split; [apply set_nth_forall; auto|]. split; [apply set_nth_length|]. split; auto. split; auto. split; auto.
          unfold total. cbn [nodes]. rewrite (set_nth_sum _ _ b b') by auto. lia.
        + injection ST as <- <-. exists [], r. cbn [serve_all fst snd]. sp; auto. cbn. lia.
      - injection ST as <- <-. exists [], r. cbn [serve_all fst snd remote nodes]. split; auto. split; auto.
        assert (OD : 0 <= overdraft c) by (unfold overdraft; destruct C as (_&C2); destruct (c_max c); lia).
        assert (LN : lower c (local_new c)) by (destruct C as (C1&_); split; cbn; auto; lia).
        split; [apply set_nth_forall; auto|]. split; [apply set_nth_length|]. split; auto. split; [constructor|]. split; [constructor|].
        unfold total. cbn [nodes]. destruct (nth_error (nodes s) i) as [b|] eqn:NB.
        + rewrite (set_nth_sum _ _ b) by auto. assert (LB : lower c b) by (rewrite Forall_forall in F; apply F; eapply nth_error_In; eauto).
          destruct LB as (_&LB). cbn [local_new l_count zsum fold_right]. lia.
        + rewrite set_nth_none by auto. destruct C as (C1&_). cbn. lia. }
    destruct X as (qs&r1&RS1&R1&F1&LEN&S1&P1&T1&Q1). destruct (IH s1 r1 R1 RS1 F1 W2) as (qs2&P2&T2&F2&LEN2&Q2).
    destruct (run c s1 evs) as [s2 l]. cbn [fst snd] in *. exists (qs ++ qs2). split; [apply Forall_app; auto|]. split; [apply Forall_app; auto|]. split; auto. split; [congruence|].
    rewrite serve_all_app, S1. cbn [fst]. rewrite zsum_app. change (zsum (a :: l)) with (a + zsum l).
    assert (RE : restarts (ev :: evs) = restarts evs + match ev with Restart _ => 1 | _ => 0 end) by (unfold restarts; cbn [filter]; destruct ev; cbn [length]; lia).
    rewrite RE. destruct ev; nia.
Qed.
Lemma repeat_sum : forall k b, zsum (map l_count (repeat b k)) = Z.of_nat k * l_count b.
Proof. unfold zsum. induction k as [|k IH]; intros b; cbn [repeat map fold_right]; [lia|]. rewrite IH. lia. Qed.
Lemma lower_sum : forall c l, Forall (lower c) l -> - (Z.of_nat (length l) * overdraft c) <= zsum (map l_count l).
Proof. unfold zsum. intros c l F. induction F as [|b l (_&H) F IH]; cbn [map fold_right length]; [lia|]. lia. Qed.
Lemma bounded : forall c k r t0 T evs, config_ok c -> remote_new c t0 = Some r -> rate_fits r -> t0 <= T -> Forall (within t0 T) evs ->
  exists K, zsum (snd (run c (start c k t0) evs)) <= (Z.of_nat k + restarts evs) * (c_initial c + overdraft c) + rmax r + K * refill r /\ 0 <= K /\
    (K = 0 \/ (K - 1) * (interval r * NS_PER_MS) < T - t0).
Proof.
  intros c k r t0 T evs C RN R TT W.
  assert (OD : 0 <= overdraft c) by (unfold overdraft; destruct C as (_&C2); destruct (c_max c); lia).
  assert (F : Forall (lower c) (nodes (start c k t0))).
  { cbn [start nodes]. apply Forall_forall. intros b I. apply repeat_spec in I. subst b. destruct C as (C1&_). split; cbn; auto. lia. }
  destruct (run_bound c t0 T C evs (start c k t0) r R RN F W) as (qs&P&Q&F2&LEN&B).
  destruct (budget r t0 T qs (proj1 R) TT P Q) as (K&BK&K0&KT). exists K. split; [|auto].
  apply lower_sum in F2. rewrite LEN in F2. unfold total in B. cbn [start nodes] in *. rewrite repeat_length in F2. rewrite repeat_sum in B. cbn [local_new l_count] in B. nia.
Qed.

(** * Who is let through *)
Lemma decision : forall b r m n t, l_max b = Some m -> 0 <= m <= I64_MAX -> - m <= l_count b -> rate_fits r -> 0 <= n ->
  (fst (fst (check b (Some r) n [] (Some t))) = true <->
   if 0 <? l_count b then n < l_count b + m else n <= m /\ n < l_count b + Z.min (available r t) (m - l_count b)).
Proof.
  intros b r m n t LM M LB R N. unfold check, require. rewrite LM. destruct (Z.ltb_spec n 0); [lia|]. cbn [lose].
  destruct (Z.ltb_spec 0 (l_count b)) as [P|P].
  - destruct (Z.ltb_spec n (l_count b)) as [L|L]; [cbn; split; auto; lia|]. destruct (Z.leb_spec (l_count b) 0); [lia|]. cbn [andb].
    destruct (Z.ltb_spec n (l_count b + m)); cbn; split; auto; try lia; discriminate.
  - destruct (Z.ltb_spec n (l_count b)); [lia|]. destruct (Z.leb_spec (l_count b) 0); [|lia]. cbn [andb].
    destruct (Z.leb_spec n m) as [L|L]; [|cbn; split; [discriminate|lia]].
    destruct (request_ok r t (Z.abs (l_count b) + m) R) as (a&r'&E&_&_&_&A). rewrite E. cbn [inc l_count].
    rewrite A by (i64; lia). replace (Z.abs (l_count b) + m) with (m - l_count b) by lia.
    destruct (Z.ltb_spec n (l_count b + Z.min (available r t) (m - l_count b))); cbn [fst]; split; auto; try lia; discriminate.
Qed.
(** The count of a node is bounded above, too. *)
Definition upper (m i : Z) (b : local) : Prop := l_max b = Some m /\ - m <= l_count b <= Z.max i m.
Lemma check_upper : forall m i b r n lost last ok b' r', 0 <= m <= I64_MAX -> 0 <= n -> upper m i b ->
  (match r with Some r => rate_fits r | None => True end) ->
  check b r n lost last = (ok, b', r') -> upper m i b' /\ (match r' with Some r => rate_fits r | None => True end) /\ (Z.max i m + m <= n -> ok = false).
Proof.
  intros m i b r n lost last ok b' r' M N (LM&LB) R E. unfold check, require in E. rewrite LM in E.
  destruct (Z.ltb_spec n 0); [lia|]. destruct (Z.ltb_spec n (l_count b)) as [L|L].
  - injection E as <- <- <-. split; [split; cbn; auto; lia|]. split; auto. lia.
  - destruct (Z.leb_spec (l_count b) 0) as [P|P]; destruct (Z.ltb_spec 0 (l_count b)); try lia; cbn [andb] in E.
    + destruct (Z.leb_spec n m) as [Q|Q]; [|injection E as <- <- <-; split; [split; auto|split; auto]].
      assert (LO : match lose r (Z.abs (l_count b) + m) lost with Some r => rate_fits r | None => True end).
      { destruct r as [r|]; [destruct (lose_ok lost r (Z.abs (l_count b) + m) R) as (r2&->&R2&_); auto|]. clear. induction lost; cbn; auto. }
      destruct last as [t|]; [|injection E as <- <- <-; split; [split; auto|split; auto]].
      assert (RQ : exists a r2, limiter_request (lose r (Z.abs (l_count b) + m) lost) t (Z.abs (l_count b) + m) = (a, r2) /\ 0 <= a <= m - l_count b /\ match r2 with Some r => rate_fits r | None => True end).
      { destruct (lose r (Z.abs (l_count b) + m) lost) as [r1|].
        - destruct (request_ok r1 t (Z.abs (l_count b) + m) LO) as (a&r2&E1&R2&_&A&_). exists a, (Some r2). split; auto. split; auto.
          rewrite wrap_u64_id in A by (i64; lia). lia.
        - exists (Z.abs (l_count b) + m), None. split; auto. split; auto. lia. }
      destruct RQ as (a&r2&E1&A&R2). rewrite E1 in E. cbn [inc dec l_count l_max] in E.
      destruct (Z.ltb_spec n (l_count b + a)) as [X|X]; injection E as <- <- <-; (split; [split; cbn; auto; lia|]); (split; [auto|]); [lia|auto].
    + destruct (Z.ltb_spec n (l_count b + m)) as [X|X]; injection E as <- <- <-; (split; [split; cbn; auto; lia|]); (split; [auto|]); [lia|auto].
Qed.
Lemma oversize : forall c k t0 evs s i n lost last m, config_ok c -> c_max c = Some m ->
  (forall t r, remote_new c t = Some r -> rate_fits r) ->
  Forall (fun ev => match ev with Check _ n _ _ => 0 <= n | _ => True end) evs -> s = fst (run c (start c k t0) evs) ->
  Z.max (c_initial c) m + m <= n -> snd (step c s (Check i n lost last)) = 0.
Proof.
  intros c k t0 evs s i n lost last m (C1&C2) CM RN F -> H. rewrite CM in C2.
  assert (G : forall evs s, Forall (fun ev => match ev with Check _ n _ _ => 0 <= n | _ => True end) evs -> Forall (upper m (c_initial c)) (nodes s) ->
    (match remote s with Some r => rate_fits r | None => True end) ->
    let s' := fst (run c s evs) in Forall (upper m (c_initial c)) (nodes s') /\ (match remote s' with Some r => rate_fits r | None => True end)).
  { clear - C1 C2 CM RN. induction evs as [|ev evs IH]; intros s F U R; cbn [run]; [auto|]. inversion F as [|? ? F1 F2]; subst.
    destruct (step c s ev) as [s1 a] eqn:ST. destruct (run c s1 evs) as [s2 l] eqn:RU. cbv zeta. cbn [fst].
    specialize (IH s1 F2). rewrite RU in IH. cbv zeta in IH. cbn [fst] in IH. apply IH; clear IH.
    - destruct ev as [i n lost last|i|now]; cbn [step] in ST.
      + destruct (nth_error (nodes s) i) as [b|] eqn:NB; [|injection ST as <- <-; auto].
        destruct (check b (remote s) n lost last) as [[ok b'] r'] eqn:CK. injection ST as <- <-. cbn [nodes]. apply set_nth_forall; auto.
        eapply check_upper; eauto. rewrite Forall_forall in U. apply U. eapply nth_error_In; eauto.
      + injection ST as <- <-. cbn [nodes]. apply set_nth_forall; auto. split; cbn; auto. lia.
      + injection ST as <- <-. auto.
    - destruct ev as [i n lost last|i|now]; cbn [step] in ST.
      + destruct (nth_error (nodes s) i) as [b|] eqn:NB; [|injection ST as <- <-; auto].
        destruct (check b (remote s) n lost last) as [[ok b'] r'] eqn:CK. injection ST as <- <-. cbn [remote].
        eapply (check_upper m (c_initial c) b (remote s) n lost last ok b' r'); eauto. rewrite Forall_forall in U. apply U. eapply nth_error_In; eauto.
      + injection ST as <- <-. auto.
      + injection ST as <- <-. cbn [remote]. destruct (remote_new c now) eqn:Q; eauto. }
  destruct (G evs (start c k t0) F) as (U&R).
  { cbn [start nodes]. apply Forall_forall. intros b I. apply repeat_spec in I. subst b. split; cbn; auto. lia. }
  { cbn [start remote]. destruct (remote_new c t0) eqn:Q; eauto. }
  cbn [step]. destruct (nth_error (nodes (fst (run c (start c k t0) evs))) i) as [b|] eqn:NB; auto.
  destruct (check b (remote (fst (run c (start c k t0) evs))) n lost last) as [[ok b'] r'] eqn:CK. cbn [snd].
  rewrite Forall_forall in U. pose proof (U b (nth_error_In _ _ NB)) as UB.
  destruct (check_upper m (c_initial c) b _ n lost last ok b' r' C2 ltac:(lia) UB R CK) as (_&_&X). rewrite (X H). auto.
Qed.
(** The maximum of 1: every second request is refused. *)
Definition ones (k : nat) : list event := repeat (Check 0 1 [] (Some 0)) k.
Lemma every_second : forall k, zsum (snd (run (Config 0 (Some 1) None) (start (Config 0 (Some 1) None) 1 0) (ones (2 * k)))) = Z.of_nat k.
Proof.
  induction k as [|k IH]; auto. replace (2 * S k)%nat with (S (S (2 * k))) by lia. unfold ones in *. cbn [repeat].
  remember (repeat (Check 0 1 [] (Some 0)) (2 * k)) as l. cbn [run]. remember (Config 0 (Some 1) None) as c.
  assert (S1 : step c (start c 1 0) (Check 0 1 [] (Some 0)) = (State [Local 1 (Some 1)] None, 0)) by (subst c; reflexivity).
  assert (S2 : step c (State [Local 1 (Some 1)] None) (Check 0 1 [] (Some 0)) = (start c 1 0, 1)) by (subst c; reflexivity).
  rewrite S1, S2. destruct (run c (start c 1 0) l) as [s2 out]. cbn [snd] in *. change (zsum (0 :: 1 :: out)) with (0 + (1 + zsum out)). lia.
Qed.
