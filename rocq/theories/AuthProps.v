(** C67: who is let in, and for how long after their rights were changed. *)
From Verif Require Import Prelude AuthModel AuthSpec AuthProofs.

(** Every accepted request is justified by a user, a member and a role that were all stored not longer ago than one hour plus
    the time a check takes plus the delay of the watch.  What is missing from the full claim: requests with a bearer token
    (C67_token_refuted), the private key (C67_private_key_refuted) and executions that are not orderly (C67_member_race_refuted). *)
Theorem C67_accepted_was_valid_partial : forall verify rsa L D s ev s' o r i,
  0 <= L -> reach verify rsa L D s -> orderly s ev -> step verify rsa s ev = Some (s', o) -> In (Accepted r i) o ->
  grounded verify rsa (fun k v => held (log s) k v (now s - 3600 - D - L)) (q_name r) (q_pw r) (q_tenant r) i.
Proof. intros verify rsa L D s ev s' o r i L0. exact (accepted_valid verify rsa L D L0 s ev s' o r i). Qed.
Print Assumptions C67_accepted_was_valid_partial.

(** A password that no stored version of the user accepts from the change [e] on is refused one hour (plus delays) later. *)
Theorem C67_password_revoked : forall verify rsa L D s ev s' o r i q e,
  0 <= L -> reach verify rsa L D s -> orderly s ev -> step verify rsa s ev = Some (s', o) -> In (Accepted r i) o ->
  nth_error (log s) q = Some e ->
  (forall p d, (q < p <= length (log s))%nat -> lookup (firstn p (log s)) (KUser (q_name r)) = Some (VUser d) -> ~ credentials verify rsa d (q_pw r)) ->
  now s <= e_time e + 3600 + D + L.
Proof. exact password_revoked. Qed.
Print Assumptions C67_password_revoked.

(** A user who is no administrator and no member of the tenant from the change [e] on is refused one hour (plus delays) later. *)
Theorem C67_member_removed : forall verify rsa L D s ev s' o r i q e,
  0 <= L -> reach verify rsa L D s -> orderly s ev -> step verify rsa s ev = Some (s', o) -> In (Accepted r i) o -> i_rights i <> RAdmin ->
  nth_error (log s) q = Some e ->
  (forall p x, (q < p <= length (log s))%nat -> lookup (firstn p (log s)) (KMember (q_tenant r) (i_id i)) <> Some (VMember x)) ->
  now s <= e_time e + 3600 + D + L.
Proof. exact member_removed. Qed.
Print Assumptions C67_member_removed.

(** On a node whose watch processed the first [N] changes, where no check of the user [n] is in progress and nothing is cached for
    [n], every later request of [n] is judged by what was stored after these [N] changes. *)
Theorem C67_effective_at_once : forall verify rsa n N s0 s1 s ev s' o r i,
  started s0 -> later verify rsa s0 s1 -> (N <= seen s1)%nat ->
  (forall c, In c (pend s1) -> q_name (c_req c) <> n) -> (forall x, In x (cache s1) -> x_name x = n -> x_expires x <= now s1) ->
  later verify rsa s1 s -> orderly s ev -> step verify rsa s ev = Some (s', o) -> In (Accepted r i) o -> q_name r = n ->
  grounded verify rsa (fun k v => held_after (log s) k v N) n (q_pw r) (q_tenant r) i.
Proof. exact accepted_after. Qed.
Print Assumptions C67_effective_at_once.

(** A token is worth the identity of a login that was accepted and asked for this token. *)
Theorem C67_token_from_login : forall verify rsa s0 evs s o t i,
  started s0 -> run verify rsa s0 evs = Some (s, o) -> In (AcceptedToken t i) o -> exists r, In (Accepted r i) o /\ q_token r = Some t.
Proof.
  intros verify rsa s0 evs s o t i (_&_&_&_&T&_) H I. destruct (run_tokens verify rsa evs s0 s o H t i I) as [(x&X&_)|X]; auto.
  rewrite T in X. destruct X.
Qed.
Print Assumptions C67_token_from_login.

(** A token that was not used for ten minutes is refused. *)
Theorem C67_idle_token : forall verify rsa s ev s' o t i,
  step verify rsa s ev = Some (s', o) -> In (AcceptedToken t i) o -> exists x, In x (tokens s) /\ t_no x = t /\ t_ident x = i /\ now s < t_last x + 600.
Proof. intros verify rsa s ev s' o t i H. exact (proj1 (step_tokens verify rsa s ev s' o H) t i). Qed.
Print Assumptions C67_idle_token.

(** * A small installation: user 1 with id 10 and password 7 is an owner (system role 1) of tenant 5; user 2 with id 20 has the
    custom role 3 with rights 100; user 4 with id 40 must present the private key 77. *)
Definition ver (pw h : Z) : bool := pw =? h.
Definition rsa0 (k pw pub : Z) : bool := k =? pub.
Definition log0 : list entry :=
  [Entry 0 (KUser 1) (Some (VUser (Desc 10 (Some 7) None false))); Entry 0 (KMember 5 10) (Some (VMember (Sys 1)));
   Entry 0 (KUser 2) (Some (VUser (Desc 20 (Some 8) None false))); Entry 0 (KMember 5 20) (Some (VMember (Cust 3))); Entry 0 (KRole 5 3) (Some (VRole 100));
   Entry 0 (KUser 4) (Some (VUser (Desc 40 None (Some 77) true)))].
Definition node0 : state := State 0 log0 6 (fun k => if watched k then lookup log0 k else None) [] [] [].
(** The same node when the members of the tenant are not copied yet. *)
Definition node1 : state := State 0 log0 6 (fun k => match k with KUser _ => lookup log0 k | _ => None end) [] [] [].
Definition q1 : req := Req 1 7 None 5 None.
Definition q1t : req := Req 1 7 None 5 (Some 9).
Definition q2 : req := Req 2 8 None 5 None.
Definition who1 : ident := Ident 1 10 (RSystem 5 1).

(** The state and the answers of an execution that goes through. *)
Definition st_of (x : option (state * list output)) : state := match x with Some (s, _) => s | None => node0 end.
Definition out_of (x : option (state * list output)) : list output := match x with Some (_, o) => o | None => [] end.

Lemma run_join : forall e1 e2 s1 s2 s3 o1 o2, run ver rsa0 s1 e1 = Some (s2, o1) -> run ver rsa0 s2 e2 = Some (s3, o2) -> exists o, run ver rsa0 s1 (e1 ++ e2) = Some (s3, o).
Proof.
  induction e1 as [|ev e1 IH]; cbn [run app]; intros e2 s1 s2 s3 o1 o2 H1 H2.
  - injection H1 as <- <-. eauto.
  - destruct (step ver rsa0 s1 ev) as [[sa oa]|]; try discriminate. destruct (run ver rsa0 sa e1) as [[sb ob]|] eqn:E; try discriminate.
    injection H1 as <- <-. destruct (IH e2 sa sb s3 ob o2 E H2) as (o&->). eauto.
Qed.
Lemma later_do : forall s0 s ev, later ver rsa0 s0 s -> orderly s ev -> (exists o, step ver rsa0 s ev = Some (st_of (step ver rsa0 s ev), o)) ->
  later ver rsa0 s0 (st_of (step ver rsa0 s ev)).
Proof. intros s0 s ev H OR (o&E). eapply later_step; eauto. Qed.

Lemma node0_started : started node0.
Proof.
  split; [reflexivity|]. split; [|repeat (split; [reflexivity|]); repeat constructor; cbn; lia].
  intros k v H. cbn [copy node0] in H. destruct (watched k); [exact H|discriminate].
Qed.
Lemma node1_started : started node1.
Proof.
  split; [reflexivity|]. split; [|repeat (split; [reflexivity|]); repeat constructor; cbn; lia].
  intros k v H. cbn [copy node1] in H. destruct k; [exact H|discriminate|discriminate].
Qed.

(** A login goes through. *)
Example C67_login : exists s, run ver rsa0 node0 [Begin 1 q1; Next 1; Next 1; Next 1; Next 1] = Some (s, [Accepted q1 who1]).
Proof. eexists. vm_compute. reflexivity. Qed.
Example C67_wrong_password : exists s, run ver rsa0 node0 [Begin 1 (Req 1 6 None 5 None); Next 1; Next 1; Next 1; Next 1] = Some (s, [Refused]).
Proof. eexists. vm_compute. reflexivity. Qed.
Example C67_other_tenant : exists s, run ver rsa0 node0 [Begin 1 (Req 1 7 None 6 None); Next 1; Next 1] = Some (s, [Refused]).
Proof. eexists. vm_compute. reflexivity. Qed.
(** The hypotheses of the theorems are met: a reachable state whose next step accepts. *)
Example C67_reach_ok : exists s s', reach ver rsa0 0 0 s /\ orderly s (Next 1) /\ step ver rsa0 s (Next 1) = Some (s', [Accepted q1 who1]).
Proof.
  assert (X : forall s ev s' o, reach ver rsa0 0 0 s -> orderly s ev -> step ver rsa0 s ev = Some (s', o) ->
    seen s' = length (log s') -> (forall c, In c (pend s') -> now s' <= c_begin c) -> reach ver rsa0 0 0 s').
  { intros s ev s' o R OR H SE PE. eapply reach_step; eauto.
    - intros e I. rewrite SE, skipn_all in I. destruct I.
    - intros c I. specialize (PE c I). lia. }
  pose proof (reach_start ver rsa0 0 0 node0 node0_started) as R0.
  pose proof (X _ (Begin 1 q1) _ _ R0 I eq_refl eq_refl) as R1. cbv beta in R1.
  specialize (R1 ltac:(intros c [<-|[]]; vm_compute; discriminate)).
  pose proof (X _ (Next 1) _ _ R1 I eq_refl eq_refl) as R2. specialize (R2 ltac:(intros c [<-|[]]; vm_compute; discriminate)).
  pose proof (X _ (Next 1) _ _ R2 I eq_refl eq_refl) as R3. specialize (R3 ltac:(intros c [<-|[]]; vm_compute; discriminate)).
  pose proof (X _ (Next 1) _ _ R3 I eq_refl eq_refl) as R4. specialize (R4 ltac:(intros c [<-|[]]; vm_compute; discriminate)).
  eexists. eexists. split; [exact R4|]. split; [exact I|]. reflexivity.
Qed.

(** DROP USER on this node, processed everywhere, nothing left in the cache: the token of the dropped user is accepted for ever,
    as long as it is used every ten minutes. *)
Definition log_drop1 : list entry := log0 ++ [Entry 0 (KUser 1) None].
Definition holder (n : Z) : state :=
  State n log_drop1 7 (set_copy (fun k => if watched k then lookup log0 k else None) (KUser 1) None) [] [] [Token 9 who1 n].
Theorem C67_token_refuted : exists s0, started s0 /\ forall T, exists evs s o s',
  run ver rsa0 s0 evs = Some (s, o) /\ T <= now s /\ lookup (log s) (KUser 1) = None /\ Forall (fun e => e_time e <= 0) (log s) /\
  seen s = length (log s) /\ cache s = [] /\ pend s = [] /\ step ver rsa0 s (UseToken 9) = Some (s', [AcceptedToken 9 who1]).
Proof.
  exists node0. split; [exact node0_started|]. intros T.
  assert (A : exists evs o, run ver rsa0 node0 evs = Some (holder 0, o)).
  { exists [Begin 1 q1t; Next 1; Next 1; Next 1; Next 1; Commit (KUser 1) None; Watch; PurgeName 1]. eexists. reflexivity. }
  assert (B : forall n : nat, exists evs o, run ver rsa0 node0 evs = Some (holder (500 * Z.of_nat n), o)).
  { induction n as [|n (evs&o&IH)]; [exact A|].
    assert (C : run ver rsa0 (holder (500 * Z.of_nat n)) [Tick 500; UseToken 9] = Some (holder (500 * Z.of_nat (S n)), [AcceptedToken 9 who1])).
    { replace (500 * Z.of_nat (S n)) with (500 * Z.of_nat n + 500) by lia. generalize (500 * Z.of_nat n). intros z.
      assert (U : step ver rsa0 (State (z + 500) log_drop1 7 (copy (holder 0)) [] [] [Token 9 who1 z]) (UseToken 9) =
        Some (holder (z + 500), [AcceptedToken 9 who1])).
      { cbn [step tokens find t_no]. change (9 =? 9) with true. cbv iota. cbn [t_last now]. unfold IDLE.
        destruct (Z.leb_spec (z + 600) (z + 500)); [lia|]. reflexivity. }
      cbn [run]. change (step ver rsa0 (holder z) (Tick 500)) with (Some (State (z + 500) log_drop1 7 (copy (holder 0)) [] [] [Token 9 who1 z], @nil output)).
      cbv iota. rewrite U. reflexivity. }
    destruct (run_join _ _ _ _ _ _ _ IH C) as (o'&E). exists (evs ++ [Tick 500; UseToken 9]), o'. exact E. }
  destruct (B (Z.to_nat T)) as (evs&o&E). exists evs, (holder (500 * Z.of_nat (Z.to_nat T))), o.
  assert (S : exists s', step ver rsa0 (holder (500 * Z.of_nat (Z.to_nat T))) (UseToken 9) = Some (s', [AcceptedToken 9 who1])).
  { generalize (500 * Z.of_nat (Z.to_nat T)). intros z. unfold holder. cbn [step tokens find t_no]. change (9 =? 9) with true. cbv iota. cbn [t_last now].
    unfold IDLE. destruct (Z.leb_spec (z + 600) z); [lia|]. eexists. reflexivity. }
  destruct S as (s'&S). exists s'. split; [exact E|]. split; [cbn; lia|]. split; [reflexivity|]. split; [repeat constructor; cbn; lia|].
  split; [reflexivity|]. split; [reflexivity|]. split; [reflexivity|]. exact S.
Qed.
Print Assumptions C67_token_refuted.

(** A user with a public key: once the owner logged in, the password is enough; no stored version of the user ever accepted it
    without the private key. *)
Theorem C67_private_key_refuted : exists s0 evs s o s' i, started s0 /\ run ver rsa0 s0 evs = Some (s, o) /\
  step ver rsa0 s (Begin 2 (Req 4 0 None 5 None)) = Some (s', [Accepted (Req 4 0 None 5 None) i]) /\
  forall p d, lookup (firstn p (log s)) (KUser 4) = Some (VUser d) -> auth_ok ver rsa0 d 0 None = false.
Proof.
  set (evs := [Begin 1 (Req 4 0 (Some 77) 5 None); Next 1; Next 1]). set (s1 := st_of (run ver rsa0 node0 evs)).
  exists node0, evs, s1, (out_of (run ver rsa0 node0 evs)), (st_of (step ver rsa0 s1 (Begin 2 (Req 4 0 None 5 None)))), (Ident 4 40 RAdmin).
  split; [exact node0_started|]. split; [vm_compute; reflexivity|]. split; [vm_compute; reflexivity|].
  intros p d H. change (log s1) with log0 in H. do 6 (destruct p as [|p]; [vm_compute in H; discriminate|]). vm_compute in H.
  assert (Some (VUser (Desc 40 None (Some 77) true)) = Some (VUser d)) as E by (destruct p; exact H). injection E as <-. reflexivity.
Qed.
Print Assumptions C67_private_key_refuted.

(** DROP USER issued on another node: this node, which has processed it, accepts the user for almost one hour. *)
Theorem C67_other_node_refuted : exists s0 evs s o s', started s0 /\ run ver rsa0 s0 evs = Some (s, o) /\
  lookup (log s) (KUser 1) = None /\ Forall (fun e => e_time e <= 0) (log s) /\ seen s = length (log s) /\ pend s = [] /\ now s = 3599 /\
  step ver rsa0 s (Begin 2 q1) = Some (s', [Accepted q1 who1]).
Proof.
  set (evs := [Begin 1 q1; Next 1; Next 1; Next 1; Next 1; Commit (KUser 1) None; Watch; Tick 3599]). set (s1 := st_of (run ver rsa0 node0 evs)).
  exists node0, evs, s1, (out_of (run ver rsa0 node0 evs)), (st_of (step ver rsa0 s1 (Begin 2 q1))).
  split; [exact node0_started|]. split; [vm_compute; reflexivity|]. split; [vm_compute; reflexivity|]. split; [vm_compute; repeat constructor; discriminate|].
  repeat (split; [vm_compute; reflexivity|]). vm_compute. reflexivity.
Qed.
Print Assumptions C67_other_node_refuted.

(** DROP USER on this node while a login is in progress: the login is cached after the cache was purged. *)
Theorem C67_login_in_progress_refuted : exists s0 before after s1 s o s', started s0 /\
  run ver rsa0 s0 (before ++ [Commit (KUser 1) None; Watch; PurgeName 1]) = Some (s1, []) /\
  lookup (log s1) (KUser 1) = None /\ seen s1 = length (log s1) /\ cache s1 = [] /\
  run ver rsa0 s1 after = Some (s, o) /\ pend s = [] /\ now s = now s1 + 3599 /\
  step ver rsa0 s (Begin 2 q1) = Some (s', [Accepted q1 who1]).
Proof.
  set (s1 := st_of (run ver rsa0 node0 [Begin 1 q1; Next 1; Next 1; Next 1; Commit (KUser 1) None; Watch; PurgeName 1])).
  set (s := st_of (run ver rsa0 s1 [Next 1; Tick 3599])).
  exists node0, [Begin 1 q1; Next 1; Next 1; Next 1], [Next 1; Tick 3599], s1, s, [Accepted q1 who1], (st_of (step ver rsa0 s (Begin 2 q1))).
  split; [exact node0_started|]. repeat (split; [vm_compute; reflexivity|]). vm_compute. reflexivity.
Qed.
Print Assumptions C67_login_in_progress_refuted.

(** ALTER USER ... SET PASSWORD on this node purges the cache before the node's own copy of the user is renewed: a login that
    begins after the statement finished still succeeds with the old password, and is cached for an hour. *)
Theorem C67_stale_copy_refuted : exists s0 d before after s1 s o s', started s0 /\
  run ver rsa0 s0 (before ++ [Commit (KUser 1) (Some (VUser d)); PurgeName 1]) = Some (s1, []) /\
  lookup (log s1) (KUser 1) = Some (VUser d) /\ auth_ok ver rsa0 d (q_pw q1) (q_key q1) = false /\ cache s1 = [] /\ pend s1 = [] /\
  run ver rsa0 s1 after = Some (s, o) /\ seen s = length (log s) /\ pend s = [] /\ now s = now s1 + 3599 /\
  step ver rsa0 s (Begin 2 q1) = Some (s', [Accepted q1 who1]).
Proof.
  set (d := Desc 10 (Some 55) None false). set (after := [Begin 1 q1; Next 1; Next 1; Next 1; Next 1; Watch; Tick 3599]).
  set (s1 := st_of (run ver rsa0 node0 [Commit (KUser 1) (Some (VUser d)); PurgeName 1])). set (s := st_of (run ver rsa0 s1 after)).
  exists node0, d, [], after, s1, s, [Accepted q1 who1], (st_of (step ver rsa0 s (Begin 2 q1))).
  split; [exact node0_started|]. repeat (split; [vm_compute; reflexivity|]). vm_compute. reflexivity.
Qed.
Print Assumptions C67_stale_copy_refuted.

(** Removing a member while a login has read the role from the meta service and not yet stored it in the node's copy: the copy
    keeps the removed member, and the user is let into the tenant by this node for ever, without any help of the cache. *)
Theorem C67_member_race_refuted : exists s0, started s0 /\ forall T, 0 <= T -> exists evs s o s',
  run ver rsa0 s0 evs = Some (s, o) /\ T <= now s /\ lookup (log s) (KMember 5 10) = None /\ Forall (fun e => e_time e <= 0) (log s) /\
  seen s = length (log s) /\ cache s = [] /\ pend s = [] /\
  run ver rsa0 s [Begin 2 q1; Next 2; Next 2; Next 2; Next 2] = Some (s', [Accepted q1 who1]).
Proof.
  exists node1. split; [exact node1_started|]. intros T T0.
  exists [Begin 1 q1; Next 1; Next 1; Commit (KMember 5 10) None; Watch; Next 1; Next 1; Next 1; PurgeId 10; Tick T].
  assert (A : run ver rsa0 node1 [Begin 1 q1; Next 1; Next 1; Commit (KMember 5 10) None; Watch; Next 1; Next 1; Next 1; PurgeId 10] =
     Some (State 0 (log0 ++ [Entry 0 (KMember 5 10) None]) 7
       (set_copy (set_copy (copy node1) (KMember 5 10) None) (KMember 5 10) (Some (VMember (Sys 1)))) [] [] [], [Accepted q1 who1])) by (vm_compute; reflexivity).
  match type of A with _ = Some (?st, _) => set (st0 := st) in * end.
  assert (B : run ver rsa0 st0 [Tick T] = Some (State T (log st0) 7 (copy st0) [] [] [], [])).
  { cbn [run step]. destruct (Z.leb_spec 0 T); [|lia]. reflexivity. }
  destruct (run_join _ [Tick T] _ _ _ _ _ A B) as (o&E). eexists. exists o. eexists. split; [exact E|].
  split; [cbn; lia|]. split; [reflexivity|]. split; [repeat constructor; cbn; lia|]. repeat (split; [reflexivity|]). reflexivity.
Qed.
Print Assumptions C67_member_race_refuted.

(** GRANT on this node, processed by this node: the member keeps the old rights for almost one hour. *)
Theorem C67_grant_refuted : exists s0 evs s o s', started s0 /\ run ver rsa0 s0 evs = Some (s, o) /\
  lookup (log s) (KRole 5 3) = Some (VRole 101) /\ Forall (fun e => e_time e <= 0) (log s) /\ seen s = length (log s) /\ pend s = [] /\ now s = 3599 /\
  step ver rsa0 s (Begin 2 q2) = Some (s', [Accepted q2 (Ident 2 20 (RCustom 5 (Some 100)))]).
Proof.
  set (evs := [Begin 1 q2; Next 1; Next 1; Next 1; Next 1; Commit (KRole 5 3) (Some (VRole 101)); Watch; Tick 3599]). set (s1 := st_of (run ver rsa0 node0 evs)).
  exists node0, evs, s1, (out_of (run ver rsa0 node0 evs)), (st_of (step ver rsa0 s1 (Begin 2 q2))).
  split; [exact node0_started|]. split; [vm_compute; reflexivity|]. split; [vm_compute; reflexivity|]. split; [vm_compute; repeat constructor; discriminate|].
  repeat (split; [vm_compute; reflexivity|]). vm_compute. reflexivity.
Qed.
Print Assumptions C67_grant_refuted.

(** The statement that takes effect at once: after DROP USER, the watch and the purge, with no login in progress, nobody gets in
    as user 1; the hypotheses of C67_effective_at_once hold of that state. *)
Example C67_at_once_ok : exists s1, later ver rsa0 node0 s1 /\ (7 <= seen s1)%nat /\ (forall c, In c (pend s1) -> q_name (c_req c) <> 1) /\
  (forall x, In x (cache s1) -> x_name x = 1 -> x_expires x <= now s1) /\
  (exists s', run ver rsa0 s1 [Begin 2 q1; Next 2] = Some (s', [Refused])) /\
  (exists s', run ver rsa0 s1 [Begin 2 q2; Next 2; Next 2; Next 2; Next 2] = Some (s', [Accepted q2 (Ident 2 20 (RCustom 5 (Some 100)))])).
Proof.
  set (st1 := st_of (step ver rsa0 node0 (Begin 1 q1))). set (st2 := st_of (step ver rsa0 st1 (Next 1))).
  set (st3 := st_of (step ver rsa0 st2 (Next 1))). set (st4 := st_of (step ver rsa0 st3 (Next 1))). set (st5 := st_of (step ver rsa0 st4 (Next 1))).
  set (st6 := st_of (step ver rsa0 st5 (Commit (KUser 1) None))). set (st7 := st_of (step ver rsa0 st6 Watch)).
  set (st8 := st_of (step ver rsa0 st7 (PurgeName 1))). exists st8.
  assert (PE : pend st6 = []) by (vm_compute; reflexivity).
  split.
  { apply later_do; [|exact I|eexists; vm_compute; reflexivity].
    apply later_do; [|intros e c d x _ H; fold st6 in H; rewrite PE in H; destruct H|eexists; vm_compute; reflexivity].
    do 6 (apply later_do; [|exact I|eexists; vm_compute; reflexivity]). apply later_refl. }
  assert (P8 : pend st8 = []) by (vm_compute; reflexivity). assert (C8 : cache st8 = []) by (vm_compute; reflexivity).
  split; [vm_compute; lia|]. split; [rewrite P8; intros c []|]. split; [rewrite C8; intros x []|].
  split; eexists; vm_compute; reflexivity.
Qed.
