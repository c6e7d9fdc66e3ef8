(** C71, C72: the tasks behind DROP, RECOVER, ALTER TABLE and UPDATE. *)
From Verif Require Import Prelude TaskModel TaskSpec TaskProofs.

Definition aT : str := [97].
Definition bD : str := [98].
Definition cB : str := [99].
Definition stmt (k : nat) (ok : bool) : list act := [Client k ok; Client k ok; Client k ok; Client k ok].
Definition stmt3 (k : nat) : list act := [Client k true; Client k true; Client k true].
Definition odb : op := DropDatabase aT bD.
Definition otb : op := DropTable aT bD cB.

(** ** C71 *)

(** A statement to be carried out at once, which finds its name neither under way nor failed when it looks (in [s2]), and is
    answered OK, has been carried out after it was issued.
    Missing: the case that the name is taken; see the refutations. *)
Theorem C71_done_partial t0 up es1 s0 n o after es2 b es3 k s1 s2 s :
  run (start t0 up) es1 = Some s0 -> k = length (clients s0) -> delay after = 0 ->
  step s0 (Issue n o after) = Some s1 -> run s1 es2 = Some s2 -> client_waits k es2 -> unclaimed (name_of o) s2 ->
  run s2 (Client k b :: es3) = Some s -> nth_error (clients s) k = Some (n, Ended true) ->
  exists t, now s0 <= t /\ In (t, o) (done s).
Proof. intros _. apply statement_done. Qed.
Print Assumptions C71_done_partial.

(** A statement that is answered OK need not be carried out: two UPDATEs of tags of one table at once, the second answered OK;
    nothing that happens later without a further statement on the table carries it out. *)
Theorem C71_update_lost_refuted : exists es s o1 o2,
  o1 <> o2 /\ In (Issue 1 o1 None) es /\ In (Issue 2 o2 None) es /\ run (start 0 [1; 2]) es = Some s /\
  nth_error (clients s) 0 = Some (1, Ended true) /\ nth_error (clients s) 1 = Some (2, Ended true) /\
  forall es' s', not_asked (name_of o2) es' -> run s es' = Some s' -> forall t, ~ In (t, o2) (done s').
Proof.
  set (o1 := UpdateTags aT bD cB 1). set (o2 := UpdateTags aT bD cB 2).
  set (es := [Join 1; Issue 1 o1 None; Issue 2 o2 None; Client 0 true; Client 0 true; Client 1 true; Client 0 true; Client 0 true;
              Handle 1; Handle 1; Handle 2; Handle 2]).
  destruct (run_some (start 0 [1; 2]) es ltac:(vm_compute; reflexivity)) as (s & R). exists es, s, o1, o2.
  assert (A : option_map (fun s => (clients s, done_for (name_of o2) s, check (fun p => negb (busy (name_of o2) p)) [1; 2] s,
    option_map i_status (get (name_of o2) (entries s)))) (run (start 0 [1; 2]) es)
     = Some ([(1, Ended true); (2, Ended true)], [(0, o1)], true, Some Successed)) by (vm_compute; reflexivity).
  rewrite R in A. cbn [option_map] in A. apply some4 in A. destruct A as (A1 & A2 & A3 & A4).
  split; [discriminate|]. split; [right; left; reflexivity|]. split; [right; right; left; reflexivity|]. split; [exact R|].
  rewrite A1. split; [reflexivity|]. split; [reflexivity|]. intros es' s' NA R' t I.
  assert (ST : settled (name_of o2) Successed s).
  { apply (idle_settled (name_of o2) Successed 0 [1; 2] es); [exact R|apply (check_idle _ _ _ _ _ R); [reflexivity|exact A3]|].
    exact (stands_of _ _ _ A4). }
  destruct (settled_run (name_of o2) Successed ltac:(split; discriminate) es' s s' ST R') as [_ D].
  { intros a Ia. specialize (NA a Ia). destruct a; auto. }
  assert (In (t, o2) (done_for (name_of o2) s')) as J by (apply filter_In; split; [exact I|apply str_eqb_refl]).
  rewrite D, A2 in J. destruct J as [J|[]]. discriminate.
Qed.
Print Assumptions C71_update_lost_refuted.

(** Nor after failures: a DROP TABLE fails, the retry succeeds; later the table, created again, is dropped again and that
    fails; it is never retried, and every DROP of it is answered OK while nothing is done: everything is at rest. *)
Theorem C71_blocked_refuted : exists es0 s0 es s,
  run (start 0 [1]) es0 = Some s0 /\ run s0 es = Some s /\ In (Issue 1 otb None) es /\
  nth_error (clients s) (length (clients s0)) = Some (1, Ended true) /\ at_rest s /\ done s = done s0 /\ stands (name_of otb) Failed s.
Proof.
  set (x := name_of otb).
  set (es0 := [Join 1; Issue 1 otb None] ++ stmt 0 false ++ [Handle 1; Handle 1; Tick 2000000000; Retry 1 x true; Retry 1 x true; Retry 1 x true; Handle 1; Issue 1 otb None] ++ stmt 1 false ++ [Handle 1; Handle 1]).
  set (es := [Issue 1 otb None; Client 2 true]).
  destruct (run_some (start 0 [1]) es0 ltac:(vm_compute; reflexivity)) as (s0 & R0).
  destruct (run_some (start 0 [1]) (es0 ++ es) ltac:(vm_compute; reflexivity)) as (s & R).
  assert (A0 : option_map (fun s => (length (clients s), done s)) (run (start 0 [1]) es0) = Some (2%nat, [(2000000000, otb)])) by (vm_compute; reflexivity).
  assert (A : option_map (fun s => (clients s, done s, check over [1] s, option_map i_status (get x (entries s)))) (run (start 0 [1]) (es0 ++ es))
     = Some ([(1, Ended false); (1, Ended false); (1, Ended true)], [(2000000000, otb)], true, Some Failed)) by (vm_compute; reflexivity).
  rewrite R0 in A0. rewrite R in A. cbn [option_map] in A0, A. apply some2 in A0. destruct A0 as (A1 & A2). apply some4 in A. destruct A as (A3 & A4 & A5 & A6).
  exists es0, s0, es, s. pose proof R as R'. rewrite run_app, R0 in R'.
  split; [exact R0|]. split; [exact R'|]. split; [left; reflexivity|]. rewrite A1, A3. split; [reflexivity|].
  split; [apply (check_rest _ _ _ _ R); [reflexivity|exact A5]|]. split; [congruence|].
  exact (stands_of _ _ _ A6).
Qed.
Print Assumptions C71_blocked_refuted.

(** Nor after a crash: the node dies while it drops the table, another one takes the task over, and does nothing; whatever
    happens then, short of a RECOVER (which there is none of for tables), and however often the table is dropped again, the
    statements being answered OK, it is not dropped. *)
Theorem C71_interrupted_refuted : exists es s,
  run (start 0 [1; 2]) es = Some s /\ In (Issue 2 otb None) es /\ nth_error (clients s) 1 = Some (2, Ended true) /\
  forall es' s', not_recovered (name_of otb) es' -> run s es' = Some s' -> forall t, ~ In (t, otb) (done s').
Proof.
  set (x := name_of otb).
  set (es := [Join 1; Issue 1 otb None; Client 0 true; Client 0 true; Crash 1; Down 1; Handle 2; Handle 2; Take 2 0; Inline 2 true; Handle 2;
              Issue 2 otb None; Client 1 true]).
  destruct (run_some (start 0 [1; 2]) es ltac:(vm_compute; reflexivity)) as (s & R). exists es, s.
  assert (A : option_map (fun s => (clients s, done_for x s, check (fun p => negb (busy x p)) [1; 2] s,
    option_map i_status (get x (entries s)))) (run (start 0 [1; 2]) es)
     = Some ([(1, Ended false); (2, Ended true)], [], true, Some Executing)) by (vm_compute; reflexivity).
  rewrite R in A. cbn [option_map] in A. apply some4 in A. destruct A as (A1 & A2 & A3 & A4).
  split; [exact R|]. split; [unfold es; cbn [In]; tauto|]. rewrite A1. split; [reflexivity|]. intros es' s' NA R' t I.
  assert (ST : settled x Executing s).
  { apply (idle_settled x Executing 0 [1; 2] es); [exact R|apply (check_idle _ _ _ _ _ R); [reflexivity|exact A3]|].
    exact (stands_of _ _ _ A4). }
  destruct (settled_run x Executing ltac:(split; discriminate) es' s s' ST R') as [_ D].
  { intros a Ia. specialize (NA a Ia). destruct a; auto. }
  assert (In (t, otb) (done_for x s')) as J by (apply filter_In; split; [exact I|apply str_eqb_refl]).
  rewrite D, A2 in J. destruct J.
Qed.
Print Assumptions C71_interrupted_refuted.

(** Nor when another object's task has the same name: DROP DATABASE "b-c" during DROP TABLE "b"."c". *)
Theorem C71_names_refuted : exists es s o o',
  ~ same_object o o' /\ In (Issue 1 o None) es /\ In (Issue 1 o' None) es /\ run (start 0 [1]) es = Some s /\
  nth_error (clients s) 1 = Some (1, Ended true) /\ at_rest s /\ done s = [(0, o)].
Proof.
  set (od := DropDatabase aT (bD ++ 45 :: cB)).
  set (es := [Join 1; Issue 1 otb None; Client 0 true; Client 0 true; Issue 1 od None; Client 1 true; Client 0 true; Client 0 true; Handle 1; Handle 1]).
  destruct (run_some (start 0 [1]) es ltac:(vm_compute; reflexivity)) as (s & R). exists es, s, otb, od.
  assert (A : option_map (fun s => (clients s, done s, check over [1] s)) (run (start 0 [1]) es)
     = Some ([(1, Ended true); (1, Ended true)], [(0, otb)], true)) by (vm_compute; reflexivity).
  rewrite R in A. cbn [option_map] in A. apply some3 in A. destruct A as (A1 & A2 & A3).
  split; [intros []|]. split; [right; left; reflexivity|]. split; [unfold es; cbn [In]; tauto|]. split; [exact R|].
  rewrite A1. split; [reflexivity|]. split; [apply (check_rest _ _ _ _ R); [reflexivity|exact A3]|exact A2].
Qed.
Print Assumptions C71_names_refuted.

(** The hypotheses of [C71_done_partial] are met: another statement runs meanwhile, and the operation is done. *)
Example C71_ex :
  option_map (fun s => (clients s, done s))
    (run (start 5 [1]) ([Join 1; Issue 1 otb None] ++ [Issue 1 odb None; Client 1 true; Tick 3] ++ stmt 0 true ++ [Client 1 true; Client 1 true; Client 1 true]))
  = Some ([(1, Ended true); (1, Ended true)], [(8, otb); (8, odb)]).
Proof. vm_compute. reflexivity. Qed.
Example C71_ex_unclaimed : option_map (fun s => get (name_of otb) (entries s)) (run (start 5 [1]) [Join 1; Issue 1 otb None; Issue 1 odb None; Client 1 true; Tick 3]) = Some None.
Proof. vm_compute. reflexivity. Qed.

(** ** C72 *)

(** As long as different objects have different names, what is carried out was asked for, and not before the time it was
    asked for, however statements, tasks, failures and restarts interleave. *)
Theorem C72_not_early t0 up es s t o : delays_ok es -> no_clash es -> run (start t0 up) es = Some s -> In (t, o) (done s) ->
  exists V, asked_for t0 es o V /\ V <= t.
Proof. intros D N R I. destruct (okS_run t0 up es s D R) as (_ & _ & _ & H). exact (H N t o I). Qed.
Print Assumptions C72_not_early.

(** As long as no node fails, a delayed DROP still waiting is not forgotten: once the first node has heard of it, that node's
    task alone carries it out, at the time asked for (or at once, or late, if that has already passed).
    Missing: failing nodes; the refutations show why. *)
Theorem C72_not_forgotten_partial t0 up m es s x i : run (start t0 up) (Join m :: es) = Some s -> no_loss es -> delays_ok es ->
  up_to_date m s -> get x (entries s) = Some i -> i_status i = Schedule ->
  exists V t es' s', asked_for t0 es (i_op i) V /\ only_task m x es' /\ run s es' = Some s' /\ In (t, i_op i) (done s') /\ (now s <= V -> t = V).
Proof. apply not_forgotten. Qed.
Print Assumptions C72_not_forgotten_partial.

(** RECOVER holds from when the nodes have heard of it: if no statement on the object and no retry is under way, nothing is
    carried out on it afterwards, whatever fails, until a statement asks for it again.
    Missing: the time until the nodes have heard of it, and retries; see the refutations. *)
Theorem C72_recovered_partial t0 up m es s x es' s' : run (start t0 up) (Join m :: es) = Some s -> no_loss es -> stands x Cancel s ->
  (forall n, n_up (nodes s n) = true -> up_to_date n s) -> up_to_date m s ->
  (forall c, In c (clients s) -> ~ works_on x (snd c)) -> (forall n k p, In (k, p) (n_retry (nodes s n)) -> ~ works_on x p) ->
  not_asked x es' -> run s es' = Some s' -> done_for x s' = done_for x s.
Proof.
  intros R L S U M C Re NA R'. pose proof (recovered_idle _ _ _ _ _ _ R L S U M C Re) as I.
  assert (ST : settled x Cancel s) by (apply (idle_settled x Cancel t0 up (Join m :: es)); auto; split; discriminate).
  apply (settled_run x Cancel ltac:(split; discriminate) es' s s' ST R'). intros a Ia. specialize (NA a Ia). destruct a; auto.
Qed.
Print Assumptions C72_recovered_partial.
(** A statement RECOVER, when it is over, leaves the object marked so. *)
Theorem C72_recover_marks t0 up es s n o s1 es2 s2 b s3 : run (start t0 up) es = Some s -> step s (Recover n o) = Some s1 ->
  run s1 es2 = Some s2 -> client_waits (length (clients s)) es2 -> step s2 (Client (length (clients s)) b) = Some s3 ->
  stands (name_of o) Cancel s3 /\ nth_error (clients s3) (length (clients s)) = Some (n, Ended true).
Proof.
  intros _ S1 R2 W S3. cbn [step] in S1. destruct (_ && _); [|discriminate]. injection S1 as <-.
  set (i := with_status (new_info o None (now s) n) Cancel true) in R2. set (s1 := set_clients _ s) in R2.
  assert (K0 : nth_error (clients s1) (length (clients s)) = Some (n, Cancelling i)) by (unfold s1; cbn [set_clients clients]; rewrite nth_error_app2, Nat.sub_diag by lia; reflexivity).
  destruct (waits_run _ _ _ _ _ _ R2 W K0) as [K|K].
  2: { cbn [step] in S3. rewrite K in S3. discriminate. }
  cbn [step] in S3. rewrite K in S3. cbn [step_pc] in S3. injection S3 as <-. split.
  - eexists. split; [cbn [set_clients write entries]; rewrite get_put; change (i_name _) with (name_of o); rewrite str_eqb_refl; reflexivity|reflexivity].
  - cbn [set_clients clients]. rewrite nth_set_nth, Nat.eqb_refl, K. reflexivity.
Qed.
Print Assumptions C72_recover_marks.

(** Two objects of one name: the tenant "a-b" is to be dropped at once, database "b" of tenant "a" a week later; a retry of
    the first carries out the second, after seconds. *)
Theorem C72_early_refuted : exists es s t o, delays_ok es /\ run (start 0 [1]) es = Some s /\ In (t, o) (done s) /\
  forall V, asked_for 0 es o V -> t < V.
Proof.
  set (o' := DropTenant (aT ++ 45 :: bD)). set (x := name_of odb).
  set (es := [Join 1; Issue 1 o' None] ++ stmt 0 false ++ [Handle 1; Handle 1; Tick 2000000000; Retry 1 x false; Retry 1 x false; Retry 1 x false;
    Recover 1 o'; Client 1 true; Issue 1 odb (Some 604800000000000)] ++ stmt3 2 ++ [Tick 2000000000; Retry 1 x true; Retry 1 x true]).
  destruct (run_some (start 0 [1]) es ltac:(vm_compute; reflexivity)) as (s & R). exists es, s, 4000000000, odb.
  assert (A : option_map done (run (start 0 [1]) es) = Some [(4000000000, odb)]) by (vm_compute; reflexivity).
  rewrite R in A. apply some1 in A.
  split; [|split; [exact R|split; [rewrite A; left; reflexivity|]]].
  - apply delays_b_ok. reflexivity.
  - intros V H. apply asked_asks in H. vm_compute in H. destruct H as [H|[H|[]]]; [discriminate|]. injection H as <-. reflexivity.
Qed.
Print Assumptions C72_early_refuted.

(** A statement RECOVER answered OK before the time, on a node the task of which has not yet heard of it when the time comes. *)
Theorem C72_recovered_dropped_refuted : exists es s es' s', run (start 0 [1; 2]) es = Some s /\ stands (name_of odb) Cancel s /\
  (forall c, In c (clients s) -> snd c = Ended true) /\ done s = [] /\ now s < 100 /\
  (forall V, asked_for 0 es odb V -> V = 100) /\ not_asked (name_of odb) es' /\ run s es' = Some s' /\ done s' = [(100, odb)].
Proof.
  set (x := name_of odb). set (es := [Join 1; Issue 2 odb (Some 100)] ++ stmt3 0 ++ [Tick 10; Handle 1; Tick 80; Recover 2 odb; Client 1 true]).
  set (es' := [Tick 10; Async 1 x true; Async 1 x true; Async 1 x true; Async 1 x true]).
  destruct (run_some (start 0 [1; 2]) es ltac:(vm_compute; reflexivity)) as (s & R).
  destruct (run_some (start 0 [1; 2]) (es ++ es') ltac:(vm_compute; reflexivity)) as (s' & R').
  assert (A : option_map (fun s => (option_map i_status (get x (entries s)), map snd (clients s), done s, now s)) (run (start 0 [1; 2]) es) = Some (Some Cancel, [Ended true; Ended true], [], 90)) by (vm_compute; reflexivity).
  assert (A' : option_map done (run (start 0 [1; 2]) (es ++ es')) = Some [(100, odb)]) by (vm_compute; reflexivity).
  rewrite R in A. rewrite R' in A'. cbn [option_map] in A, A'. apply some4 in A. destruct A as (A1 & A2 & A3 & A4). apply some1 in A'.
  exists es, s, es', s'. rewrite run_app, R in R'.
  split; [exact R|]. split; [exact (stands_of _ _ _ A1)|].
  split; [intros c I; apply (in_map snd) in I; rewrite A2 in I; destruct I as [I|[I|[]]]; congruence|].
  split; [exact A3|]. split; [lia|]. split; [|split; [|auto]].
  - intros V H. apply asked_asks in H. vm_compute in H. destruct H as [H|[]]. injection H as <-. reflexivity.
  - apply quiet_b_ok. reflexivity.
Qed.
Print Assumptions C72_recovered_dropped_refuted.

(** A DROP that failed is taken back by RECOVER, everybody hears of it, and the retry drops the database all the same. *)
Theorem C72_recover_retry_refuted : exists es s es' s', run (start 0 [1]) es = Some s /\ stands (name_of odb) Cancel s /\ up_to_date 1 s /\
  done s = [] /\ not_asked (name_of odb) es' /\ run s es' = Some s' /\ done s' = [(2000000000, odb)] /\ stands (name_of odb) Successed s'.
Proof.
  set (x := name_of odb). set (es := [Join 1; Issue 1 odb None] ++ stmt 0 false ++ [Handle 1; Handle 1; Recover 1 odb; Client 1 true; Handle 1]).
  set (es' := [Tick 2000000000; Retry 1 x true; Retry 1 x true; Retry 1 x true]).
  destruct (run_some (start 0 [1]) es ltac:(vm_compute; reflexivity)) as (s & R).
  destruct (run_some (start 0 [1]) (es ++ es') ltac:(vm_compute; reflexivity)) as (s' & R').
  assert (A : option_map (fun s => (option_map i_status (get x (entries s)), n_pos (nodes s 1), length (log s), done s)) (run (start 0 [1]) es) = Some (Some Cancel, 3%nat, 3%nat, [])) by (vm_compute; reflexivity).
  assert (A' : option_map (fun s => (option_map i_status (get x (entries s)), done s)) (run (start 0 [1]) (es ++ es')) = Some (Some Successed, [(2000000000, odb)])) by (vm_compute; reflexivity).
  rewrite R in A. rewrite R' in A'. cbn [option_map] in A, A'. apply some4 in A. destruct A as (A1 & A2 & A3 & A4). apply some2 in A'. destruct A' as (A5 & A6).
  exists es, s, es', s'. rewrite run_app, R in R'.
  split; [exact R|]. split; [exact (stands_of _ _ _ A1)|].
  split; [unfold up_to_date; congruence|]. split; [exact A4|]. split; [|split; [exact R'|split; [exact A6|]]].
  - apply quiet_b_ok. reflexivity.
  - exact (stands_of _ _ _ A5).
Qed.
Print Assumptions C72_recover_retry_refuted.

(** A single node restarts before the time: the delayed DROP is still listed, its time passes, and nobody is at work on it. *)
Theorem C72_restart_refuted : exists es s, run (start 0 [1]) es = Some s /\ In (Issue 1 odb (Some 100)) es /\
  stands (name_of odb) Schedule s /\ now s > 100 /\ at_rest s /\ done s = [].
Proof.
  set (x := name_of odb). set (es := [Join 1; Issue 1 odb (Some 100)] ++ stmt3 0 ++ [Handle 1; Crash 1; Start 1; Join 1; Tick 200]).
  destruct (run_some (start 0 [1]) es ltac:(vm_compute; reflexivity)) as (s & R). exists es, s.
  assert (A : option_map (fun s => (option_map i_status (get x (entries s)), now s, check over [1] s, done s)) (run (start 0 [1]) es) = Some (Some Schedule, 200, true, [])) by (vm_compute; reflexivity).
  rewrite R in A. cbn [option_map] in A. apply some4 in A. destruct A as (A1 & A2 & A3 & A4).
  split; [exact R|]. split; [right; left; reflexivity|].
  split; [exact (stands_of _ _ _ A1)|].
  split; [lia|]. split; [apply (check_rest _ _ _ _ R); [reflexivity|exact A3]|exact A4].
Qed.
Print Assumptions C72_restart_refuted.

(** A task due while its node is dead is taken over, and put to sleep for 584 years. *)
Theorem C72_overdue_refuted : exists es s i, run (start 0 [1; 2]) es = Some s /\ In (Issue 1 odb (Some 100)) es /\ now s = 200 /\
  stands (name_of odb) Schedule s /\ get (name_of odb) (n_async (nodes s 2)) = Some (Sleep i 18446744073709551716).
Proof.
  set (x := name_of odb). set (es := [Join 1; Issue 1 odb (Some 100)] ++ stmt3 0 ++ [Handle 1; Handle 2; Crash 1; Tick 200; Down 1; Handle 2; Take 2 0]).
  destruct (run_some (start 0 [1; 2]) es ltac:(vm_compute; reflexivity)) as (s & R). exists es, s, (Info odb 100 0 Schedule 2 false).
  assert (A : option_map (fun s => (option_map i_status (get x (entries s)), now s, get x (n_async (nodes s 2)))) (run (start 0 [1; 2]) es)
    = Some (Some Schedule, 200, Some (Sleep (Info odb 100 0 Schedule 2 false) 18446744073709551716))) by (vm_compute; reflexivity).
  rewrite R in A. cbn [option_map] in A. apply some3 in A. destruct A as (A1 & A2 & A3).
  split; [exact R|]. split; [right; left; reflexivity|]. split; [exact A2|].
  split; [exact (stands_of _ _ _ A1)|exact A3].
Qed.
Print Assumptions C72_overdue_refuted.

(** RECOVER DATABASE "b" of tenant "a" takes back the DROP of tenant "a-b": its time passes, all is at rest, nothing is done. *)
Theorem C72_cancel_other_refuted : exists es s o o', ~ same_object o o' /\ In (Issue 1 o (Some 100)) es /\ In (Recover 1 o') es /\
  (forall n, ~ In (Recover n o) es) /\ no_loss es /\ run (start 0 [1]) es = Some s /\ now s > 100 /\ at_rest s /\ done s = [].
Proof.
  set (o := DropTenant (aT ++ 45 :: bD)).
  set (es := [Join 1; Issue 1 o (Some 100)] ++ stmt3 0 ++ [Handle 1; Recover 1 odb; Client 1 true; Handle 1; Tick 200]).
  destruct (run_some (start 0 [1]) es ltac:(vm_compute; reflexivity)) as (s & R). exists es, s, o, odb.
  assert (A : option_map (fun s => (now s, check over [1] s, done s)) (run (start 0 [1]) es) = Some (200, true, [])) by (vm_compute; reflexivity).
  rewrite R in A. cbn [option_map] in A. apply some3 in A. destruct A as (A1 & A2 & A3).
  split; [intros []|]. split; [right; left; reflexivity|]. split; [unfold es; cbn [app stmt3 In]; tauto|].
  split; [intros n I; unfold es in I; cbn [app stmt3 In] in I; repeat destruct I as [I|I]; try discriminate; contradiction|].
  split; [apply no_loss_b_ok; reflexivity|].
  split; [exact R|]. split; [lia|]. split; [apply (check_rest _ _ _ _ R); [reflexivity|exact A2]|exact A3].
Qed.
Print Assumptions C72_cancel_other_refuted.

(** A delayed DROP asked for at 0, carried out at 100; the hypotheses of [C72_not_early] and [C72_not_forgotten_partial] are met
    before that. *)
Definition waits100 : list act := [Issue 2 odb (Some 100)] ++ stmt3 0 ++ [Tick 10; Handle 1].
Example C72_ex : option_map (fun s => (n_pos (nodes s 1), length (log s), option_map i_status (get (name_of odb) (entries s)), get (name_of odb) (n_async (nodes s 1)), done s))
   (run (start 0 [1; 2]) (Join 1 :: waits100)) = Some (1%nat, 1%nat, Some Schedule, Some (Sleep (Info odb 100 0 Schedule 1 true) 100), []) /\
  option_map done (run (start 0 [1; 2]) (Join 1 :: waits100 ++ [Tick 90; Async 1 (name_of odb) true; Async 1 (name_of odb) true; Async 1 (name_of odb) true; Async 1 (name_of odb) true])) = Some [(100, odb)].
Proof. split; vm_compute; reflexivity. Qed.
Example C72_ex_hyps : no_clash (Join 1 :: waits100) /\ delays_ok (Join 1 :: waits100) /\ no_loss waits100.
Proof.
  split; [|split].
  - intros a b (n & af & [A|A]) (n' & af' & [B|B]) _; cbn [waits100 app stmt3 In] in A, B;
      repeat destruct A as [A|A]; repeat destruct B as [B|B]; try discriminate; try contradiction. injection A as <- <- <-. injection B as <- <- <-. split; reflexivity.
  - apply delays_b_ok. reflexivity.
  - apply no_loss_b_ok. reflexivity.
Qed.
(** RECOVER in time: all hypotheses of [C72_recovered_partial]. *)
Example C72_ex_recovered : option_map (fun s => (option_map i_status (get (name_of odb) (entries s)), check over [1; 2] s))
   (run (start 0 [1; 2]) (Join 1 :: waits100 ++ [Recover 2 odb; Client 1 true; Handle 1; Handle 2; Handle 2])) = Some (Some Cancel, true).
Proof. vm_compute. reflexivity. Qed.
