(** C82: the limit of simultaneous statements, KILL QUERY and stream queries over restarts. *)
From Verif Require Import Prelude TrackerModel TrackerSpec TrackerProofs.
Open Scope Z_scope.

(** In every state that a node can reach, whatever the clients, the meta service and the schedule do and
    wherever it crashed, no more statements than the limit hold a slot, and each holds one only. *)
Theorem C82_limit : forall limit s, reached limit s ->
  (slots s <= limit)%nat /\ NoDup (map fst (tracked s)).
Proof. intros limit s H. apply reached_inv in H as (I & _). split; [apply (i_len _ _ I)|apply (i_dup _ _ I)]. Qed.
Print Assumptions C82_limit.

(** A statement is refused exactly if all slots are in use when it asks.  A refused statement takes no
    slot, is not saved and does not run; an admitted one takes one slot and nobody else's. *)
Theorem C82_admit : forall limit s e s' r, reached limit s -> step limit s e = Some (s', r) ->
  (r = ARefused -> exists i, asks s e i) /\
  forall i, asks s e i ->
    ((limit <= slots s)%nat -> r = ARefused /\ tracked s' = tracked s /\ saved s' = saved s /\
        forall k p, ~ executing s' i k p) /\
    ((slots s < limit)%nat -> r <> ARefused /\
        (r = ASlot -> ~ listed s i /\ exists k, tracked s' = (i, k) :: tracked s)).
Proof.
  intros limit s e s' r H E. apply reached_inv in H as (I & _). split.
  - now apply (refused_asks limit s e s' r).
  - intros i A. now apply (asks_step limit s e i s' r).
Qed.
Print Assumptions C82_admit.

(** A statement that is not a stream query gives its slot back with an empty answer or an error, and with
    the end of its result.  The full property, every statement gives its slot back, is false: see
    [C82_wedged_refuted] and the refutations after it. *)
Theorem C82_free_partial : forall limit s i k s' r, reached limit s ->
  (forall o, executing s i k PStarted -> k <> KStream -> step limit s (EResult i o) = Some (s', r) ->
     r = AData \/ ~ listed s' i) /\
  (executing s i k POpen -> step limit s (EDrop i) = Some (s', r) -> r = AEnd /\ ~ listed s' i).
Proof.
  intros limit s i k s' r H. apply reached_inv in H as (I & _). split.
  - intros o X K E. now apply (free_result limit s i k o s' r).
  - intros X E. now apply (free_drop limit s i k s' r).
Qed.
Print Assumptions C82_free_partial.

(** A slot is held by a statement that is being executed, unless its client went away, the meta service
    did not save it, or it failed. *)
Theorem C82_live_partial : forall limit h s i, run limit start h = Some s -> listed s i ->
  (exists k p, executing s i k p) \/ broken_off h i.
Proof.
  intros limit h s i H L.
  destruct (run_live limit h start [] s (start_inv limit) ltac:(intros j x; discriminate) H) with (i := i) as [A|A].
  - intros j (k & []).
  - exact L.
  - left. destruct (get (execs s) i) as [[k p a]|] eqn:G; [|contradiction]. exists k, p, a. now apply get_in.
  - now right.
Qed.
Print Assumptions C82_live_partial.

(** KILL QUERY of a query that is listed succeeds, of another one fails with "not found".  After it the
    query is not listed, and if it was a stream it does not run any more.  No other statement is touched.
    Without a restart the query is not listed again.  That a killed statement always stops is false:
    [C82_kill_runs_on_refuted]. *)
Theorem C82_kill_partial : forall limit s k t s' r, reached limit s -> executing s k (KKill t) PStarted ->
  step limit s (EResult k ONil) = Some (s', r) ->
  (r = ANil <-> listed s t) /\ (r = ANotFound <-> ~ listed s t) /\ ~ listed s' t /\ ~ streaming s' t /\
  (forall i, i <> t -> i <> k -> (listed s' i <-> listed s i) /\ (forall q p, executing s' i q p <-> executing s i q p)) /\
  (r = ANil -> forall h s2, no_crash h -> run limit s' h = Some s2 -> ~ listed s2 t /\ ~ streaming s2 t).
Proof.
  intros limit s k t s' r H X E. apply reached_inv in H as (I & R).
  destruct (kill_step limit s k t s' r I R X E) as (A & B & C & D).
  split; [destruct A as [(-> & A)|(-> & A)]; split; auto; discriminate || contradiction|].
  split; [destruct A as [(-> & A)|(-> & A)]; split; auto; discriminate || contradiction|].
  split; [exact B|]. split; [exact C|]. split; [exact D|].
  intros Q h s2 N H2. destruct (step_inv _ _ _ _ _ I R E) as (I' & R').
  destruct (run_inv limit h s' s2 I' R' H2) as (I2 & R2).
  assert (L : ~ listed s2 t).
  { destruct (run_dead limit h t s' s2 (kill_dead limit s k t s' r I R X E Q) N H2) as (_ & T & _).
    rewrite listed_get. congruence. }
  split; [exact L|]. intros S. apply (executing_get limit) in S as (b & S); [|exact I2].
  destruct (R2 _ _ S) as (_ & Z0); [reflexivity|]. now apply L, listed_get.
Qed.
Print Assumptions C82_kill_partial.

(** A query (not DDL) that is killed while it starts ends with an error, whatever happens in between. *)
Theorem C82_abort_partial : forall limit s k t s' r h s2 o s3 r3, reached limit s ->
  executing s k (KKill t) PStarted -> executing s t KSql PStarted -> step limit s (EResult k ONil) = Some (s', r) ->
  r = ANil -> no_crash h -> run limit s' h = Some s2 -> step limit s2 (EResult t o) = Some (s3, r3) -> r3 = AErr.
Proof.
  intros limit s k t s' r h s2 o s3 r3 H X S E Q N H1 F. apply reached_inv in H as (I & R).
  pose proof (kill_aborted limit s k t s' r I R X S E Q) as A. pose proof (run_aborted limit h t s' s2 A N H1) as A2.
  destruct (step_aborted limit s2 (EResult t o) s3 r3 t A2) as (_ & G); [discriminate|exact F|]. now apply (G o).
Qed.
Print Assumptions C82_abort_partial.

(** If a running stream query is killed and the meta service carries out the removal before the next
    crash, it is never listed and never runs again, over any number of restarts.  The full property, an
    acknowledged KILL is never undone, is false: [C82_kill_lost_refuted], [C82_kill_early_refuted]. *)
Theorem C82_kill_lasting_partial : forall limit s k t s1 r h s2 r2 s3 h' s4, reached limit s ->
  executing s k (KKill t) PStarted -> streaming s t -> step limit s (EResult k ONil) = Some (s1, r) ->
  no_crash h -> run limit s1 h = Some s2 -> step limit s2 (EFlush t) = Some (s3, r2) ->
  run limit s3 h' = Some s4 -> r = ANil /\ ~ listed s4 t /\ ~ streaming s4 t /\ ~ In t (saved s4).
Proof.
  intros limit s k t s1 r h s2 r2 s3 h' s4 H X S E N H1 F H2. apply reached_inv in H as (I & R).
  pose proof (kill_buried limit s k t s1 r I R X S E) as B1.
  destruct (kill_step limit s k t s1 r I R X E) as (A & _).
  assert (Q : r = ANil).
  { destruct A as [(A & _)|(_ & A)]; [exact A|]. exfalso. apply A.
    apply (executing_get limit) in S as (b & S); [|exact I]. destruct (R _ _ S) as (_ & Z0); [reflexivity|]. now apply listed_get. }
  destruct (step_inv _ _ _ _ _ I R E) as (I1 & R1). destruct (run_inv _ _ _ _ I1 R1 H1) as (I2 & R2).
  destruct (step_inv _ _ _ _ _ I2 R2 F) as (I3 & R3). destruct (run_inv _ _ _ _ I3 R3 H2) as (I4 & R4).
  pose proof (run_buried0 limit h t s1 s2 B1 N H1) as B2.
  assert (B3 : buried t s3 /\ ~ In t (saved s3)).
  { split; [apply (step_buried0 limit s2 (EFlush t) s3 r2 t B2); [discriminate|exact F]|].
    cbn [step] in F. destruct (mem _ _); [|discriminate]. injection F as <- _. cbn [saved]. rewrite rm_in. tauto. }
  destruct B3 as (B3 & N3). destruct (run_buried limit h' t s3 s4 I3 R3 B3 N3 H2) as ((_ & B4 & _ & B5) & N4).
  split; [exact Q|]. split; [rewrite listed_get; congruence|]. split; [|exact N4].
  intros C. apply (executing_get limit) in C as (b & C); [|exact I4]. congruence.
Qed.
Print Assumptions C82_kill_lasting_partial.

(** A running stream query is saved; after a crash, if the saved queries are not more than the limit and
    each can be planned and started, all of them run again under their ids. *)
Theorem C82_restart_partial : forall limit s, reached limit s ->
  (forall i, streaming s i -> listed s i /\ In i (saved s)) /\
  ((length (saved s) <= limit)%nat -> exists s', run limit s (ECrash :: flat_map again (saved s)) = Some s' /\
     forall i, In i (saved s) -> listed s' i /\ streaming s' i).
Proof.
  intros limit s H. apply reached_inv in H as (I & R). split.
  - intros i S. apply (executing_get limit) in S as (b & S); [|exact I]. destruct (R _ _ S) as (_ & L); [reflexivity|].
    split; [now apply listed_get|]. destruct (get (tracked s) i) as [k|] eqn:G; [|contradiction].
    apply (i_save _ _ I i _ k S G); [reflexivity|discriminate].
  - intros L. cbn [run]. destruct (step limit s ECrash) as [[s1 r]|] eqn:E; [|discriminate].
    destruct (step_inv _ _ _ _ _ I R E) as (I1 & R1). cbn [step] in E. injection E as <- _.
    destruct (again_all limit (saved s) _ I1 R1 eq_refl) as (s2 & H2 & A & _); [cbn [tracked length]; lia|].
    exists s2. split; [exact H2|]. intros i J. destruct (A i J) as (X & T). split.
    + apply listed_get. congruence.
    + exists false. now apply get_in.
Qed.
Print Assumptions C82_restart_partial.

(** ** Where it fails *)
(** For every limit: when as many clients as the limit have gone away from a query before its answer,
    every later statement of the node is refused, KILL QUERY too, until it is restarted. *)
Theorem C82_wedged_refuted : forall limit, exists h s, run limit start h = Some s /\
  (forall e, In e h -> exists i, e = EArrive i KSql \/ e = EInsert i \/ e = EBegin i \/ e = EDrop i) /\
  forall h' s', no_crash h' -> run limit s h' = Some s' ->
    execs s' = [] /\ forall i k s2 r, step limit s' (EArrive i k) = Some (s2, r) -> r = ARefused.
Proof.
  intros limit. exists (flat_map give_up (map (fun j => 0 + Z.of_nat j) (seq 0 limit))).
  destruct (give_up_all limit limit start 0 eq_refl eq_refl eq_refl) as (s & H & K).
  - reflexivity.
  - intros i [[]|H]. now destruct H.
  - exists s. split; [exact H|]. split.
    + intros e A. apply in_flat_map in A as (i & _ & A). exists i. cbn in A. intuition.
    + intros h' s' N H'. pose proof (run_stuck limit h' s s' K N H') as K'. split; [apply K'|].
      intros i k s2 r E. apply (step_stuck limit s' (EArrive i k) s2 r K'); [discriminate|exact E].
Qed.
Print Assumptions C82_wedged_refuted.

(** The meta service does not save a stream query: the client gets an error, and the slot stays in use. *)
Theorem C82_unsaved_refuted : exists h s s', run 16 start h = Some s /\
  step 16 s (EPersist 1 false) = Some (s', AErr) /\ listed s' 1 /\ execs s' = [].
Proof.
  exists [EArrive 1 KStream; EInsert 1]. eexists. eexists.
  split; [vm_compute; reflexivity|]. split; [vm_compute; reflexivity|]. split; [exists KStream; vm_compute; now left|reflexivity].
Qed.
Print Assumptions C82_unsaved_refuted.

(** A stream query whose start fails: the client gets an error, but the query stays listed and saved, and
    is executed again after every restart. *)
Theorem C82_failed_stream_refuted : exists h s s', run 16 start h = Some s /\
  step 16 s (EResult 1 OErr) = Some (s', AErr) /\ listed s' 1 /\ execs s' = [] /\ In 1 (saved s') /\
  exists s'', run 16 s' [ECrash; ERecover; EInsert 1; EPersist 1 true; EBegin 1; EResult 1 OErr] = Some s'' /\
    listed s'' 1 /\ In 1 (saved s'').
Proof.
  exists [EArrive 1 KStream; EInsert 1; EPersist 1 true; EBegin 1]. eexists. eexists.
  split; [vm_compute; reflexivity|]. split; [vm_compute; reflexivity|]. split; [exists KStream; vm_compute; now left|].
  split; [reflexivity|]. split; [vm_compute; now left|]. eexists. split; [vm_compute; reflexivity|].
  split; [exists KStream; vm_compute; now left|vm_compute; now left].
Qed.
Print Assumptions C82_failed_stream_refuted.

(** KILL QUERY is acknowledged before the meta service removes the query; after a crash, or an error of
    the meta service, and a restart the killed stream runs again. *)
Definition one_stream : list event := [EArrive 1 KStream; EInsert 1; EPersist 1 true; EBegin 1; EResult 1 OData].
Definition kill_1 : list event := [EArrive 2 (KKill 1); EInsert 2; EBegin 2].
Theorem C82_kill_lost_refuted : exists h s s', run 16 start h = Some s /\ streaming s 1 /\
  step 16 s (EResult 2 ONil) = Some (s', ANil) /\
  (exists s1, run 16 s' (ECrash :: again 1) = Some s1 /\ streaming s1 1) /\
  (exists s1, run 16 s' (ELose 1 :: ECrash :: again 1) = Some s1 /\ streaming s1 1).
Proof.
  exists (one_stream ++ kill_1). eexists. eexists.
  split; [vm_compute; reflexivity|]. split; [exists false; vm_compute; tauto|]. split; [vm_compute; reflexivity|].
  split; eexists; (split; [vm_compute; reflexivity|exists false; vm_compute; now left]).
Qed.
Print Assumptions C82_kill_lost_refuted.

(** A stream query is killed between its listing and its saving: KILL succeeds and the removal is carried
    out, but then the query is saved, and it runs after the next restart. *)
Theorem C82_kill_early_refuted : exists h s s' s2, run 16 start h = Some s /\ listed s 1 /\
  step 16 s (EResult 2 ONil) = Some (s', ANil) /\
  run 16 s' [EFlush 1; EPersist 1 true; EBegin 1; EResult 1 OData] = Some s2 /\ ~ listed s2 1 /\ In 1 (saved s2) /\
  exists s3, run 16 s2 (ECrash :: again 1) = Some s3 /\ streaming s3 1.
Proof.
  exists ([EArrive 1 KStream; EInsert 1] ++ kill_1). eexists. eexists. eexists.
  split; [vm_compute; reflexivity|]. split; [exists KStream; vm_compute; tauto|]. split; [vm_compute; reflexivity|].
  split; [vm_compute; reflexivity|]. split; [intros (k & H); vm_compute in H; exact H|]. split; [vm_compute; now left|].
  eexists. split; [vm_compute; reflexivity|]. exists false. vm_compute. now left.
Qed.
Print Assumptions C82_kill_early_refuted.

(** KILL QUERY of a query that has its slot but has not started, of one that already hands out rows, and
    of a DDL statement at work: the answer is success, and the statement runs on without a slot. *)
Theorem C82_kill_runs_on_refuted : forall k p rest,
  (k, p, rest) = (KSql, PReady, [EBegin 1; EResult 1 OData]) \/
  (k, p, rest) = (KSql, POpen, []) \/
  (k, p, rest) = (KDdl, PStarted, [EResult 1 OData]) ->
  exists h s s' s2, run 16 start h = Some s /\ executing s 1 k p /\
    step 16 s (EResult 2 ONil) = Some (s', ANil) /\ ~ listed s' 1 /\
    run 16 s' rest = Some s2 /\ executing s2 1 k POpen.
Proof.
  intros k p rest [H|[H|H]]; injection H as -> -> ->.
  - exists ([EArrive 1 KSql; EInsert 1] ++ kill_1). eexists. eexists. eexists.
    split; [vm_compute; reflexivity|]. split; [exists false; vm_compute; tauto|]. split; [vm_compute; reflexivity|].
    split; [intros (k & H); vm_compute in H; exact H|]. split; [vm_compute; reflexivity|]. exists false. vm_compute. now left.
  - exists ([EArrive 1 KSql; EInsert 1; EBegin 1; EResult 1 OData] ++ kill_1). eexists. eexists. eexists.
    split; [vm_compute; reflexivity|]. split; [exists false; vm_compute; tauto|]. split; [vm_compute; reflexivity|].
    split; [intros (k & H); vm_compute in H; exact H|]. split; [vm_compute; reflexivity|]. exists false. vm_compute. now left.
  - exists ([EArrive 1 KDdl; EInsert 1; EBegin 1] ++ kill_1). eexists. eexists. eexists.
    split; [vm_compute; reflexivity|]. split; [exists false; vm_compute; tauto|]. split; [vm_compute; reflexivity|].
    split; [intros (k & H); vm_compute in H; exact H|]. split; [vm_compute; reflexivity|]. exists false. vm_compute. now left.
Qed.
Print Assumptions C82_kill_runs_on_refuted.

(** ** The hypotheses can be met *)
Example c82_reached : exists s, reached 2 s /\ slots s = 2%nat /\ streaming s 1 /\ executing s 3 KSql POpen.
Proof.
  eexists. split; [exists (one_stream ++ [EArrive 3 KSql; EInsert 3; EBegin 3; EResult 3 OData]); vm_compute; reflexivity|].
  split; [reflexivity|]. split; exists false; vm_compute; tauto.
Qed.
Example c82_refused : exists s s', reached 1 s /\ step 1 s (EArrive 3 KSql) = Some (s', ARefused).
Proof. eexists. eexists. split; [exists one_stream; vm_compute; reflexivity|vm_compute; reflexivity]. Qed.
Example c82_race : exists s s', reached 1 s /\ step 1 s (EInsert 3) = Some (s', ARefused).
Proof.
  eexists. eexists. split; [exists [EArrive 2 KSql; EArrive 3 KSql; EInsert 2]; vm_compute; reflexivity|vm_compute; reflexivity].
Qed.
Example c82_kill : exists s s', reached 2 s /\ executing s 2 (KKill 1) PStarted /\ streaming s 1 /\
  step 2 s (EResult 2 ONil) = Some (s', ANil) /\ exists s2, run 2 s' [EFlush 1] = Some s2 /\ saved s2 = [].
Proof.
  eexists. eexists. split; [exists (one_stream ++ kill_1); vm_compute; reflexivity|].
  split; [exists false; vm_compute; tauto|]. split; [exists false; vm_compute; tauto|]. split; [vm_compute; reflexivity|].
  eexists. split; [vm_compute; reflexivity|reflexivity].
Qed.
Example c82_abort : exists s s' s2, reached 2 s /\ executing s 2 (KKill 1) PStarted /\ executing s 1 KSql PStarted /\
  step 2 s (EResult 2 ONil) = Some (s', ANil) /\ step 2 s' (EResult 1 OErr) = Some (s2, AErr).
Proof.
  eexists. eexists. eexists. split; [exists ([EArrive 1 KSql; EInsert 1; EBegin 1] ++ kill_1); vm_compute; reflexivity|].
  split; [exists false; vm_compute; tauto|]. split; [exists false; vm_compute; tauto|]. split; vm_compute; reflexivity.
Qed.
Example c82_restart : exists s, reached 2 s /\ saved s = [1; 4] /\ streaming s 1 /\ streaming s 4.
Proof.
  eexists. split; [exists (one_stream ++ [EArrive 4 KStream; EInsert 4; EPersist 4 true; EBegin 4; EResult 4 OData]); vm_compute; reflexivity|].
  split; [reflexivity|]. split; exists false; vm_compute; tauto.
Qed.
