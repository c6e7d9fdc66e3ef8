(** C60: a result of a continuous query counts every row exactly once.
    C61: no row is missed by a continuous query. *)
From Verif Require Import Prelude StreamModel StreamSpec.
From Verif Require StreamProofs2 StreamProofs3 StreamProofs4.

(** ** C60 *)
(** A query with aggregation over a table with times in nanoseconds, none of whose runs ends with an error.  Rows arrive in the order of
    their times, every scan ends with the latest row, and after a stop of the server a later row arrives before the next run.  Stops may
    come at any time, in the middle of a run and of its output.  Then after a run the last result of every group of the table is made
    of the rows of the group, each exactly once. *)
Theorem C60_exact_partial : forall q kf es table parts, plain_query q -> q_key q = Some kf -> groups_end_late q kf ->
  let all := es ++ [Run table parts] in
  no_errors all -> all_proper all -> in_order [] all -> all_end_latest all -> resumes false [] all -> history_ok q all (start q None) ->
  forall k, members kf k table <> [] ->
    exists rows, latest k (snd (history q all (start q None))) = Some rows /\ Permutation rows (members kf k table).
Proof.
  intros q kf es table parts PQ QK GL all. exact (StreamProofs2.exact_history q kf PQ QK GL es (start q None) [] [] [] false table parts (StreamProofs2.inv_start q kf)).
Qed.
Print Assumptions C60_exact_partial.

(** A query without aggregation writes every row of the table exactly once as long as its runs end well and the server does not stop. *)
Theorem C60_rows_partial : forall q es table parts, q_key q = None -> q_unit q = 1 ->
  let all := es ++ [Run table parts] in
  only_runs all -> all_proper all -> all_end_latest all -> in_order [] all -> history_ok q all (start q None) ->
  Permutation (written (snd (history q all (start q None)))) table.
Proof. intros q es table parts QK U all. exact (StreamProofs4.rows_exact q QK U es (start q None) [] [] table parts (StreamProofs4.inv1_start q)). Qed.
Print Assumptions C60_rows_partial.

(** SELECT .. GROUP BY tag; GROUP BY a window with its end as a column, tag; GROUP BY time, tag; GROUP BY date_bin, tag; SELECT * *)
Definition by_tag (r : row) : key := (0, r_tag r).
Definition by_window (r : row) : key := (r_time r / 10 * 10 + 10, r_tag r).
Definition by_time (r : row) : key := (r_time r, r_tag r).
Definition by_bin (r : row) : key := (r_time r / 10 * 10, r_tag r).
Definition hash (k : key) : nat := if Z.even (snd k) then 0%nat else 1%nat.
Definition q_tag (unit : Z) : query := QU unit (Some by_tag) [] 2 hash.
Definition q_window : query := QU 1 (Some by_window) [fun k _ => fst k - 10; fun k _ => fst k] 2 hash.
Definition q_time : query := QU 1 (Some by_time) [fun k _ => fst k] 2 hash.
Definition q_bin : query := QU 1 (Some by_bin) [fun k _ => fst k] 2 hash.
Definition q_all : query := QU 1 None [] 2 hash.

Lemma hash_ok u kf cs : sane_query (QU u kf cs 2 hash).
Proof. split; cbn [q_parts q_hash]; [lia|]. intros k. unfold hash. destruct (Z.even (snd k)); lia. Qed.
Lemma tag_late u : groups_end_late (q_tag u) by_tag. Proof. left. reflexivity. Qed.
Lemma window_late : groups_end_late q_window by_window.
Proof. right. exists (fun k _ => fst k). split; [right; left; reflexivity|]. intros r _. unfold by_window. cbn [fst]. pose proof (Z.mod_pos_bound (r_time r) 10). pose proof (Z.div_mod (r_time r) 10). lia. Qed.
Lemma time_late : groups_end_late q_time by_time.
Proof. right. exists (fun k _ => fst k). split; [left; reflexivity|]. intros r _. cbn. lia. Qed.

Definition a3 := RW 3 0 100.
Definition b5 := RW 5 1 101.
Definition a8 := RW 8 0 102.
Definition b14 := RW 14 1 103.

(** conditions of concrete histories *)
Ltac pick := repeat match goal with
  | H : In _ (_ :: _) |- _ => destruct H as [H|H]; [subst|]
  | H : In _ [] |- _ => destruct H
  | H : _ \/ _ |- _ => destruct H as [H|H]
  | H : False |- _ => destruct H
  | H : table_of ?e = _ |- _ => cbn [table_of] in H; first [discriminate H | injection H as <-]
  | H : _ = _ |- _ => first [discriminate H | injection H as <- <- | injection H as <- <- <- | injection H as <- | progress subst]
  end.
Ltac proper_tac := unfold all_proper, all_timely; intros; cbn [In app] in *; pick; unfold timely, proper; cbn; i64; lia.
Ltac no_errors_tac := unfold no_errors; intros; cbn [In app]; intuition discriminate.
Ltac order_tac l := exists l; split; [apply Permutation_refl|]; intros; cbn [In] in *; pick; cbn; lia.

Definition es1 : list event :=
  [Run [a3; b5] [[[a3]; [b5]]]; Crash [a3; b5; a8] [[]; [[a8]]] [true]; Run [a3; b5; a8] [[[a3]; [b5; a8]]]; Restart].
Definition last1 : event := Run [a3; b5; a8; b14] [[[a3]; [b5; a8]]; [[b14]]].

Example C60_exact_case : let all := es1 ++ [last1] in
  plain_query q_window /\ groups_end_late q_window by_window /\ no_errors all /\ all_proper all /\ in_order [] all /\ all_end_latest all
  /\ resumes false [] all /\ history_ok q_window all (start q_window None)
  /\ latest (10, 0) (snd (history q_window all (start q_window None))) = Some [a3; a8]
  /\ latest (10, 1) (snd (history q_window all (start q_window None))) = Some [b5]
  /\ latest (20, 1) (snd (history q_window all (start q_window None))) = Some [b14].
Proof.
  cbv zeta. split; [split; [reflexivity|apply hash_ok]|]. split; [exact window_late|]. split; [unfold es1, last1; no_errors_tac|].
  split; [unfold es1, last1; proper_tac|]. split.
  { cbn [es1 last1 app in_order table_of]. split; [order_tac [a3; b5]|]. split; [order_tac [a8]|]. split; [order_tac (@nil row)|].
    split; [order_tac [b14]|exact I]. }
  split.
  { intros t parts H. unfold es1, last1 in H. cbn [app In] in H. pick; right.
    - exists [[a3]], [b5], [], b5. cbn. intuition; subst; cbn; lia.
    - exists [[a3]], [b5; a8], [], a8. cbn. intuition; subst; cbn; lia.
    - exists [[a3]; [b5; a8]], [b14], [], b14. cbn. intuition; subst; cbn; lia. }
  split.
  { cbn [es1 last1 app resumes]. split; [discriminate|]. split; [intros _; right; exists a8; cbn; intuition; subst; cbn; lia|].
    split; [intros _; right; exists b14; cbn; intuition; subst; cbn; lia|exact I]. }
  split; [|vm_compute; auto].
  unfold es1, last1. cbn [app history_ok]. unfold event_ok. split; [vm_compute; repeat constructor|]. split; [vm_compute; repeat constructor|].
  split; [vm_compute; repeat constructor|]. split; [exact I|]. split; [vm_compute; repeat constructor|exact I].
Qed.

Definition es2 : list event := [Run [a3; b5] [[[a3]; [b5]]]; Run [a3; b5] [[]]].
Example C60_rows_case : let all := es2 ++ [Run [a3; b5; b14] [[[b14]]]] in
  only_runs all /\ all_proper all /\ all_end_latest all /\ in_order [] all /\ history_ok q_all all (start q_all None)
  /\ written (snd (history q_all all (start q_all None))) = [a3; b5; b14].
Proof.
  cbv zeta. split; [intros e H; unfold es2 in H; cbn [app In] in H; pick; eauto|]. split; [unfold es2; proper_tac|]. split.
  { intros t parts H. unfold es2 in H. cbn [app In] in H. pick.
    - right. exists [[a3]], [b5], [], b5. cbn. intuition; subst; cbn; lia.
    - left. reflexivity.
    - right. exists [], [b14], [], b14. cbn. intuition; subst; cbn; lia. }
  split.
  { cbn [es2 app in_order table_of]. split; [order_tac [a3; b5]|]. split; [order_tac (@nil row)|]. split; [order_tac [b14]|exact I]. }
  split; [|vm_compute; reflexivity]. unfold es2. cbn [app history_ok]. unfold event_ok. split; [vm_compute; repeat constructor|]. split; [vm_compute; repeat constructor|]. split; [vm_compute; repeat constructor|exact I].
Qed.

(** What is missing for exactly once.  The watermark is the maximum of the last batch, not of the scan.  When two series are scanned
    the one that comes last may end earlier: its end becomes the watermark, and the rows of the other one after it are counted again. *)
Theorem C60_batch_order_refuted : exists es table parts, let all := es ++ [Run table parts] in
  no_errors all /\ all_proper all /\ in_order [] all /\ resumes false [] all /\ history_ok (q_tag 1) all (start (q_tag 1) None)
  /\ members by_tag (0, 1) table = [b5] /\ latest (0, 1) (snd (history (q_tag 1) all (start (q_tag 1) None))) = Some [b5; b5].
Proof.
  exists [Run [b5; a3] [[[b5]; [a3]]]], [b5; a3], [[[b5]]]. cbv zeta. split; [no_errors_tac|]. split; [proper_tac|]. split.
  { cbn [app in_order table_of]. split; [order_tac [b5; a3]|]. split; [order_tac (@nil row)|exact I]. }
  split; [cbn [app resumes]; split; [discriminate|]; split; [discriminate|exact I]|].
  split; [|vm_compute; auto]. cbn [app history_ok]. unfold event_ok. split; [vm_compute; repeat constructor|]. split; [vm_compute; repeat constructor|exact I].
Qed.
Print Assumptions C60_batch_order_refuted.

(** A run that ends with an error is tried again.  What it had saved of the partition that failed is counted twice. *)
Theorem C60_error_refuted : exists es table parts, let all := es ++ [Run table parts] in
  all_proper all /\ in_order [] all /\ all_end_latest all /\ resumes false [] all /\ history_ok (q_tag 1) all (start (q_tag 1) None)
  /\ members by_tag (0, 0) table = [a3; a8] /\ latest (0, 0) (snd (history (q_tag 1) all (start (q_tag 1) None))) = Some [a3; a3; a3; a8].
Proof.
  exists [RunError 0 [a3] [[[a3]]]; Run [a3] [[[a3]]]], [a3; a8], [[[a3; a8]]]. cbv zeta. split; [proper_tac|]. split.
  { cbn [app in_order table_of]. split; [order_tac [a3]|]. split; [order_tac (@nil row)|]. split; [order_tac [a8]|exact I]. }
  split.
  { intros t parts H. cbn [app In] in H. pick; right.
    - exists [], [a3], [], a3. cbn. intuition; subst; cbn; lia.
    - exists [], [a3; a8], [], a8. cbn. intuition; subst; cbn; lia. }
  split; [cbn [app resumes]; split; [discriminate|]; split; [discriminate|exact I]|].
  split; [|vm_compute; auto]. cbn [app history_ok]. unfold event_ok. split; [vm_compute; repeat constructor|]. split; [vm_compute; repeat constructor|].
  split; [vm_compute; repeat constructor|exact I].
Qed.
Print Assumptions C60_error_refuted.

(** With times in milliseconds the watermark is compared with times in nanoseconds: every run reads all the rows again. *)
Theorem C60_precision_refuted : exists es table parts, let q := q_tag 1000000 in let all := es ++ [Run table parts] in
  no_errors all /\ all_proper all /\ in_order [] all /\ all_end_latest all /\ resumes false [] all /\ history_ok q all (start q None)
  /\ members by_tag (0, 0) table = [a3; a8] /\ latest (0, 0) (snd (history q all (start q None))) = Some [a3; a3; a8].
Proof.
  exists [Run [a3] [[[a3]]]], [a3; a8], [[[a3; a8]]]. cbv zeta. split; [no_errors_tac|]. split; [proper_tac|]. split.
  { cbn [app in_order table_of]. split; [order_tac [a3]|]. split; [order_tac [a8]|exact I]. }
  split.
  { intros t parts H. cbn [app In] in H. pick; right.
    - exists [], [a3], [], a3. cbn. intuition; subst; cbn; lia.
    - exists [], [a3; a8], [], a8. cbn. intuition; subst; cbn; lia. }
  split; [cbn [app resumes]; split; [discriminate|]; split; [discriminate|exact I]|].
  split; [|vm_compute; auto]. cbn [app history_ok]. unfold event_ok. split; [vm_compute; repeat constructor|]. split; [vm_compute; repeat constructor|exact I].
Qed.
Print Assumptions C60_precision_refuted.

(** After a restart and until a later row arrives, every run reads all the rows again and adds them to the counts. *)
Theorem C60_idle_restart_refuted : exists es table parts, let q := q_tag 1 in let all := es ++ [Run table parts] in
  no_errors all /\ all_proper all /\ in_order [] all /\ all_end_latest all /\ history_ok q all (start q None)
  /\ members by_tag (0, 0) table = [a3] /\ latest (0, 0) (snd (history q all (start q None))) = Some [a3; a3].
Proof.
  exists [Run [a3] [[[a3]]]; Restart; Run [a3] [[[a3]]]], [a3], [[[a3]]]. cbv zeta. split; [no_errors_tac|]. split; [proper_tac|]. split.
  { cbn [app in_order table_of]. split; [order_tac [a3]|]. split; [order_tac (@nil row)|]. split; [order_tac (@nil row)|exact I]. }
  split.
  { intros t parts H. cbn [app In] in H. pick; right; exists [], [a3], [], a3; cbn; intuition; subst; cbn; lia. }
  split; [|vm_compute; auto]. cbn [app history_ok]. unfold event_ok. split; [vm_compute; repeat constructor|]. split; [exact I|].
  split; [vm_compute; repeat constructor|]. split; [vm_compute; repeat constructor|exact I].
Qed.
Print Assumptions C60_idle_restart_refuted.

(** A query without aggregation writes every row again after a restart. *)
Theorem C60_rows_restart_refuted : exists es table parts, let all := es ++ [Run table parts] in
  no_errors all /\ all_proper all /\ all_end_latest all /\ in_order [] all /\ history_ok q_all all (start q_all None)
  /\ table = [a3; a8] /\ written (snd (history q_all all (start q_all None))) = [a3; a3; a8].
Proof.
  exists [Run [a3] [[[a3]]]; Restart], [a3; a8], [[[a3; a8]]]. cbv zeta. split; [no_errors_tac|]. split; [proper_tac|]. split.
  { intros t parts H. cbn [app In] in H. pick; right.
    - exists [], [a3], [], a3. cbn. intuition; subst; cbn; lia.
    - exists [], [a3; a8], [], a8. cbn. intuition; subst; cbn; lia. }
  split.
  { cbn [app in_order table_of]. split; [order_tac [a3]|]. split; [order_tac [a8]|exact I]. }
  split; [|vm_compute; auto]. cbn [app history_ok]. unfold event_ok. split; [vm_compute; repeat constructor|]. split; [exact I|]. split; [vm_compute; repeat constructor|exact I].
Qed.
Print Assumptions C60_rows_restart_refuted.

(** ** C61 *)
(** A query with aggregation over a table of any precision, whatever the order of the batches of its scans and whenever the server stops:
    if rows arrive in the order of their times, no run ends with an error and the groups do not end before their rows, then after a run
    the last result of every group has every row of the group at least once and no other row. *)
Theorem C61_groups_partial : forall q kf es table parts, sane_query q -> q_key q = Some kf -> groups_end_late q kf ->
  let all := es ++ [Run table parts] in
  no_errors all -> all_timely q all -> in_order [] all -> history_ok q all (start q None) ->
  forall k, members kf k table <> [] ->
    exists rows, latest k (snd (history q all (start q None))) = Some rows /\ covers rows (members kf k table).
Proof.
  intros q kf es table parts PQ QK GL all. exact (StreamProofs3.cover_history q kf PQ QK GL es (start q None) [] [] [] table parts (StreamProofs3.inv_start q kf)).
Qed.
Print Assumptions C61_groups_partial.

(** A query without aggregation writes every row at least once, also when runs end with errors. *)
Theorem C61_rows_partial : forall q es table parts, q_key q = None ->
  let all := es ++ [Run table parts] in
  all_timely q all -> in_order [] all -> history_ok q all (start q None) ->
  covers (written (snd (history q all (start q None)))) table.
Proof. intros q es table parts QK all. exact (StreamProofs4.rows_history q QK es (start q None) [] [] [] table parts (StreamProofs4.inv_start q)). Qed.
Print Assumptions C61_rows_partial.

Definition es3 : list event :=
  [Run [b5; a3] [[[b5]; [a3]]]; Crash [b5; a3; a8] [[]; [[b5; a8]]] [false; true]; Run [b5; a3; a8] [[[b5]; [a3; a8]]]; Restart].
Definition last3 : event := Run [b5; a3; a8; b14] [[[b5]; [a3; a8]]; [[b14]]].
Example C61_groups_case : let all := es3 ++ [last3] in
  sane_query q_window /\ groups_end_late q_window by_window /\ no_errors all /\ all_timely q_window all /\ in_order [] all
  /\ history_ok q_window all (start q_window None)
  /\ latest (10, 0) (snd (history q_window all (start q_window None))) = Some [a3; a8]
  /\ latest (10, 1) (snd (history q_window (firstn 1 es3 ++ [Run [b5; a3] [[[b5]]]]) (start q_window None))) = Some [b5; b5].
Proof.
  cbv zeta. split; [apply hash_ok|]. split; [exact window_late|]. split; [unfold es3, last3; no_errors_tac|].
  split; [unfold es3, last3; proper_tac|]. split.
  { cbn [es3 last3 app in_order table_of]. split; [order_tac [b5; a3]|]. split; [order_tac [a8]|]. split; [order_tac (@nil row)|].
    split; [order_tac [b14]|exact I]. }
  split; [|vm_compute; auto].
  unfold es3, last3. cbn [app history_ok]. unfold event_ok. split; [vm_compute; repeat constructor|]. split; [vm_compute; repeat constructor|].
  split; [vm_compute; repeat constructor|]. split; [exact I|]. split; [vm_compute; repeat constructor|exact I].
Qed.

Definition es4 : list event := [RunError 1 [a3; b5] [[[a3]]; [[b5]]]; Run [a3; b5] [[[a3]]; [[b5]]]; Restart].
Example C61_rows_case : let all := es4 ++ [Run [a3; b5; b14] [[[a3]; [b5; b14]]]] in
  all_timely q_all all /\ in_order [] all /\ history_ok q_all all (start q_all None)
  /\ written (snd (history q_all all (start q_all None))) = [a3; a3; b5; a3; b5; b14].
Proof.
  cbv zeta. split; [unfold es4; proper_tac|]. split.
  { cbn [es4 app in_order table_of]. split; [order_tac [a3; b5]|]. split; [order_tac (@nil row)|]. split; [order_tac [b14]|exact I]. }
  split; [|vm_compute; auto].
  unfold es4. cbn [app history_ok]. unfold event_ok. split; [vm_compute; repeat constructor|]. split; [vm_compute; repeat constructor|].
  split; [exact I|]. split; [vm_compute; repeat constructor|exact I].
Qed.

(** What is missing.  GROUP BY date_bin(.., time): the only time of a group is the beginning of its window.  A group whose window began
    before the watermark counts as over: the rows that still arrive for it are dropped and its result stays what it was. *)
Theorem C61_date_bin_refuted : exists es table parts, let all := es ++ [Run table parts] in
  no_errors all /\ all_timely q_bin all /\ in_order [] all /\ all_end_latest all /\ resumes false [] all /\ history_ok q_bin all (start q_bin None)
  /\ members by_bin (0, 0) table = [a3; a8] /\ latest (0, 0) (snd (history q_bin all (start q_bin None))) = Some [a3].
Proof.
  exists [Run [a3] [[[a3]]]], [a3; a8], [[[a8]]]. cbv zeta. split; [no_errors_tac|]. split; [proper_tac|]. split.
  { cbn [app in_order table_of]. split; [order_tac [a3]|]. split; [order_tac [a8]|exact I]. }
  split.
  { intros t parts H. cbn [app In] in H. pick; right.
    - exists [], [a3], [], a3. cbn. intuition; subst; cbn; lia.
    - exists [], [a8], [], a8. cbn. intuition; subst; cbn; lia. }
  split; [cbn [app resumes]; split; [discriminate|]; split; [discriminate|exact I]|].
  split; [|vm_compute; auto]. cbn [app history_ok]. unfold event_ok. split; [vm_compute; repeat constructor|]. split; [vm_compute; repeat constructor|exact I].
Qed.
Print Assumptions C61_date_bin_refuted.

(** A row that arrives after a later one was read is never read: the delay that a stream table is given for such rows is ignored.
    Here the row is one nanosecond late. *)
Theorem C61_late_row_refuted : exists es table parts late, let q := q_tag 1 in let all := es ++ [Run table parts] in
  no_errors all /\ all_timely q all /\ all_end_latest all /\ resumes false [] all /\ history_ok q all (start q None)
  /\ es = [Run [b5] [[[b5]]]] /\ table = [b5; late; b14] /\ r_time late = r_time b5 - 1
  /\ members by_tag (by_tag late) table = [late] /\ latest (by_tag late) (snd (history q all (start q None))) = None.
Proof.
  exists [Run [b5] [[[b5]]]], [b5; RW 4 0 104; b14], [[[b14]]], (RW 4 0 104). cbv zeta. split; [no_errors_tac|]. split; [proper_tac|]. split.
  { intros t parts H. cbn [app In] in H. pick; right.
    - exists [], [b5], [], b5. cbn. intuition; subst; cbn; lia.
    - exists [], [b14], [], b14. cbn. intuition; subst; cbn; lia. }
  split; [cbn [app resumes]; split; [discriminate|]; split; [discriminate|exact I]|].
  split; [|vm_compute; auto 10]. cbn [app history_ok]. unfold event_ok. split; [vm_compute; repeat constructor|]. split; [vm_compute; repeat constructor|exact I].
Qed.
Print Assumptions C61_late_row_refuted.

(** A run that ends with an error has moved the watermark: the run that is made in its place drops the groups as too late, and their rows
    are in no result. *)
Theorem C61_error_refuted : exists es table parts, let all := es ++ [Run table parts] in
  all_timely q_time all /\ in_order [] all /\ all_end_latest all /\ resumes false [] all /\ history_ok q_time all (start q_time None)
  /\ members by_time (5, 1) table = [b5] /\ latest (5, 1) (snd (history q_time all (start q_time None))) = None.
Proof.
  exists [RunError 0 [b5] [[[b5]]]], [b5], [[[b5]]]. cbv zeta. split; [proper_tac|]. split.
  { cbn [app in_order table_of]. split; [order_tac [b5]|]. split; [order_tac (@nil row)|exact I]. }
  split.
  { intros t parts H. cbn [app In] in H. pick; right; exists [], [b5], [], b5; cbn; intuition; subst; cbn; lia. }
  split; [cbn [app resumes]; split; [discriminate|exact I]|].
  split; [|vm_compute; auto]. cbn [app history_ok]. unfold event_ok. split; [vm_compute; repeat constructor|]. split; [vm_compute; repeat constructor|exact I].
Qed.
Print Assumptions C61_error_refuted.

(** With times in milliseconds before 1970 the watermark, read as nanoseconds, is after the later rows: they are never read. *)
Theorem C61_before_1970_refuted : exists es table parts late, let q := q_tag 1000000 in let all := es ++ [Run table parts] in
  no_errors all /\ all_proper all /\ in_order [] all /\ history_ok q all (start q None)
  /\ table = [RW (-9) 1 100; late] /\ r_time late = - 5 /\ parts = [[]]
  /\ members by_tag (by_tag late) table = [late] /\ latest (by_tag late) (snd (history q all (start q None))) = None.
Proof.
  exists [Run [RW (-9) 1 100] [[[RW (-9) 1 100]]]], [RW (-9) 1 100; RW (-5) 0 101], [[]], (RW (-5) 0 101). cbv zeta. split; [no_errors_tac|]. split; [proper_tac|].
  split.
  { cbn [app in_order table_of]. split; [order_tac [RW (-9) 1 100]|]. split; [order_tac [RW (-5) 0 101]|exact I]. }
  split; [|vm_compute; auto 10]. cbn [app history_ok]. unfold event_ok. split; [vm_compute; repeat constructor|]. split; [vm_compute; repeat constructor|exact I].
Qed.
Print Assumptions C61_before_1970_refuted.
