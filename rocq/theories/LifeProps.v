(** C83: a query keeps the files it began with, and files that nobody needs are removed. *)
From Verif Require Import Prelude LifeModel LifeSpec LifeProofs.
Open Scope Z_scope.

(** In every history of flushes, compactions, queries that begin and end, and restarts, every file of the
    current version, and every file of the version that an unfinished query began with, is on disk and is the
    file that was written for it. Missing: snapshots that are applied meanwhile (refuted below). *)
Theorem C83_files_stay_partial : forall h s, no_snapshot h -> run start h = Some s ->
  (forall o, live s o -> intact s o) /\ (forall r o, holds s r o -> intact s o).
Proof. exact files_stay. Qed.
Print Assumptions C83_files_stay_partial.

(** A query that begins now reads, until it ends, every file that is current now, whatever flushes and
    compactions do. *)
Theorem C83_query_partial : forall h r h' s s',
  no_snapshot (h ++ FOpen r :: h') -> no_restart h' -> not_closed r h' ->
  run start h = Some s -> run s (FOpen r :: h') = Some s' ->
  forall o, live s o -> intact s' o.
Proof. exact query_stays. Qed.
Print Assumptions C83_query_partial.

(** Without restarts, when no edit is under way, every file on disk belongs to the current version or to an
    unfinished query: nothing that was compacted away stays. *)
Theorem C83_space_partial : forall h s, no_snapshot h -> no_restart h -> run start h = Some s -> idle s ->
  forall p o, In (p, o) (disk s) ->
    (exists x, In (o, x) (objs s) /\ path x = p) /\ (live s o \/ exists r, holds s r o).
Proof. exact space. Qed.
Print Assumptions C83_space_partial.

(** An edit replaces the files it names by its new ones and keeps all others; a crash before it is installed
    does not lose it. *)
Theorem C83_edit_partial : forall h s levels dels e s', no_snapshot h -> run start h = Some s ->
  e = FInstall \/ (exists g, e = FCrash g) -> run s [FEdit levels dels; e] = Some s' ->
  forall l i, version s' l i <->
    (version s l i /\ ~ In (l, i) dels) \/ exists k, nth_error levels k = Some l /\ i = gen s + Z.of_nat k.
Proof. exact edit_version. Qed.
Print Assumptions C83_edit_partial.

(** The ids of new files differ from those of all current files. *)
Theorem C83_new_id_partial : forall h s, no_snapshot h -> run start h = Some s ->
  forall l i, version s l i -> i < gen s.
Proof. exact gen_new. Qed.
Print Assumptions C83_new_id_partial.

(** Queries that begin or end, and restarts, leave the current version as it is. *)
Theorem C83_quiet : forall s e s', idle s -> (exists r, e = FOpen r \/ e = FClose r \/ e = FCrash r) ->
  step s e = Some s' -> forall l i, version s' l i <-> version s l i.
Proof. exact quiet_version. Qed.
Print Assumptions C83_quiet.

(** Not so when a snapshot is applied: file ids start at 1 again, so when a query that began before ends, the
    old file it held removes a file of the snapshot by its path. Here all data is lost, with no query left. *)
Theorem C83_snapshot_loses_data_refuted : exists h s,
  run start h = Some s /\ idle s /\ readers s = [] /\ cur s <> [] /\ forall o, live s o -> ~ intact s o.
Proof.
  exists [FEdit [0; 0] []; FInstall; FOpen 7; FEdit [1] [(0, 1); (0, 2)]; FInstall; FSnapshot [0; 0]; FClose 7].
  eexists. split; [vm_compute; reflexivity|]. split; [reflexivity|]. split; [reflexivity|]. split; [discriminate|].
  intros o _ (x & _ & D). exact D.
Qed.
Print Assumptions C83_snapshot_loses_data_refuted.

(** And an unfinished query finds, under the path of its file, the file of the snapshot. *)
Theorem C83_query_reads_other_file_refuted : exists h s r o x q,
  run start h = Some s /\ holds s r o /\ In (o, x) (objs s) /\ ~ intact s o
  /\ In (path x, q) (disk s) /\ q <> o.
Proof.
  exists [FEdit [0] []; FInstall; FOpen 7; FSnapshot [0]]. eexists. exists 7, 0, (OB 0 1 false), 1.
  split; [vm_compute; reflexivity|]. split.
  - exists [0]. split; left; reflexivity.
  - split; [right; left; reflexivity|]. split; [|split; [left; reflexivity | discriminate]].
    intros (x & I & D). destruct D as [D | []]. discriminate.
Qed.
Print Assumptions C83_query_reads_other_file_refuted.

(** A crash while a query holds a compacted file leaves that file on disk for ever. *)
Theorem C83_crash_leaves_file_refuted : exists h s,
  run start h = Some s /\ idle s /\ readers s = [] /\
  forall h' s', no_snapshot h' -> (forall ls dl, ~ In (FEdit ls dl) h') -> run s h' = Some s' ->
    exists o, In ((true, 1), o) (disk s') /\ ~ live s' o /\ forall r, ~ holds s' r o.
Proof.
  exists [FEdit [0] []; FInstall; FOpen 7; FEdit [1] [(0, 1)]; FInstall; FCrash 3]. eexists.
  split; [vm_compute; reflexivity|]. split; [reflexivity|]. split; [reflexivity|].
  intros h' s' N M R. exists 0. exact (orphan_stays h' s' N M R).
Qed.
Print Assumptions C83_crash_leaves_file_refuted.

(** Cases that meet the hypotheses: two flushed files, a query, a compaction of both files while it runs. *)
Definition ex_h : list event := [FEdit [0; 0] []; FInstall].
Definition ex_r : list event := [FEdit [1] [(0, 1); (0, 2)]; FInstall].
Example ex_query : exists s s', no_snapshot (ex_h ++ FOpen 7 :: ex_r) /\ no_restart ex_r /\ not_closed 7 ex_r
  /\ run start ex_h = Some s /\ run s (FOpen 7 :: ex_r) = Some s' /\ cur s = [0; 1] /\ cur s' = [2] /\ length (disk s') = 3%nat.
Proof.
  eexists. eexists. split; [|split; [|split; [|split; [vm_compute; reflexivity | split; [vm_compute; reflexivity|]]]]].
  - intros l I. cbn in I. repeat (destruct I as [I | I]; [discriminate|]). exact I.
  - intros l I. cbn in I. repeat (destruct I as [I | I]; [discriminate|]). exact I.
  - intros I. cbn in I. repeat (destruct I as [I | I]; [discriminate|]). exact I.
  - split; [reflexivity | split; reflexivity].
Qed.
Example ex_space : exists s, run start (ex_h ++ FOpen 7 :: ex_r ++ [FClose 7]) = Some s /\ idle s
  /\ cur s = [2] /\ disk s = [((false, 3), 2)].
Proof. eexists. split; [vm_compute; reflexivity|]. split; [reflexivity | split; reflexivity]. Qed.
Example ex_edit_crash : exists s s', run start ex_h = Some s /\ run s [FEdit [1] [(0, 1)]; FCrash 4] = Some s' /\ cur s' = [2; 1].
Proof. eexists. eexists. split; [vm_compute; reflexivity|]. split; [vm_compute; reflexivity | reflexivity]. Qed.
