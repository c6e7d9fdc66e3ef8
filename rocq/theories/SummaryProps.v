(** The set of data files of a vnode survives restarts (C26). *)
From Verif Require Import Prelude SummaryModel SummarySpec SummaryProofs.
Open Scope Z_scope.

(** C26, for summaries whose rewriting never fails half-way: at every point of every history of edits,
    rewrites, crashes, restarts and snapshots the running version shows exactly the files the history
    leaves, and reading the summary file back gives the same files, levels and sequence number, however
    the recovered map of files is iterated; the next file id is larger than the id of every live file.
    Missing: failed rewrites (C26_failed_rewrite_refuted); ids of files deleted earlier
    (C26_file_id_reuse_refuted). *)
Theorem C26_recover_exact_partial : forall order h, (forall l, Permutation (order l) l) ->
  hist_ok order s_create (FS [] 0) h ->
  shows (s_ver (sops_run order h)) (spec_run h) /\
  exists v next, recover order (s_file (sops_run order h)) = Some (v, next) /\ shows v (spec_run h) /\
    v_levels v = v_levels (s_ver (sops_run order h)) /\
    forall m, In m (fs_files (spec_run h)) -> m_id m < next /\ m_id m < s_next (sops_run order h).
Proof. intros order h P H. exact (recover_exact order P h H). Qed.
Print Assumptions C26_recover_exact_partial.

Definition file i l := MT i 10 l 0 9 false.
(** A history with flushes, a compaction, a rewrite, both crashes, a restart and a snapshot. *)
Example C26_nonvacuous :
  let h := [OAlloc; OEdit (ED 5 1 9 [file 1 0] [] AUpd) false; OAlloc; OCrashRecord (ED 8 2 9 [file 2 0] [] AUpd);
            OAlloc; OEdit (ED 8 3 9 [file 3 1] [file 1 0; file 2 0] AUpd) true; OAlloc; OCrashRewrite (ED 9 4 9 [file 4 0] [] AUpd);
            ORestart; OSnapshot (VER 12 9 [[file 7 0]; [file 5 1]; []; []; []]); OAlloc; OEdit (ED 13 3 9 [file 3 0] [] AUpd) false] in
  let order := @rev meta in
  hist_ok order s_create (FS [] 0) h /\
  spec_run h = FS [file 1 0; file 2 1; file 3 0] 13 /\
  recover order (s_file (sops_run order h)) = Some (VER 13 9 [[file 1 0; file 3 0]; [file 2 1]; []; []; []], 8).
Proof.
  set (h := [OAlloc; OEdit (ED 5 1 9 [file 1 0] [] AUpd) false; OAlloc; OCrashRecord (ED 8 2 9 [file 2 0] [] AUpd);
            OAlloc; OEdit (ED 8 3 9 [file 3 1] [file 1 0; file 2 0] AUpd) true; OAlloc; OCrashRewrite (ED 9 4 9 [file 4 0] [] AUpd);
            ORestart; OSnapshot (VER 12 9 [[file 7 0]; [file 5 1]; []; []; []]); OAlloc; OEdit (ED 13 3 9 [file 3 0] [] AUpd) false]).
  cbv zeta. split; [|split; vm_compute; reflexivity].
  assert (Ok : forall e a next, e_act e = AUpd -> 0 <= e_seq e -> NoDup (map m_id (e_add e)) ->
     Forall (fun m => (m_level m < 5)%nat /\ 0 < m_id m < next /\ m_id m <= e_fid e /\ Forall (fun x => m_id x <> m_id m) (fs_files a)) (e_add e) ->
     e_fid e < next -> Forall (fun d => Forall (fun x => m_id d = m_id x -> m_level d = m_level x) (fs_files a)) (e_del e) -> edit_ok a next e).
  { intros e a next H1 H2 H3 H4 H5 H6. rewrite !Forall_forall in *. split; auto. split; auto. split; auto. split; [|split; auto].
    - intros m Hm. destruct (H4 m Hm) as (A&B&C&D). split; auto. split; auto. split; auto. intros x Hx E. rewrite Forall_forall in D. destruct (D x Hx E).
    - intros d x Hd Hx. specialize (H6 d Hd). rewrite Forall_forall in H6. auto. }
  assert (N1 : forall z : Z, NoDup [z]) by (intros; constructor; [cbn; tauto|constructor]).
  cbn -[edit_ok snap_ok]. split; [auto|]. split.
  { apply Ok; cbn; try lia; auto. repeat constructor; cbn; lia. }
  split; [auto|]. split.
  { apply Ok; cbn; try lia; auto. repeat constructor; cbn; lia. }
  split; [auto|]. split.
  { apply Ok; cbn; try lia; auto; repeat constructor; cbn; lia. }
  split; [auto|]. split.
  { apply Ok; cbn; try lia; auto. repeat constructor; cbn; lia. }
  split; [auto|]. split.
  { exists (FS [file 7 0; file 5 1] 12). split; [|cbn; split; [lia|]].
    - split; [reflexivity|]. split; [reflexivity|]. split.
      + intros [|[|[|[|[|[|l]]]]]] m; cbn; split; try tauto; try (intros [<-|[]]; auto; fail); intros [[<-|[<-|[]]] E]; cbn in E; try discriminate E; auto.
      + intros [|[|[|[|[|[|l]]]]]]; cbn; repeat constructor.
    - split; [constructor; [cbn; lia|auto]|]. intros m [<-|[<-|[]]]; cbn; lia. }
  split; [auto|]. split; [|auto].
  apply Ok; cbn; try lia; auto. repeat constructor; cbn; lia.
Qed.

(** The full statement is false when a rewrite fails after the temporary file was opened (a full disk, an
    error while renaming): the writer stays on the temporary file, and every edit acknowledged later is
    missing after a restart. *)
Theorem C26_failed_rewrite_refuted : exists e1 e2 v next,
  let s1 := s_apply (s_alloc s_create) e1 true false in
  let s2 := s_apply (s_alloc s1) e2 false true in
  edit_ok (FS [] 0) 2 e1 /\ edit_ok (fs_edit (FS [] 0) e1) 3 e2 /\
  shows (s_ver s2) (fs_edit (fs_edit (FS [] 0) e1) e2) /\
  recover (fun l => l) (s_file s2) = Some (v, next) /\ shows v (fs_edit (FS [] 0) e1) /\
  v_seq v < e_seq e2 /\ e_add e2 <> [] /\ forall m, In m (e_add e2) -> ~ In m (concat (v_levels v)).
Proof.
  exists (ED 5 1 9 [file 1 0] [] AUpd), (ED 8 2 9 [file 2 0] [] AUpd).
  assert (E1 : edit_ok (FS [] 0) 2 (ED 5 1 9 [file 1 0] [] AUpd)).
  { split; [auto|]. cbn. split; [lia|]. split; [repeat constructor; cbn; tauto|]. split; [|split; [lia|tauto]].
    intros m [<-|[]]. cbn. split; [lia|]. split; [lia|]. split; [lia|tauto]. }
  assert (E2 : edit_ok (fs_edit (FS [] 0) (ED 5 1 9 [file 1 0] [] AUpd)) 3 (ED 8 2 9 [file 2 0] [] AUpd)).
  { split; [auto|]. cbn. split; [lia|]. split; [repeat constructor; cbn; tauto|]. split; [|split; [lia|tauto]].
    intros m [<-|[]]. cbn. split; [lia|]. split; [lia|]. split; [lia|]. intros x [<-|[]]. cbn. lia. }
  pose proof inv_create as (W&_&S0&_).
  pose proof (apply_shows _ _ _ _ S0 W E1) as S1. pose proof (edit_awf _ _ _ W E1) as W1.
  pose proof (apply_shows _ _ _ _ S1 W1 E2) as S2.
  eexists _, _. cbv zeta. split; [exact E1|]. split; [exact E2|]. split; [exact S2|]. split; [vm_compute; reflexivity|].
  split; [exact S1|]. split; [reflexivity|]. split; [discriminate|]. cbn. intros m [<-|[]] [H|H]; [discriminate H|destruct H].
Qed.
Print Assumptions C26_failed_rewrite_refuted.

(** After a rewrite the summary no longer records the largest file id ever used: a restart hands out again
    the id of a file that existed and was removed.  (column_file.rs:210-270 unlinks a removed file and its
    tombstone file when the last reference is dropped; a crash before that leaves both in place, and a new
    file of that id finds the old tombstones.) *)
Theorem C26_file_id_reuse_refuted : exists h1 h2 m v next,
  hist_ok (fun l => l) s_create (FS [] 0) (h1 ++ h2) /\ In m (fs_files (spec_run h1)) /\
  recover (fun l => l) (s_file (sops_run (fun l => l) (h1 ++ h2))) = Some (v, next) /\ next <= m_id m.
Proof.
  exists [OAlloc; OEdit (ED 5 1 9 [file 1 0] [] AUpd) false; OAlloc; OEdit (ED 8 2 9 [file 2 0] [] AUpd) false],
    [OEdit (ED 8 0 9 [] [file 2 0] AUpd) true], (file 2 0).
  eexists _, _. split; [|split; [vm_compute; auto|split; [vm_compute; reflexivity|cbn; lia]]].
  cbn -[edit_ok]. split; [auto|]. split.
  { split; [auto|]. cbn. split; [lia|]. split; [repeat constructor; cbn; tauto|]. split; [|split; [lia|tauto]].
    intros m [<-|[]]. cbn. split; [lia|]. split; [lia|]. split; [lia|tauto]. }
  split; [auto|]. split.
  { split; [auto|]. cbn. split; [lia|]. split; [repeat constructor; cbn; tauto|]. split; [|split; [lia|tauto]].
    intros m [<-|[]]. cbn. split; [lia|]. split; [lia|]. split; [lia|]. intros x [<-|[]]. cbn. lia. }
  split; [|auto]. split; [auto|]. cbn. split; [lia|]. split; [constructor|]. split; [tauto|]. split; [lia|].
  intros d x [<-|[]] [<-|[<-|[]]]; cbn; lia.
Qed.
Print Assumptions C26_file_id_reuse_refuted.

(** After an edit the vnode's largest timestamp is the largest one in its files (the smallest 64-bit number
    when there is none). *)
Theorem C26_max_timestamp : forall v e,
  (forall l m, In m (nth l (v_levels (apply_edit v e)) []) -> m_max m <= v_maxts (apply_edit v e)) /\
  (v_maxts (apply_edit v e) = - 2 ^ 63 \/
   exists l m, In m (nth l (v_levels (apply_edit v e)) []) /\ m_max m = v_maxts (apply_edit v e)).
Proof. intros v e. exact (max_ts_exact (v_levels (apply_edit v e))). Qed.
Print Assumptions C26_max_timestamp.
Example C26_max_timestamp_nonvacuous :
  v_maxts (apply_edit (VER 0 0 [[MT 1 10 0 0 7 false]; [MT 2 10 1 (-4) 90 false]; []; []; []])
                      (ED 1 3 0 [MT 3 10 2 5 40 false] [MT 2 10 1 (-4) 90 false] AUpd)) = 40.
Proof. reflexivity. Qed.
