(** A replica built from a snapshot (C45). *)
From Verif Require Import Prelude MergeModel MergeSpec ReadModel ReadSpec SummaryModel SummarySpec SummaryProofs SnapshotModel SnapshotSpec SnapshotProofs.
Open Scope Z_scope.

(** C45, for snapshots none of whose files hides deleted rows and whose files that overlap in time are
    listed (level 0 first, then levels 1 to 4) in the order of their ids: a query of the replica and one of
    the source have the same answers.  Missing: the two cases below, in which they differ. *)
Theorem C45_replica_answers_partial : forall width bs contents dead v out, (1 <= bs)%nat -> snap_ok v ->
  files_ok width contents v ->
  (forall m, In m (concat (v_levels v)) -> live_rows (dead (m_id m)) (contents (m_id m)) = contents (m_id m)) ->
  listed_in_order v ->
  (answers width bs (version_chunks contents dead v) out <-> answers width bs (replica_chunks contents v) out).
Proof. exact snapshot_answers. Qed.
Print Assumptions C45_replica_answers_partial.

Definition file i l lo hi := MT i 10 l lo hi (l =? 0)%nat.
Definition rows_in (i : Z) : list mrow := if i =? 2 then [MR 1 [Some 10]] else if i =? 3 then [MR 1 [Some 20]; MR 4 [Some 40]] else [].
Lemma snap_two a b la lb : a <> b -> 0 < a -> 0 < b -> (la < lb < 5)%nat -> forall lo hi lo' hi',
  snap_ok (VER 9 9 (map (fun l => if (l =? la)%nat then [file a la lo hi] else if (l =? lb)%nat then [file b lb lo' hi'] else []) [0; 1; 2; 3; 4]%nat)).
Proof.
  intros N Pa Pb L lo hi lo' hi'. exists (FS [file a la lo hi; file b lb lo' hi'] 9). split; [|split; [cbn; lia|split]].
  - split; [reflexivity|]. split; [reflexivity|]. cbn [v_levels fs_files].
    assert (K : forall l, nth l (map (fun l => if (l =? la)%nat then [file a la lo hi] else if (l =? lb)%nat then [file b lb lo' hi'] else []) [0; 1; 2; 3; 4]%nat) []
                = if (l =? la)%nat then [file a la lo hi] else if (l =? lb)%nat then [file b lb lo' hi'] else []).
    { intros l. destruct (lt_dec l 5) as [H|H].
      - do 5 (destruct l as [|l]; [reflexivity|]). lia.
      - rewrite nth_overflow by (cbn; lia). destruct (l =? la)%nat eqn:E1; [apply Nat.eqb_eq in E1; lia|].
        destruct (l =? lb)%nat eqn:E2; [apply Nat.eqb_eq in E2; lia|]. reflexivity. }
    split; intros l; rewrite K.
    + intros m. destruct (l =? la)%nat eqn:E1; [|destruct (l =? lb)%nat eqn:E2]; cbn [In].
      * apply Nat.eqb_eq in E1. split; [intros [<-|[]]; auto|]. intros [[<-|[<-|[]]] E]; cbn in E; auto. lia.
      * apply Nat.eqb_eq in E2. split; [intros [<-|[]]; auto|]. intros [[<-|[<-|[]]] E]; cbn in E; auto. lia.
      * apply Nat.eqb_neq in E1, E2. split; [intros []|]. intros [[<-|[<-|[]]] E]; cbn in E; lia.
    + destruct (l =? la)%nat; [|destruct (l =? lb)%nat]; repeat constructor.
  - cbn. constructor; [cbn; intros [E|[]]; auto|]. constructor; [cbn; tauto|constructor].
  - cbn. intros m [<-|[<-|[]]]; cbn; lia.
Qed.
Ltac okfiles := intros m Hm; cbn in Hm; destruct Hm as [<-|[<-|[]]]; cbn; (split; [vm_compute; discriminate|]);
  (split; [cbn; lia|]); (split; cbn; [repeat constructor; cbn; lia|repeat constructor; cbn; lia]).

(** Two overlapping files of different levels, the newer one on the higher level. *)
Example C45_nonvacuous : let v := VER 9 9 [[file 2 0 1 1]; [file 3 1 1 4]; []; []; []] in
  snap_ok v /\ files_ok 1 rows_in v /\ listed_in_order v /\
  answers 1 4 (version_chunks rows_in (fun _ => []) v) [MR 1 [Some 20]; MR 4 [Some 40]] /\
  answers 1 4 (replica_chunks rows_in v) [MR 1 [Some 20]; MR 4 [Some 40]].
Proof.
  cbv zeta. split; [apply (snap_two 2 3 0 1); lia|]. split; [okfiles|].
  assert (LO : listed_in_order (VER 9 9 [[file 2 0 1 1]; [file 3 1 1 4]; []; []; []])).
  { intros l1 a l2 b l3 t E _ _. cbn in E. destruct l1 as [|x [|y l1]].
    - injection E as <- E. destruct l2 as [|y l2]; cbn in E; [injection E as <- E; cbn; lia|]. injection E as _ E. destruct l2; discriminate.
    - injection E as _ _ E. destruct l2; discriminate.
    - injection E as _ _ E. destruct l1; discriminate. }
  split; [exact LO|].
  assert (A : answers 1 4 (version_chunks rows_in (fun _ => []) (VER 9 9 [[file 2 0 1 1]; [file 3 1 1 4]; []; []; []])) [MR 1 [Some 20]; MR 4 [Some 40]]).
  { exists (version_chunks rows_in (fun _ => []) (VER 9 9 [[file 2 0 1 1]; [file 3 1 1 4]; []; []; []])). split; [|vm_compute; reflexivity].
    split; [apply Permutation_refl|]. cbn. constructor; [constructor; constructor|]. constructor; [|constructor]. right. cbn. lia. }
  split; [exact A|].
  apply (C45_replica_answers_partial 1 4 rows_in (fun _ => [])); auto.
  - apply (snap_two 2 3 0 1); lia.
  - okfiles.
  - intros m _. apply live_none.
Qed.

(** The full statement is false.  Files get new ids in the order of the snapshot, which lists level 0 (the
    newest data) first: here a row written again after a compaction shows its old value on the replica. *)
Theorem C45_renumbering_refuted : exists v contents new old,
  snap_ok v /\ files_ok 1 contents v /\ new <> old /\
  answers 1 4 (version_chunks contents (fun _ => []) v) [MR 1 [Some new]] /\
  answers 1 4 (replica_chunks contents v) [MR 1 [Some old]].
Proof.
  exists (VER 9 9 [[file 5 0 1 1]; [file 3 1 1 1]; []; []; []]), (fun i => if i =? 5 then [MR 1 [Some 20]] else if i =? 3 then [MR 1 [Some 10]] else []), 20, 10.
  split; [apply (snap_two 5 3 0 1); lia|]. split; [okfiles|]. split; [lia|].
  split; eexists; (split; [split; [apply Permutation_refl|]; vm_compute; constructor; [constructor; constructor|]; constructor; [|constructor]; right; cbn; split; [reflexivity|vm_compute; discriminate]|vm_compute; reflexivity]).
Qed.
Print Assumptions C45_renumbering_refuted.

(** Tombstone files are not part of a snapshot: a deleted row that is still in a file is back on the replica. *)
Theorem C45_deleted_rows_refuted : exists v contents dead r,
  snap_ok v /\ files_ok 1 contents v /\ listed_in_order v /\
  answers 1 4 (version_chunks contents dead v) [] /\ answers 1 4 (replica_chunks contents v) [r].
Proof.
  exists (VER 9 9 [[file 2 0 1 1]; [file 3 1 7 7]; []; []; []]), (fun i => if i =? 2 then [MR 1 [Some 10]] else []), (fun i => [(0, 5)]), (MR 1 [Some 10]).
  split; [apply (snap_two 2 3 0 1); lia|]. split; [okfiles|]. split.
  { intros l1 a l2 b l3 t E _ _. cbn in E. destruct l1 as [|x [|y l1]].
    - injection E as <- E. destruct l2 as [|y l2]; cbn in E; [injection E as <- E; cbn; lia|]. injection E as _ E. destruct l2; discriminate.
    - injection E as _ _ E. destruct l2; discriminate.
    - injection E as _ _ E. destruct l1; discriminate. }
  split; eexists; (split; [split; [apply Permutation_refl|]; vm_compute; constructor; [constructor; constructor|]; constructor; [|constructor]; left; cbn; reflexivity|vm_compute; reflexivity]).
Qed.
Print Assumptions C45_deleted_rows_refuted.
