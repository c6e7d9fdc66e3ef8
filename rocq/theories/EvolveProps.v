(** Compaction keeps the values of every column when the schema has changed (C58). *)
From Verif Require Import Prelude MergeModel MergeSpec MergeProofs CompactModel CompactSpec CompactProofs EvolveModel EvolveSpec EvolveProofs.
Open Scope Z_scope.

(** Whatever columns the blocks have, whatever they are called and in whatever order they come, however
    blocks overlap, with any tombstones, block size and output range: for any columns [U], given by id,
    the file written has one row per time stamp left in the output range, in order, with the last
    non-null value of each column.  Missing: files whose schema version does not tell which columns
    they have ([labels_ok]); the code writes such files, see below. *)
Theorem C58_values_kept_partial : forall U block_size lo hi fs, (1 <= block_size)%nat ->
  Forall sfile_ok fs -> labels_ok U fs ->
  exists out, s_compact block_size lo hi fs = Some out /\
    merged (length U) (in_window lo hi (rows_before U fs)) (rows_after U out).
Proof. intros. apply s_compact_ok; auto. Qed.
Print Assumptions C58_values_kept_partial.

(** Without any condition on the versions: no row is lost or invented, … *)
Theorem C58_rows_kept : forall block_size lo hi fs, (1 <= block_size)%nat -> Forall sfile_ok fs ->
  exists out, s_compact block_size lo hi fs = Some out /\
    StronglySorted (fun a b => r_ts a < r_ts b) (rows_after [] out) /\
    forall t, In t (map r_ts (rows_after [] out)) <-> lo <= t <= hi /\ In t (map r_ts (rows_before [] fs)).
Proof.
  intros bs lo hi fs Hbs Hok. destruct (s_compact_ok [] bs lo hi fs Hbs Hok) as (out & E & M1 & M2 & _).
  - intros f b f' b' _ _ _ _ _ u [].
  - exists out. split; auto. split; auto. intros t. rewrite M2, !in_map_iff. unfold in_window. split.
    + intros (r & <- & Hr). apply filter_In in Hr as [Hr1 Hr2]. apply andb_true_iff in Hr2 as [L1 L2]. split; [lia|]. exists r. auto.
    + intros (L & r & <- & Hr). exists r. split; auto. apply filter_In. split; auto. apply andb_true_iff. lia.
Qed.
Print Assumptions C58_rows_kept.

(** … and a column that all the blocks have keeps its values. *)
Theorem C58_common_column_kept : forall u block_size lo hi fs, (1 <= block_size)%nat -> Forall sfile_ok fs ->
  (forall f b, In f fs -> In b (sf_blocks f) -> has u b) ->
  exists out, s_compact block_size lo hi fs = Some out /\
    merged 1 (in_window lo hi (rows_before [u] fs)) (rows_after [u] out).
Proof.
  intros u bs lo hi fs Hbs Hok HU. apply (s_compact_ok [u] bs lo hi fs Hbs Hok).
  intros f b f' b' _ _ Hf' Hb' _ v [<- | []] _. apply (HU f' b'); auto.
Qed.
Print Assumptions C58_common_column_kept.

(** ** Examples *)
Definition ex_a := COL 1 1.
Definition ex_x := COL 2 2.
Lemma flush_ok others ver cols rows lo hi : min_ts rows = lo -> max_ts rows = hi -> I64_MIN <= lo -> lo <= hi -> hi <= I64_MAX ->
  rows_ok (length cols) lo hi rows -> sfile_ok (flush_file others ver cols rows).
Proof.
  intros <- <- H1 H2 H3 HR. unfold flush_file. split; cbn [sf_blocks sf_tomb]; [constructor; constructor|]. constructor; [|constructor].
  unfold sblock_ok. cbn [sb_min sb_max sb_cols sb_raw sb_live]. split; [exact H1|]. split; [exact H2|]. split; [exact H3|]. split; [exact HR|]. split; [exact HR|].
  reflexivity.
Qed.
Ltac sorted_rows := split; [repeat (constructor; [|repeat constructor; cbn; lia]); constructor|repeat constructor; cbn; lia].

(** A table has column a; x is added; three flushes: two before, one after. *)
Definition ex_G0 := flush_file [] 1 [ex_a] [MR 10 [Some 5]].
Definition ex_G1 := flush_file [] 1 [ex_a] [MR 30 [Some 5]; MR 40 [Some 5]].
Definition ex_G2 := flush_file [] 2 [ex_a; ex_x] [MR 35 [Some 6; Some 7]; MR 40 [None; Some 8]].
Lemma ex_ok : Forall sfile_ok [ex_G0; ex_G1; ex_G2].
Proof.
  repeat apply Forall_cons; try apply Forall_nil.
  - eapply flush_ok; [vm_compute; reflexivity|vm_compute; reflexivity|vm_compute; discriminate|lia|vm_compute; discriminate|sorted_rows].
  - eapply flush_ok; [vm_compute; reflexivity|vm_compute; reflexivity|vm_compute; discriminate|lia|vm_compute; discriminate|sorted_rows].
  - eapply flush_ok; [vm_compute; reflexivity|vm_compute; reflexivity|vm_compute; discriminate|lia|vm_compute; discriminate|sorted_rows].
Qed.
Example C58_example : (1 <= 1000)%nat /\ Forall sfile_ok [ex_G0; ex_G1; ex_G2] /\ labels_ok [1; 2] [ex_G0; ex_G1; ex_G2] /\
  option_map (rows_after [1; 2]) (s_compact 1000 I64_MIN I64_MAX [ex_G0; ex_G1; ex_G2])
  = Some [MR 10 [Some 5; None]; MR 30 [Some 5; None]; MR 35 [Some 6; Some 7]; MR 40 [Some 5; Some 8]].
Proof.
  split; [apply Nat.leb_le; reflexivity|]. split; [exact ex_ok|]. split; [|vm_compute; reflexivity].
  intros f b f' b' Hf Hb Hf' Hb'. destruct Hf as [<- | [<- | [<- | []]]], Hf' as [<- | [<- | [<- | []]]]; destruct Hb as [<- | []], Hb' as [<- | []];
    cbn; intros L u Hu; try lia; tauto.
Qed.

(** ** Cases that break it *)
(** The file of a flush carries the newest version of all series in the cache.  Series s was last
    written before x was added, another series of the table after: s's block has no x but its file has
    the new version.  After the next flush, that has x for s, a compaction of the two takes the columns
    of the first file for both: the value of x is gone. *)
Theorem C58_values_kept_flush_refuted :
  exists old new out, old = flush_file [2] 1 [ex_a] [MR 10 [Some 5]] /\ new = flush_file [] 2 [ex_a; ex_x] [MR 20 [Some 6; Some 7]] /\
    Forall sfile_ok [old; new] /\ s_compact 1000 I64_MIN I64_MAX [old; new] = Some out /\
    In (MR 20 [Some 7]) (rows_before [2] [old; new]) /\ In (MR 20 [None]) (rows_after [2] out) /\
    forall r, In r (rows_after [2] out) -> r_cols r = [None].
Proof.
  eexists; eexists; eexists. split; [reflexivity|]. split; [reflexivity|]. split.
  { repeat apply Forall_cons; try apply Forall_nil;
    (eapply flush_ok; [vm_compute; reflexivity|vm_compute; reflexivity|vm_compute; discriminate|lia|vm_compute; discriminate|sorted_rows]). }
  split; [vm_compute; reflexivity|]. split; [vm_compute; auto|]. split; [vm_compute; auto|].
  vm_compute. intros r [<- | [<- | []]]; reflexivity.
Qed.
Print Assumptions C58_values_kept_flush_refuted.

(** The file a compaction writes carries, for a merged block, the version of the first of its blocks,
    not of the newest.  Here all versions of the flushes are right; the first compaction keeps x but
    labels its file with version 1; the second, with the other file of version 1, drops x. *)
Theorem C58_values_kept_output_refuted :
  exists out1 out2, Forall sfile_ok [ex_G0; ex_G1; ex_G2] /\ labels_ok [1; 2] [ex_G0; ex_G1; ex_G2] /\
    s_compact 1000 I64_MIN I64_MAX [ex_G1; ex_G2] = Some out1 /\ sfile_ok (out_file out1) /\
    In (MR 35 [Some 7]) (rows_after [2] out1) /\
    s_compact 1000 I64_MIN I64_MAX [ex_G0; out_file out1] = Some out2 /\
    In (MR 35 [Some 7]) (rows_before [2] [ex_G0; out_file out1]) /\
    forall r, In r (rows_after [2] out2) -> r_cols r = [None].
Proof.
  eexists; eexists. split; [exact ex_ok|]. split; [exact (proj1 (proj2 (proj2 C58_example)))|]. split; [vm_compute; reflexivity|]. split.
  { split; [repeat constructor|]. cbn [out_file sf_blocks sf_tomb map stored]. constructor; [|constructor]. unfold sblock_ok. cbn [sb_min sb_max sb_cols sb_raw sb_live rb_rows rb_cols length].
    split; [vm_compute; discriminate|]. split; [vm_compute; discriminate|]. split; [vm_compute; discriminate|].
    split; [|split; [|reflexivity]]; (split; [repeat (constructor; [|repeat constructor; cbn; lia]); constructor|]); repeat constructor; vm_compute; discriminate. }
  split; [vm_compute; auto|]. split; [vm_compute; reflexivity|]. split; [vm_compute; auto 10|].
  vm_compute. intros r H. repeat (destruct H as [<- | H]; [reflexivity|]). destruct H.
Qed.
Print Assumptions C58_values_kept_output_refuted.
