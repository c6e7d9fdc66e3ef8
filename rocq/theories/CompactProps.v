(** Compaction does not change what a query sees (C25). *)
From Verif Require Import Prelude MergeModel MergeSpec MergeProofs MemProofs ReadModel ReadSpec ReadProofs CompactModel CompactSpec CompactProofs.
Open Scope Z_scope.

(** Whatever the blocks, overlaps, tombstones, block size and output range: for every series the
    output has one row per live time stamp inside the output range, in order, with the last non-null
    value of each column in the order of the request.  Missing (see below): requests whose first
    series ids are not in ascending order. *)
Theorem C25_compact_content_partial : forall width block_size lo hi fs, (1 <= block_size)%nat ->
  request_ok width fs -> by_first_series fs ->
  exists out, compact_files width block_size lo hi fs = Some out /\
    (forall sid, merged width (in_window lo hi (live_rows sid fs)) (written sid out)) /\
    StronglySorted (fun a b => fst a <= fst b) out.
Proof. intros. apply compact_files_ok; auto. Qed.
Print Assumptions C25_compact_content_partial.

(** Queries: let [older] and [newer] be the rows of the same series that take lower and higher
    precedence than all compacted files.  If a query sees [res] before, it sees [res] after the files
    are replaced by the output and what they have outside the output range. *)
Theorem C25_query_unchanged_partial : forall width block_size lo hi fs out, (1 <= block_size)%nat ->
  request_ok width fs -> by_first_series fs ->
  compact_files width block_size lo hi fs = Some out ->
  forall sid older newer res,
  merged width (older ++ live_rows sid fs ++ newer) res ->
  merged width (older ++ (written sid out ++ outside lo hi (live_rows sid fs)) ++ newer) res /\
  merged width (older ++ (outside lo hi (live_rows sid fs) ++ written sid out) ++ newer) res.
Proof.
  intros width bs lo hi fs out Hbs HR HB HC sid A B res M.
  destruct (compact_files_ok width bs lo hi fs Hbs HR HB) as (out' & E & W & _). rewrite HC in E. injection E as <-.
  specialize (W sid). change (cut lo hi (live_rows sid fs)) with (in_window lo hi (live_rows sid fs)) in W.
  split.
  - rewrite <- app_assoc. apply (merged_subst_r width A (in_window lo hi (live_rows sid fs))); auto.
    eapply merged_rows; [|exact M]. intros t. rewrite (app_assoc (in_window _ _ _)), !(rows_at_app t A), !(rows_at_app t _ B).
    rewrite (proj1 (window_split lo hi t (live_rows sid fs))). reflexivity.
  - rewrite <- app_assoc, app_assoc. apply (merged_subst_r width _ (in_window lo hi (live_rows sid fs))); auto.
    eapply merged_rows; [|exact M]. intros t. rewrite <- app_assoc, (app_assoc (outside _ _ _)), !(rows_at_app t A), !(rows_at_app t _ B).
    rewrite (proj2 (window_split lo hi t (live_rows sid fs))). reflexivity.
Qed.
Print Assumptions C25_query_unchanged_partial.

(** The same through the reader: the chunks of a series before and after a full compaction, with
    the output's file id in the place of the ids of the inputs. *)
Theorem C25_read_unchanged_partial : forall width block_size fs out, (1 <= block_size)%nat ->
  request_ok width fs -> by_first_series fs ->
  compact_files width block_size I64_MIN I64_MAX fs = Some out ->
  forall sid older inputs newer output batch_size before after,
  (1 <= batch_size)%nat ->
  map c_rows inputs = map (file_rows sid) fs -> c_rows output = written sid out ->
  Forall (chunk_ok width) (output :: older ++ inputs ++ newer) ->
  Forall (fun c => I64_MIN <= c_max c) (output :: older ++ inputs ++ newer) ->
  Forall (fun c => Forall (fun r => I64_MIN <= r_ts r <= I64_MAX) (c_rows c)) inputs ->
  file_sorted (older ++ inputs ++ newer) (older ++ inputs ++ newer) ->
  file_sorted (older ++ [output] ++ newer) (older ++ [output] ++ newer) ->
  time_sorted (older ++ inputs ++ newer) before -> time_sorted (older ++ [output] ++ newer) after ->
  read_series width batch_size (fun _ => true) after = read_series width batch_size (fun _ => true) before.
Proof.
  intros width bs fs out Hbs HR HB HC sid A I B o bs2 l1 l2 Hbs2 HI HO Hok Hlow Hts F1 F2 T1 T2.
  inversion Hok as [|? ? Ok1 Ok2]; subst. inversion Hlow as [|? ? Lo1 Lo2]; subst.
  assert (Ok3 : Forall (chunk_ok width) (A ++ [o] ++ B)).
  { rewrite !Forall_app in *. intuition. }
  assert (Lo3 : Forall (fun c => I64_MIN <= c_max c) (A ++ [o] ++ B)).
  { rewrite !Forall_app in *. intuition. }
  destruct (read_series_ok width bs2 (fun _ => true) (A ++ I ++ B) l1 (A ++ I ++ B)) as (o1 & -> & M1); auto.
  destruct (read_series_ok width bs2 (fun _ => true) (A ++ [o] ++ B) l2 (A ++ [o] ++ B)) as (o2 & -> & M2); auto.
  f_equal. rewrite filter_true in M1, M2 by auto.
  assert (EI : concat (map c_rows I) = live_rows sid fs) by (rewrite HI; reflexivity).
  destruct (compact_files_ok width bs I64_MIN I64_MAX fs Hbs HR HB) as (out' & E & W & _). rewrite HC in E. injection E as <-.
  specialize (W sid). rewrite cut_id in W.
  2:{ rewrite <- EI. apply Forall_forall. intros r Hr. apply in_concat in Hr as (x & Hx & Hr). apply in_map_iff in Hx as (c & <- & Hc).
      rewrite Forall_forall in Hts. specialize (Hts c Hc). rewrite Forall_forall in Hts. auto. }
  rewrite !map_app, !concat_app in M1, M2. cbn [map concat] in M2. rewrite app_nil_r, HO in M2. rewrite EI in M1.
  eapply merged_unique; [exact M2|]. apply (merged_subst_r width _ (live_rows sid fs)); auto.
Qed.
Print Assumptions C25_read_unchanged_partial.

Definition one_row (t v : Z) : cblock := CB t t [MR t [Some v]] [MR t [Some v]].
Lemma one_row_ok t v tomb : I64_MIN <= t <= I64_MAX -> block_ok 1 tomb (one_row t v).
Proof. intros H. unfold block_ok, rows_ok, one_row. cbn. repeat (split || constructor || lia || (cbn; lia)). Qed.

(** The full statement is false: the files are not sorted by their first series id before the first
    series is picked.  Here series 5 of the second file is not merged with that of the first, and the
    output has two rows with time stamp 1. *)
Theorem C25_file_order_refuted : exists fs out,
  request_ok 1 fs /\ Forall (fun f => f_series f <> []) fs /\
  compact_files 1 1000 I64_MIN I64_MAX fs = Some out /\
  live_rows 5 fs = [MR 1 [Some 10]; MR 1 [Some 20]] /\
  written 5 out = [MR 1 [Some 10]; MR 1 [Some 20]] /\
  ~ merged 1 (live_rows 5 fs) (written 5 out).
Proof.
  set (fs := [CF 0 false [(5, [one_row 1 10])]; CF 1 false [(3, [one_row 1 7]); (5, [one_row 1 20])]]).
  assert (HB : forall t v, I64_MIN <= t <= I64_MAX -> Forall (block_ok 1 false) [one_row t v]) by (intros; constructor; [apply one_row_ok; auto|constructor]).
  eexists fs, _. split; [split; [reflexivity|]|split; [repeat constructor; discriminate|split; [vm_compute; reflexivity|]]].
  - constructor; [|constructor; [|constructor]]; split.
    + repeat constructor.
    + constructor; [|constructor]. cbn [snd]. split; [repeat constructor|]. apply HB. vm_compute; split; discriminate.
    + cbn [f_series]. constructor; [repeat constructor|]. constructor; [cbn; lia|constructor].
    + constructor; [|constructor; [|constructor]]; cbn [snd]; (split; [repeat constructor|apply HB; vm_compute; split; discriminate]).
  - split; [reflexivity|]. split; [reflexivity|]. intros (S & _). cbn in S. apply StronglySorted_inv in S as [_ S]. inversion S; subst. cbn in *. lia.
Qed.
Print Assumptions C25_file_order_refuted.

(** A level compaction takes its files in the order of their smallest time stamps, while queries
    give precedence by file id: with file 2 starting before file 1, the old value comes back. *)
Theorem C25_picker_order_refuted : exists (file1 file2 : Z * Z * cfile) fs out before after,
  let '(min1, size1, f1) := file1 in let '(min2, size2, f2) := file2 in
  let by_id := [CF 0 false (f_series f1); CF 1 false (f_series f2)] in
  map (fun x => f_series (snd x)) (pick_order [file1; file2]) = map f_series fs /\
  request_ok 1 fs /\ by_first_series fs /\ request_ok 1 by_id /\
  compact_files 1 1000 I64_MIN I64_MAX fs = Some out /\
  merged 1 (live_rows 5 by_id) before /\ written 5 out = after /\
  before = [MR 1 [Some 7]; MR 2 [Some 20]] /\ after = [MR 1 [Some 7]; MR 2 [Some 10]].
Proof.
  set (s1 := [(5, [one_row 2 10])]). set (s2 := [(5, [one_row 1 7; one_row 2 20])]).
  exists (2, 100, CF 0 false s1), (1, 200, CF 0 false s2), [CF 0 false s2; CF 1 false s1].
  eexists. exists [MR 1 [Some 7]; MR 2 [Some 20]], [MR 1 [Some 7]; MR 2 [Some 10]]. cbn zeta.
  assert (H1 : file_ok 1 (CF 0 false s1) /\ file_ok 1 (CF 1 false s1)).
  { split; (split; [repeat constructor|]); (constructor; [|constructor]); cbn [snd]; (split; [repeat constructor|]);
      (constructor; [apply one_row_ok; vm_compute; split; discriminate|constructor]). }
  assert (H2 : file_ok 1 (CF 0 false s2) /\ file_ok 1 (CF 1 false s2)).
  { split; (split; [repeat constructor|]); (constructor; [|constructor]); cbn [snd];
      (split; [constructor; [repeat constructor|constructor; [cbn; lia|constructor]]|]);
      (constructor; [apply one_row_ok; vm_compute; split; discriminate|constructor; [apply one_row_ok; vm_compute; split; discriminate|constructor]]). }
  split; [vm_compute; reflexivity|]. split; [split; [reflexivity|constructor; [apply H2|constructor; [apply H1|constructor]]]|].
  split; [split; [repeat constructor; discriminate|constructor; [repeat constructor|constructor; [cbn; lia|constructor]]]|].
  split; [split; [reflexivity|constructor; [apply H1|constructor; [apply H2|constructor]]]|].
  split; [vm_compute; reflexivity|]. split; [|split; [vm_compute; reflexivity|auto]].
  split; [repeat constructor; cbn; lia|]. split; [intros t; cbn; tauto|].
  intros r [<- | [<- | []]]; (split; [reflexivity|]); intros c Hc; assert (c = 0)%nat as -> by lia; reflexivity.
Qed.
Print Assumptions C25_picker_order_refuted.

Local Ltac blk := repeat match goal with
  | |- _ /\ _ => split
  | |- StronglySorted _ [] => apply SSorted_nil
  | |- StronglySorted _ _ => apply SSorted_cons
  | |- Forall _ [] => apply Forall_nil
  | |- Forall _ _ => apply Forall_cons
  | |- _ -> _ => intros
  end; try reflexivity; try discriminate; cbn; try lia; vm_compute; try discriminate; auto.
(** Non-vacuity: two files, one with a deleted row, three blocks, a small block size. *)
Example C25_nonvacuous : exists fs out,
  request_ok 1 fs /\ by_first_series fs /\ compact_files 1 2 I64_MIN I64_MAX fs = Some out /\
  live_rows 3 fs = [MR 1 [Some 1]; MR 2 [Some 2]; MR 9 [Some 9]; MR 2 [Some 20]; MR 4 [Some 40]] /\
  written 3 out = [MR 1 [Some 1]; MR 2 [Some 20]; MR 4 [Some 40]; MR 9 [Some 9]] /\
  written 8 out = [MR 5 [Some 5]].
Proof.
  set (b1 := CB 1 2 [MR 1 [Some 1]; MR 2 [Some 2]] [MR 1 [Some 1]; MR 2 [Some 2]]).
  set (b2 := CB 2 4 [MR 2 [Some 20]; MR 3 [Some 30]; MR 4 [Some 40]] [MR 2 [Some 20]; MR 4 [Some 40]]).
  exists [CF 0 false [(3, [b1; one_row 9 9]); (8, [one_row 5 5])]; CF 1 true [(3, [b2])]].
  eexists. split; [|split; [|split; [vm_compute; reflexivity|split; [reflexivity|split; reflexivity]]]].
  - assert (K1 : block_ok 1 false b1).
    { unfold block_ok, rows_ok, b1. cbn [b_min b_max b_raw b_live]. blk. }
    assert (K2 : block_ok 1 true b2).
    { unfold block_ok, rows_ok, b2. cbn [b_min b_max b_raw b_live]. blk. }
    assert (K3 : block_ok 1 false (one_row 9 9)) by (apply one_row_ok; vm_compute; split; discriminate).
    assert (K4 : block_ok 1 false (one_row 5 5)) by (apply one_row_ok; vm_compute; split; discriminate).
    split; [reflexivity|]. constructor; [|constructor; [|constructor]]; split.
    + cbn [f_series]. constructor; [repeat constructor|constructor; [cbn; lia|constructor]].
    + constructor; [|constructor; [|constructor]]; cbn [snd].
      * split; [constructor; [repeat constructor|constructor; [cbn; lia|constructor]]|]. constructor; [auto|constructor; [auto|constructor]].
      * split; [repeat constructor|]. constructor; [auto|constructor].
    + repeat constructor.
    + constructor; [|constructor]. cbn [snd]. split; [repeat constructor|]. constructor; [auto|constructor].
  - split; [repeat constructor; discriminate|]. constructor; [repeat constructor|constructor; [cbn; lia|constructor]].
Qed.
