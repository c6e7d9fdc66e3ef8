(** C11, C12: the in-memory cache. *)
From Verif Require Import Prelude MergeModel MergeSpec MemModel MemSpec MemProofs.

(** Reading a series returns, for every history of writes and deletes, one row per time stamp
    written and not deleted since, in increasing order, each column of the latest schema holding the
    most recently written non-null value.
    Missing: batches with two rows of one time stamp, time stamp [i64::MAX], and schema versions
    arriving out of order; each is refuted below. *)
Theorem C11_latest_write_partial parts h inr sid :
  (1 <= parts)%nat -> Forall write_ok h -> schemas_ok (schemas sid h) ->
  let cols := last_columns sid h in
  merged (length cols) (filter (fun r => inr (r_ts r)) (series_rows sid cols (points h)))
         (mc_read inr (crun parts h) sid).
Proof. apply mc_latest_ok. Qed.
Print Assumptions C11_latest_write_partial.

(** For every history at all (duplicates in a batch and schema versions in any order included) a
    read returns each existing time stamp except [i64::MAX] once, in order, and every value it
    returns was written for that series, time stamp and column; a column is null only when no
    existing point has a value for it. *)
Theorem C11_only_written_values parts h inr sid :
  (1 <= parts)%nat -> Forall ts_ok h -> one_schema (schemas sid h) ->
  exists cols, (schemas sid h <> [] -> In cols (map snd (schemas sid h))) /\
  let out := mc_read inr (crun parts h) sid in
  StronglySorted (fun a b => r_ts a < r_ts b) out /\
  (forall t, In t (map r_ts out) <-> inr t = true /\ t < I64_MAX /\ exists p, In p (points h) /\ p_sid p = sid /\ p_ts p = t) /\
  forall r, In r out -> length (r_cols r) = length cols /\
    forall i, (i < length cols)%nat ->
      match col i r with
      | Some v => exists p, In p (points h) /\ p_sid p = sid /\ p_ts p = r_ts r /\ assoc (nth i cols 0) (p_vals p) = Some v
      | None => forall p, In p (points h) -> p_sid p = sid -> p_ts p = r_ts r -> assoc (nth i cols 0) (p_vals p) = None
      end.
Proof. apply mc_any_ok. Qed.
Print Assumptions C11_only_written_values.

(** A delete removes from what a read returns exactly the rows of the named series inside the time
    ranges; every other row, and every other series, reads as before.  No hypothesis on the history
    beyond 64-bit time stamps. *)
Theorem C12_delete_exact parts h sids trs inr sid :
  (1 <= parts)%nat -> Forall ts_ok h ->
  mc_read inr (crun parts (h ++ [CDelete sids trs])) sid =
  if mem_z sid sids then filter (fun r => negb (in_ranges trs (r_ts r))) (mc_read inr (crun parts h) sid)
  else mc_read inr (crun parts h) sid.
Proof.
  intros Hp Ho. rewrite mc_delete_ok by auto. cbn [dropped]. destruct (mem_z sid sids); cbn [andb negb]; auto.
  apply filter_true. auto.
Qed.
Print Assumptions C12_delete_exact.

(** The same for the request that drops whole series in one time range. *)
Theorem C12_delete_series_exact parts h sids lo hi inr sid :
  (1 <= parts)%nat -> Forall ts_ok h ->
  mc_read inr (crun parts (h ++ [CDeleteSeries sids lo hi])) sid =
  if mem_z sid sids then filter (fun r => negb (in_range (lo, hi) (r_ts r))) (mc_read inr (crun parts h) sid)
  else mc_read inr (crun parts h) sid.
Proof.
  intros Hp Ho. rewrite mc_delete_ok by auto. cbn [dropped]. destruct (mem_z sid sids); cbn [andb negb]; auto.
  apply filter_true. auto.
Qed.
Print Assumptions C12_delete_series_exact.

(** A write to one series leaves every other series as it was. *)
Theorem C12_write_elsewhere parts h s ver cols rows inr sid :
  (1 <= parts)%nat -> Forall ts_ok h -> s <> sid ->
  mc_read inr (crun parts (h ++ [CWrite s ver cols rows])) sid = mc_read inr (crun parts h) sid.
Proof.
  intros Hp Ho Hne. destruct (crun_wk parts h Hp Ho) as [A _]. rewrite crun_snoc, !mc_read_sd.
  destruct (cstep_write (crun parts h) s ver cols rows sid) as [_ ->]; [lia|].
  destruct (Z.eqb_spec s sid); congruence.
Qed.
Print Assumptions C12_write_elsewhere.

(** FINDING: two rows of one series and time stamp in one batch, written into a cache that already
    holds rows of that series: the earlier row of the batch wins.  Into an empty cache the later one
    wins. *)
Definition r1 t v := MR t [Some v].
Theorem C11_duplicates_refuted : exists h,
  schemas_ok (schemas 7 h) /\ Forall ts_ok h /\
  ~ merged 1 (series_rows 7 [1] (points h)) (mc_read (fun _ => true) (crun 4 h) 7) /\
  mc_read (fun _ => true) (crun 4 h) 7 = [r1 0 5; r1 1 10] /\
  mc_read (fun _ => true) (crun 4 (tl h)) 7 = [r1 1 20].
Proof.
  exists [CWrite 7 1 [1] [r1 0 5]; CWrite 7 1 [1] [r1 1 10; r1 1 20]]. sp.
  - constructor; [repeat constructor|]. constructor; [right; reflexivity|constructor].
  - repeat constructor; cbn; try apply I; unfold is_i64; i64; cbn; lia.
  - intros (_ & _ & H). specialize (H (r1 1 10)). destruct H as [_ H]; [vm_compute; auto|].
    specialize (H O ltac:(lia)). vm_compute in H. discriminate.
  - vm_compute. reflexivity.
  - vm_compute. reflexivity.
Qed.
Print Assumptions C11_duplicates_refuted.

(** FINDING: a row at the largest time stamp is accepted and never returned. *)
Theorem C11_max_timestamp_refuted : exists h,
  schemas_ok (schemas 7 h) /\ Forall ts_ok h /\ Forall dup_free h /\
  points h <> [] /\ mc_read (fun _ => true) (crun 4 h) 7 = [].
Proof.
  exists [CWrite 7 1 [1] [r1 I64_MAX 5]]. sp.
  - repeat constructor.
  - repeat constructor; cbn; unfold is_i64; i64; cbn; lia.
  - repeat constructor; cbn; tauto.
  - discriminate.
  - vm_compute. reflexivity.
Qed.
Print Assumptions C11_max_timestamp_refuted.

(** FINDING: a write encoded with an older schema version, arriving after one with a newer version,
    does not replace the older value. *)
Theorem C11_older_schema_refuted : exists h,
  Forall write_ok h /\ one_schema (schemas 7 h) /\
  mc_read (fun _ => true) (crun 4 h) 7 = [MR 1 [Some 11; None]] /\
  map p_vals (points h) = [[(1, Some 10)]; [(1, Some 11); (2, None)]; [(1, Some 12)]].
Proof.
  exists [CWrite 7 1 [1] [r1 1 10]; CWrite 7 2 [1; 2] [MR 1 [Some 11; None]]; CWrite 7 1 [1] [r1 1 12]]. sp.
  - repeat constructor; cbn; try tauto; i64; cbn; lia.
  - intros v c c' H H'. cbn in H, H'.
    repeat match goal with H : _ \/ _ |- _ => destruct H as [H|H] | H : False |- _ => destruct H end; congruence.
  - vm_compute. reflexivity.
  - vm_compute. reflexivity.
Qed.
Print Assumptions C11_older_schema_refuted.

(** FINDING: dropping a column changes another one: the value 11 of column 1 was the latest; after
    column 2 is dropped from the cache, the older value 10 is read. *)
Theorem C11_drop_column_refuted : exists h,
  Forall write_ok h /\ schemas_ok (schemas 7 h) /\
  mc_read (fun _ => true) (crun 4 h) 7 = [MR 1 [Some 11; Some 3]] /\
  mc_read (fun _ => true) (mc_drop_columns (crun 4 h) [7] [2]) 7 = [MR 1 [Some 10]].
Proof.
  exists [CWrite 7 1 [1; 2] [MR 1 [Some 10; Some 3]]; CWrite 7 1 [1; 2] [MR 1 [Some 11; None]]]. sp.
  - repeat constructor; cbn; try tauto; i64; cbn; lia.
  - constructor; [repeat constructor|]. constructor; [right; reflexivity|constructor].
  - vm_compute. reflexivity.
  - vm_compute. reflexivity.
Qed.
Print Assumptions C11_drop_column_refuted.

(** Non-vacuity: two series in one partition, two schema versions, an overwrite with a null, a
    delete and a rewrite of the deleted time stamp. *)
Definition exh : list cop :=
  [CWrite 7 1 [1; 2] [MR 5 [Some 10; Some 3]; MR 1 [Some 1; None]];
   CWrite 11 1 [1; 2] [MR 5 [Some 100; None]];
   CWrite 7 1 [1; 2] [MR 5 [None; Some 4]; MR 9 [Some 8; None]];
   CDelete [11; 7; 7] [(0, 2); (9, 20)];
   CWrite 7 2 [1; 2; 6] [MR 5 [Some 12; None; None]; MR 9 [None; None; Some 77]]].
Example C11_nonvacuous :
  Forall write_ok exh /\ schemas_ok (schemas 7 exh) /\ one_schema (schemas 7 exh) /\ last_columns 7 exh = [1; 2; 6] /\
  mc_read (fun _ => true) (crun 4 exh) 7 = [MR 5 [Some 12; Some 4; None]; MR 9 [None; None; Some 77]] /\
  mc_read (fun t => t <? 6) (crun 4 exh) 7 = [MR 5 [Some 12; Some 4; None]] /\
  mc_read (fun _ => true) (crun 4 exh) 11 = [MR 5 [Some 100; None]].
Proof.
  sp.
  - repeat constructor; cbn; try (i64; lia); try lia; intuition discriminate.
  - cbn [schemas exh Z.eqb Pos.eqb]. constructor; [constructor; [repeat constructor|]|]; repeat (constructor; [first [left; cbn; lia | right; reflexivity]|]); constructor.
  - intros v c c' H H'. cbn in H, H'.
    repeat match goal with H : _ \/ _ |- _ => destruct H as [H|H] | H : False |- _ => destruct H end; congruence.
  - reflexivity.
  - vm_compute. reflexivity.
  - vm_compute. reflexivity.
  - vm_compute. reflexivity.
Qed.
