(** C55: what is written to a TSM file is read back. *)
From Verif Require Import Prelude TimeRangeModel TimeRangeSpec TsmModel TsmSpec TsmProofs TsmProofs2 TsmProofs3 TsmProofs4 TsmToy.

(** A file takes a history of writes exactly when the blocks of each series come in the order of time. *)
Theorem C55_accepts : forall E c ws, env_ok E -> Forall (write_ok E) ws -> one_table ws -> ((exists b, write_file E c ws = Some b) <-> time_ordered ws).
Proof.
  intros E c ws OK F OT. split; [|apply write_file_some; auto]. intros [b Q]. unfold write_file in Q. destruct (ordered_dec ws) as [T|T]; auto.
  rewrite (proj2 (writes_inv E c ws F) T) in Q. discriminate.
Qed.
Print Assumptions C55_accepts.

(** Opening the file gives back every block of every series with its pages, ranges, table, key and the newest schemas, with the metadata
    compressed or not, and after any history of tag updates (with the metadata not compressed) the same with the new keys. *)
Theorem C55_read_back : forall E c ws b kss, env_ok E -> Forall (write_ok E) ws -> one_table ws -> write_file E c ws = Some b ->
  exists b' r, updates E kss b = Ok b' /\ tsm_open E b' = Ok r /\ gives_back E r ws (key_after kss).
Proof.
  intros E c ws b kss OK F OT Q. destruct (updates_good E kss ws OK OT kid b (file_good E c ws b OK F OT Q)) as (b' & U & G).
  destruct (good_gives E _ ws b' OK F OT G) as (r & R & X). exists b', r. auto.
Qed.
Print Assumptions C55_read_back.

(** Copying the bytes of a block to another file without decoding them, as compaction does, is the same as writing its pages. *)
Theorem C55_raw_copy : forall E c ws b r x i y, env_ok E -> Forall (write_ok E) ws -> one_table ws -> write_file E c ws = Some b -> tsm_open E b = Ok r ->
  In x ws -> nth_error (writes_of (sc_name (x_schema x)) (x_sid x) ws) i = Some y ->
  exists ch raw, aget (x_sid x) (r_chunks r) = Some ch /\ read_raw r (x_sid x) i = Ok raw /\ raw = concat (map pg_bytes (x_pages y)) /\
  forall s w, write_raw s ch i raw w = write_pages s (x_sid x) (tc_key ch) (x_pages y) (x_tr y) w.
Proof.
  intros E c ws b r x i y OK F OT Q R I N. destruct (file_good E c ws b OK F OT Q) as (w & r' & C & R' & O). rewrite R in R'. injection R' as <-.
  destruct (core_raw E kid ws w C OT b r O x i y I N) as (ch & A & B & D). exists ch, (body (x_pages y)). auto.
Qed.
Print Assumptions C55_raw_copy.

(** The filter in the footer is made from the series of the file. *)
Theorem C55_series_filter : forall E c ws b r, env_ok E -> Forall (write_ok E) ws -> one_table ws -> write_file E c ws = Some b -> tsm_open E b = Ok r ->
  exists ids, f_bloom (r_foot r) = bloom E ids /\ NoDup ids /\ forall sid, In sid ids <-> In sid (map x_sid ws).
Proof.
  intros E c ws b r OK F OT Q R. destruct (file_good E c ws b OK F OT Q) as (w & r' & C & R' & O). rewrite R in R'. injection R' as <-.
  exists (map fst (r_chunks r)). rewrite (o_chunks _ _ _ _ O). split; [apply O|]. split; [apply (sids_nodup kid ws w C OT)|].
  intros sid. destruct (core_gives E kid ws w C OT b r O F) as (G & _). rewrite <- G, (o_chunks _ _ _ _ O). split.
  - intros I. destruct (aget sid (all_chunks (w_specs w))) as [ch|] eqn:A; eauto. apply aget_none in A. contradiction.
  - intros (ch & A). apply aget_in in A. exact (in_map fst _ _ A).
Qed.
Print Assumptions C55_series_filter.

(** ** a concrete file: two tables, three series, two blocks of one of them *)
Definition ts1 := TS 1 1 10. Definition ts1' := TS 1 2 11. Definition ts2 := TS 2 5 20.
Definition demo : list wr :=
  [WR ts1 100 1000 [PG 1 [1; 2; 3]; PG 2 [4; 5]] (TR 10 20); WR ts2 200 2000 [PG 1 [6]] (TR 5 30);
   WR ts1' 100 1001 [PG 1 [7; 8]; PG 3 [9]] (TR 20 40); WR ts1 101 1010 [] (TR 0 0)].
Lemma demo_ok : Forall (write_ok toy) demo.
Proof. repeat (apply Forall_cons; [unfold write_ok, is_i64; rewrite I64_MIN_eq, I64_MAX_eq; cbn; repeat split; try lia; repeat constructor|]). constructor. Qed.
Lemma demo_one : one_table demo.
Proof. intros x y I J. cbn in I, J. intuition; subst; cbn in *; congruence. Qed.
Example C55_nonvacuous : exists b, write_file toy false demo = Some b /\ exists b' r, updates toy [[(100, 77)]; [(101, 5); (100, 78)]] b = Ok b' /\ tsm_open toy b' = Ok r /\
  read_series_pages toy r 100 1 = Ok [PG 1 [7; 8]; PG 3 [9]] /\ option_map tc_key (aget 100 (r_chunks r)) = Some 78 /\ schema_of r 1 = Some ts1' /\ f_tr (r_foot r) = TR 0 40.
Proof. eexists. split; [vm_compute; reflexivity|]. eexists. eexists. repeat (split; [vm_compute; reflexivity|]). vm_compute. reflexivity. Qed.
Example C55_nonvacuous_compressed : exists b r, write_file toy true demo = Some b /\ tsm_open toy b = Ok r /\ read_raw r 100 0 = Ok [1; 2; 3; 4; 5].
Proof. eexists. eexists. repeat (split; [vm_compute; reflexivity|]). vm_compute. reflexivity. Qed.
Example C55_refuses : write_file toy false [WR ts1 100 1000 [] (TR 10 20); WR ts1 100 1000 [] (TR 19 25)] = None.
Proof. reflexivity. Qed.

(** False with compressed metadata: a tag update writes it under a footer that says it is not compressed.  Whenever the compression has made
    it smaller, opening the file panics. *)
Theorem C55_update_compressed_panics : forall E keys b b0 b1, env_ok E -> update_file E keys false b = Ok b0 -> update_file E keys true b = Ok b1 ->
  (length b1 < length b0)%nat -> tsm_open E b1 = Panic.
Proof. exact compressed_panic. Qed.
Print Assumptions C55_update_compressed_panics.
Lemma ok_inj {A} (a b : A) : Ok a = Ok b -> a = b.
Proof. congruence. Qed.
Definition demo_file : bytes := match write_file toy true demo with Some b => b | None => [] end.
Lemma demo_written : write_file toy true demo = Some demo_file.
Proof. vm_compute. reflexivity. Qed.
Theorem C55_update_compressed_refuted : exists E ws b b1 keys, env_ok E /\ Forall (write_ok E) ws /\ one_table ws /\ write_file E true ws = Some b /\
  (exists r, tsm_open E b = Ok r /\ gives_back E r ws (key_after [])) /\ update_file E keys true b = Ok b1 /\ tsm_open E b1 = Panic.
Proof.
  exists toy, demo, demo_file. eexists. exists [(100, 77)]. split; [exact toy_ok|]. split; [exact demo_ok|]. split; [exact demo_one|].
  split; [exact demo_written|]. split; [|split; vm_compute; reflexivity].
  destruct (C55_read_back toy true demo demo_file [] toy_ok demo_ok demo_one demo_written) as (b' & r & U & R & G).
  apply ok_inj in U. subst b'. exists r. auto.
Qed.
Print Assumptions C55_update_compressed_refuted.

(** False over a crash in a tag update: the file is cut behind its pages before the new metadata is written.  A file left there does not
    open, although all its pages are in it. *)
Theorem C55_update_crash_refuted : exists E ws b r, env_ok E /\ Forall (write_ok E) ws /\ one_table ws /\ write_file E false ws = Some b /\ tsm_open E b = Ok r /\
  gives_back E r ws (key_after []) /\ (exists x, In x ws /\ x_pages x <> []) /\ tsm_open E (firstn (f_coff (r_foot r)) b) = Err.
Proof.
  set (one := [WR ts1 100 1000 [PG 1 [1]] (TR 10 20)]).
  assert (F : Forall (write_ok toy) one). { pose proof demo_ok as D. inversion D as [|x l (A & B & L & _) _]. constructor; [|constructor]. repeat (split; auto). repeat constructor. }
  assert (OT : one_table one). { intros x y [<-|[]] [<-|[]] _. auto. }
  destruct (write_file_some toy false one toy_ok F OT) as [b Q]. { intros w1 x w2 y w3 W. destruct w1 as [|? [|? ?]]; cbn in W; try discriminate. destruct w2; discriminate. }
  destruct (C55_read_back toy false one b [] toy_ok F OT Q) as (b' & r & U & R & G). apply ok_inj in U. subst b'.
  exists toy, one, b, r. split; [exact toy_ok|]. split; auto. split; auto. split; auto. split; auto. split; auto. split. { eexists. split; [left; reflexivity|]. discriminate. }
  clear G F OT. vm_compute in Q. injection Q as <-. vm_compute in R. injection R as <-. vm_compute. reflexivity.
Qed.
Print Assumptions C55_update_crash_refuted.
