(** C27: the tombstones of a data file hide exactly what was deleted or moved away. *)
From Verif Require Import Prelude Bytes TimeRangeModel TimeRangeSpec TombModel TombSpec TombProofs.
Open Scope Z_scope.

(** Any sequence of tombstones written one after the other into a record is read back. *)
Theorem C27_record_roundtrip ts : Forall tomb_ok ts ->
  let bytes := flat_map (fun t => enc_field (b_field t) (b_ranges t)) ts in
  dec_v2 (length bytes) bytes = Some ts.
Proof. intros H bytes. unfold bytes. rewrite flat_map_concat_map. exact (dec_encs ts H). Qed.

(** For every history of deletes, compactions that move a time range away, and restarts: reading a page
    hides an instant of a column exactly when it was deleted from that column or moved away.
    Missing (and refuted below): histories with one delete or move unbounded below and another unbounded
    above; deletes while a compaction is running; compactions that fail. *)
Theorem C27_reload_exact_partial order bloom h k tr t :
  (forall m, Permutation (order m) m) ->
  Forall block_ok h -> (forall k, no_gap (deleted k h ++ moved h)) ->
  bloom (fst k) = true -> instants tr t ->
  (hidden (tacts_run order bloom (flat_map acts h)) k tr t <->
   instants_of (deleted k h) t \/ instants_of (moved h) t).
Proof. intros P. apply hidden_exact; auto. Qed.

(** A compaction of the tombstones changes nothing outside the range that is moved away, and a restart
    changes nothing at all. *)
Theorem C27_compact_keeps_partial order bloom h r k tr t :
  (forall m, Permutation (order m) m) ->
  Forall block_ok (h ++ [BMove r]) -> (forall k, no_gap (deleted k h ++ moved (h ++ [BMove r]))) ->
  bloom (fst k) = true -> instants tr t ->
  (hidden (tacts_run order bloom (flat_map acts (h ++ [BMove r]))) k tr t <->
   hidden (tacts_run order bloom (flat_map acts h)) k tr t \/ instants r t) /\
  (hidden (tacts_run order bloom (flat_map acts (h ++ [BReopen]))) k tr t <->
   hidden (tacts_run order bloom (flat_map acts h)) k tr t).
Proof.
  intros P F N B T. assert (Fh := proj1 (proj1 (Forall_app _ _ _) F)).
  assert (D : forall k b, match b with BDelete _ _ => False | _ => True end -> deleted k (h ++ [b]) = deleted k h).
  { intros j b Hb. rewrite deleted_app. destruct b; [tauto| |]; cbn; apply app_nil_r. }
  assert (M1 : moved (h ++ [BMove r]) = moved h ++ [r]) by apply moved_app.
  assert (M2 : moved (h ++ [BReopen]) = moved h) by (rewrite moved_app; apply app_nil_r).
  assert (N0 : forall j, no_gap (deleted j h ++ moved h)).
  { intros j. eapply no_gap_incl; [|apply N]. rewrite M1, app_assoc. apply incl_appl, incl_refl. }
  pose proof (hidden_exact order P bloom h k tr t Fh N0 B T) as E0.
  assert (E1 := hidden_exact order P bloom (h ++ [BMove r]) k tr t F).
  assert (E2 := hidden_exact order P bloom (h ++ [BReopen]) k tr t).
  rewrite D, M1 in E1 by exact I. rewrite D, M2 in E2 by exact I. unfold brun in *.
  rewrite E0, E1, E2; auto.
  - rewrite instants_of_app. split; [|tauto]. assert (X : instants_of [r] t <-> instants r t).
    { split; [intros (x&[<-|[]]&H); auto|intros H; exists r; cbn; auto]. } tauto.
  - apply Forall_app. split; auto. constructor; auto. exact I.
  - intros j. rewrite D by exact I. auto.
  - intros j. rewrite D by exact I. rewrite <- M1. auto.
Qed.

(** Findings. *)
Definition id_order (m : list (ckey * tranges)) := m.
Definition every (z : Z) := true.
(** DELETE WHERE time <= 0, DELETE WHERE time >= 5, DELETE WHERE time BETWEEN 2 AND 3: the third is lost. *)
Theorem C27_half_lines_refuted : exists h k tr t,
  Forall block_ok h /\ instants tr t /\ instants_of (deleted k h) t /\
  ~ hidden (tacts_run id_order every (flat_map acts h)) k tr t.
Proof.
  exists [BDelete [(1, 1)] (TR I64_MIN 0); BDelete [(1, 1)] (TR 5 I64_MAX); BDelete [(1, 1)] (TR 2 3)], (1, 1), (TR 0 10), 2.
  split; [|split; [|split]].
  - assert (K : Forall key_okk [(1, 1)]). { constructor; [|constructor]. split; cbn; lia. }
    constructor; [split; [exact K|split; ok_range]|]. constructor; [split; [exact K|split; ok_range]|]. constructor; [split; [exact K|split; ok_range]|constructor].
  - unfold instants; cbn; lia.
  - exists (TR 2 3). split; [cbn; auto|unfold instants; cbn; lia].
  - intros (r&Hr&Ht). vm_compute in Hr. unfold instants in Ht. destruct Hr as [<-|[<-|[]]]; cbn in Ht; lia.
Qed.
(** Rows deleted after a compaction has written the temporary tombstone file and before it installs that
    file are back: the delete is acknowledged, visible at first, and gone once the compaction is done. *)
Theorem C27_concurrent_delete_refuted : exists cols r p k tr t,
  instants tr t /\ In k cols /\ instants r t /\
  hidden (tacts_run id_order every [APrepare p; ADelete cols r]) k tr t /\
  ~ hidden (tacts_run id_order every [APrepare p; ADelete cols r; AInstall]) k tr t /\
  ~ hidden (tacts_run id_order every [APrepare p; ADelete cols r; AInstall; AReopen]) k tr t.
Proof.
  exists [(1, 1)], (TR 20 30), (TR 0 10), (1, 1), (TR 0 100), 25.
  split; [unfold instants; cbn; lia|]. split; [cbn; auto|]. split; [unfold instants; cbn; lia|]. split; [|split].
  - exists (TR 20 30). split; [vm_compute; auto|unfold instants; cbn; lia].
  - intros (r&Hr&Ht). vm_compute in Hr. unfold instants in Ht. destruct Hr as [<-|[]]; cbn in Ht; lia.
  - intros (r&Hr&Ht). vm_compute in Hr. unfold instants in Ht. destruct Hr as [<-|[]]; cbn in Ht; lia.
Qed.
(** A compaction writes the temporary file before it merges anything.  If it fails, the next successful
    compaction of the same file, for another time range, also hides the rows of the first range, which
    were never moved. *)
Theorem C27_stale_tmp_refuted : exists p q k tr t,
  instants tr t /\ instants p t /\ ~ instants q t /\
  ~ hidden (tacts_run id_order every [APrepare p]) k tr t /\
  hidden (tacts_run id_order every [APrepare p; AReopen; APrepare q; AInstall]) k tr t.
Proof.
  exists (TR 0 10), (TR 50 60), (1, 1), (TR 0 100), 5.
  split; [unfold instants; cbn; lia|]. split; [unfold instants; cbn; lia|]. split; [unfold instants; cbn; lia|]. split.
  - intros (r&Hr&Ht). vm_compute in Hr. destruct Hr.
  - exists (TR 0 10). split; [vm_compute; auto|unfold instants; cbn; lia].
Qed.

(** Non-vacuity: a history with two columns, a move, a restart, a further delete and a move. *)
Example C27_nonvacuous :
  let h := [BDelete [(1, 1); (1, 2)] (TR 0 10); BMove (TR 5 20); BReopen; BDelete [(1, 2)] (TR 30 40); BMove (TR 35 50)] in
  Forall block_ok h /\ (forall k, no_gap (deleted k h ++ moved h)) /\
  hidden (tacts_run id_order every (flat_map acts h)) (1, 2) (TR 0 100) 32 /\
  ~ hidden (tacts_run id_order every (flat_map acts h)) (1, 1) (TR 0 100) 32.
Proof.
  intros h. split; [|split; [|split]].
  - assert (K : forall a b, 0 <= a < 10 -> 0 <= b < 10 -> key_okk (a, b)). { intros a b Ha Hb. split; cbn; lia. }
    unfold h. constructor; [split; [constructor; [|constructor; [|constructor]]; apply K; lia|split; ok_range]|].
    constructor; [split; ok_range|]. constructor; [exact I|].
    constructor; [split; [constructor; [|constructor]; apply K; lia|split; ok_range]|].
    constructor; [split; ok_range|constructor].
  - intros k a b Ha Hb Hm _. exfalso.
    assert (X : Forall (fun r => 0 <= tmin r) (deleted k h ++ moved h)).
    { unfold h, deleted, moved. cbn [flat_map]. destruct (in_dec _ _ _), (in_dec _ _ _); cbn [app]; repeat (apply Forall_cons; [cbn; lia|]); apply Forall_nil. }
    rewrite Forall_forall in X. specialize (X a Ha). rewrite Hm in X. rewrite I64_MIN_eq in X. lia.
  - exists (TR 30 50). split; [vm_compute; auto|unfold instants; cbn; lia].
  - intros (r&Hr&Ht). vm_compute in Hr. unfold instants in Ht. repeat (destruct Hr as [<-|Hr]; [cbn in Ht; lia|]). destruct Hr.
Qed.
Example C27_roundtrip_nonvacuous : Forall tomb_ok [TB (FOne (7, 9)) [TR (-5) 3; TR 10 12]; TB FAll [TR 0 1]].
Proof.
  constructor; [|constructor; [|constructor]]; split; cbn [b_ranges b_field length]; try lia; split; auto.
  - constructor; [|constructor; [|constructor]]; split; cbn; i64; lia.
  - split; cbn; lia.
  - constructor; [|constructor]; split; cbn; i64; lia.
Qed.

Print Assumptions C27_record_roundtrip.
Print Assumptions C27_reload_exact_partial.
Print Assumptions C27_compact_keeps_partial.
Print Assumptions C27_half_lines_refuted.
Print Assumptions C27_concurrent_delete_refuted.
Print Assumptions C27_stale_tmp_refuted.

(** A record in the first file format is read as the one deletion it describes. *)
Theorem C27_old_format series column from til c :
  0 <= series < 2 ^ 32 -> 0 <= column < 2 ^ 32 -> is_i64 from -> is_i64 til ->
  load_rec c (REC true (old_record series column from til)) =
  apply_tomb c (TB (FOne (series, column)) [TR from til]).
Proof. intros A B C D. unfold load_rec. cbn [r_v1 r_data]. rewrite old_record_read by auto. reflexivity. Qed.
Print Assumptions C27_old_format.
Example C27_old_format_nonvacuous :
  load_rec c_new (REC true [0;0;0;7; 0;0;0;2; 255;255;255;255;255;255;255;251; 0;0;0;0;0;0;1;0]) =
  TC [((7, 2), trs_new [TR (-5) 256])] trs_empty.
Proof. vm_compute. reflexivity. Qed.
