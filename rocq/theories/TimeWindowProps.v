(** C41: time_window assigns a row to the windows that contain its timestamp. *)
From Verif Require Import Prelude TimeWindowModel TimeWindowSpec TimeWindowProofs.

(** Partial: the slide divides the window (this includes tumbling windows), or the windows leave gaps and the origin is
    below one window; the timestamp is not before the origin (taken modulo the window) by more than one slide; and
    nothing overflows i64.  Each missing case is refuted below. *)
Theorem C41_assignment_exact_partial : forall w s o t l, no_overflow w s o t -> not_far_before_origin w s o t ->
  (s | w) \/ (w < s /\ Z.rem o w = o) ->
  assign_windows w s o t = Some l -> NoDup l /\ forall win, In win l <-> is_window w s o win /\ in_window t win.
Proof. intros. split; [eapply windows_nodup; eauto|eapply windows_exact; eauto]. Qed.
Print Assumptions C41_assignment_exact_partial.
(** When the slide does not divide the window, every containing window is still assigned. *)
Theorem C41_assignment_complete : forall w s o t l, no_overflow w s o t -> not_far_before_origin w s o t ->
  (s | w) \/ Z.rem o w = o ->
  assign_windows w s o t = Some l -> forall win, is_window w s o win -> in_window t win -> In win l.
Proof. exact windows_complete. Qed.
Print Assumptions C41_assignment_complete.
Example C41_nonvacuous :
  no_overflow 10000000 5000000 0 946684800005000000 /\ not_far_before_origin 10000000 5000000 0 946684800005000000 /\ (5000000 | 10000000) /\
  assign_windows 10000000 5000000 0 946684800005000000 = Some [(946684800005000000, 946684800015000000); (946684800000000000, 946684800010000000)].
Proof. repeat split; try (vm_compute; congruence). exists 2. reflexivity. Qed.
(** FINDING.  The filter that should drop candidate windows not containing the row tests window 0 instead of the
    candidate (transform_time_window.rs:363-372).  With a 10ms window and a 6ms slide the row at 5ms is also assigned to
    [-6ms, 4ms); the repository's own test sqllogicaltests/cases/function/time_window.slt records such rows. *)
Theorem C41_sliding_filter_refuted : exists w s o t l win, no_overflow w s o t /\ not_far_before_origin w s o t /\
  assign_windows w s o t = Some l /\ In win l /\ ~ in_window t win.
Proof.
  exists 10000000, 6000000, 0, 5000000. eexists. exists (-6000000, 4000000).
  split; [vm_compute; intuition congruence|]. split; [vm_compute; congruence|]. split; [vm_compute; reflexivity|].
  split; [right; left; reflexivity|]. unfold in_window. cbn. lia.
Qed.
Print Assumptions C41_sliding_filter_refuted.
(** FINDING.  [%] keeps the sign: a timestamp more than one slide before 1970 is put in the window after its own.
    A tumbling 10ms window assigns the row at -15ms to [-10ms, 0). *)
Theorem C41_before_epoch_refuted : exists w s o t l win, no_overflow w s o t /\ is_tumbling w s = true /\
  assign_windows w s o t = Some l /\ In win l /\ ~ in_window t win.
Proof.
  exists 10000000, 10000000, 0, (-15000000). eexists. exists (-10000000, 0).
  split; [vm_compute; intuition congruence|]. split; [reflexivity|]. split; [vm_compute; reflexivity|].
  split; [left; reflexivity|]. unfold in_window. cbn. lia.
Qed.
Print Assumptions C41_before_epoch_refuted.
(** FINDING.  The origin is reduced modulo the window instead of the slide: with window 5ms, slide 2ms and origin 5ms the
    windows are laid out from 0, 2, 4, ... instead of 5, 7, ... (w < s: window 4ms, slide 6ms and origin 4ms puts the row
    at 4ms nowhere). *)
Theorem C41_origin_refuted : exists w s o t l win, no_overflow w s o t /\ not_far_before_origin w s o t /\
  assign_windows w s o t = Some l /\ is_window w s o win /\ in_window t win /\ ~ In win l.
Proof.
  exists 4000000, 6000000, 4000000, 4000000. eexists. exists (4000000, 8000000).
  split; [vm_compute; intuition congruence|]. split; [vm_compute; congruence|]. split; [vm_compute; reflexivity|].
  split; [exists 0; split; reflexivity|]. split; [unfold in_window; cbn; lia|]. intros [].
Qed.
Print Assumptions C41_origin_refuted.

(** The durations accepted for a window or a slide: from one millisecond up to 365 days (rounded down to whole
    milliseconds); in particular never zero. *)
Theorem C41_durations_accepted : forall ns, 0 <= ns ->
  (valid_duration ns = true <-> 1000000 <= ns < (365 * 24 * 60 * 60 * 1000 + 1) * 1000000).
Proof.
  intros ns N. unfold valid_duration. rewrite andb_true_iff, negb_true_iff, Z.leb_le, Z.eqb_neq.
  pose proof (Z.div_mod ns 1000000 ltac:(lia)). pose proof (Z.mod_pos_bound ns 1000000 ltac:(lia)).
  generalize dependent (ns / 1000000). generalize dependent (ns mod 1000000). intros m M q E. lia.
Qed.
Print Assumptions C41_durations_accepted.
Example C41_durations_nonvacuous :
  valid_duration 999999 = false /\ valid_duration 1000000 = true /\ valid_duration (365 * 86400 * 1000000000) = true /\
  valid_duration (366 * 86400 * 1000000000) = false.
Proof. vm_compute. auto. Qed.
