(** C78: SELECT value_fill(time, f) keeps the values that are there and fills in the missing ones by the method asked for. *)
From Coq Require Import QArith.
From Verif Require Import Prelude RepairModel FillModel FillSpec FillProofs.
Open Scope Z_scope.

(** Whatever the method: the times are those of the input, and every value that is there is kept. *)
Theorem C78_keeps_partial : forall m rows out, select_value_fill CFloat m rows = Done out ->
  map fst out = map fst rows /\ keeps (map snd rows) (map snd out).
Proof. intros m rows out H. apply select_fill_inv in H. destruct H as [H1 H2]. split; [exact H1|]. apply (fill_keeps m). exact H2. Qed.
Print Assumptions C78_keeps_partial.

(** linear (the default): a missing value lies on the straight line between its neighbours, or is the only neighbour.  Partial: not in the
    last row. *)
Theorem C78_linear_partial : forall rows out i, select_value_fill CFloat FLinear rows = Done out ->
  null_at (map snd rows) i -> (S i < length rows)%nat ->
  exists x, nth_error (map snd out) i = Some (Num x) /\ on_line (map snd rows) i x.
Proof.
  intros rows out i H N L. apply select_fill_inv in H. destruct H as [_ H]. apply (fill_linear_value _ _ _ H N). rewrite map_length. exact L.
Qed.
Print Assumptions C78_linear_partial.

(** previous: a missing value is the last one before it; before the first value there is none (NaN). *)
Theorem C78_previous_partial : forall rows out i, select_value_fill CFloat FPrevious rows = Done out -> null_at (map snd rows) i ->
  (forall p u, before (map snd rows) i p u -> nth_error (map snd out) i = Some (Num u))
  /\ (none_before (map snd rows) i -> nth_error (map snd out) i = Some NaN).
Proof. intros rows out i H N. apply select_fill_inv in H. destruct H as [_ H]. exact (fill_previous_value _ _ _ H N). Qed.
Print Assumptions C78_previous_partial.

(** mean: a missing value is the mean of all values. *)
Theorem C78_mean_partial : forall rows out i, select_value_fill CFloat FMean rows = Done out -> null_at (map snd rows) i ->
  exists x, nth_error (map snd out) i = Some (Num x) /\ is_mean (map snd rows) x.
Proof. intros rows out i H N. apply select_fill_inv in H. destruct H as [_ H]. exact (fill_mean_value _ _ _ H N). Qed.
Print Assumptions C78_mean_partial.

(** ar: a missing value is the prediction of an autoregressive model from the row before, in the first row the mean of all values.
    The model is the least squares fit in which missing values count as 0. *)
Theorem C78_ar_partial : forall rows out, select_value_fill CFloat FAR rows = Done out ->
  exists theta eps, ar_model (map snd rows) theta eps /\
    (null_at (map snd rows) 0 -> exists x, nth_error (map snd out) 0 = Some (Num x) /\ is_mean (map snd rows) x) /\
    forall i, null_at (map snd rows) (S i) ->
      exists u x, nth_error (map snd out) i = Some (Num u) /\ nth_error (map snd out) (S i) = Some (Num x) /\ (x == theta * u + eps)%Q.
Proof. intros rows out H. apply select_fill_inv in H. destruct H as [_ H]. exact (fill_ar_value _ _ H). Qed.
Print Assumptions C78_ar_partial.

(** The call fails only when there is no value at all, or the model of ar cannot be fitted. *)
Theorem C78_failure_partial : forall m rows, m <> FAR -> (exists i q, known_at (map snd rows) i q) ->
  exists out, select_value_fill CFloat m rows = Done out.
Proof.
  intros m rows Hm (i & q & Kq).
  assert (Ne : known (map snd rows) <> []).
  { apply nth_error_In in Kq. intros E. assert (I : In q (known (map snd rows))).
    { unfold known. apply in_flat_map. exists (Some q). split; [exact Kq|left; reflexivity]. }
    rewrite E in I. destruct I. }
  assert (exists vs, value_fill m (map snd rows) = Done vs) as [vs E].
  { unfold value_fill. destruct (known (map snd rows)); [congruence|]. destruct m; try congruence; eauto. }
  eexists. apply (select_fill m rows vs E).
Qed.
Print Assumptions C78_failure_partial.

Definition v (z : Z) : option Q := Some (inject_Z z).
Definition series (l : list (option Q)) : list (Z * option Q) := combine (map (fun i => Z.of_nat i * 10) (seq 0 (length l))) l.

Example linear_case : null_at [None; v 1; None; None; v 4; None; v 6] 2 /\ before [None; v 1; None; None; v 4; None; v 6] 2 1 1
  /\ after [None; v 1; None; None; v 4; None; v 6] 2 4 4.
Proof.
  split; [reflexivity|]. split.
  - split; [lia|]. split; [reflexivity|]. intros k Hk. lia.
  - split; [lia|]. split; [reflexivity|]. intros k Hk. assert (k = 3)%nat as -> by lia. reflexivity.
Qed.
Example linear_shown : select_value_fill CFloat FLinear (series [None; v 1; None; None; v 4; None; v 6])
  = Done [(0, Num 1); (10, Num 1); (20, Num (6 # 3)); (30, Num (9 # 3)); (40, Num 4); (50, Num (10 # 2)); (60, Num 6)].
Proof. vm_compute. reflexivity. Qed.
Example others_shown :
  select_value_fill CFloat FPrevious (series [None; v 1; None; v 4; None]) = Done [(0, NaN); (10, Num 1); (20, Num 1); (30, Num 4); (40, Num 4)]
  /\ (exists a b, select_value_fill CFloat FAR (series [None; v 1; v 2; None; v 4]) = Done [(0, Num a); (10, Num 1); (20, Num 2); (30, Num b); (40, Num 4)]).
Proof. split; [vm_compute; reflexivity|]. eexists. eexists. vm_compute. reflexivity. Qed.

(** The default method leaves the last row unwritten when its value is missing, and returns whatever the memory held:
    value_fill.rs:146-150 writes from the last known row up to, not including, the last row, 152 sets the length all the same. *)
Theorem C78_unwritten_refuted : exists rows t, nth_error rows 2 = Some (t, None) /\ length rows = 3%nat
  /\ exists out, select_value_fill CFloat FLinear rows = Done out /\ nth_error out 2 = Some (t, Uninit).
Proof.
  exists (series [v 1; v 2; None]), 20. split; [reflexivity|]. split; [reflexivity|]. eexists. split; [vm_compute; reflexivity|]. reflexivity.
Qed.
Print Assumptions C78_unwritten_refuted.

(** ma is not a moving average: nothing leaves the window (value_fill.rs:229-237), and it lags behind the row. *)
Theorem C78_moving_average_refuted : exists rows out x,
  select_value_fill CFloat FMA rows = Done out /\ null_at (map snd rows) 5 /\ nth_error (map snd out) 5 = Some (Num x)
  /\ ~ is_mean (window (map snd rows) 5) x.
Proof.
  exists (series [v 0; v 0; v 0; v 0; v 100; None; v 100; v 100; v 100; v 100]). eexists. exists (100 # 5)%Q.
  split; [vm_compute; reflexivity|]. split; [reflexivity|]. split; [reflexivity|].
  intros [_ H]. vm_compute in H. discriminate H.
Qed.
Print Assumptions C78_moving_average_refuted.
(** ... and a missing value at the beginning stays missing although there are values in the window around it. *)
Theorem C78_moving_average_nan_refuted : exists rows out x,
  select_value_fill CFloat FMA rows = Done out /\ null_at (map snd rows) 3 /\ nth_error (map snd out) 3 = Some NaN
  /\ is_mean (window (map snd rows) 3) x.
Proof.
  exists (series [None; None; None; None; v 100; v 100]). eexists. exists 100%Q.
  split; [vm_compute; reflexivity|]. split; [reflexivity|]. split; [reflexivity|].
  split; [vm_compute; discriminate|]. vm_compute. reflexivity.
Qed.
Print Assumptions C78_moving_average_nan_refuted.

(** In a BIGINT column what stays missing is shown as 0, and filled values are cut to integers. *)
Theorem C78_integer_refuted : exists rows out t, nth_error rows 0 = Some (t, None)
  /\ select_value_fill CInt FPrevious rows = Done out /\ nth_error out 0 = Some (t, Num 0).
Proof. exists (series [None; v 7]). eexists. exists 0. split; [reflexivity|]. split; [vm_compute; reflexivity|]. reflexivity. Qed.
Print Assumptions C78_integer_refuted.
(** A BIGINT UNSIGNED column is always refused. *)
Theorem C78_unsigned_refuted : forall m rows, select_value_fill CUInt m rows = Failed.
Proof. reflexivity. Qed.
Print Assumptions C78_unsigned_refuted.
