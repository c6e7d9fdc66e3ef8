(** C79: value_repair fills missing values on straight lines and keeps the speed of change within limits. *)
From Coq Require Import QArith Qabs.
From Verif Require Import Prelude RepairModel FillSpec ScreenModel ScreenSpec ScreenProofs.
Open Scope Z_scope.

(** The result has the times of the input.  Missing values are first put on the straight line in time between their neighbours (at the ends:
    through the two nearest values); then the change from row to row stays within the limits: those given, otherwise three times the scaled
    median deviation around the median speed.  Partial: method screen only, exact arithmetic, times strictly ascending. *)
Theorem C79_limits_partial : forall smin smax rows out, StronglySorted Z.lt (map fst rows) ->
  select_value_repair CFloat smin smax rows = Done out ->
  exists xs res lo hi, out = numbers res /\ map fst res = map fst rows /\ length xs = length rows
    /\ (forall i, (i < length rows)%nat -> filled_in (map fst rows) (map snd rows) i (nth i xs 0%Q))
    /\ limits smin smax (combine (map fst rows) xs) lo hi
    /\ (smin = None -> smax = None -> (lo <= hi)%Q) /\ ((lo <= hi)%Q -> within lo hi res).
Proof. intros smin smax rows out. apply select_done. Qed.
Print Assumptions C79_limits_partial.

(** Rows that change within the limits are left as they are. *)
Theorem C79_same_partial : forall lo hi (rows : list (Z * Q)), (3 <= length rows)%nat -> StronglySorted Z.lt (map fst rows) ->
  within lo hi rows ->
  exists res, select_value_repair CFloat (Some lo) (Some hi) (map (fun r => (fst r, Some (snd r))) rows) = Done (numbers res)
    /\ same_rows res rows.
Proof. intros lo hi rows. apply select_same. Qed.
Print Assumptions C79_same_partial.

(** Three rows with two values are enough for an answer. *)
Theorem C79_answers_partial : forall smin smax rows a u b v, (3 <= length rows)%nat ->
  known_at (map snd rows) a u -> known_at (map snd rows) b v -> (a < b)%nat -> StronglySorted Z.lt (map fst rows) ->
  exists out, select_value_repair CFloat smin smax rows = Done out.
Proof. intros smin smax rows a u b v. apply select_answers. Qed.
Print Assumptions C79_answers_partial.

(** A single value is to be refused with a message; index2 is the length then and the server panics (value_repair.rs:132-141). *)
Theorem C79_one_value_refuted : forall ty smin smax, ty <> CUInt -> exists rows, (3 <= length rows)%nat /\ StronglySorted Z.lt (map fst rows)
  /\ select_value_repair ty smin smax rows = Panic.
Proof.
  intros ty smin smax H. exists [(0, None); (1, Some 5%Q); (2, None)]. split; [cbn; lia|]. split; [cbn; repeat constructor|].
  destruct ty; try reflexivity. congruence.
Qed.
Print Assumptions C79_one_value_refuted.
(** Two rows are a panic as well: there is one interval, and its median looks for two (value_repair.rs:78-90). *)
Theorem C79_two_rows_refuted : forall ty smin smax (t1 t2 : Z) (x y : Q), ty <> CUInt -> t1 < t2 ->
  select_value_repair ty smin smax [(t1, Some x); (t2, Some y)] = Panic.
Proof. intros ty smin smax t1 t2 x y H _. destruct ty; try reflexivity. congruence. Qed.
Print Assumptions C79_two_rows_refuted.
(** The values of a BIGINT column are cut towards zero after the repair: the limits do not hold for what is returned. *)
Theorem C79_integer_refuted : exists lo hi rows res, (lo <= hi)%Q /\ StronglySorted Z.lt (map fst rows)
  /\ select_value_repair CInt (Some lo) (Some hi) rows = Done (numbers res) /\ ~ within lo hi res.
Proof.
  exists (1 # 2)%Q, (1 # 2)%Q, [(0, Some 0%Q); (1, None); (2, Some 1%Q); (3, None); (4, Some 2%Q)], [(0, 0%Q); (1, 0%Q); (2, 1%Q); (3, 1%Q); (4, 2%Q)].
  split; [discriminate|]. split; [cbn; repeat constructor|]. split; [vm_compute; reflexivity|].
  intros (H & _). vm_compute in H. apply H. reflexivity.
Qed.
Print Assumptions C79_integer_refuted.
(** A BIGINT UNSIGNED column is always refused. *)
Theorem C79_unsigned_refuted : forall smin smax rows, select_value_repair CUInt smin smax rows = Failed.
Proof. reflexivity. Qed.
Print Assumptions C79_unsigned_refuted.

(** ** the hypotheses are met *)
Example series_missing : list (Z * option Q) := [(0, None); (10, Some 1%Q); (20, None); (30, Some 3%Q); (40, Some 100%Q); (50, Some 5%Q); (60, None)].
Example missing_repaired : StronglySorted Z.lt (map fst series_missing)
  /\ exists out, select_value_repair CFloat (Some (-1)%Q) (Some 1%Q) series_missing = Done out /\ length out = 7%nat.
Proof. split; [cbn; repeat constructor|]. eexists. split; [vm_compute; reflexivity|reflexivity]. Qed.
Example default_limits : exists out, select_value_repair CFloat None None series_missing = Done out.
Proof. eexists. vm_compute. reflexivity. Qed.
Example slow_rows : within (-1) 1 [(0, 1%Q); (10, 5%Q); (20, 2%Q); (25, 6%Q)].
Proof. cbn. repeat split; discriminate. Qed.
(** an outlier comes back within the limits; the rows before it move as well *)
Example outlier_cut : select_value_repair CFloat (Some (-1)%Q) (Some 1%Q) [(0, Some 1%Q); (1, Some 2%Q); (2, Some 100%Q); (3, Some 4%Q); (4, Some 5%Q)]
  = Done (numbers [(0, 3%Q); (1, 4%Q); (2, 5%Q); (3, 4%Q); (4, 5%Q)]).
Proof. vm_compute. reflexivity. Qed.
