(** C77: SELECT timestamp_repair(time, f) gives a series on an evenly spaced grid that differs from the input as little as possible. *)
From Coq Require Import QArith Qround.
From Verif Require Import Prelude RepairModel RepairSpec RepairProofs RepairEven.
Open Scope Z_scope.

(** An evenly spaced series of at least three rows is returned as it is, whatever method and start mode are chosen; NULLs come back
    as NaN.  Partial: the spans must be exact as doubles (whole seconds always are), DOUBLE columns only. *)
Theorem C77_even_series_partial : forall fl walk fuel im sm s d rows,
  rounding fl -> map_order walk -> (1 <= fuel)%nat -> d > 0 -> (3 <= length rows)%nat -> Z.of_nat (length rows) <= 2 ^ 53 ->
  evenly s d rows -> match im with Given ms => d = ms * 1000000 | _ => True end ->
  is_double (inject_Z (d * (Z.of_nat (length rows) - 1))) -> is_double (inject_Z d) ->
  select_timestamp_repair fl walk fuel CFloat im sm rows = Done (input_rows rows).
Proof. exact even_kept. Qed.
Print Assumptions C77_even_series_partial.

(** For every series of at least three rows in the order of their times: the rows shown are those of a cheapest repair on an evenly
    spaced grid - no value is invented, used twice or moved past another - except that the first [k] rows, where the cheapest repair
    begins by adding [k] rows, are not shown with their times.  [k] is 0 when the first time is less than 200 seconds from the start of
    the grid and the start is the nearest instant of the grid.  A given interval is used; with the default start mode the grid passes
    through one of the times and starts at most one interval before the first.  Partial: [k] should always be 0 and the result never empty. *)
Theorem C77_cheapest_partial : forall fl walk fuel im sm rows out first,
  map_order walk -> StronglySorted Z.le (map fst rows) -> (3 <= length rows)%nat -> hd_error (map fst rows) = Some first ->
  select_timestamp_repair fl walk fuel CFloat im sm rows = Done out ->
  out = [] \/ exists start d n full k,
    cheapest (grid start d n) (input_rows rows) full
    /\ out = repeat (0, Num 0) k ++ skipn k full
    /\ firstn k full = map (fun p => (p, NaN)) (grid start d k)
    /\ (d > 0 -> Z.abs (first - start) < 200000000000 -> 2 * (first - start) <= d -> k = O)
    /\ (forall ms, im = Given ms -> d = ms * 1000000)
    /\ (d > 0 -> sm = SMode -> start <= first < start + d /\ exists t, In t (map fst rows) /\ (t - start) mod d = 0).
Proof. exact any_series. Qed.
Print Assumptions C77_cheapest_partial.

(** Witnesses: seconds after 2023-11-14T22:13:20Z *)
Definition at_s (s : Z) : Z := (1700000000 + s) * 1000000000.
Definition row (s v : Z) : Z * option Q := (at_s s, Some (inject_Z v)).
Definition any_order (l : list Z) : list Z := nodup Z.eq_dec l.
Lemma any_order_ok : map_order any_order. Proof. intros l. apply Permutation_refl. Qed.
Lemma other_order_ok : map_order (fun l => rev (nodup Z.eq_dec l)). Proof. intros l. apply Permutation_sym, Permutation_rev. Qed.
Lemma exact_ok : rounding (fun q => q). Proof. split; auto. intros; reflexivity. Qed.

Example even_case : evenly (at_s 0) 10000000000 [row 0 1; row 10 2; (at_s 20, None); row 30 4].
Proof. vm_compute. reflexivity. Qed.
Example even_shown :
  select_timestamp_repair (fun q => q) any_order 5 CFloat ByCluster SLinear [row 0 1; row 10 2; (at_s 20, None); row 30 4]
  = Done [(at_s 0, Num 1); (at_s 10, Num 2); (at_s 20, NaN); (at_s 30, Num 4)].
Proof. vm_compute. reflexivity. Qed.
(** a late row is moved, a missing row is added *)
Example repaired_case :
  select_timestamp_repair (fun q => q) any_order 5 CFloat ByMode SMode [row 0 1; row 10 2; row 21 3; row 40 5; row 50 6]
  = Done [(at_s 0, Num 1); (at_s 10, Num 2); (at_s 20, Num 3); (at_s 30, NaN); (at_s 40, Num 5); (at_s 50, Num 6)].
Proof. vm_compute. reflexivity. Qed.

(** A row of 1970-01-01 with the value 0 is shown where a row was added before the first one: timestamp_repair.rs:134-135 fill the
    result with zeros, 171-185 stop as soon as the input is used up. *)
Theorem C77_epoch_row_refuted : exists rows out,
  map fst rows = [at_s 6; at_s 20; at_s 30; at_s 40]
  /\ select_timestamp_repair (fun q => q) any_order 5 CFloat ByMode SMode rows = Done out
  /\ In (0, Num 0) out /\ ~ In (at_s 0, NaN) out.
Proof.
  exists [row 6 1; row 20 2; row 30 3; row 40 4], [(0, Num 0); (at_s 10, Num 1); (at_s 20, Num 2); (at_s 30, Num 3); (at_s 40, Num 4)].
  split; [vm_compute; reflexivity|]. split; [vm_compute; reflexivity|]. split; [left; reflexivity|].
  vm_compute. intuition discriminate.
Qed.
Print Assumptions C77_epoch_row_refuted.

(** The default method is the median of the intervals, but the median is read at the wrong places (timestamp_repair.rs:327-331: by
    the number of times, not of intervals): two of three intervals are 10 s, the grid has 505 s. *)
Theorem C77_median_refuted : exists rows out a b,
  map fst rows = [at_s 0; at_s 10; at_s 20; at_s 1020]
  /\ select_timestamp_repair (fun q => q) any_order 5 CFloat ByMedian SMode rows = Done out
  /\ nth_error out 2 = Some a /\ nth_error out 3 = Some b /\ fst b - fst a = 505 * 1000000000.
Proof.
  exists [row 0 1; row 10 2; row 20 3; row 1020 4], [(0, Num 0); (at_s 10, Num 2); (at_s 515, NaN); (at_s 1020, Num 4)],
    (at_s 515, NaN), (at_s 1020, Num 4).
  repeat split; vm_compute; reflexivity.
Qed.
Print Assumptions C77_median_refuted.

(** No row, one row or two rows make the default call panic, although series of up to two rows are meant to be returned as they are
    (timestamp_repair.rs:127-129); without rows every call panics. *)
Theorem C77_few_rows_refuted : forall fl walk fuel ty sm rows, ty <> CUInt -> (length rows <= 2)%nat ->
  select_timestamp_repair fl walk fuel ty ByMedian sm rows = Panic.
Proof.
  intros fl walk fuel ty sm rows Ht L. destruct rows as [|a [|b [|c r]]]; [| | |cbn in L; lia]; destruct ty; try congruence; reflexivity.
Qed.
Print Assumptions C77_few_rows_refuted.
Theorem C77_no_rows_refuted : forall fl walk fuel ty im sm, ty <> CUInt ->
  (forall i, im = Given i -> 0 <= i) ->
  select_timestamp_repair fl walk fuel ty im sm [] = Panic.
Proof.
  intros fl walk fuel ty im sm Ht Hi. destruct ty; try congruence; destruct im as [| | |i]; try reflexivity;
    (cbn; unfold timestamp_repair; specialize (Hi i eq_refl); replace (i <? 0) with false by (symmetry; apply Z.ltb_ge; exact Hi); destruct sm; reflexivity).
Qed.
Print Assumptions C77_no_rows_refuted.

(** interval=0 is accepted although it must be positive (timestamp_repair.rs:71), and panics. *)
Theorem C77_zero_interval_refuted : exists rows, (3 <= length rows)%nat /\ StronglySorted Z.lt (map fst rows)
  /\ forall fl walk fuel, select_timestamp_repair fl walk fuel CFloat (Given 0) SMode rows = Panic
     /\ select_timestamp_repair fl walk fuel CFloat (Given 0) SLinear rows = Panic.
Proof.
  exists [row 0 1; row 10 2; row 20 3]. split; [cbn; lia|]. split.
  - unfold row, at_s. repeat constructor; vm_compute; reflexivity.
  - intros. split; reflexivity.
Qed.
Print Assumptions C77_zero_interval_refuted.

(** Rows of equal times (several series) with a linear start: all of them disappear. *)
Theorem C77_equal_times_refuted : exists rows, length rows = 3%nat
  /\ forall fl fuel, select_timestamp_repair fl any_order fuel CFloat ByMode SLinear rows = Done [].
Proof. exists [row 0 1; row 0 2; row 0 3]. split; [reflexivity|]. intros. reflexivity. Qed.
Print Assumptions C77_equal_times_refuted.

(** The same rows give different results in two runs: the most frequent interval is taken from a HashMap, whose order is random. *)
Theorem C77_random_refuted : exists rows w1 w2, map_order w1 /\ map_order w2
  /\ select_timestamp_repair (fun q => q) w1 5 CFloat ByMode SMode rows <> select_timestamp_repair (fun q => q) w2 5 CFloat ByMode SMode rows.
Proof.
  exists [row 0 1; row 10 2; row 30 3], any_order, (fun l => rev (nodup Z.eq_dec l)).
  split; [exact any_order_ok|]. split; [exact other_order_ok|]. vm_compute. discriminate.
Qed.
Print Assumptions C77_random_refuted.

(** In a BIGINT column an added row is shown with the value 0 (utils.rs:190-192: NaN as i64). *)
Theorem C77_integer_refuted : exists rows out, map fst rows = [at_s 0; at_s 10; at_s 20; at_s 40; at_s 50]
  /\ select_timestamp_repair (fun q => q) any_order 5 CInt ByMode SMode rows = Done out /\ In (at_s 30, Num 0) out.
Proof.
  exists [row 0 1; row 10 2; row 20 3; row 40 5; row 50 6],
    [(at_s 0, Num 1); (at_s 10, Num 2); (at_s 20, Num 3); (at_s 30, Num 0); (at_s 40, Num 5); (at_s 50, Num 6)].
  split; [vm_compute; reflexivity|]. split; [vm_compute; reflexivity|]. cbn. auto.
Qed.
Print Assumptions C77_integer_refuted.

(** A BIGINT UNSIGNED column is accepted by the planner and refused at run time, whatever it holds (utils.rs:99-111). *)
Theorem C77_unsigned_refuted : forall fl walk fuel im sm rows, select_timestamp_repair fl walk fuel CUInt im sm rows = Failed.
Proof. reflexivity. Qed.
Print Assumptions C77_unsigned_refuted.
