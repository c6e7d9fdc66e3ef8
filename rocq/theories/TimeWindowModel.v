(** Model of time_window grouping: the plan rewrite of
    /repo/query_server/query/src/extension/analyse/transform_time_window.rs, evaluated on one non-null timestamp.
    Durations are nanoseconds.  Int64 arithmetic in the generated expressions wraps. *)
From Verif Require Import Prelude.

(** transform_time_window.rs:251-296 make_window_expr: start and end of the i-th candidate window.  SQL/arrow [%]
    is the truncated remainder. *)
Definition window_expr (w s start_time t i : Z) : Z * Z :=
  let st := Z.rem start_time w in
  let last_start := wrap_i64 (t - Z.rem (wrap_i64 (wrap_i64 (t - st) + s)) s) in
  let a := wrap_i64 (last_start - wrap_i64 (i * s)) in
  (a, wrap_i64 (a + w)).

(** transform_time_window.rs:202-204 is_tumbling_window *)
Definition is_tumbling (w s : Z) : bool := w =? s.
(** transform_time_window.rs:343 overlapping_windows *)
Definition overlapping_windows (w s : Z) : Z := (w + s - 1) / s.

(** transform_time_window.rs:303-321 build_tumbling_window_plan and 328-393 build_sliding_window_plan: the rows produced
    for one input row.  The sliding filter is applied to the expanded rows, but its window expression is
    [windows[0]] evaluated again on the time column, not the window of the expanded row (363-372); it keeps or drops all
    of them together.  [None]: rejected with "Too many overlapping windows". *)
Definition assign_windows (w s start_time t : Z) : option (list (Z * Z)) :=
  if is_tumbling w s then Some [window_expr w s start_time t 0]
  else
    let n := overlapping_windows w s in
    if 100 <? n then None
    else
      let windows := map (fun i => window_expr w s start_time t (Z.of_nat i)) (seq 0 (Z.to_nat n)) in
      let keep :=
        if w mod s =? 0 then true
        else let '(a, b) := window_expr w s start_time t 0 in ((a <=? t) && (t <? b))%bool in
      Some (if keep then windows else []).

(** transform_time_window.rs:143-151 valid_duration (whole milliseconds; the limit is 365 days) *)
Definition valid_duration (ns : Z) : bool := ((ns / 1000000 <=? 365 * 86400000) && negb (ns / 1000000 =? 0))%bool.

(** /repo/query_server/query/src/extension/expr/window/time_window.rs:184-198 sliding_window: same formula, used for gap filling *)
Definition sliding_window (t w s start_time i : Z) : Z * Z := window_expr w s start_time t i.
