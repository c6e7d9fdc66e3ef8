(** The metrics a server reports: counters, averages and histograms. *)
From Verif Require Import Prelude.
Open Scope Z_scope.

(** u64 arithmetic wraps (release profile, wrapping_add, fetch_add) *)
Definition W64 : Z := 2 ^ 64.
Definition wadd (a b : Z) : Z := (a + b) mod W64.
Definition wmul (a b : Z) : Z := (a * b) mod W64.

(** common/metrics/src/metric_value.rs:30-44 HistogramValue, ValueBucket *)
Record bucket := BK { b_le : Z; b_count : Z }.
Record hist := HI { h_total : Z; h_buckets : list bucket }.

(** histogram.rs:16-20 U64HistogramOptions::new: sort_unstable on integers, here by insertion *)
Fixpoint insert_le (x : Z) (l : list Z) : list Z :=
  match l with
  | [] => [x]
  | y :: r => if x <=? y then x :: l else y :: insert_le x r
  end.
Fixpoint sort_le (l : list Z) : list Z := match l with [] => [] | x :: r => insert_le x (sort_le r) end.
(** histogram.rs:29-44 U64Histogram::new *)
Definition hist_new (thresholds : list Z) : hist := HI 0 (map (fun le => BK le 0) (sort_le thresholds)).

(** histogram.rs:56-63: the first bucket whose bound is not below the value; none if all are *)
Fixpoint bump (v n : Z) (bs : list bucket) : option (list bucket) :=
  match bs with
  | [] => None
  | b :: r => if v <=? b_le b then Some (BK (b_le b) (wadd (b_count b) n) :: r)
              else match bump v n r with Some r' => Some (b :: r') | None => None end
  end.
(** histogram.rs:54-66 record_multiple; one call at a time (Mutex) *)
Definition record (h : hist) (x : Z * Z) : hist :=
  match bump (fst x) (snd x) (h_buckets h) with
  | Some bs => HI (wadd (h_total h) (wmul (fst x) (snd x))) bs
  | None => h
  end.
Definition records (h : hist) (xs : list (Z * Z)) : hist := fold_left record xs h.

(** prom_reporter.rs:122-148: what is reported of a histogram; bounds are [None] for infinity.  The conversion of
    numbers to f64 is left out. *)
Record reported := RP { r_buckets : list (option Z * Z); r_count : Z; r_sum : Z }.
Definition upper (le : Z) : option Z := if le =? W64 - 1 then None else Some le.
Fixpoint cumulate (acc : Z) (bs : list bucket) : list (option Z * Z) :=
  match bs with
  | [] => []
  | b :: r => let acc' := wadd acc (b_count b) in (upper (b_le b), acc') :: cumulate acc' r
  end.
Definition report (h : hist) : reported :=
  RP (cumulate 0 (h_buckets h)) (fold_left (fun a b => wadd a (b_count b)) (h_buckets h) 0) (h_total h).

(** count.rs:13-25 U64Counter: fetch_add is atomic, so a run is the sequence of additions in any order *)
Definition counter (incs : list Z) : Z := fold_left wadd incs 0.

(** average.rs:15-34 U64Average: two atomics; each event is one atomic access.  Those of [add] are [AvCount] and
    [AvTotal v]; those of [average] are the other four, in this order, and its answer is that of the last. *)
Inductive av_event := AvCount | AvTotal (v : Z) | AvLoadCount | AvLoadTotal | AvClearCount | AvClearTotal.
Record av := AV { a_count : Z; a_total : Z; a_lcount : Z; a_ltotal : Z }.
Definition av_step (s : av) (e : av_event) : av * option Z :=
  match e with
  | AvCount => (AV (wadd (a_count s) 1) (a_total s) (a_lcount s) (a_ltotal s), None)
  | AvTotal v => (AV (a_count s) (wadd (a_total s) v) (a_lcount s) (a_ltotal s), None)
  | AvLoadCount => (AV (a_count s) (a_total s) (a_count s) (a_ltotal s), None)
  | AvLoadTotal => (AV (a_count s) (a_total s) (a_lcount s) (a_total s), None)
  | AvClearCount => (AV 0 (a_total s) (a_lcount s) (a_ltotal s), None)
  | AvClearTotal => (AV (a_count s) 0 (a_lcount s) (a_ltotal s), Some (Z.quot (a_ltotal s) (wadd (a_lcount s) 1)))
  end.
(** the answers, in order; division by zero needs 2^64 - 1 additions and is left out *)
Fixpoint av_run (s : av) (es : list av_event) : list Z :=
  match es with
  | [] => []
  | e :: r => let '(s', a) := av_step s e in match a with Some x => x :: av_run s' r | None => av_run s' r end
  end.
Definition av_start : av := AV 0 0 0 0.
Definition add_calls (vs : list Z) : list av_event := flat_map (fun v => [AvCount; AvTotal v]) vs.
Definition average_call : list av_event := [AvLoadCount; AvLoadTotal; AvClearCount; AvClearTotal].

(** coordinator/src/metrics.rs:110-135 LPReporter: the rows that the system tables get of a histogram, with the
    label le, and the one without *)
Definition lp_rows (h : hist) : list (option Z * Z) := map (fun b => (Some (b_le b), b_count b)) (h_buckets h) ++ [(None, h_total h)].
