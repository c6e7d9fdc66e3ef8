(** Model of the aggregate functions FIRST, LAST, MODE, INCREASE, GAUGE_AGG and of the row collection
    of the data quality functions
    (/repo/query_server/query/src/extension/expr/aggregate_function/{first,last,mode,increase}.rs,
    gauge/gauge_agg.rs, data_quality/accumulator.rs).

    Simplifications.  A time stamp and a value are [option Z], [None] for NULL; a value is opaque
    except where the function adds or subtracts values, and there 64-bit overflow is left out.  The
    query engine (the external crate DataFusion) feeds each partition's rows to an accumulator in
    batches and hands the accumulators' states, again in batches, to a last accumulator; the
    accumulators' memory accounting and the conversion of states to Arrow arrays and back are left
    out.  Arrow's [sort_to_indices] and Rust's unstable sorts are parameters. *)
From Verif Require Import Prelude.

(** u32 addition in a release build *)
Definition wrap32 (x : Z) : Z := x mod 2 ^ 32.
Record trow := TR { t_ts : option Z; t_val : option Z }.
Definition null_row : trow := TR None None.

(** ** FIRST and LAST: [desc] is [false] for FIRST, [true] for LAST *)
(** first.rs:104-115, last.rs:104-115: the new point replaces the old one when it is strictly earlier (later) *)
Definition earlier (desc : bool) (a b : Z) : bool := if desc then b <? a else a <? b.
(** first.rs:93-118, last.rs:93-118 update_inner *)
Definition edge_inner (desc : bool) (acc p : trow) : trow :=
  match t_ts p, t_val p with
  | Some t, Some _ => match t_ts acc with None => p | Some a => if earlier desc t a then p else acc end
  | _, _ => acc
  end.
(** first.rs:121-148, last.rs:121-148 update_batch; [pick] is [sort_to_indices] with limit 1, nulls last: the row it names *)
Definition edge_update (pick : list trow -> option trow) (desc : bool) (acc : trow) (batch : list trow) : trow :=
  match pick batch with None => acc | Some p => edge_inner desc acc p end.
(** first.rs:165-169, last.rs:164-168 merge_batch; first.rs:161-163 state: the point itself *)
Definition edge_merge := edge_update.
(** first.rs:150-152 evaluate *)
Definition edge_eval (acc : trow) : option Z := t_val acc.

(** ** MODE *)
(** mode.rs:84-87, 140-145: the entry API of the map; counts are u32 *)
Fixpoint tally (v n : Z) (m : list (Z * Z)) : list (Z * Z) :=
  match m with
  | [] => [(v, n)]
  | (k, c) :: m' => if k =? v then (k, wrap32 (c + n)) :: m' else (k, c) :: tally v n m'
  end.
(** mode.rs:65-91 update_batch *)
Definition mode_update (m : list (Z * Z)) (batch : list (option Z)) : list (Z * Z) :=
  fold_left (fun m x => match x with Some v => tally v 1 m | None => m end) batch m.
(** mode.rs:125-150 merge_batch: each state is the list of the entries of a map, in the map's order *)
Definition mode_merge (m : list (Z * Z)) (states : list (list (Z * Z))) : list (Z * Z) :=
  fold_left (fun m s => fold_left (fun m e => tally (fst e) (snd e) m) s m) states m.
(** mode.rs:93-100 evaluate: [max_by_key] keeps the last of the greatest, [entries] is the map in iteration order *)
Definition max_by_count (entries : list (Z * Z)) : option (Z * Z) :=
  fold_left (fun best e => match best with Some b => if snd e <? snd b then Some b else Some e | None => Some e end) entries None.
Definition mode_eval (entries : list (Z * Z)) : option Z := option_map fst (max_by_count entries).

(** ** INCREASE *)
Record inc := IN { i_sum : Z; i_last : option (Z * Z) }.
(** increase.rs:73-80 try_new *)
Definition inc_new : inc := IN 0 None.
(** increase.rs:82-107 update_inner; [None] is the error "INCREASE need oder by time" *)
Definition inc_inner (s : inc) (p : trow) : option inc :=
  match t_ts p, t_val p with
  | Some t, Some v =>
      match i_last s with
      | None => Some (IN (i_sum s) (Some (t, v)))
      | Some (lt, lv) =>
          if t <? lt then None
          else Some (IN (if v >? lv then i_sum s + (v - lv) else if v <? lv then i_sum s + v else i_sum s) (Some (t, v)))
      end
  | _, _ => Some s
  end.
(** increase.rs:118-142 update_batch *)
Fixpoint inc_update (s : inc) (batch : list trow) : option inc :=
  match batch with [] => Some s | p :: b => match inc_inner s p with Some s' => inc_update s' b | None => None end end.
Fixpoint inc_updates (s : inc) (batches : list (list trow)) : option inc :=
  match batches with [] => Some s | b :: bs => match inc_update s b with Some s' => inc_updates s' bs | None => None end end.
(** increase.rs:109-114, 157-164 merge_batch; 153-155 state: the sum alone *)
Definition inc_merge (s : inc) (states : list Z) : inc := IN (fold_left Z.add states (i_sum s)) (i_last s).

(** ** GAUGE_AGG *)
Record gauge := GA { g_points : list (Z * Z); g_num : Z }.
Record gdata := GD { gd_first : Z * Z; gd_second : Z * Z; gd_penult : Z * Z; gd_last : Z * Z; gd_num : Z }.
Definition gauge_new : gauge := GA [] 0.
(** gauge_agg.rs:122-128: the rows of a batch that have a value (and, as the time column is never null, a time) *)
Fixpoint complete (batch : list trow) : list (Z * Z) :=
  match batch with
  | [] => []
  | p :: b => match t_ts p, t_val p with Some t, Some v => (t, v) :: complete b | _, _ => complete b end
  end.
(** gauge_agg.rs:102-158 update_batch; [sort] sorts by time *)
Definition keep4 (l : list (Z * Z)) : list (Z * Z) :=
  let n := length l in
  if (n <=? 4)%nat then l else [nth 0 l (0, 0); nth 1 l (0, 0); nth (n - 2) l (0, 0); nth (n - 1) l (0, 0)].
Definition gauge_update (sort : list (Z * Z) -> list (Z * Z)) (g : gauge) (batch : list trow) : gauge :=
  let l := sort (complete batch) in
  GA (g_points g ++ keep4 l) (wrap_u64 (g_num g + Z.of_nat (length l))).
(** gauge_agg.rs:160-178 merge_batch, 244-255 merge, 316-350 try_from_arrays *)
Definition gauge_merge (g : gauge) (states : list gauge) : gauge :=
  fold_left (fun g s => GA (g_points g ++ g_points s) (wrap_u64 (g_num g + g_num s))) states g.
(** gauge_agg.rs:257-292 build, 180-191 evaluate: [None] is the null result *)
Definition gauge_build (sort : list (Z * Z) -> list (Z * Z)) (g : gauge) : option gdata :=
  match g_points g with
  | [] => None
  | _ =>
      let l := sort (g_points g) in
      let n := length l in
      let second := if (1 <? n)%nat then 1%nat else 0%nat in
      let penult := if (1 <? n)%nat then (n - 2)%nat else 0%nat in
      Some (GD (nth 0 l (0, 0)) (nth second l (0, 0)) (nth penult l (0, 0)) (nth (n - 1) l (0, 0)) (g_num g))
  end.

(** ** COMPLETENESS, CONSISTENCY, TIMELINESS, VALIDITY: the rows that are assessed *)
(** data_quality/accumulator.rs:51-72 update_batch: the rows of the batch become the series *)
Definition dq_update (series batch : list trow) : list trow := batch.
(** data_quality/accumulator.rs:133-175 merge_batch; 109-131 state *)
Definition dq_merge (series : list trow) (states : list (list trow)) : list trow := series ++ concat states.
