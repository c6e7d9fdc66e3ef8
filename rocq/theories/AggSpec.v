(** What an aggregate computes, and how the engine runs it. *)
From Verif Require Import Prelude AggModel.
From Coq Require Import Permutation.

(** A plan with two stages: each partition is a list of batches; its rows go through an accumulator
    of its own, and the states of these accumulators reach the last accumulator in some order, in
    batches. *)
Definition partition {row st} (init : st) (update : st -> list row -> st) (batches : list (list row)) : st :=
  fold_left update batches init.
Definition two_stage {row st pst} (init : st) (update : st -> list row -> st) (state : st -> pst) (merge : st -> list pst -> st)
  (parts : list (list (list row))) (result : st) : Prop :=
  exists arrivals, Permutation (concat arrivals) (map (fun p => state (partition init update p)) parts) /\
    result = fold_left merge arrivals init.
(** All rows of a plan. *)
Definition all_rows {row} (parts : list (list (list row))) : list row := concat (map (fun p => concat p) parts).

(** FIRST (LAST): the value of a row with the least (greatest) time among the rows that have a time
    and a value; null when there is none. *)
Definition counts (r : trow) : Prop := t_ts r <> None /\ t_val r <> None.
Definition edge_of (desc : bool) (rows : list trow) (v : option Z) : Prop :=
  match v with
  | None => forall r, In r rows -> ~ counts r
  | Some x => exists t, In (TR (Some t) (Some x)) rows /\
      forall t' x', In (TR (Some t') (Some x')) rows -> if desc then t' <= t else t <= t'
  end.
(** Arrow's sort with limit 1 and nulls last: a row of the batch that no other row precedes. *)
Definition picks (desc : bool) (pick : list trow -> option trow) : Prop := forall batch,
  match pick batch with
  | None => batch = []
  | Some r => In r batch /\ forall x, In x batch ->
      match t_ts r, t_ts x with
      | Some a, Some b => if desc then b <= a else a <= b
      | None, Some _ => False
      | _, None => True
      end
  end.
Definition valued (r : trow) : Prop := t_ts r <> None -> t_val r <> None.

(** MODE *)
Definition occurrences (v : Z) (rows : list (option Z)) : nat := length (filter (fun x => match x with Some y => y =? v | None => false end) rows).
Definition most_frequent (rows : list (option Z)) (v : option Z) : Prop :=
  match v with
  | None => forall x, ~ In (Some x) rows
  | Some x => In (Some x) rows /\ forall y, (occurrences y rows <= occurrences x rows)%nat
  end.
(** The partial states list the entries of a map in its own order; so does the last evaluation. *)
Definition mode_stage (parts : list (list (list (option Z)))) (result : option Z) : Prop :=
  exists states arrivals entries,
    Forall2 (fun p s => @Permutation (Z * Z) (partition [] mode_update p) s) parts states /\
    Permutation (concat arrivals) states /\
    Permutation (fold_left mode_merge arrivals []) entries /\ result = mode_eval entries.

(** INCREASE of the readings of a counter in time order: a drop of the counter is a reset to 0. *)
Fixpoint counter_increase (l : list (Z * Z)) : Z :=
  match l with
  | (_, a) :: (((_, b) :: _) as l') => (if b >=? a then b - a else b) + counter_increase l'
  | _ => 0
  end.
Definition in_time_order (l : list (Z * Z)) : Prop := StronglySorted (fun a b => fst a <= fst b) l.

(** GAUGE_AGG: the two earliest, the two latest and the number of the readings. *)
Definition sorts (sort : list (Z * Z) -> list (Z * Z)) : Prop := forall l, Permutation l (sort l) /\ in_time_order (sort l).
Definition gauge_of (readings : list (Z * Z)) (g : option gdata) : Prop :=
  match g with
  | None => readings = []
  | Some d => exists l, Permutation readings l /\ in_time_order l /\ l <> [] /\
      gd_first d = hd (0, 0) l /\ gd_last d = last l (0, 0) /\ gd_num d = Z.of_nat (length l) /\
      gd_second d = hd (hd (0, 0) l) (tl l) /\ gd_penult d = last (removelast l) (hd (0, 0) l)
  end.
