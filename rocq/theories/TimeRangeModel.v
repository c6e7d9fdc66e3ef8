(** Model of [TimeRange] and [TimeRanges]
    (/repo/common/models/src/predicate/domain.rs:35-425).
    An i64 timestamp is a [Z]; [BTreeMap<i64,i64>] is an association list kept
    sorted by key by the insertion below. *)
From Verif Require Import Prelude.

(** domain.rs:36-39 struct TimeRange: a closed interval. *)
Record trange := TR { tmin : Z; tmax : Z }.

(** domain.rs:41-58 From<(Bound<i64>, Bound<i64>)>; [v + 1] and [v - 1] wrap in release. *)
Inductive bnd := Included (v : Z) | Excluded (v : Z) | Unbounded.
Definition tr_of_bounds (lo hi : bnd) : trange :=
  TR (match lo with Excluded v => wrap_i64 (v + 1) | Included v => v | Unbounded => I64_MIN end)
     (match hi with Excluded v => wrap_i64 (v - 1) | Included v => v | Unbounded => I64_MAX end).

(** domain.rs:66-71 all *)
Definition tr_all : trange := TR I64_MIN I64_MAX.
(** domain.rs:73-78 none *)
Definition tr_none : trange := TR I64_MAX I64_MIN.
(** domain.rs:81-83 is_boundless *)
Definition tr_is_boundless (r : trange) : bool := (tmin r =? I64_MIN) && (tmax r =? I64_MAX).
(** domain.rs:86-88 overlaps *)
Definition tr_overlaps (a b : trange) : bool := negb ((tmin a >? tmax b) || (tmax a <? tmin b)).
(** domain.rs:91-93 includes *)
Definition tr_includes (a b : trange) : bool := (tmin a <=? tmin b) && (tmax a >=? tmax b).
(** domain.rs:96-98 contains *)
Definition tr_contains (a : trange) (t : Z) : bool := (t >=? tmin a) && (t <=? tmax a).
(** domain.rs:100-110 intersect *)
Definition tr_intersect (a b : trange) : option trange :=
  if tr_overlaps a b then Some (TR (Z.max (tmin a) (tmin b)) (Z.min (tmax a) (tmax b))) else None.
(** domain.rs:112-117 total_time: the subtraction is done in i128, the cast to u64 and the
    [+ 1] wrap. *)
Definition tr_total_time (a : trange) : Z :=
  if tmax a <? tmin a then 0 else wrap_u64 (wrap_u64 (tmax a - tmin a) + 1).
(** domain.rs:120-123 merge *)
Definition tr_merge (a b : trange) : trange := TR (Z.min (tmin a) (tmin b)) (Z.max (tmax a) (tmax b)).
(** domain.rs:125-151 exclude; [other.min_ts - 1] and [other.max_ts + 1] are wrapping. *)
Definition tr_exclude (a o : trange) : option trange * option trange :=
  (if tmin a <? tmin o then Some (TR (tmin a) (Z.min (tmax a) (wrap_i64 (tmin o - 1)))) else None,
   if tmax a >? tmax o then Some (TR (Z.max (tmin a) (wrap_i64 (tmax o + 1))) (tmax a)) else None).
(** domain.rs:186-188 is_none *)
Definition tr_is_none (a : trange) : bool := tmin a >? tmax a.

(** i64 [checked_add(1).unwrap_or(self)] and [checked_sub(1).unwrap_or(self)]
    (domain.rs:243-247, 251-254, 174). *)
Definition succ_or_self (z : Z) : Z := if z =? I64_MAX then z else z + 1.
Definition pred_or_self (z : Z) : Z := if z =? I64_MIN then z else z - 1.

(** ** BTreeMap<i64, i64> *)
Definition btree := list (Z * Z).
(** BTreeMap::insert: replaces the value of an equal key. *)
Fixpoint bt_insert (k v : Z) (m : btree) : btree :=
  match m with
  | [] => [(k, v)]
  | (k', v') :: m' =>
      if k <? k' then (k, v) :: (k', v') :: m'
      else if k =? k' then (k, v) :: m'
      else (k', v') :: bt_insert k v m'
  end.
(** BTreeMap::remove *)
Definition bt_remove (k : Z) (m : btree) : btree := filter (fun e => negb (fst e =? k)) m.
(** BTreeMap index [inner[&k]]; the caller only asks for present keys, an absent key panics
    (the [None] case). *)
Fixpoint bt_get (k : Z) (m : btree) : option Z :=
  match m with
  | [] => None
  | (k', v') :: m' => if k =? k' then Some v' else bt_get k m'
  end.
(** BTreeMap::range(..=hi) *)
Definition bt_upto (hi : Z) (m : btree) : btree := filter (fun e => fst e <=? hi) m.

Fixpoint take_while {A} (p : A -> bool) (l : list A) : list A :=
  match l with
  | [] => []
  | x :: l' => if p x then x :: take_while p l' else []
  end.

(** domain.rs:228-233 struct TimeRanges *)
Record tranges := TRS { inner : btree; rs_min : Z; rs_max : Z }.

(** domain.rs:236-266 add_time_range *)
Definition add_time_range (s : tranges) (r : trange) : tranges :=
  let mn := Z.min (rs_min s) (tmin r) in
  let mx := Z.max (rs_max s) (tmax r) in
  let timestamps :=
    map fst (take_while (fun e => snd e >=? pred_or_self (tmin r))
                        (rev (bt_upto (succ_or_self (tmax r)) (inner s)))) in
  match timestamps with
  | [] => TRS (bt_insert (tmin r) (tmax r) (inner s)) mn mx
  | t0 :: _ =>
      let lo := Z.min (tmin r) (last timestamps t0) in
      (* [self.inner[&timestamps[0]]]: the key was just read from the map *)
      let hi := Z.max (tmax r) (match bt_get t0 (inner s) with Some v => v | None => tmax r end) in
      TRS (bt_insert lo hi (fold_left (fun m k => bt_remove k m) timestamps (inner s))) mn mx
  end.

(** domain.rs:290-296 empty *)
Definition trs_empty : tranges := TRS [] I64_MAX I64_MIN.
(** domain.rs:282-288 all *)
Definition trs_all : tranges := TRS [(I64_MIN, I64_MAX)] I64_MIN I64_MAX.
(** domain.rs:274-280 with_inclusive_bounds *)
Definition trs_of_bounds (lo hi : Z) : tranges := TRS [(lo, hi)] lo hi.
(** domain.rs:344-346 is_boundless *)
Definition trs_is_boundless (s : tranges) : bool := (rs_min s =? I64_MIN) && (rs_max s =? I64_MAX).
(** domain.rs:299-304 push *)
Definition trs_push (s : tranges) (r : trange) : tranges :=
  if trs_is_boundless s then s else add_time_range s r.
(** domain.rs:307-314 extend_from_slice: the boundless test is made once, before the loop. *)
Definition trs_extend (s : tranges) (l : list trange) : tranges :=
  if trs_is_boundless s then s else fold_left add_time_range l s.
(** domain.rs:268-272 new *)
Definition trs_new (l : list trange) : tranges := trs_extend trs_empty l.
(** domain.rs:322-324 is_empty *)
Definition trs_is_empty (s : tranges) : bool := match inner s with [] => true | _ => false end.
(** domain.rs:326-330 time_ranges *)
Definition trs_ranges (s : tranges) : list trange := map (fun e => TR (fst e) (snd e)) (inner s).
(** domain.rs:382-384 max_time_range *)
Definition trs_max_range (s : tranges) : trange := TR (rs_min s) (rs_max s).
(** domain.rs:348-351 overlaps *)
Definition trs_overlaps (s : tranges) (r : trange) : bool :=
  tr_overlaps (trs_max_range s) r && existsb (fun x => tr_overlaps x r) (trs_ranges s).
(** domain.rs:353-358 includes: [range(..=max).next_back()] *)
Definition trs_includes (s : tranges) (r : trange) : bool :=
  match rev (bt_upto (tmax r) (inner s)) with
  | (mn, mx) :: _ => (tmax r <=? mx) && (tmin r >=? mn)
  | [] => false
  end.
(** domain.rs:360-362 contains *)
Definition trs_contains (s : tranges) (t : Z) : bool := trs_includes s (TR t t).

Definition flat_opt {A} (l : list (option A)) : list A :=
  flat_map (fun o => match o with Some x => [x] | None => [] end) l.

(** domain.rs:364-380 intersect *)
Definition trs_intersect (s : tranges) (r : trange) : option tranges :=
  if trs_overlaps s r then
    match flat_opt (map (fun x => tr_intersect x r) (trs_ranges s)) with
    | [] => None
    | l => Some (trs_new l)
    end
  else None.
(** domain.rs:386-399 exclude *)
Definition trs_exclude (s : tranges) (r : trange) : tranges :=
  trs_new (flat_opt (flat_map (fun x => [fst (tr_exclude x r); snd (tr_exclude x r)]) (trs_ranges s))).
(** domain.rs:401-405 exclude_time_ranges *)
Definition trs_exclude_all (s : tranges) (l : list trange) : tranges := fold_left trs_exclude l s.

(** domain.rs:153-184 TimeRange::exclude_time_ranges: the loop over the sorted ranges.
    Returns [None] for the early [return None], otherwise the pushed ranges and the final
    [tmp_tr_min_ts]; [break] is the [tmp >? max] case. *)
Fixpoint exclude_loop (mx : Z) (tmp : Z) (acc : list trange) (l : btree) : option (list trange * Z) :=
  match l with
  | [] => Some (acc, tmp)
  | (a, b) :: l' =>
      if (a =? I64_MIN) && (b =? I64_MAX) then None
      else if tmp >? mx then Some (acc, tmp)
      else if (tmp <=? b) && (mx >=? a) then
        exclude_loop mx (succ_or_self b)
          (if a >? tmp then acc ++ [TR tmp (a - 1)] else acc) l'
      else exclude_loop mx tmp acc l'
  end.
Definition tr_exclude_time_ranges (r : trange) (s : tranges) : option tranges :=
  if tr_is_none r then None
  else if trs_is_empty s then Some (trs_new [r])
  else match exclude_loop (tmax r) (tmin r) [] (inner s) with
       | None => None
       | Some (acc, tmp) =>
           match (if tmp <=? tmax r then acc ++ [TR tmp (tmax r)] else acc) with
           | [] => None
           | l => Some (trs_new l)
           end
       end.
