(** Model of STATE_AGG and COMPACT_STATE_AGG and of DURATION_IN and STATE_AT, which read their result
    (/repo/query_server/query/src/extension/expr/aggregate_function/state_agg/,
    scalar_function/{duration_in,state_at}.rs).

    Simplifications.  A row is a time and a state, both numbers; rows with a null time are skipped by
    the code (state_agg_accumulator.rs:76-78) and are not rows here.  A duration is a number in the
    unit of the times.  Hash maps are association lists; where the code walks a map its order is a
    parameter.  The conversion of the result to an Arrow struct and back is left out, except for the
    flag [compact] that is computed on the way back. *)
From Verif Require Import Prelude.

(** state_agg_data.rs:412-420, 32-37 *)
Record durs := DS { ds_last : option (Z * Z); ds_map : list (Z * Z) }.
Record pers := PS { ps_last : option (Z * Z); ps_map : list (Z * list (Z * Z)) }.
Record sdata := SD { sd_durs : durs; sd_pers : pers }.

Fixpoint look {A} (m : list (Z * A)) (s : Z) : option A := match m with [] => None | (k, v) :: m' => if k =? s then Some v else look m' s end.
(** state_agg_data.rs:541-549: [get_mut] then insert or add *)
Fixpoint add_dur (s d : Z) (m : list (Z * Z)) : list (Z * Z) :=
  match m with [] => [(s, d)] | (k, v) :: m' => if k =? s then (k, v + d) :: m' else (k, v) :: add_dur s d m' end.
(** state_agg_data.rs:236-239: [entry(..).or_default().push(..)] *)
Fixpoint add_per (s : Z) (p : Z * Z) (m : list (Z * list (Z * Z))) : list (Z * list (Z * Z)) :=
  match m with [] => [(s, [p])] | (k, v) :: m' => if k =? s then (k, v ++ [p]) :: m' else (k, v) :: add_per s p m' end.
(** state_agg_data.rs:532-555 DurationStates::handle_record *)
Definition dur_record (d : durs) (r : Z * Z) : durs :=
  match ds_last d with
  | None => DS (Some r) (ds_map d)
  | Some (lt, ls) => DS (Some r) (add_dur ls (fst r - lt) (ds_map d))
  end.
(** state_agg_data.rs:225-245 StatePeriods::handle_record *)
Definition per_record (p : pers) (r : Z * Z) : pers :=
  match ps_last p with
  | None => PS (Some r) (ps_map p)
  | Some (lt, ls) => PS (Some r) (add_per ls (lt, fst r) (ps_map p))
  end.
(** state_agg_data.rs:51-60 handle_record *)
Definition record (compact : bool) (d : sdata) (r : Z * Z) : sdata :=
  SD (dur_record (sd_durs d) r) (if compact then sd_pers d else per_record (sd_pers d) r).
(** state_agg_data.rs:557-565 DurationStates::finalize: a state seen only last gets duration 0 *)
Definition finalize (d : durs) : durs :=
  match ds_last d with
  | None => d
  | Some (_, s) => DS None (match look (ds_map d) s with Some _ => ds_map d | None => ds_map d ++ [(s, 0)] end)
  end.
(** state_agg_accumulator.rs:30-53 update_batch, 113-128 merge_batch, 142-152: rows are collected *)
Definition sa_update (acc batch : list (Z * Z)) : list (Z * Z) := acc ++ batch.
Definition sa_merge (acc : list (Z * Z)) (states : list (list (Z * Z))) : list (Z * Z) := acc ++ concat states.
(** state_agg_accumulator.rs:55-98 evaluate; [sort] sorts by time (154-158 sort_indices) *)
Definition sd_new : sdata := SD (DS None []) (PS None []).
Definition evaluate (sort : list (Z * Z) -> list (Z * Z)) (compact : bool) (rows : list (Z * Z)) : sdata :=
  let d := fold_left (record compact) (sort rows) sd_new in SD (finalize (sd_durs d)) (sd_pers d).

(** state_agg_data.rs:171-195 try_from: how the result is recognised as that of COMPACT_STATE_AGG *)
Definition seems_compact (d : sdata) : bool :=
  match ps_map (sd_pers d), ds_map (sd_durs d) with [], _ :: _ => true | _, _ => false end.
(** state_agg_data.rs:78-87, 95-102 *)
Definition whole (d : sdata) (s : Z) : Z := match look (ds_map (sd_durs d)) s with Some x => x | None => 0 end.
(** state_agg_data.rs:107-121: with an interval *)
Definition clip (start fin : Z) (p : Z * Z) : Z :=
  match fst p <? start, snd p >? fin with
  | true, true => fin - start
  | true, false => snd p - start
  | false, true => fin - fst p
  | false, false => snd p - fst p
  end.
Definition within (d : sdata) (s start fin : Z) : Z :=
  match look (ps_map (sd_pers d)) s with
  | None => 0
  | Some ps => fold_left (fun sum p => sum + clip start fin p) (filter (fun p => (snd p >? start) && (fst p <? fin)) ps) 0
  end.
(** state_agg_data.rs:122-131: without an interval *)
Definition since (d : sdata) (s start : Z) : Z :=
  match look (ps_map (sd_pers d)) s with
  | None => 0
  | Some ps => fold_left (fun sum p => sum + (if fst p <? start then snd p - start else snd p - fst p)) (filter (fun p => snd p >? start) ps) 0
  end.
(** duration_in.rs:83-135: with two, three and four arguments; [None] is the error *)
Definition duration_in2 (d : sdata) (s : Z) : option Z := Some (whole d s).
Definition duration_in3 (d : sdata) (s start : Z) : option Z := if seems_compact d then None else Some (since d s start).
Definition duration_in4 (d : sdata) (s start interval : Z) : option Z := if seems_compact d then None else Some (within d s start (start + interval)).
(** state_agg_data.rs:138-152 state_at; [entries] is the map in its own order *)
Fixpoint walk (entries : list (Z * list (Z * Z))) (t : Z) : option Z :=
  match entries with
  | [] => None
  | (s, ps) :: e => match filter (fun p => (fst p <=? t) && (t <? snd p)) ps with _ :: _ => Some s | [] => walk e t end
  end.
(** state_at.rs:55-70; the inner [None] is null *)
Definition state_at (order : list (Z * list (Z * Z)) -> list (Z * list (Z * Z))) (d : sdata) (t : Z) : option (option Z) :=
  if seems_compact d then None else Some (walk (order (ps_map (sd_pers d))) t).
