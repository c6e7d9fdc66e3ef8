(** Specification of time ranges as sets of instants. *)
From Verif Require Import Prelude TimeRangeModel.

(** The instants a range denotes. *)
Definition instants (r : trange) (t : Z) : Prop := tmin r <= t <= tmax r.
(** The instants a list of ranges denotes. *)
Definition instants_of (l : list trange) (t : Z) : Prop := exists r, In r l /\ instants r t.
(** A range is meaningful when its bounds are i64 values, and non-empty when min <= max. *)
Definition i64_range (r : trange) : Prop := is_i64 (tmin r) /\ is_i64 (tmax r).
Definition nonempty (r : trange) : Prop := tmin r <= tmax r.

(** [TimeRanges] values a program can obtain: built by the public constructors and mutators
    from ranges that are non-empty. *)
Inductive reachable : tranges -> Prop :=
| reach_empty : reachable trs_empty
| reach_all : reachable trs_all
| reach_bounds lo hi : is_i64 lo -> is_i64 hi -> lo <= hi -> reachable (trs_of_bounds lo hi)
| reach_push s r : reachable s -> i64_range r -> nonempty r -> reachable (trs_push s r)
| reach_extend s l : reachable s -> Forall (fun r => i64_range r /\ nonempty r) l ->
    reachable (trs_extend s l).

(** The instants a [TimeRanges] value reports through [contains]. *)
Definition holds (s : tranges) (t : Z) : Prop := trs_contains s t = true.

Ltac ok_range := unfold i64_range, nonempty, is_i64, I64_MIN, I64_MAX; cbn [tmin tmax]; rewrite ?two63; lia.
Ltac ok_ranges := repeat (apply Forall_cons; [ok_range|]); apply Forall_nil.
