(** What a timestamp of a given precision denotes. *)
From Verif Require Import Prelude TimeRangeModel PrecisionModel.

(** Nanoseconds in one unit. *)
Definition unit_ns (p : precision) : Z := match p with MS => 1000000 | US => 1000 | NS => 1 end.
(** The bounds the conversion keeps exact: a lower bound that is not positive or a multiple of the unit, an
    upper bound that is not negative or a multiple of the unit. *)
Definition exact_bounds (p : precision) (r : trange) : Prop :=
  (tmin r <= 0 \/ (unit_ns p | tmin r)) /\ (0 <= tmax r \/ (unit_ns p | tmax r)).

