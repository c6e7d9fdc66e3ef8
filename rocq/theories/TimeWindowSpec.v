(** The windows of size [w], slide [s] and origin [o]: one starts at every [o + k * s]. *)
From Verif Require Import Prelude.
Definition is_window (w s o : Z) (win : Z * Z) : Prop := exists k, fst win = o + k * s /\ snd win = fst win + w.
Definition in_window (t : Z) (win : Z * Z) : Prop := fst win <= t < snd win.

(** Inputs for which no intermediate value leaves i64: timestamps and origins within +-2^62, durations of at most
    365 days (the limit the code enforces). *)
Definition no_overflow (w s o t : Z) : Prop :=
  0 < w <= 2 ^ 55 /\ 0 < s <= 2 ^ 55 /\ - 2 ^ 62 <= o <= 2 ^ 62 /\ - 2 ^ 62 <= t <= 2 ^ 62.

(** The precondition under which truncated remainders act as floor remainders. *)
Definition not_far_before_origin (w s o t : Z) : Prop := Z.rem o w - s <= t.
