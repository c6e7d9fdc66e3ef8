(** What the limits of a tenant promise. *)
From Verif Require Import Prelude RateModel RateSpec LimitModel.

(** A configuration: nothing negative; the meta service's bucket has at most 2^63 - 1 units. *)
Definition config_ok (c : config) : Prop :=
  0 <= c_initial c /\ match c_max c with Some m => 0 <= m <= I64_MAX | None => True end.
(** What a node may let through beyond what it was given. *)
Definition overdraft (c : config) : Z := match c_max c with Some m => m | None => 0 end.
Definition rate_fits (r : rate) : Prop := rate_ok r /\ rmax r <= I64_MAX.
(** The events happen between [t0] and [T], sizes are not negative, the limits are not set again. *)
Definition within (t0 T : Z) (ev : event) : Prop :=
  match ev with
  | Check _ n lost last => 0 <= n /\ Forall (fun t => t0 <= t <= T) lost /\ match last with Some t => t0 <= t <= T | None => True end
  | Restart _ => True
  | Alter _ => False
  end.
Definition restarts (evs : list event) : Z := Z.of_nat (length (filter (fun ev => match ev with Restart _ => true | _ => false end) evs)).
(** The units available to a request at time [t]. *)
Definition available (r : rate) (t : Z) : Z := balance (update_critical r t).
