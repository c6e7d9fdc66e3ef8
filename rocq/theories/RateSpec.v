(** Vocabulary for the rate limiter statements. *)
From Verif Require Import Prelude RateModel.
Definition zsum (l : list Z) : Z := fold_right Z.add 0 l.
Definition rate_ok (r : rate) : Prop := 0 < interval r /\ 0 <= refill r /\ 0 <= balance r <= rmax r.
