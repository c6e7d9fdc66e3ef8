(** What an accepted request owes to the stored users, members and roles. *)
From Verif Require Import Prelude AuthModel.

(** [v] was the value of [k] at a moment not before [a]: all changes after that moment are not older than [a]. *)
Definition held (l : list entry) (k : key) (v : option value) (a : Z) : Prop :=
  exists p, (p <= length l)%nat /\ lookup (firstn p l) k = v /\ Forall (fun e => a <= e_time e) (skipn p l).
(** [v] was the value of [k] at a moment when at least the first [n] changes were made. *)
Definition held_after (l : list entry) (k : key) (v : option value) (n : nat) : Prop :=
  exists p, (n <= p <= length l)%nat /\ lookup (firstn p l) k = v.

(** A node that has just started: its copy agrees with the metadata, nothing is cached. *)
Definition started (s : state) : Prop :=
  seen s = length (log s) /\ (forall k v, copy s k = Some v -> lookup (log s) k = Some v) /\ pend s = [] /\ cache s = [] /\ tokens s = [] /\
  Forall (fun e => e_time e <= now s) (log s).

(** While the role of a member was read and is not yet in the copy, no change of that member is processed. *)
Definition orderly (s : state) (ev : event) : Prop :=
  match ev with
  | Watch => forall e c d x, nth_error (log s) (seen s) = Some e -> In c (pend s) -> c_stage c = SCache d x ->
             e_key e <> KMember (q_tenant (c_req c)) (d_id d)
  | _ => True
  end.
(** The watch is at most [L] seconds behind; no check takes longer than [D] seconds. *)
Definition lag (L : Z) (s : state) : Prop := forall e, In e (skipn (seen s) (log s)) -> now s - L <= e_time e.
Definition prompt (D : Z) (s : state) : Prop := forall c, In c (pend s) -> now s <= c_begin c + D.

Section Bcrypt.
Context (verify : Z -> Z -> bool) (rsa : Z -> Z -> Z -> bool).

Inductive reach (L D : Z) : state -> Prop :=
| reach_start : forall s, started s -> reach L D s
| reach_step : forall s ev s' o, reach L D s -> orderly s ev -> step verify rsa s ev = Some (s', o) -> lag L s' -> prompt D s' -> reach L D s'.

(** Orderly executions without bounds on time. *)
Inductive later (s0 : state) : state -> Prop :=
| later_refl : later s0 s0
| later_step : forall s ev s' o, later s0 s -> orderly s ev -> step verify rsa s ev = Some (s', o) -> later s0 s'.

(** The password is right for the user: it goes with some private key that matches the public key the user has, or, if the user has
    none, it is the password whose hash is stored. *)
Definition credentials (d : desc) (pw : Z) : Prop :=
  (exists pub k, d_rsa d = Some pub /\ rsa k pw pub = true) \/ (d_rsa d = None /\ exists h, d_hash d = Some h /\ verify pw h = true).
(** The identity was granted by stored data that all satisfy [H]. *)
Definition grounded (H : key -> option value -> Prop) (name pw tenant : Z) (i : ident) : Prop :=
  i_name i = name /\
  exists d, H (KUser name) (Some (VUser d)) /\ credentials d pw /\ i_id i = d_id d /\
    ((d_admin d = true /\ i_rights i = RAdmin) \/
     (d_admin d = false /\ exists x, H (KMember tenant (d_id d)) (Some (VMember x)) /\
        match x with
        | Sys y => i_rights i = RSystem tenant y
        | Cust r => exists v, H (KRole tenant r) v /\ i_rights i = RCustom tenant (match v with Some (VRole w) => Some w | _ => None end)
        end)).
End Bcrypt.
