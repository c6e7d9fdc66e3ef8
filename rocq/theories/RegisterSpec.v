(** What the reports must show. *)
From Verif Require Import Prelude RegisterModel.
Open Scope Z_scope.

(** the sum of what was added to a counter, and whether anything was *)
Fixpoint added (name lab : Z) (h : list event) : Z :=
  match h with
  | [] => 0
  | EInc a b n :: r => (if (a =? name) && (b =? lab) then n else 0) + added name lab r
  | _ :: r => added name lab r
  end.
Definition touched (name lab : Z) (h : list event) : Prop := exists n, In (EInc name lab n) h.
(** what was handed in to be shown once *)
Definition handed_in (h : list event) : list family := flat_map (fun e => match e with EOnce fs => fs | _ => [] end) h.
Definition positive (h : list event) : Prop := forall a b n, In (EInc a b n) h -> 0 <= n.
