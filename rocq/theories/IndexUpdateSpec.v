(** What setting tag values means. *)
From Coq Require Import Sorted.
From Verif Require Import Prelude Bytes IndexModel IndexSpec.
Open Scope Z_scope.

(** The last entry of [n] in a list of pairs. *)
Definition last_of {A} (n : bytes) (l : list (bytes * A)) : option A := option_map snd (find (fun t => beq (fst t) n) (rev l)).
(** Tags in the order of their names, no name twice: the form in which writes name a series. *)
Definition by_name (a b : bytes * bytes) : Prop := lex_lt (fst a) (fst b) = true.
(** [k'] is [k] after the update: a tag that is set has the new value, one set to null is gone, the others are as before. *)
Definition updated (upd : list (bytes * option bytes)) (k k' : series) : Prop :=
  sk_table k' = sk_table k /\ StronglySorted by_name (sk_tags k') /\
  forall n v, In (n, v) (sk_tags k') <-> match last_of n upd with Some r => r = Some v | None => last_of n (sk_tags k) = Some v end.
