(** What the change log says about the store (C38). *)
From Verif Require Import Prelude MetaModel.
Open Scope Z_scope.

(** The entries, newest first, have the versions [top], [top] - 1, ... down to [low] + 1: one each. *)
Fixpoint counts_down (top low : Z) (l : list (Z * bool * str)) : Prop :=
  match l with
  | [] => top = low
  | (v, _, _) :: l => v = top /\ counts_down (top - 1) low l
  end.
(** The newest entry about a key: whether it says that the key was deleted. *)
Fixpoint newest (k : str) (l : list (Z * bool * str)) : option bool :=
  match l with
  | [] => None
  | (_, deleted, k') :: l => if list_eq_dec Z.eq_dec k k' then Some deleted else newest k l
  end.
(** What happened between [s] and [s'] is in the log: each version once; a key the new entries do not name is as before;
    the newest entry of a key says rightly whether it is still there. *)
Definition announced (s s' : st) : Prop :=
  exists l, s_log s' = l ++ s_log s /\ counts_down (s_ver s') (s_ver s) l /\
    forall k, match newest k l with
              | None => get k (s_map s') = get k (s_map s)
              | Some true => get k (s_map s') = None
              | Some false => exists v, get k (s_map s') = Some v
              end.
