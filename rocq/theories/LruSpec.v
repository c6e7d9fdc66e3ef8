(** What a cache must do. *)
From Verif Require Import Prelude LruModel.
Open Scope Z_scope.

(** The value last stored under the key, if it was not removed since; [l] is what was there before. *)
Fixpoint stored (k : Z) (l : option Z) (h : list event) : option Z :=
  match h with
  | [] => l
  | CInsert k' v :: r => stored k (if k =? k' then Some v else l) r
  | CRemove k' :: r => stored k (if k =? k' then None else l) r
  | _ :: r => stored k l r
  end.
(** Only storing and looking up, of keys other than [k] *)
Definition uses_others (k : Z) (h : list event) : Prop :=
  forall e, In e h -> match e with CInsert k' _ | CGet k' => k' <> k | _ => False end.
(** The keys of the history that share the shard are among these *)
Definition among (same : Z -> Prop) (ks : list Z) (h : list event) : Prop :=
  forall e, In e h -> match e with CInsert k' _ | CGet k' => same k' -> In k' ks | _ => True end.
(** The history stores or looks up the key *)
Definition used (k : Z) (h : list event) : Prop :=
  exists e, In e h /\ match e with CInsert k' _ | CGet k' => k = k' | _ => False end.
(** Nobody changes the capacity *)
Definition no_resize (h : list event) : Prop := forall i n, ~ In (CSetCapacity i n) h.
