(** Specification: a list of entries, oldest first, holding at most [cap] of them. *)
From Verif Require Import Prelude RingModel.
Section S.
Context {V : Type}.
Definition entries := list (Z * V).
Definition lookup (l : entries) (k : Z) : option V :=
  match find (fun e => fst e =? k) l with Some e => Some (snd e) | None => None end.
Fixpoint drop_while (f : Z -> bool) (l : entries) : entries :=
  match l with [] => [] | e :: l' => if f (fst e) then drop_while f l' else l end.
(** A new key goes to the end and, when the cache is full, the oldest entry leaves; a present key gets the new value. *)
Definition s_put (cap : nat) (l : entries) (k : Z) (v : V) : entries :=
  match lookup l k with
  | Some _ => map (fun e => if fst e =? k then (k, v) else e) l
  | None => (if (length l <? cap)%nat then l else tl l) ++ [(k, v)]
  end.
Definition s_step (cap : nat) (l : entries) (o : kop V) : entries :=
  match o with
  | KPut k v => s_put cap l k v
  | KDelBefore k => drop_while (fun x => x <? k) l
  | KDelAfter k => rev (drop_while (fun x => k <=? x) (rev l))
  end.
End S.
