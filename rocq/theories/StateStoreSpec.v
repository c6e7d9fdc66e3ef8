(** What the consensus state of each replica group should be after a history of operations. *)
From Coq Require Import Permutation.
From Verif Require Import Prelude MetaModel StateStoreModel.

(** One group: its plain fields, the membership set last, every membership set at some index (the newest for each index comes
    first), and the largest index memberships were cleared up to. *)
Record group := GR { g_fields : field -> option Z; g_last : smem; g_set : list (N * smem); g_cleared : N }.
Definition group_new : group := GR (fun _ => None) smem_default [] 0.
Definition field_eqb (a b : field) : bool :=
  match a, b with
  | FSummary, FSummary | FApplied, FApplied | FSnapApplied, FSnapApplied | FMembership, FMembership | FPurged, FPurged
  | FSnapIndex, FSnapIndex | FVote, FVote | FSnapshot, FSnapshot | FInit, FInit => true
  | _, _ => false
  end.

Inductive sop :=
| SSet (f : field) (id : N) (z : Z) | SMember (id : N) (m : smem)
| SClear (order : list (str * smem) -> list (str * smem)) (id index : N) | SDel (order : list (str * smem) -> list (str * smem)) (id : N).
(** The membership field is written by [SMember] only; hash maps are walked in some order. *)
Definition sop_ok (o : sop) : Prop :=
  match o with
  | SSet f _ _ => f <> FMembership
  | SMember _ _ => True
  | SClear order _ _ | SDel order _ => forall l, Permutation (order l) l
  end.
Definition sstep (s : store) (o : sop) : store :=
  match o with
  | SSet f id z => set_field s f id z
  | SMember id m => set_last_membership s id m
  | SClear order id index => clear_memberships order s id index
  | SDel order id => del_group order s id
  end.
Definition srun (ops : list sop) : store := fold_left sstep ops [].

Definition on (gs : N -> group) (id : N) (g : group) : N -> group := fun i => if (i =? id)%N then g else gs i.
(** Each operation changes its own group only. *)
Definition gstep (gs : N -> group) (o : sop) : N -> group :=
  match o with
  | SSet f id z => on gs id (GR (fun f' => if field_eqb f' f then Some z else g_fields (gs id) f') (g_last (gs id)) (g_set (gs id)) (g_cleared (gs id)))
  | SMember id m => on gs id (GR (g_fields (gs id)) m (match sm_index m with Some i => (i, m) :: g_set (gs id) | None => g_set (gs id) end) (g_cleared (gs id)))
  | SClear _ id index => on gs id (GR (g_fields (gs id)) (g_last (gs id)) (g_set (gs id)) (N.max (g_cleared (gs id)) index))
  | SDel _ id => on gs id group_new
  end.
Definition grun (ops : list sop) : N -> group := fold_left gstep ops (fun _ => group_new).

Fixpoint newest (i : N) (l : list (N * smem)) : option smem :=
  match l with [] => None | (j, m) :: l => if (j =? i)%N then Some m else newest i l end.
(** [m] is the membership in force at [index]: the newest one set at the largest index not above it; if there is none, the last one. *)
Definition in_force (g : group) (index : N) (m : smem) : Prop :=
  (exists i, (i <= index)%N /\ newest i (g_set g) = Some m /\ forall j, (j <= index)%N -> newest j (g_set g) <> None -> (j <= i)%N)
  \/ ((forall j, (j <= index)%N -> newest j (g_set g) = None) /\ m = g_last g).
