(** Model of the store that keeps the consensus state of all replica groups of a node (/repo/replication/src/state_store.rs),
    and of how a snapshot's membership is chosen from it (/repo/replication/src/node_store.rs:109-143).

    Simplifications.  Values are kept decoded (JSON encoding and decoding are assumed to be inverse); log ids, votes, snapshots and
    summaries are numbers.  A transaction is one step.  The keys are the strings of the code, in LMDB's order. *)
From Verif Require Import Prelude MetaModel.
Open Scope Z_scope.

(** state_store.rs:15-60 Key *)
Inductive field := FSummary | FApplied | FSnapApplied | FMembership | FPurged | FSnapIndex | FVote | FSnapshot | FInit.
Definition fname (f : field) : str :=
  match f with
  | FSummary => [110; 111; 100; 101; 95; 115; 117; 109; 109; 97; 114; 121] (* node_summary *)
  | FApplied => [97; 112; 112; 108; 105; 101; 100; 95; 108; 111; 103] (* applied_log *)
  | FSnapApplied => [115; 110; 97; 112; 115; 104; 111; 116; 95; 97; 112; 112; 108; 105; 101; 100; 95; 108; 111; 103] (* snapshot_applied_log *)
  | FMembership => [109; 101; 109; 98; 101; 114; 115; 104; 105; 112] (* membership *)
  | FPurged => [112; 117; 114; 103; 101; 100; 95; 108; 111; 103; 95; 105; 100] (* purged_log_id *)
  | FSnapIndex => [115; 110; 97; 112; 115; 104; 111; 116; 95; 105; 110; 100; 101; 120] (* snapshot_index *)
  | FVote => [118; 111; 116; 101] (* vote *)
  | FSnapshot => [115; 110; 97; 112; 115; 104; 111; 116] (* snapshot *)
  | FInit => [97; 108; 114; 101; 97; 100; 121; 95; 105; 110; 105; 116] (* already_init *)
  end.
Definition key (f : field) (id : N) : str := fname f ++ 95 :: show id.
(** Key::membership_list_prefix, Key::membership_list *)
Definition k_list_prefix (id : N) : str := fname FMembership ++ 95 :: show id ++ [95].
Definition k_list (id idx : N) : str := fname FMembership ++ 95 :: show id ++ 95 :: show idx.

(** StoredMembership: the index of the entry that set it, if any, and the members *)
Record smem := SM { sm_index : option N; sm_nodes : Z }.
Definition smem_default : smem := SM None 0.
Definition smem_index (m : smem) : N := match sm_index m with Some i => i | None => 0%N end.
Inductive sval := VZ (z : Z) | VM (m : smem).
Definition store := list (str * sval).

(** state_store.rs:113-125 get (a value of another type is a decoding error, here none) *)
Definition get_z (s : store) (k : str) : option Z := match get k s with Some (VZ z) => Some z | _ => None end.
Definition get_m (s : store) (k : str) : option smem := match get k s with Some (VM m) => Some m | _ => None end.
(** state_store.rs:145-167, 235-373: the getters and setters of the plain fields *)
Definition get_field (s : store) (f : field) (id : N) : option Z := get_z s (key f id).
Definition set_field (s : store) (f : field) (id : N) (z : Z) : store := put (key f id) (VZ z) s.
(** state_store.rs:169-179 get_last_membership *)
Definition get_last_membership (s : store) (id : N) : smem := match get_m s (key FMembership id) with Some m => m | None => smem_default end.
(** state_store.rs:181-199 set_last_membership *)
Definition set_last_membership (s : store) (id : N) (m : smem) : store :=
  let s := put (key FMembership id) (VM m) s in
  match sm_index m with Some i => put (k_list id i) (VM m) s | None => s end.
(** state_store.rs:201-218 get_membership_list: what lies under the prefix *)
Definition get_membership_list (s : store) (id : N) : list (str * smem) :=
  flat_map (fun e => match snd e with VM m => if starts (k_list_prefix id) (fst e) then [(fst e, m)] else [] | VZ _ => [] end) s.
(** [sort_by_key] on the index, stable *)
Fixpoint ins_mem (x : str * smem) (l : list (str * smem)) : list (str * smem) :=
  match l with
  | [] => [x]
  | y :: l' => if (smem_index (snd x) <=? smem_index (snd y))%N then x :: l else y :: ins_mem x l'
  end.
Definition sort_mem (l : list (str * smem)) : list (str * smem) := fold_right ins_mem [] l.
Definition upto (index : N) (l : list (str * smem)) : list (str * smem) := filter (fun x => (smem_index (snd x) <=? index)%N) (sort_mem l).
(** state_store.rs:375-383 del_keys *)
Definition del_keys (s : store) (ks : list str) : store := fold_left (fun s k => del k s) ks s.
(** state_store.rs:220-233 clear_memberships; [order]: the order in which the hash map of the list is walked *)
Definition clear_memberships (order : list (str * smem) -> list (str * smem)) (s : store) (id index : N) : store :=
  del_keys s (map fst (removelast (upto index (order (get_membership_list s id))))).
(** state_store.rs:402-420 del_group *)
Definition del_group (order : list (str * smem) -> list (str * smem)) (s : store) (id : N) : store :=
  let l := get_membership_list s id in
  del_keys s (map (fun f => key f id) [FApplied; FMembership; FPurged; FSnapIndex; FVote; FSnapshot; FInit; FSummary; FSnapApplied] ++ map fst (order l)).
(** state_store.rs:385-400 all_nodes_summary *)
Definition all_nodes_summary (s : store) : list Z :=
  flat_map (fun e => if starts (fname FSummary ++ [95]) (fst e) then match snd e with VZ z => [z] | VM _ => [] end else []) s.
(** node_store.rs:109-126 get_snapshot_membership *)
Definition get_snapshot_membership (order : list (str * smem) -> list (str * smem)) (s : store) (id index : N) : smem :=
  match rev (upto index (order (get_membership_list s id))) with
  | x :: _ => snd x
  | [] => get_last_membership s id
  end.
