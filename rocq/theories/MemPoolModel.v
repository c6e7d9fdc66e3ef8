(** Model of /repo/common/memory_pool/src/lib.rs GreedyMemoryPool: one shared atomic counter, any number of clients.
    Each step is one atomic instruction of one client.  usize arithmetic wraps at 2^64. *)
From Verif Require Import Prelude.

(** A client is idle or inside the compare-and-swap loop of [fetch_update] (lib.rs:48-53) with the value it last saw. *)
Inductive client := Idle | Trying (additional seen : Z).
(** lib.rs:16-20; [held] is each client's reservation size (datafusion MemoryReservation: shrink only what is held). *)
Record pool := { p_size : Z; p_used : Z; p_client : nat -> client; p_held : nat -> Z }.
Definition fset {A} (f : nat -> A) (i : nat) (v : A) : nat -> A := fun j => if Nat.eqb j i then v else f j.

Inductive pstep : pool -> nat -> pool -> Prop :=
(* lib.rs:48: try_grow starts: initial load *)
| PLoad p t a : p_client p t = Idle -> is_u64 a ->
    pstep p t {| p_size := p_size p; p_used := p_used p; p_client := fset (p_client p) t (Trying a (p_used p)); p_held := p_held p |}
(* lib.rs:50-52: the closure accepts and the compare-and-swap succeeds *)
| PCasOk p t a seen : p_client p t = Trying a seen -> wrap_u64 (seen + a) <= p_size p -> p_used p = seen ->
    pstep p t {| p_size := p_size p; p_used := wrap_u64 (seen + a); p_client := fset (p_client p) t Idle; p_held := fset (p_held p) t (p_held p t + a) |}
(* the compare-and-swap fails: retry with the value found *)
| PCasFail p t a seen : p_client p t = Trying a seen -> wrap_u64 (seen + a) <= p_size p -> p_used p <> seen ->
    pstep p t {| p_size := p_size p; p_used := p_used p; p_client := fset (p_client p) t (Trying a (p_used p)); p_held := p_held p |}
(* the closure rejects: try_grow returns an error *)
| PReject p t a seen : p_client p t = Trying a seen -> p_size p < wrap_u64 (seen + a) ->
    pstep p t {| p_size := p_size p; p_used := p_used p; p_client := fset (p_client p) t Idle; p_held := p_held p |}
(* lib.rs:43-45 shrink (also run when a reservation is dropped) *)
| PShrink p t a : p_client p t = Idle -> 0 <= a <= p_held p t ->
    pstep p t {| p_size := p_size p; p_used := wrap_u64 (p_used p - a); p_client := p_client p; p_held := fset (p_held p) t (p_held p t - a) |}
(* lib.rs:39-41 grow: unchecked *)
| PGrow p t a : p_client p t = Idle -> is_u64 a ->
    pstep p t {| p_size := p_size p; p_used := wrap_u64 (p_used p + a); p_client := p_client p; p_held := fset (p_held p) t (p_held p t + a) |}.

Definition pool_new (size : Z) : pool := {| p_size := size; p_used := 0; p_client := fun _ => Idle; p_held := fun _ => 0 |}.
(** Executions with clients 0 .. n-1; [ok] restricts the steps taken. *)
Inductive prun (n : nat) (ok : pool -> nat -> pool -> Prop) : pool -> pool -> Prop :=
| PRNil p : prun n ok p p
| PRSnoc p q t r : prun n ok p q -> (t < n)%nat -> pstep q t r -> ok q t r -> prun n ok p r.
