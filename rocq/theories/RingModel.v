(** Model of /repo/common/cache/src/circular_kvcache.rs with integer keys (the only use is K = u64, the raft log index;
    its default is 0).  Index-out-of-range and remainder-by-zero panics occur only at capacity 0 and are not modelled:
    [nth] reads default to 0 there. *)
From Verif Require Import Prelude.

(** circular_kvcache.rs:13-19 CircularBuffer *)
Record ring := { rbuf : list Z; rhead : nat; rtail : nat; rempty : bool }.

Fixpoint upd (n : nat) (v : Z) (l : list Z) {struct l} : list Z :=
  match l, n with [], _ => [] | _ :: t, O => v :: t | h :: t, S n' => h :: upd n' v t end.

(** circular_kvcache.rs:25-32 new *)
Definition ring_new (size : nat) : ring := {| rbuf := repeat 0 size; rhead := 0; rtail := 0; rempty := true |}.

(** circular_kvcache.rs:38-40 is_full *)
Definition is_full (b : ring) : bool := Nat.eqb ((rtail b + 1) mod length (rbuf b)) (rhead b).

(** circular_kvcache.rs:46-52 get_tail *)
Definition get_tail (b : ring) : option Z := if rempty b then None else Some (nth (rtail b) (rbuf b) 0).

(** circular_kvcache.rs:54-66 push *)
Definition push (b : ring) (item : Z) : ring :=
  if rempty b then {| rbuf := upd (rtail b) item (rbuf b); rhead := rhead b; rtail := rtail b; rempty := false |}
  else
    let tail := ((rtail b + 1) mod length (rbuf b))%nat in
    let head := if Nat.eqb tail (rhead b) then ((rhead b + 1) mod length (rbuf b))%nat else rhead b in
    {| rbuf := upd tail item (rbuf b); rhead := head; rtail := tail; rempty := false |}.

(** circular_kvcache.rs:69-82 pop *)
Definition pop (b : ring) : option Z * ring :=
  if rempty b then (None, b)
  else
    let item := nth (rhead b) (rbuf b) 0 in
    let buf := upd (rhead b) 0 (rbuf b) in
    (Some item,
     if Nat.eqb (rhead b) (rtail b) then {| rbuf := buf; rhead := rhead b; rtail := rtail b; rempty := true |}
     else {| rbuf := buf; rhead := (rhead b + 1) mod length (rbuf b); rtail := rtail b; rempty := false |}).

(** circular_kvcache.rs:87-109 del_before: the removed keys.  [None] = out of fuel. *)
Fixpoint del_before_loop (fuel : nat) (b : ring) (key : Z) : option (list Z * ring) :=
  match fuel with
  | O => None
  | S f =>
      if rempty b then Some ([], b)
      else if nth (rhead b) (rbuf b) 0 <? key then
        let buf := upd (rhead b) 0 (rbuf b) in
        if Nat.eqb (rhead b) (rtail b) then
          Some ([nth (rhead b) (rbuf b) 0], {| rbuf := buf; rhead := rhead b; rtail := rtail b; rempty := true |})
        else
          match del_before_loop f {| rbuf := buf; rhead := (rhead b + 1) mod length (rbuf b); rtail := rtail b; rempty := false |} key with
          | None => None
          | Some (l, b') => Some (nth (rhead b) (rbuf b) 0 :: l, b')
          end
      else Some ([], b)
  end.
Definition ring_del_before (b : ring) (key : Z) := del_before_loop (S (length (rbuf b))) b key.

(** circular_kvcache.rs:114-141 del_after *)
Fixpoint del_after_loop (fuel : nat) (b : ring) (key : Z) : option (list Z * ring) :=
  match fuel with
  | O => None
  | S f =>
      if rempty b then Some ([], b)
      else if key <=? nth (rtail b) (rbuf b) 0 then
        let buf := upd (rtail b) 0 (rbuf b) in
        if Nat.eqb (rhead b) (rtail b) then
          Some ([nth (rtail b) (rbuf b) 0], {| rbuf := buf; rhead := rhead b; rtail := rtail b; rempty := true |})
        else
          let tail := if Nat.eqb (rtail b) 0 then (length (rbuf b) - 1)%nat else ((rtail b - 1) mod length (rbuf b))%nat in
          match del_after_loop f {| rbuf := buf; rhead := rhead b; rtail := tail; rempty := false |} key with
          | None => None
          | Some (l, b') => Some (nth (rtail b) (rbuf b) 0 :: l, b')
          end
      else Some ([], b)
  end.
Definition ring_del_after (b : ring) (key : Z) := del_after_loop (S (length (rbuf b))) b key.

Section Cache.
Context {V : Type}.
(** circular_kvcache.rs:165-169 CircularKVCache; the HashMap is a finite map *)
Record kvcache := { kc_map : Z -> option V; kc_buf : ring }.
Definition mset (m : Z -> option V) (k : Z) (v : option V) : Z -> option V := fun k' => if k' =? k then v else m k'.
Definition mremove (m : Z -> option V) (ks : list Z) : Z -> option V := fold_left (fun m k => mset m k None) ks m.

(** circular_kvcache.rs:175-180 new *)
Definition kc_new (capacity : nat) : kvcache := {| kc_map := fun _ => None; kc_buf := ring_new capacity |}.
(** circular_kvcache.rs:182-184 get *)
Definition kc_get (c : kvcache) (k : Z) : option V := kc_map c k.
(** circular_kvcache.rs:186-192 last *)
Definition kc_last (c : kvcache) : option V := match get_tail (kc_buf c) with Some k => kc_map c k | None => None end.
(** circular_kvcache.rs:194-199 del_before *)
Definition kc_del_before (c : kvcache) (k : Z) : option kvcache :=
  match ring_del_before (kc_buf c) k with None => None | Some (items, b) => Some {| kc_map := mremove (kc_map c) items; kc_buf := b |} end.
(** circular_kvcache.rs:201-206 del_after *)
Definition kc_del_after (c : kvcache) (k : Z) : option kvcache :=
  match ring_del_after (kc_buf c) k with None => None | Some (items, b) => Some {| kc_map := mremove (kc_map c) items; kc_buf := b |} end.
(** circular_kvcache.rs:208-222 put *)
Definition kc_put (c : kvcache) (k : Z) (v : V) : kvcache :=
  match kc_map c k with
  | Some _ => {| kc_map := mset (kc_map c) k (Some v); kc_buf := kc_buf c |}
  | None =>
      let c1 := if is_full (kc_buf c) then
                  match pop (kc_buf c) with
                  | (Some old, b) => {| kc_map := mset (kc_map c) old None; kc_buf := b |}
                  | (None, b) => {| kc_map := kc_map c; kc_buf := b |}
                  end
                else c in
      {| kc_map := mset (kc_map c1) k (Some v); kc_buf := push (kc_buf c1) k |}
  end.

Inductive kop := KPut (k : Z) (v : V) | KDelBefore (k : Z) | KDelAfter (k : Z).
Definition kc_step (c : option kvcache) (o : kop) : option kvcache :=
  match c with
  | None => None
  | Some c => match o with KPut k v => Some (kc_put c k v) | KDelBefore k => kc_del_before c k | KDelAfter k => kc_del_after c k end
  end.
End Cache.
Arguments kvcache : clear implicits.
Arguments kop : clear implicits.
