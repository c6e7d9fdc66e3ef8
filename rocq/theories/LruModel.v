(** The sharded LRU caches of open files and of series. *)
From Verif Require Import Prelude.
Open Scope Z_scope.

(** common/cache/src/lru_cache/mod.rs:11-32 LruWrap: a capacity and the entries, the most recently used first.
    Keys and values are numbers.  The crate lru is not part of the repository; its functions put, get, pop,
    pop_lru, resize, clear are modelled from its documentation. *)
Record lru := LRU { l_cap : nat; l_items : list (Z * Z) }.
Definition find_key (k : Z) (l : list (Z * Z)) : option Z := option_map snd (find (fun e => fst e =? k) l).
Definition drop_key (k : Z) (l : list (Z * Z)) : list (Z * Z) := filter (fun e => negb (fst e =? k)) l.

(** lru_cache/mod.rs:38-40 insert: the old value of the key; a full cache loses its least recently used entry *)
Definition insert (k v : Z) (c : lru) : lru * option Z :=
  match find_key k (l_items c) with
  | Some old => (LRU (l_cap c) ((k, v) :: drop_key k (l_items c)), Some old)
  | None => (LRU (l_cap c) ((k, v) :: if Nat.eqb (length (l_items c)) (l_cap c) then removelast (l_items c) else l_items c), None)
  end.
(** lru_cache/mod.rs:42-44 get: the entry becomes the most recently used *)
Definition get (k : Z) (c : lru) : lru * option Z :=
  match find_key k (l_items c) with
  | Some v => (LRU (l_cap c) ((k, v) :: drop_key k (l_items c)), Some v)
  | None => (c, None)
  end.
(** lru_cache/mod.rs:46-48 remove *)
Definition remove (k : Z) (c : lru) : lru * option Z := (LRU (l_cap c) (drop_key k (l_items c)), find_key k (l_items c)).
(** lru_cache/mod.rs:50-52 pop: the least recently used *)
Definition pop (c : lru) : lru * option (Z * Z) :=
  match rev (l_items c) with
  | [] => (c, None)
  | e :: _ => (LRU (l_cap c) (removelast (l_items c)), Some e)
  end.
(** lru_cache/mod.rs:54-56 set_capacity *)
Definition set_capacity (n : nat) (c : lru) : lru := LRU n (firstn n (l_items c)).

(** common/cache/src/lib.rs:25-29 per_shard; sums do not overflow *)
Definition NUM_SHARDS : nat := 16.
Definition per_shard (capacity : nat) (shards : nat) : nat :=
  match Nat.div (capacity + (shards - 1)) shards with O => 1%nat | n => n end.
(** sharded_async_cache.rs:28-34, sharded_sync_cache.rs:31-40 create_lru_sharded_cache *)
Definition create (capacity : nat) : list lru := repeat (LRU (per_shard capacity NUM_SHARDS) []) NUM_SHARDS.

Section Sharded.
(** DefaultHasher *)
Variable hash : Z -> nat.
(** lib.rs:31-37 shard *)
Definition shard (k : Z) (n : nat) : nat := Nat.modulo (hash k) n.

Fixpoint put_at (i : nat) (c : lru) (s : list lru) : list lru :=
  match i, s with
  | O, _ :: r => c :: r
  | S j, x :: r => x :: put_at j c r
  | _, [] => []
  end.
Definition at_shard (i : nat) (s : list lru) : lru := nth i s (LRU 1 []).

(** Every call takes the lock of one shard, so a history is a sequence of calls on single shards; those that
    go over all shards (set_capacity, clear) are one event per shard, so that others can come in between. *)
Inductive event :=
| CInsert (k v : Z)
| CGet (k : Z)
| CRemove (k : Z)
| CPopShard (k : Z)
| CPopAsync (r : nat)     (** sharded_async_cache.rs:73-76; [r] is the random number *)
| CPopSync (r : nat)      (** sharded_sync_cache.rs:86-100; the number of shards in use is read first *)
| CSetCapacity (i n : nat)
| CClear (i : nat).
Inductive answer := AVal (v : option Z) | APair (p : option (Z * Z)) | AUnit.

Definition nonempty (c : lru) : bool := match l_items c with [] => false | _ => true end.
Definition pop_at (i : nat) (s : list lru) : list lru * answer :=
  let '(c, a) := pop (at_shard i s) in (put_at i c s, APair a).
(** sharded_async_cache.rs:58-81, sharded_sync_cache.rs:71-123.  [CPopSync] takes the index among the shards in
    use for an index among all.  New capacities are positive (NonZeroUsize). *)
Definition step (s : list lru) (e : event) : list lru * answer :=
  match e with
  | CInsert k v => let i := shard k (length s) in let '(c, a) := insert k v (at_shard i s) in (put_at i c s, AVal a)
  | CGet k => let i := shard k (length s) in let '(c, a) := get k (at_shard i s) in (put_at i c s, AVal a)
  | CRemove k => let i := shard k (length s) in let '(c, a) := remove k (at_shard i s) in (put_at i c s, AVal a)
  | CPopShard k => pop_at (shard k (length s)) s
  | CPopAsync r => pop_at (Nat.modulo r (length s)) s
  | CPopSync r =>
      let used := filter nonempty s in
      match used with
      | [] => (s, APair None)
      | _ => pop_at (Nat.modulo r (length used)) s
      end
  | CSetCapacity i n => (put_at i (set_capacity (S n) (at_shard i s)) s, AUnit)
  | CClear i => (put_at i (LRU (l_cap (at_shard i s)) []) s, AUnit)
  end.
Fixpoint run (s : list lru) (h : list event) : list lru :=
  match h with [] => s | e :: r => run (fst (step s e)) r end.
(** get_usage, get_capacity *)
Definition usage (s : list lru) : nat := list_sum (map (fun c => length (l_items c)) s).
Definition capacity (s : list lru) : nat := list_sum (map l_cap s).
End Sharded.
