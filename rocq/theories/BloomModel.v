(** Model of /repo/common/utils/src/bloom_filter.rs.  The hash functions (Fnv, XxHash64, SipHasher13, Bkdr) are a
    parameter: a list of functions from byte strings to u64.  Panics are [None]. *)
From Verif Require Import Prelude.

(** bkdr_hash.rs:55-59 BkdrHasher::write from the empty state *)
Definition bkdr (data : list Z) : Z := fold_left (fun n c => wrap_u64 (wrap_u64 (n * 1313) + c)) data 0.

(** bloom_filter.rs:10-14 BloomFilter *)
Record bloom := { bf_b : list Z; bf_mask : Z }.

(** bloom_filter.rs:81-90 pow2: i = 8, 16, ... below 2^62; the loop runs at most 59 times. *)
Fixpoint pow2_loop (fuel : nat) (i num : Z) : option Z :=
  match fuel with
  | O => None
  | S f => if i <? 2 ^ 62 then if num <=? i then Some i else pow2_loop f (i * 2) num else None
  end.
Definition pow2 (num : Z) : option Z := pow2_loop 60 8 num.

(** bloom_filter.rs:19-24 new *)
Definition bf_new (m : Z) : option bloom :=
  match pow2 m with
  | None => None
  | Some m' => Some {| bf_b := repeat 0 (Z.to_nat (Z.shiftr m' 3)); bf_mask := m' - 1 |}
  end.

(** bloom_filter.rs:36-45 with_data *)
Definition bf_with_data (data : list Z) : option bloom :=
  match pow2 (Z.of_nat (length data)) with
  | None => None
  | Some l => Some {| bf_b := data ++ repeat 0 (Z.to_nat l - length data); bf_mask := Z.shiftl l 3 - 1 |}
  end.

(** bloom_filter.rs:76-78 location *)
Definition location (f : bloom) (hash : Z) : Z := Z.land hash (bf_mask f).

Fixpoint set_nth (n : nat) (v : Z) (l : list Z) {struct l} : list Z :=
  match l, n with
  | [], _ => []
  | _ :: t, O => v :: t
  | h :: t, S n' => h :: set_nth n' v t
  end.

(** bloom_filter.rs:47-54 insert *)
Definition insert_hash (f : bloom) (hash : Z) : option bloom :=
  let loc := location f hash in
  match nth_error (bf_b f) (Z.to_nat (Z.shiftr loc 3)) with
  | None => None
  | Some byte => Some {| bf_b := set_nth (Z.to_nat (Z.shiftr loc 3)) (Z.lor byte (Z.shiftl 1 (Z.land loc 7))) (bf_b f);
                         bf_mask := bf_mask f |}
  end.
Fixpoint insert_hashes (f : bloom) (hs : list Z) : option bloom :=
  match hs with [] => Some f | h :: hs' => match insert_hash f h with None => None | Some f' => insert_hashes f' hs' end end.
Definition bf_insert (hashers : list (list Z -> Z)) (f : bloom) (data : list Z) : option bloom :=
  insert_hashes f (map (fun h => h data) hashers).

(** bloom_filter.rs:56-66 maybe_contains *)
Fixpoint test_hashes (f : bloom) (hs : list Z) : option bool :=
  match hs with
  | [] => Some true
  | h :: hs' =>
      let loc := location f h in
      match nth_error (bf_b f) (Z.to_nat (Z.shiftr loc 3)) with
      | None => None
      | Some byte => if Z.land byte (Z.shiftl 1 (Z.land loc 7)) =? 0 then Some false else test_hashes f hs'
      end
  end.
Definition maybe_contains (hashers : list (list Z -> Z)) (f : bloom) (data : list Z) : option bool :=
  test_hashes f (map (fun h => h data) hashers).

Fixpoint bf_insert_all (hashers : list (list Z -> Z)) (f : bloom) (keys : list (list Z)) : option bloom :=
  match keys with [] => Some f | k :: ks => match bf_insert hashers f k with None => None | Some f' => bf_insert_all hashers f' ks end end.
