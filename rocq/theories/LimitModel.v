(** The limiter of requests of a tenant, for one kind of request: a bucket on every node (meta/src/limiter/local_request_limiter.rs,
    common/limiter_bucket/src/count_bucket.rs) that is filled from one bucket in the meta service (meta/src/store/storage.rs:1617-1650,
    the rate bucket of C30).  Buckets of different kinds do not influence each other.  Counts are i64 in the code and stay in a range
    fixed by the configuration and the sizes of requests; wrapping is not modelled for them. *)
From Verif Require Import Prelude RateModel.

(** CountBucketConfig and RateBucketConfig, config/src/common/limiter_config.rs *)
Record config := Config { c_initial : Z; c_max : option Z; c_remote : option (option Z * Z * Z * Z) }.
(** CountBucket, count_bucket.rs:34-37 *)
Record local := Local { l_count : Z; l_max : option Z }.
(** insert_local_bucket, local_request_limiter.rs:264-275, and From<&CountBucketConfig>, count_bucket.rs:25-32 *)
Definition local_new (c : config) : local := Local (c_initial c) (c_max c).
Definition inc (b : local) (n : Z) : local := Local (l_count b + n) (l_max b).
Definition dec (b : local) (n : Z) : local := Local (l_count b - n) (l_max b).
(** The bucket of the meta service; [None] when the configuration has none for the kind. *)
Definition remote_new (c : config) (now : Z) : option rate :=
  match c_remote c with Some (mx, i, r, p) => Some (build mx i r p now) | None => None end.

(** RequireResult, 17-21; [min] of a request to the meta service is not looked at there. *)
Inductive required := Fail | Success (b : local) | RequestMeta (mx : Z).
(** require, 87-124 *)
Definition require (b : local) (n : Z) : required :=
  if n <? 0 then Fail
  else if n <? l_count b then Success (dec b n)
  else match l_max b with
       | None => RequestMeta n
       | Some m =>
           if (l_count b <=? 0) && (n <=? m) then RequestMeta (Z.abs (l_count b) + m)
           else if (0 <? l_count b) && (n <? l_count b + m) then Success (dec b n)
           else Fail
       end.
(** process_limiter_request, storage.rs:1617-1650 *)
Definition limiter_request (r : option rate) (now mx : Z) : Z * option rate :=
  match r with
  | None => (mx, None)
  | Some r => let '(a, r') := acquire_closed r now (wrap_u64 mx) in (wrap_i64 a, Some r')
  end.
(** The meta client sends again until a reply arrives (meta/src/client.rs:183-201, three attempts): [lost] are the times at which the meta service
    handled the request and the reply was lost, [last] the time of the one whose reply arrived, if any. *)
Fixpoint lose (r : option rate) (mx : Z) (lost : list Z) : option rate :=
  match lost with [] => r | t :: lost => lose (snd (limiter_request r t mx)) mx lost end.
(** remote_requre, 126-160, and check_bucket, 166-191: whether the request is let through.  The bucket is locked throughout. *)
Definition check (b : local) (r : option rate) (n : Z) (lost : list Z) (last : option Z) : bool * local * option rate :=
  match require b n with
  | Fail => (false, b, r)
  | Success b' => (true, b', r)
  | RequestMeta mx =>
      let r1 := lose r mx lost in
      match last with
      | None => (false, b, r1)
      | Some t => let '(a, r2) := limiter_request r1 t mx in
                  let b1 := inc b a in
                  if n <? l_count b1 then (true, dec b1 n, r2) else (false, b1, r2)
      end
  end.

(** The nodes and the meta service. *)
Record state := State { nodes : list local; remote : option rate }.
Inductive event :=
| Check (node : nat) (n : Z) (lost : list Z) (last : option Z)
| Restart (node : nat)          (* the node starts again, or processes a change of the tenant (change_self, 234-247) *)
| Alter (now : Z).              (* ALTER TENANT with the same limits makes a new bucket (storage.rs:1366-1394) *)
Fixpoint set_nth (i : nat) (b : local) (l : list local) : list local :=
  match l, i with [], _ => [] | _ :: l, O => b :: l | x :: l, S i => x :: set_nth i b l end.
(** The units let through by each event. *)
Definition step (c : config) (s : state) (ev : event) : state * Z :=
  match ev with
  | Check i n lost last =>
      match nth_error (nodes s) i with
      | None => (s, 0)
      | Some b => let '(ok, b', r') := check b (remote s) n lost last in
                  (State (set_nth i b' (nodes s)) r', if ok : bool then n else 0)
      end
  | Restart i => (State (set_nth i (local_new c) (nodes s)) (remote s), 0)
  | Alter now => (State (nodes s) (remote_new c now), 0)
  end.
Fixpoint run (c : config) (s : state) (evs : list event) : state * list Z :=
  match evs with
  | [] => (s, [])
  | ev :: evs => let '(s1, a) := step c s ev in let '(s2, l) := run c s1 evs in (s2, a :: l)
  end.
(** A cluster of [k] nodes. *)
Definition start (c : config) (k : nat) (now : Z) : state := State (repeat (local_new c) k) (remote_new c now).
