(** Model of /repo/common/limiter_bucket/src/rate_bucket.rs.  Instants are nanoseconds (chrono DateTime), [interval] is in
    milliseconds.  The clock reading of each call is an input.  usize arithmetic wraps at 2^64 (release profile). *)
From Verif Require Import Prelude.

Definition NS_PER_MS : Z := 1000000.

(** rate_bucket.rs:12-21 RateBucket and 186-192 Critical (behind one mutex, so calls are atomic) *)
Record rate := { refill : Z; interval : Z; rmax : Z; balance : Z; deadline : Z }.

Definition sat_add_u (a b : Z) : Z := Z.min U64_MAX (a + b).
Definition sat_mul_u (a b : Z) : Z := Z.min U64_MAX (a * b).

(** rate_bucket.rs:343-364 RateBucketBuilder::build *)
Definition build (mx : option Z) (initial ref int now : Z) : rate :=
  let m := match mx with Some m => m | None => sat_mul_u (Z.max ref initial) 10 end in
  {| refill := ref; interval := int; rmax := m; balance := Z.min initial m; deadline := now + int * NS_PER_MS |}.

(** rate_bucket.rs:378-398 calculate_drain; [num_milliseconds] truncates; the number of intervals fits usize *)
Definition calculate_drain (dl int now : Z) : option (Z * Z) :=
  if now <? dl then None
  else
    let since := Z.quot (now - dl) NS_PER_MS in
    let tokens := Z.quot since int + 1 in
    let rem := Z.rem since int in
    Some (tokens, now + (int * NS_PER_MS - rem * NS_PER_MS)).

(** rate_bucket.rs:231-240 update_critical *)
Definition update_critical (r : rate) (now : Z) : rate :=
  match calculate_drain (deadline r) (interval r) now with
  | None => r
  | Some (tokens, dl) =>
      {| refill := refill r; interval := interval r; rmax := rmax r;
         balance := Z.min (rmax r) (sat_add_u (balance r) (wrap_u64 (tokens * refill r))); deadline := dl |}
  end.
Definition set_balance (r : rate) (b : Z) : rate :=
  {| refill := refill r; interval := interval r; rmax := rmax r; balance := b; deadline := deadline r |}.

(** rate_bucket.rs:242-258 acquire_closed: grants as much as it can *)
Definition acquire_closed (r : rate) (now permits : Z) : Z * rate :=
  if permits =? 0 then (0, r)
  else let r1 := update_critical r now in
       if permits <=? balance r1 then (permits, set_balance r1 (balance r1 - permits))
       else (balance r1, set_balance r1 0).

(** rate_bucket.rs:260-275 acquire: all or nothing *)
Definition acquire (r : rate) (now permits : Z) : bool * rate :=
  if permits =? 0 then (true, r)
  else let r1 := update_critical r now in
       if permits <=? balance r1 then (true, set_balance r1 (balance r1 - permits)) else (false, r1).

Inductive request := ReqClosed (now permits : Z) | Req (now permits : Z).
Definition req_time (q : request) : Z := match q with ReqClosed t _ => t | Req t _ => t end.
Definition req_permits (q : request) : Z := match q with ReqClosed _ p => p | Req _ p => p end.
(** Units granted to one request. *)
Definition serve (r : rate) (q : request) : Z * rate :=
  match q with
  | ReqClosed t p => acquire_closed r t p
  | Req t p => let '(ok, r') := acquire r t p in (if ok then p else 0, r')
  end.
Fixpoint serve_all (r : rate) (qs : list request) : list Z * rate :=
  match qs with
  | [] => ([], r)
  | q :: qs' => let '(g, r1) := serve r q in let '(gs, r2) := serve_all r1 qs' in (g :: gs, r2)
  end.
