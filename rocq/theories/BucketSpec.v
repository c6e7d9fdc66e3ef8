(** Vocabulary for the bucket and routing statements. *)
From Verif Require Import Prelude BucketModel.
Definition covers (b : bucket) (ts : Z) : Prop := b_start b <= ts < b_end b.
Definition overlap (b1 b2 : bucket) : Prop := exists ts, covers b1 ts /\ covers b2 ts.

(** Requests a server can receive: i64 timestamps, at least one shard and one replica configured. *)
Definition valid_event (e : event) : Prop :=
  match e with
  | EWrite _ _ _ h ts => is_i64 ts /\ 0 <= h
  | EAlter d n r => is_i64 d /\ 1 <= n /\ 1 <= r
  | _ => True
  end.
Definition valid_trace (tr : list (event * answer)) : Prop := forall e a, In (e, a) tr -> valid_event e.
(** No ALTER DATABASE changes the bucket duration [d]. *)
Definition keeps_duration (d : Z) (tr : list (event * answer)) : Prop :=
  forall d' n r a, In (EAlter d' n r, a) tr -> d' = d.
Definition no_write_at (t : Z) (tr : list (event * answer)) : Prop :=
  forall c nodes mn h a, ~ In (EWrite c nodes mn h t, a) tr.
Definition bucket_dropped (b : bucket) (tr : list (event * answer)) : Prop := exists a, In (EDelete (b_id b), a) tr.

(** Every identifier a bucket uses: its own, its replica sets' and their vnodes'. *)
Definition repl_ids (r : repl) : list Z := r_id r :: map fst (r_vnodes r).
Definition bucket_ids (b : bucket) : list Z := b_id b :: flat_map repl_ids (b_group b).

(** A well-formed replica set: [replica] vnodes on known nodes, led by one of them, no node twice. *)
Definition repl_ok (nodes : list Z) (replica : Z) (r : repl) : Prop :=
  Z.of_nat (length (r_vnodes r)) = replica /\ (forall v, In v (r_vnodes r) -> In (snd v) nodes) /\
  In (r_leader_vnode r, r_leader_node r) (r_vnodes r) /\ (NoDup nodes -> NoDup (map snd (r_vnodes r))).
