(** Vocabulary for the retention statements, in nanoseconds and independent of how the program rounds. *)
From Verif Require Import Prelude PrecisionModel BucketModel TtlModel.

(** nanoseconds in one unit of the precision *)
Definition unit_ns (p : precision) : Z := match p with MS => 1000000 | US => 1000 | NS => 1 end.

(** At instant [t] (ns) a row with timestamp [ts] is not older than the TTL. *)
Definition retained (p : precision) (ttl : cnos_duration) (t ts : Z) : Prop :=
  is_inf ttl = true \/ t <= ts * unit_ns p + dur_ns ttl.

(** A TTL that fits the precision: finite and at most 2^63 - 1 units (292 years for nanoseconds). *)
Definition ttl_fits (p : precision) (ttl : cnos_duration) : Prop :=
  is_inf ttl = false /\ 0 <= dur_ns ttl <= I64_MAX * unit_ns p.

(** clocks read between 1970 and [t] *)
Definition clocks_upto (t : Z) (tr : list event) : Prop :=
  forall e, In e tr ->
    match e with
    | EvWrite _ _ c _ ts => 0 <= c <= t /\ is_i64 ts
    | EvScan _ c => 0 <= c <= t
    | _ => True
    end.
Definition no_alter (tr : list event) : Prop := forall e, In e tr -> match e with EvAlter _ _ _ _ => False | _ => True end.
Definition valid_alter (tr : list event) : Prop :=
  forall e, In e tr -> match e with EvAlter _ d sh r => is_i64 d /\ 1 <= sh /\ 1 <= r | EvWrite _ _ _ _ ts => is_i64 ts | _ => True end.

(** everything happens on node [n], the only node of the cluster *)
Definition only_node (n : Z) (tr : list event) : Prop :=
  forall e, In e tr ->
    match e with
    | EvWrite m nodes _ _ _ => m = n /\ nodes = [n]
    | EvSync m | EvScan m _ | EvWork m _ | EvForget m _ | EvRestart m => m = n
    | EvAlter _ _ _ _ => True
    end.

(** storage of vnode [v] belongs to a bucket the database still has *)
Definition owned (s : sys) (v : Z * Z) : Prop :=
  exists b g, In b (m_buckets (t_meta s)) /\ In g (b_group b) /\ In v (r_vnodes g).
(** nobody knows vnode [v] any more: neither the metadata nor any node's copy or pending work names it *)
Definition unknown (s : sys) (v : Z * Z) : Prop :=
  fst v < m_next (t_meta s) /\ ~ owned s v /\
  (forall n b g, In b (snd (t_cache s n)) -> In g (b_group b) -> ~ In v (r_vnodes g)) /\
  (forall n b gs g, In (b, gs) (t_todo s n) -> In g (b_group b) \/ In g gs -> ~ In v (r_vnodes g)).
