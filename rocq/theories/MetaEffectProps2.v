(** C47, continued: what acknowledged changes of replica sets and of the owner of queries do. *)
From Coq Require Import Permutation.
From Verif Require Import Prelude MetaModel MetaSpec MetaProofs MetaProofs2 MetaEffectSpec MetaEffectProofs MetaProps MetaEffectProps MetaEffectSpec2 MetaEffectProofs2.
From Verif Require BucketModel.
Open Scope Z_scope.

(** After an acknowledged change of leader the replica set has the new leader, and nothing else in the bucket changed. *)
Theorem C47_leader_changed : forall h e c t d i rid n v, history h -> snd (step e (run st0 h) (CChangeLeader c t d i rid n v)) = Done ->
  exists b gs, get (k_bucket c t d i) (s_map (run st0 h)) = Some (VBucket b) /\ Forall2 (leader_moved rid n v) (BucketModel.b_group b) gs /\
    get (k_bucket c t d i) (s_map (fst (step e (run st0 h) (CChangeLeader c t d i rid n v)))) = Some (VBucket (same_bucket b gs)).
Proof. intros. now apply leader_moved_step. Qed.
Print Assumptions C47_leader_changed.

(** After an acknowledged change of members the replica set has the members asked for and a leader among them; the other replica
    sets are as before; replica sets without members are gone, and the bucket with the last of them. *)
Theorem C47_members_changed : forall h e c t d i rid gone new, history h -> snd (step e (run st0 h) (CUpdateReplSet c t d i rid gone new)) = Done ->
  exists b gs, get (k_bucket c t d i) (s_map (run st0 h)) = Some (VBucket b) /\ Forall2 (members_changed rid gone new) (BucketModel.b_group b) gs /\
    get (k_bucket c t d i) (s_map (fst (step e (run st0 h) (CUpdateReplSet c t d i rid gone new)))) =
      match filter has_members gs with [] => None | gs' => Some (VBucket (same_bucket b gs')) end.
Proof. intros h e c t d i rid gone new H. apply members_step. exact (proj1 (wf_history _ H)). Qed.
Print Assumptions C47_members_changed.

(** A change of a vnode's status keeps the members and leaders of its bucket. *)
Theorem C47_vnode_status_keeps_members : forall h e c t d i, history h -> snd (step e (run st0 h) (CUpdateVnode c t d i)) = Done ->
  exists b, get (k_bucket c t d i) (s_map (run st0 h)) = Some (VBucket b) /\ get (k_bucket c t d i) (s_map (fst (step e (run st0 h) (CUpdateVnode c t d i)))) = Some (VBucket b).
Proof. intros. now apply vnode_status_step. Qed.
Print Assumptions C47_vnode_status_keeps_members.

(** After the queries of a node are handed to another one, every stored query is there: those of the node with the new owner, the
    others unchanged. *)
Theorem C47_queries_moved : forall h e c a b i q, history h -> env_ok e -> name_ok c -> snd (step e (run st0 h) (CMoveQuery c a b)) = Done ->
  get (k_query c i) (s_map (run st0 h)) = Some (VQuery q) ->
  get (k_query c i) (s_map (fst (step e (run st0 h) (CMoveQuery c a b)))) = Some (VQuery (if (q_node q =? a)%N then QU (q_id q) b (q_rest q) else q)).
Proof. intros h e c a b i q H. apply moved_step. now apply wf_history. Qed.
Print Assumptions C47_queries_moved.

(** A case on the state the other cases start from. *)
Definition c47b_h : list (env * cmd) := seen_by env0 (w_setup ++ [CWriteQuery w_c 8 (QU 8 1 80); CWriteQuery w_c 9 (QU 9 2 90)]).
Example C47_replica_case : history c47b_h /\
  snd (step env0 (run st0 c47b_h) (CChangeLeader w_c w_t w_d 1 2 5 6)) = Done /\
  snd (step env0 (run st0 c47b_h) (CUpdateReplSet w_c w_t w_d 1 2 [(3, 2)] [(7, 1); (8, 2)])) = Done /\
  get (k_bucket w_c w_t w_d 1) (s_map (fst (step env0 (run st0 c47b_h) (CUpdateReplSet w_c w_t w_d 1 2 [(3, 2)] [(7, 1); (8, 2)])))) =
    Some (VBucket (BucketModel.Build_bucket 1 0 1000 [BucketModel.Build_repl 2 1 7 [(7, 1); (8, 2)]])) /\
  get (k_bucket w_c w_t w_d 1) (s_map (fst (step env0 (run st0 c47b_h) (CUpdateReplSet w_c w_t w_d 1 2 [(3, 2)] [])))) = None /\
  snd (step env0 (run st0 c47b_h) (CUpdateVnode w_c w_t w_d 1)) = Done /\
  snd (step env0 (run st0 c47b_h) (CMoveQuery w_c 1 2)) = Done /\
  get (k_query w_c 8) (s_map (fst (step env0 (run st0 c47b_h) (CMoveQuery w_c 1 2)))) = Some (VQuery (QU 8 2 80)).
Proof. split; [hist|]. repeat split; vm_compute; reflexivity. Qed.
