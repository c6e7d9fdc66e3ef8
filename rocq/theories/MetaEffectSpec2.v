(** What changes of replica sets and of the owner of queries have to do (C47). *)
From Verif Require Import Prelude MetaModel.
From Verif Require BucketModel.
Open Scope Z_scope.
Notation repl := BucketModel.repl. Notation r_id := BucketModel.r_id. Notation r_vnodes := BucketModel.r_vnodes.
Notation r_leader_node := BucketModel.r_leader_node. Notation r_leader_vnode := BucketModel.r_leader_vnode.

(** The replica set [rid] gets the leader (node, vnode); its members and all other replica sets stay. *)
Definition leader_moved (rid node vnode : Z) (g g' : repl) : Prop :=
  r_id g' = r_id g /\ r_vnodes g' = r_vnodes g /\
  (r_id g = rid -> r_leader_node g' = node /\ r_leader_vnode g' = vnode) /\ (r_id g <> rid -> g' = g).
(** The replica set [rid] loses and gains members (vnode, node); its leader stays if it is still a member and is a member otherwise;
    all other replica sets stay. *)
Definition members_changed (rid : Z) (gone new : list (Z * Z)) (g g' : repl) : Prop :=
  r_id g' = r_id g /\ (r_id g <> rid -> g' = g) /\
  (r_id g = rid ->
     (forall v, In v (r_vnodes g') <-> (In v (r_vnodes g) /\ ~ In v gone) \/ In v new) /\
     (In (r_leader_vnode g) (map fst (r_vnodes g')) -> r_leader_vnode g' = r_leader_vnode g /\ r_leader_node g' = r_leader_node g) /\
     (~ In (r_leader_vnode g) (map fst (r_vnodes g')) -> r_vnodes g' <> [] -> In (r_leader_vnode g', r_leader_node g') (r_vnodes g'))).
Definition has_members (g : repl) : bool := match r_vnodes g with [] => false | _ => true end.
(** The same bucket with other replica sets. *)
Definition same_bucket (b : bucket) (gs : list repl) : bucket := BucketModel.Build_bucket (BucketModel.b_id b) (BucketModel.b_start b) (BucketModel.b_end b) gs.
