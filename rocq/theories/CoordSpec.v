(** Vocabulary for the statements about requests on replica sets. *)
From Verif Require Import Prelude CoordModel.

(** How many times a request took effect. *)
Definition effects (cs : list call) : nat := length (filter k_executed cs).
(** What replies mean: success follows execution; a node that could not be connected, or that named another leader, did
    not execute the request. *)
Definition replies_ok (net : nat -> Z -> result * bool) : Prop :=
  forall n node, match net n node with
                 | (Ok, x) => x = true
                 | (Pre, x) | (Forward _, x) | (NoReplica, x) => x = false
                 | (Fail, _) => True
                 end
                 /\ fst (net n node) <> NoReplica.
(** No call that was redirected to another leader was executed and yet answered with an error. *)
Definition redirects_ok (cs : list call) : Prop :=
  forall c, In c cs -> k_redirected c = true -> k_result c <> Ok -> k_executed c = false.
(** Errors that say that the request was not started. *)
Definition not_started (r : result) : Prop := match r with Pre | NoReplica | Forward _ => True | _ => False end.
(** Node [node] holds leader vnode [vid]: it executes what it gets; every other node cannot be connected or names it. *)
Definition led_by (net : nat -> Z -> result * bool) (lookup : nat -> Z -> option Z) (node vid : Z) : Prop :=
  (forall n, net n node = (Ok, true)) /\ (forall n, lookup n vid = Some node)
  /\ forall n x, x <> node -> net n x = (Pre, false) \/ net n x = (Forward vid, false).

(** ** Reading *)
Definition prefix_of {A} (a b : list A) : Prop := exists c, b = a ++ c.
Definition readable (g : rset) (v : vnode) : Prop := In v (g_vnodes g) /\ v_status v <> Broken.
Definition distinct_vnodes (g : rset) : Prop := NoDup (map v_id (g_vnodes g)).
(** The vnode's node knows it and it has all rows of the replica set, each once. *)
Definition in_sync (store : Z -> option (list (list row))) (rows : rset -> list row) (g : rset) (v : vnode) : Prop :=
  exists bs, store (v_id v) = Some bs /\ Permutation (concat bs) (rows g).
