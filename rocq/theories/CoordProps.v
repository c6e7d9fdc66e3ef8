(** C63: a write takes effect when it is answered with success, at most once, and not at all when the answer says it was
    not started.  C64: reading a replica set gives all rows of one replica, each once, or an error. *)
From Verif Require Import Prelude CoordModel CoordSpec CoordProofs.

(** ** C63 *)
(** A request answered with success took effect; the call that did was the last one. *)
Theorem C63_success_partial : forall net lookup g cs us, replies_ok net ->
  do_request net lookup g = (Ok, cs, us) ->
  exists pre c, cs = pre ++ [c] /\ k_result c = Ok /\ k_executed c = true /\ (1 <= effects cs)%nat.
Proof.
  intros net lookup g cs us R H. destruct (loop_ok net lookup R _ _ _ _ _ _ H) as (pre & c & -> & A & B); [discriminate|].
  exists pre, c. split; [reflexivity|]. split; [exact A|]. split; [exact B|]. unfold effects. rewrite filter_app, app_length.
  cbn. rewrite B. cbn. lia.
Qed.
Print Assumptions C63_success_partial.
(** If no redirected call was executed and answered with an error, the request takes effect at most once, whatever nodes
    answer, and not at all when the answer says that it was not started. *)
Theorem C63_at_most_once_partial : forall net lookup g r cs us, replies_ok net ->
  do_request net lookup g = (r, cs, us) -> redirects_ok cs ->
  (effects cs <= 1)%nat /\ (not_started r -> effects cs = 0%nat).
Proof. intros net lookup g r cs us R H RO. eapply loop_effects; [exact R|exact H|discriminate|exact RO]. Qed.
Print Assumptions C63_at_most_once_partial.
(** If one of the nodes holds the leader and is reachable, and every other node is unreachable or names that leader, the
    request succeeds and takes effect exactly once, whichever leader the metadata names. *)
Theorem C63_reachable_leader_partial : forall net lookup g node vid, led_by net lookup node vid ->
  (exists v, In v (g_vnodes g) /\ v_node v = node) ->
  let '(r, cs, _) := do_request net lookup g in r = Ok /\ effects cs = 1%nat.
Proof.
  intros net lookup g node vid L (v & I & E). unfold do_request. apply (loop_led net lookup node vid _ _ L).
  exists v. split; [|exact E]. eapply Permutation_in; [apply Permutation_sym, sort_perm|exact I].
Qed.
Print Assumptions C63_reachable_leader_partial.
(** The first call goes to the leader the metadata names; if no node can be connected, each of them was called once; there
    are never more than two calls per replica. *)
Theorem C63_calls : forall net lookup g r cs us, do_request net lookup g = (r, cs, us) ->
  (length cs <= 2 * length (g_vnodes g))%nat
  /\ ((forall c, In c cs -> k_result c = Pre) -> Permutation (map k_node cs) (map v_node (g_vnodes g)))
  /\ (forall c cs', cs = c :: cs' -> (exists v, In v (g_vnodes g) /\ v_node v = g_leader_node g) ->
      k_node c = g_leader_node g).
Proof.
  intros net lookup g r cs us H. unfold do_request in H. split; [|split].
  - pose proof (loop_bound _ _ _ _ _ _ _ _ _ H) as B. rewrite (Permutation_length (sort_perm _ _)) in B. exact B.
  - intros A. rewrite (loop_all _ _ _ _ _ _ _ _ _ H A). apply Permutation_map, sort_perm.
  - intros c cs' -> (v & I & E). eapply first_call; [exact H|exact I|exact E].
Qed.
Print Assumptions C63_calls.
(** A statement on several replica sets: when it succeeds it took effect in every one of them; when the limiter refuses one
    of them no request is sent at all. *)
Theorem C63_all_sets_partial : forall admit net lookup gs r out, (forall g, replies_ok (net g)) ->
  fan_out admit (fun g => do_request (net g) (lookup g) g) gs = (r, out) ->
  (r = Ok -> map fst out = gs /\ forall g cs, In (g, cs) out -> (1 <= effects cs)%nat)
  /\ ((exists g, In g gs /\ admit g = false) -> r <> Ok /\ out = []).
Proof.
  intros admit net lookup gs r out R. unfold fan_out. destruct (forallb admit gs) eqn:F; intros H.
  - injection H as <- <-. split.
    + intros E. split; [rewrite map_map; apply map_id|]. intros g cs I. apply in_map_iff in I as (h & Q & I).
      injection Q as -> <-. destruct (find _ gs) as [h|] eqn:D.
      * exfalso. apply find_some in D as [_ D]. rewrite E in D. discriminate.
      * apply find_none with (x := g) in D; [|exact I]. destruct (do_request (net g) (lookup g) g) as [[q cs] us] eqn:X.
        cbn [fst snd] in *. destruct q; try discriminate.
        destruct (C63_success_partial _ _ _ _ _ (R g) X) as (? & ? & _ & _ & _ & A). exact A.
    + intros (g & I & A). rewrite forallb_forall in F. rewrite (F g I) in A. discriminate.
  - injection H as <- <-. split; [discriminate|]. intros _. split; [discriminate|reflexivity].
Qed.
Print Assumptions C63_all_sets_partial.

(** Three replicas on nodes 1, 2, 3; the metadata names node 1, the leader is vnode 12 of node 2. *)
Definition ex_set := RS 7 1 11 [VN 13 3 Running; VN 12 2 Running; VN 11 1 Running].
Definition ex_net (n : nat) (node : Z) : result * bool :=
  if node =? 2 then (Ok, true) else if node =? 1 then (Forward 12, false) else (Pre, false).
Example ex_net_ok : replies_ok ex_net /\ led_by ex_net (fun _ _ => Some 2) 2 12.
Proof.
  split.
  - intros n node. unfold ex_net. destruct (node =? 2), (node =? 1); cbn; split; auto; discriminate.
  - split; [reflexivity|]. split; [reflexivity|]. intros n x N. unfold ex_net.
    destruct (x =? 2) eqn:E; [apply Z.eqb_eq in E; contradiction|]. destruct (x =? 1); auto.
Qed.
Example ex_request : do_request ex_net (fun _ _ => Some 2) ex_set
  = (Ok, [CALL 1 false (Forward 12) false; CALL 2 true Ok true], [12]).
Proof. reflexivity. Qed.
Example ex_redirects : redirects_ok [CALL 1 false (Forward 12) false; CALL 2 true Ok true].
Proof. intros c [<-|[<-|[]]] A B; [discriminate|exfalso; apply B; reflexivity]. Qed.
Example ex_fan : fan_out (fun _ => true) (fun g => do_request ex_net (fun _ _ => Some 2) g) [ex_set; RS 8 2 22 [VN 22 2 Running]]
  = (Ok, [(ex_set, [CALL 1 false (Forward 12) false; CALL 2 true Ok true]);
          (RS 8 2 22 [VN 22 2 Running], [CALL 2 false Ok true])]).
Proof. reflexivity. Qed.

(** A request can take effect twice and be answered with success: node 1 names vnode 12; node 2 executes the request but
    its answer is lost; the loop goes on with the next node, which has become the leader and executes it again. *)
Definition lost_net (n : nat) (node : Z) : result * bool :=
  match n with O => (Forward 12, false) | S O => (Fail, true) | _ => (Ok, true) end.
Theorem C63_twice_refuted : exists net lookup g cs us, replies_ok net /\
  do_request net lookup g = (Ok, cs, us) /\ effects cs = 2%nat.
Proof.
  exists lost_net, (fun _ _ => Some 2), ex_set. eexists _, _. split; [|split; [reflexivity|reflexivity]].
  intros [|[|n]] node; cbn; split; auto; discriminate.
Qed.
Print Assumptions C63_twice_refuted.
(** The answer can say that the request was not started although it took effect. *)
Definition lost_pre_net (n : nat) (node : Z) : result * bool :=
  match n with O => (Forward 12, false) | S O => (Fail, true) | _ => (Pre, false) end.
Theorem C63_not_started_refuted : exists net lookup g cs us, replies_ok net /\
  do_request net lookup g = (Pre, cs, us) /\ effects cs = 1%nat.
Proof.
  exists lost_pre_net, (fun _ _ => Some 2), ex_set. eexists _, _. split; [|split; [reflexivity|reflexivity]].
  intros [|[|n]] node; cbn; split; auto; discriminate.
Qed.
Print Assumptions C63_not_started_refuted.
(** A statement on two replica sets that fails, and says that it was not started, can have taken effect in one of them. *)
Theorem C63_all_or_nothing_refuted : exists admit net lookup gs out, (forall g, replies_ok (net g)) /\
  fan_out admit (fun g => do_request (net g) (lookup g) g) gs = (Pre, out)
  /\ map (fun p => effects (snd p)) out = [1%nat; 0%nat].
Proof.
  exists (fun _ => true), (fun _ => ex_net), (fun _ _ _ => Some 2), [ex_set; RS 8 3 23 [VN 23 3 Running]]. eexists.
  split; [intros _; apply ex_net_ok|]. split; reflexivity.
Qed.
Print Assumptions C63_all_or_nothing_refuted.

(** ** C64 *)
(** What reading a replica set returns is a beginning of what one replica, not marked broken, holds; all of it unless the
    read reports an error; without such a replica it is an error, never an empty answer. *)
Theorem C64_one_replica : forall store open limit admit g,
  let a := read_set store open limit admit g in
  (a_batches a = [] /\ a_end a = Failed)
  \/ exists v, readable g v /\ prefix_of (a_batches a) (content store v) /\ (a_end a = Done -> a_batches a = content store v).
Proof.
  intros store open limit admit g a. destruct (read_spec store open limit admit g) as [E|(w & I & _ & P & D & _)].
  - left. unfold a. rewrite E. split; reflexivity.
  - right. exists w. split; [apply candidates_readable, I|]. split; assumption.
Qed.
Print Assumptions C64_one_replica.
Theorem C64_no_replica : forall store open limit admit g, (forall v, ~ readable g v) ->
  a_end (read_set store open limit admit g) = Failed.
Proof.
  intros store open limit admit g N. destruct (read_spec store open limit admit g) as [E|(w & I & _)]; [rewrite E; reflexivity|].
  exfalso. exact (N w (candidates_readable _ _ I)).
Qed.
Print Assumptions C64_no_replica.
(** If the replica the metadata names as leader is not marked broken and its node answers, it is the one that is read. *)
Theorem C64_leader_read : forall store open g v, distinct_vnodes g -> readable g v -> v_id v = g_leader_vnode g ->
  open (v_id v) = Opened None -> read_set store open None true g = ANS (content store v) Done None.
Proof.
  intros store open g v D R L O. destruct (leader_first g v D R L) as (rest & E). unfold read_set. rewrite E.
  destruct rest; cbn [open_one]; rewrite O; reflexivity.
Qed.
Print Assumptions C64_leader_read.
(** A replica being copied, other than the leader, is asked only when there are not two running ones; a replica that was
    marked broken is not asked again, and only the replica whose read failed is marked. *)
Theorem C64_copying_last : forall g v w1 w2, distinct_vnodes g -> In v (candidates g) -> v_status v = Copying ->
  v_id v <> g_leader_vnode g -> readable g w1 -> readable g w2 -> v_status w1 = Running -> v_status w2 = Running -> w1 = w2.
Proof. exact copying_last. Qed.
Print Assumptions C64_copying_last.
Theorem C64_broken_replaced : forall store open limit admit g id,
  a_broken (read_set store open limit admit g) = Some id ->
  a_end (read_set store open limit admit g) = Failed /\ (exists v, readable g v /\ v_id v = id)
  /\ (exists n, open id = Opened (Some (n, true))) /\ ~ In id (map v_id (candidates (mark_broken id g))).
Proof.
  intros store open limit admit g id B. destruct (read_spec store open limit admit g) as [E|(w & I & _ & _ & _ & K)].
  - rewrite E in B. discriminate.
  - destruct (K id B) as (-> & F & O). split; [exact F|]. split; [exists w; split; [apply candidates_readable, I|reflexivity]|].
    split; [exact O|].
    apply marked_gone.
Qed.
Print Assumptions C64_broken_replaced.
(** With two readable replicas or more, one node that cannot be connected does not make the read fail. *)
Theorem C64_one_unreachable : forall store open g v w1 w2, distinct_vnodes g ->
  readable g w1 -> readable g w2 -> w1 <> w2 ->
  (forall w, readable g w -> w <> v -> open (v_id w) = Opened None) ->
  (open (v_id v) = Unreachable \/ open (v_id v) = Opened None) ->
  a_end (read_set store open None true g) = Done.
Proof. exact one_unreachable. Qed.
Print Assumptions C64_one_unreachable.
(** A query that succeeds, when every replica that may be asked has all rows: exactly the rows of all replica sets, whatever
    nodes are unreachable, fail or are refused in between. *)
Theorem C64_query_partial : forall store rows open limit admit gs out,
  (forall g v, In g gs -> In v (candidates g) -> in_sync store rows g v) ->
  query (read_set store open limit admit) gs = Some out -> Permutation out (concat (map rows gs)).
Proof. exact query_rows. Qed.
Print Assumptions C64_query_partial.

(** Two replica sets; the node of vnode 11 is unreachable, so vnode 12 is read. *)
Definition ex_store (id : Z) : option (list (list row)) :=
  if id =? 11 then Some [[1; 2]; [3]] else if id =? 12 then Some [[3; 1]; [2]] else if id =? 21 then Some [[4]] else None.
Definition ex_open (id : Z) : opened := if id =? 11 then Unreachable else Opened None.
Definition ex_g1 := RS 1 1 11 [VN 13 3 Copying; VN 12 2 Running; VN 11 1 Running].
Definition ex_g2 := RS 2 1 21 [VN 21 1 Running].
Definition ex_rows (g : rset) : list row := if g_id g =? 1 then [1; 2; 3] else [4].
Example ex_sync : forall g v, In g [ex_g1; ex_g2] -> In v (candidates g) -> in_sync ex_store ex_rows g v.
Proof.
  intros g v [<-|[<-|[]]]; vm_compute; intros I; repeat destruct I as [<-|I]; try destruct I; eexists; split; try reflexivity.
  exact (Permutation_cons_append [1; 2] 3).
Qed.
Example ex_query : query (read_set ex_store ex_open None true) [ex_g1; ex_g2] = Some [3; 1; 2; 4].
Proof. reflexivity. Qed.
Example ex_leader : distinct_vnodes ex_g2 /\ readable ex_g2 (VN 21 1 Running) /\ ex_open 21 = Opened None.
Proof. split; [repeat constructor; intros []|]. split; [split; [left; reflexivity|discriminate]|reflexivity]. Qed.
Example ex_broken : a_broken (read_set ex_store (fun _ => Opened (Some (1%nat, true))) None true ex_g1) = Some 11
  /\ candidates (mark_broken 11 ex_g1) = [VN 12 2 Running; VN 13 3 Copying].
Proof. split; reflexivity. Qed.
Example ex_one_unreachable : distinct_vnodes ex_g1 /\ readable ex_g1 (VN 11 1 Running) /\ readable ex_g1 (VN 12 2 Running)
  /\ (forall w, readable ex_g1 w -> w <> VN 11 1 Running -> ex_open (v_id w) = Opened None) /\ ex_open 11 = Unreachable.
Proof.
  split; [repeat constructor; cbn; intuition discriminate|]. split; [split; [right; right; left; reflexivity|discriminate]|].
  split; [split; [right; left; reflexivity|discriminate]|]. split; [|reflexivity].
  intros w [[<-|[<-|[<-|[]]]] _] N; [reflexivity..|contradiction].
Qed.
Example ex_copying : In (VN 13 3 Copying) (candidates (mark_broken 11 ex_g1)).
Proof. right. left. reflexivity. Qed.
Example ex_none : forall v, ~ readable (mark_broken 21 ex_g2) v.
Proof. intros v [[<-|[]] B]. apply B. reflexivity. Qed.

(** A row that was acknowledged can be missing from a query that succeeds: the leader's node is unreachable and the replica
    read instead has not applied the row yet (or is still being copied). *)
Definition lag_store (id : Z) : option (list (list row)) := if id =? 11 then Some [[1; 2]] else Some [[1]].
Theorem C64_acknowledged_rows_refuted : exists store open g out, distinct_vnodes g /\
  (exists v, readable g v /\ v_id v = g_leader_vnode g /\ store (v_id v) = Some [[1; 2]]) /\
  query (read_set store open None true) [g] = Some out /\ out = [1].
Proof.
  exists lag_store, ex_open, (RS 1 1 11 [VN 11 1 Running; VN 12 2 Copying]). eexists. split.
  { repeat constructor; cbn; intuition discriminate. }
  split; [|split; reflexivity].
  exists (VN 11 1 Running). split; [split; [left; reflexivity|discriminate]|]. split; reflexivity.
Qed.
Print Assumptions C64_acknowledged_rows_refuted.
(** A node that does not know the vnode the metadata places on it answers without rows and without an error, although
    another replica has them. *)
Definition gone_store (id : Z) : option (list (list row)) := if id =? 12 then Some [[1; 2]] else None.
Theorem C64_unknown_vnode_refuted : exists store g, distinct_vnodes g /\
  (exists v, readable g v /\ v_status v = Running /\ store (v_id v) = Some [[1; 2]]) /\
  query (read_set store (fun _ => Opened None) None true) [g] = Some [].
Proof.
  exists gone_store, (RS 1 1 11 [VN 11 1 Running; VN 12 2 Running]). split.
  { repeat constructor; cbn; intuition discriminate. }
  split; [|reflexivity].
  exists (VN 12 2 Running). split; [split; [right; left; reflexivity|discriminate]|]. split; reflexivity.
Qed.
Print Assumptions C64_unknown_vnode_refuted.
(** Two unreachable nodes make the read fail although a third replica is up to date and reachable. *)
Theorem C64_third_replica_refuted : exists store open g v, distinct_vnodes g /\ readable g v /\ v_status v = Running /\
  open (v_id v) = Opened None /\ store (v_id v) = Some [[1]] /\ query (read_set store open None true) [g] = None.
Proof.
  exists (fun _ => Some [[1]]), (fun id => if id =? 13 then Opened None else Unreachable),
    (RS 1 1 11 [VN 11 1 Running; VN 12 2 Running; VN 13 3 Running]), (VN 13 3 Running).
  split; [repeat constructor; cbn; intuition discriminate|].
  split; [split; [right; right; left; reflexivity|discriminate]|]. repeat (split; [reflexivity|]). reflexivity.
Qed.
Print Assumptions C64_third_replica_refuted.
