(** C84: the sharded caches never answer stale values, stay within their capacity, and evict the least recently used. *)
From Verif Require Import Prelude LruModel LruSpec LruProofs.
From Coq Require Import Lia.
Open Scope Z_scope.

(** Whatever a cache answers for a key, on a look-up or as the value it replaces, removes or evicts, is the value
    last stored under that key and not removed since.  For every hash function, capacity and history. *)
Theorem C84_fresh : forall hash c h,
  let s := run hash (create c) h in
  (forall k v, snd (step hash s (CGet k)) = AVal (Some v) -> stored k None h = Some v) /\
  (forall k w v, snd (step hash s (CInsert k w)) = AVal (Some v) -> stored k None h = Some v) /\
  (forall k v, snd (step hash s (CRemove k)) = AVal (Some v) -> stored k None h = Some v) /\
  (forall e k q v, (e = CPopShard k \/ exists r, e = CPopAsync r \/ e = CPopSync r) ->
     snd (step hash s e) = APair (Some (q, v)) -> stored q None h = Some v).
Proof.
  intros hash c h s. destruct (answers hash _ s (run_good hash h _ _ (create_good hash c))) as (A & B & C & D).
  split; [exact A|]. split; [exact B|]. split; [exact C|]. intros e k q v E H. apply (D e k v E q H).
Qed.
Print Assumptions C84_fresh.

(** A cache never holds more entries than its capacity; the capacity is the one asked for, rounded up by less
    than the number of shards, as long as nobody changes it. *)
Theorem C84_bounded : forall hash c h,
  (usage (run hash (create c) h) <= capacity (run hash (create c) h))%nat /\
  ((1 <= c)%nat -> no_resize h -> (c <= capacity (run hash (create c) h) < c + 16)%nat).
Proof.
  intros hash c h. split.
  - apply (stays_within hash _ _ (run_good hash h _ _ (create_good hash c))).
  - intros H N. unfold capacity. rewrite same_caps by exact N. apply create_capacity. exact H.
Qed.
Print Assumptions C84_bounded.

(** A stored entry is still there, with its value, after any stores and look-ups of other keys, as long as the
    different keys among them that fall into its shard are fewer than the capacity of the shard. *)
Theorem C84_kept : forall hash c h0 k v h ks,
  no_resize h0 -> uses_others k h -> among (fun q => Nat.modulo (hash q) 16 = Nat.modulo (hash k) 16) ks h ->
  (length ks * 16 < c)%nat ->
  snd (step hash (run hash (create c) (h0 ++ CInsert k v :: h)) (CGet k)) = AVal (Some v).
Proof.
  intros hash c h0 k v h ks N V A L. destruct (shard_room hash c h0 k ks N L) as (LE & R). rewrite run_app.
  apply (kept hash (fun q => stored q None h0) _ k v ks h (run_good hash h0 _ _ (create_good hash c)) R V).
  unfold shard. rewrite LE. exact A.
Qed.
Print Assumptions C84_kept.

(** Under the same conditions, evicting from the shard of that key yields an entry, and not one of those stored
    or looked up since. *)
Theorem C84_pops_least_recent : forall hash c h0 k v h ks,
  no_resize h0 -> uses_others k h -> among (fun q => Nat.modulo (hash q) 16 = Nat.modulo (hash k) 16) ks h ->
  (length ks * 16 < c)%nat ->
  exists q w, snd (step hash (run hash (create c) (h0 ++ CInsert k v :: h)) (CPopShard k)) = APair (Some (q, w)) /\ ~ used q h.
Proof.
  intros hash c h0 k v h ks N V A L. destruct (shard_room hash c h0 k ks N L) as (LE & R). rewrite run_app.
  apply (pops_old hash (fun q => stored q None h0) _ k v ks h (run_good hash h0 _ _ (create_good hash c)) R V).
  unfold shard. rewrite LE. exact A.
Qed.
Print Assumptions C84_pops_least_recent.

(** False: evicting an entry from a cache that is not empty yields one.  Both kinds choose a shard without
    regard to which are empty: the one takes a shard at random, the other counts the shards in use but then takes
    that position among all of them. *)
Theorem C84_pop_refuted :
  exists hash c h r, (usage (run hash (create c) h) > 0)%nat
    /\ snd (step hash (run hash (create c) h) (CPopSync r)) = APair None
    /\ (forall r', run hash (create c) h = fst (step hash (run hash (create c) h) (CPopSync r')))
    /\ snd (step hash (run hash (create c) h) (CPopAsync r)) = APair None.
Proof.
  exists Z.to_nat, 20%nat, [CInsert 3 30], 0%nat. split; [vm_compute; lia|]. split; [vm_compute; reflexivity|]. split; [|vm_compute; reflexivity].
  intros r. cbn [run step fst]. vm_compute (run Z.to_nat (create 20) [CInsert 3 30]). 
  change (filter nonempty _) with [LRU 2 [(3, 30)]]. cbn [length]. rewrite Nat.mod_1_r. reflexivity.
Qed.
Print Assumptions C84_pop_refuted.

(** It does if every shard holds some key. *)
Theorem C84_pop_partial : forall hash c h,
  let s := run hash (create c) h in
  (forall i, (i < 16)%nat -> exists k v, Nat.modulo (hash k) 16 = i /\ snd (step hash s (CGet k)) = AVal (Some v)) ->
  forall r, (exists p, snd (step hash s (CPopAsync r)) = APair (Some p)) /\ (exists p, snd (step hash s (CPopSync r)) = APair (Some p)).
Proof.
  intros hash c h s F. assert (L : length s = 16%nat) by (unfold s; rewrite run_length; apply repeat_length).
  apply (pop_full hash (fun q => stored q None h) s (run_good hash h _ _ (create_good hash c))). rewrite L. exact F.
Qed.
Print Assumptions C84_pop_partial.

Definition h16 : list event := map (fun i => CInsert (Z.of_nat i) (Z.of_nat i + 100)) (seq 0 16).
Example C84_ex_pop : forall i, (i < 16)%nat -> exists k v, Nat.modulo (Z.to_nat k) 16 = i /\ snd (step Z.to_nat (run Z.to_nat (create 20) h16) (CGet k)) = AVal (Some v).
Proof.
  intros i H. exists (Z.of_nat i), (Z.of_nat i + 100). do 16 (destruct i as [|i]; [split; vm_compute; reflexivity|]). lia.
Qed.

(** Two entries per shard; 3, 19, 35 fall into one shard. *)
Definition h1 : list event := [CInsert 3 30; CInsert 19 190; CGet 3; CInsert 35 350; CInsert 3 31; CRemove 35].
Example C84_ex_fresh : snd (step Z.to_nat (run Z.to_nat (create 20) h1) (CGet 3)) = AVal (Some 31)
  /\ stored 3 None h1 = Some 31 /\ stored 35 None h1 = None
  /\ snd (step Z.to_nat (run Z.to_nat (create 20) h1) (CGet 35)) = AVal None
  /\ snd (step Z.to_nat (run Z.to_nat (create 20) h1) (CGet 19)) = AVal None
  /\ snd (step Z.to_nat (run Z.to_nat (create 20) h1) (CInsert 3 32)) = AVal (Some 31)
  /\ snd (step Z.to_nat (run Z.to_nat (create 20) h1) (CRemove 3)) = AVal (Some 31)
  /\ snd (step Z.to_nat (run Z.to_nat (create 20) h1) (CPopShard 19)) = APair (Some (3, 31)).
Proof. repeat (split; [vm_compute; reflexivity|]). vm_compute. reflexivity. Qed.
Example C84_ex_bounded : usage (run Z.to_nat (create 20) (h1 ++ [CInsert 4 40])) = 2%nat
  /\ capacity (run Z.to_nat (create 20) (h1 ++ [CInsert 4 40])) = 32%nat /\ no_resize (h1 ++ [CInsert 4 40]).
Proof. split; [vm_compute; reflexivity|]. split; [vm_compute; reflexivity|]. intros i n H. cbn in H. intuition discriminate. Qed.
(** one other key of the shard in between, used twice, and one of another shard: 3 stays, and is evicted next *)
Definition h2 : list event := [CInsert 35 350; CInsert 4 40; CGet 35].
Example C84_ex_kept : no_resize [CInsert 19 190] /\ uses_others 3 h2
  /\ among (fun q => Nat.modulo (Z.to_nat q) 16 = Nat.modulo (Z.to_nat 3) 16) [35] h2 /\ (length [35] * 16 < 20)%nat
  /\ snd (step Z.to_nat (run Z.to_nat (create 20) ([CInsert 19 190] ++ CInsert 3 30 :: h2)) (CGet 3)) = AVal (Some 30)
  /\ snd (step Z.to_nat (run Z.to_nat (create 20) ([CInsert 19 190] ++ CInsert 3 30 :: h2)) (CPopShard 3)) = APair (Some (3, 30)).
Proof.
  split; [intros i n H; cbn in H; intuition discriminate|].
  split; [intros e H; cbn in H; destruct H as [<- |[<- |[<- |[]]]]; discriminate|].
  split; [intros e H; cbn in H; destruct H as [<- |[<- |[<- |[]]]]; [left; reflexivity | vm_compute; discriminate | left; reflexivity]|].
  split; [cbn; lia|]. split; vm_compute; reflexivity.
Qed.
