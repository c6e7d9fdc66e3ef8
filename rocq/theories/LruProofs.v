(** Proofs about the sharded LRU caches. *)
From Verif Require Import Prelude LruModel LruSpec.
From Coq Require Import Lia.
Open Scope Z_scope.

Lemma in_firstn {A} n (l : list A) x : In x (firstn n l) -> In x l.
Proof. intros H. rewrite <- (firstn_skipn n l). apply in_or_app. left. exact H. Qed.
Lemma nodup_firstn n (l : list (Z * Z)) : NoDup (map fst l) -> NoDup (map fst (firstn n l)).
Proof.
  revert n. induction l as [|e l IH]; intros [|n] H; cbn [firstn map]; try constructor; inversion H; subst.
  - intros I. apply H2. apply in_map_iff in I. destruct I as (x & E & I). apply in_map_iff. exists x. split; [exact E | apply in_firstn in I; exact I].
  - apply IH. assumption.
Qed.
Lemma in_drop k l e : In e (drop_key k l) <-> In e l /\ fst e <> k.
Proof.
  unfold drop_key. rewrite filter_In. split; intros (A & B); split; auto.
  - intros E. rewrite E, Z.eqb_refl in B. discriminate.
  - apply negb_true_iff, Z.eqb_neq. exact B.
Qed.
Lemma nodup_drop k l : NoDup (map fst l) -> NoDup (map fst (drop_key k l)).
Proof.
  unfold drop_key. induction l as [|e l IH]; intros H; cbn [filter]; [constructor|]. inversion H; subst.
  destruct (negb (fst e =? k)); [|auto]. cbn [map]. constructor; [|auto]. intros I. apply H2. apply in_map_iff in I.
  destruct I as (x & E & I). apply filter_In in I. apply in_map_iff. exists x. split; [exact E | apply (proj1 I)].
Qed.
Lemma length_drop k l : (length (drop_key k l) <= length l)%nat.
Proof. unfold drop_key. induction l as [|e l IH]; cbn [filter length]; [lia|]. destruct (negb (fst e =? k)); cbn [length]; lia. Qed.
Lemma find_some k l v : find_key k l = Some v -> In (k, v) l.
Proof.
  unfold find_key. destruct (find (fun e => fst e =? k) l) as [[k' v']|] eqn:E; [|discriminate]. cbn. intros H. injection H as <-.
  apply find_some in E. destruct E as (I & E). cbn in E. apply Z.eqb_eq in E. subst. exact I.
Qed.
Lemma find_none k l : find_key k l = None -> ~ In k (map fst l).
Proof.
  unfold find_key. destruct (find (fun e => fst e =? k) l) as [p|] eqn:E; [discriminate|]. intros _ I. apply in_map_iff in I.
  destruct I as (e & F & I). apply (find_none _ _ E) in I. rewrite F, Z.eqb_refl in I. discriminate.
Qed.
Lemma length_drop_in k v l : In (k, v) l -> (length (drop_key k l) < length l)%nat.
Proof.
  unfold drop_key. induction l as [|e l IH]; intros H; [destruct H|]. cbn [filter length]. destruct H as [-> |H].
  - cbn [fst]. rewrite Z.eqb_refl. cbn [negb]. pose proof (length_drop k l). unfold drop_key in *. lia.
  - apply IH in H. destruct (negb (fst e =? k)); cbn [length]; lia.
Qed.
Lemma length_removelast {A} (l : list A) : length (removelast l) = (length l - 1)%nat.
Proof. destruct l as [|x l]; [reflexivity|]. rewrite removelast_firstn_len. rewrite firstn_length. lia. Qed.

Lemma at_put s : forall i j c, at_shard i (put_at j c s) = if Nat.eqb i j && Nat.ltb j (length s) then c else at_shard i s.
Proof.
  induction s as [|x s IH]; intros i j c.
  - replace (put_at j c []) with (@nil lru) by (destruct j; reflexivity). rewrite andb_false_r. reflexivity.
  - destruct j as [|j]; [destruct i; reflexivity|]. destruct i as [|i]; [reflexivity|]. cbn [put_at]. apply (IH i j c).
Qed.
Lemma put_length s : forall j c, length (put_at j c s) = length s.
Proof. induction s as [|x s IH]; intros [|j] c; cbn; auto. Qed.

Section Hash.
Variable hash : Z -> nat.
Record shard_good (f : Z -> option Z) (n i : nat) (c : lru) : Prop := {
  sg_nodup : NoDup (map fst (l_items c));
  sg_len : (length (l_items c) <= l_cap c)%nat;
  sg_cap : (1 <= l_cap c)%nat;
  sg_in : forall k v, In (k, v) (l_items c) -> shard hash k n = i /\ f k = Some v
}.
Definition good (f : Z -> option Z) (s : list lru) : Prop :=
  (0 < length s)%nat /\ forall i, (i < length s)%nat -> shard_good f (length s) i (at_shard i s).
Lemma shard_lt k n : (0 < n)%nat -> (shard hash k n < n)%nat.
Proof. intros. apply Nat.mod_upper_bound. lia. Qed.

Lemma good_put f f' s j c : good f s -> ((j < length s)%nat -> shard_good f' (length s) j c) ->
  (forall k, shard hash k (length s) <> j -> f' k = f k) -> good f' (put_at j c s).
Proof.
  intros (P & G) H F. split; [rewrite put_length; exact P|]. rewrite put_length. intros i Hi. rewrite at_put.
  destruct (Nat.eqb i j) eqn:E.
  - apply Nat.eqb_eq in E. subst i. replace (Nat.ltb j (length s)) with true by (symmetry; apply Nat.ltb_lt; exact Hi). apply H. exact Hi.
  - apply Nat.eqb_neq in E. cbn [andb]. destruct (G i Hi). split; auto. intros k v I. destruct (sg_in0 k v I) as (A & B). split; [exact A|].
    rewrite F; [exact B|]. congruence.
Qed.
Lemma good_sub f n i c l : shard_good f n i c -> NoDup (map fst l) -> (length l <= l_cap c)%nat -> incl l (l_items c) -> shard_good f n i (LRU (l_cap c) l).
Proof. intros G N L I. destruct G. split; auto. Qed.
Lemma incl_removelast {A} (l : list A) : incl (removelast l) l.
Proof. intros x H. destruct l as [|y l]; [exact H|]. rewrite removelast_firstn_len in H. apply in_firstn in H. exact H. Qed.
Lemma nodup_removelast (l : list (Z * Z)) : NoDup (map fst l) -> NoDup (map fst (removelast l)).
Proof. intros H. destruct l as [|y l]; [exact H|]. rewrite removelast_firstn_len. apply nodup_firstn. exact H. Qed.

Lemma insert_good f n i c k v : shard_good f n i c -> shard hash k n = i ->
  shard_good (fun q => if q =? k then Some v else f q) n i (fst (insert k v c)) /\ (forall o, snd (insert k v c) = Some o -> f k = Some o).
Proof.
  intros G S0. destruct G. unfold insert. destruct (find_key k (l_items c)) as [o|] eqn:E; cbn [fst snd].
  - apply find_some in E. split; [|intros o' H; injection H as <-; apply (sg_in0 k o E)].
    split; cbn [l_items l_cap map fst].
    + constructor; [|apply nodup_drop; assumption]. intros I. apply in_map_iff in I. destruct I as (e & F & I). apply in_drop in I. tauto.
    + cbn [length]. pose proof (length_drop_in k o (l_items c) E). lia.
    + assumption.
    + intros q w [H|H]; [injection H as <- <-; rewrite Z.eqb_refl; auto|]. apply in_drop in H. destruct H as (H & N). cbn in N.
      destruct (sg_in0 q w H) as (A & B). apply Z.eqb_neq in N. rewrite N. auto.
  - apply find_none in E. split; [|discriminate].
    assert (X : exists l, (if Nat.eqb (length (l_items c)) (l_cap c) then removelast (l_items c) else l_items c) = l /\
      NoDup (map fst l) /\ incl l (l_items c) /\ (S (length l) <= l_cap c)%nat).
    { eexists. split; [reflexivity|]. destruct (Nat.eqb (length (l_items c)) (l_cap c)) eqn:Q.
      - split; [apply nodup_removelast; assumption|]. split; [apply incl_removelast|]. rewrite length_removelast. apply Nat.eqb_eq in Q. lia.
      - split; [assumption|]. split; [apply incl_refl|]. apply Nat.eqb_neq in Q. lia. }
    destruct X as (l & -> & N & I & L). split; cbn [l_items l_cap map fst].
    + constructor; [|exact N]. intros J. apply E. apply in_map_iff in J. destruct J as (e & F & J). apply in_map_iff. exists e. split; auto.
    + cbn [length]. exact L.
    + assumption.
    + intros q w [H|H]; [injection H as <- <-; rewrite Z.eqb_refl; auto|]. destruct (sg_in0 q w (I _ H)) as (A & B).
      destruct (q =? k) eqn:Q; [|auto]. exfalso. apply Z.eqb_eq in Q. subst q. apply E. apply in_map_iff. exists (k, w). split; [reflexivity | apply I; exact H].
Qed.
Lemma get_good f n i c k : shard_good f n i c -> shard hash k n = i ->
  shard_good f n i (fst (get k c)) /\ (forall o, snd (get k c) = Some o -> f k = Some o).
Proof.
  intros G S0. unfold get. destruct (find_key k (l_items c)) as [o|] eqn:E; cbn [fst snd]; [|split; [exact G | discriminate]].
  apply find_some in E. destruct G. split; [|intros o' H; injection H as <-; apply (sg_in0 k o E)].
  split; cbn [l_items l_cap map fst].
  - constructor; [|apply nodup_drop; assumption]. intros I. apply in_map_iff in I. destruct I as (e & F & I). apply in_drop in I. tauto.
  - cbn [length]. pose proof (length_drop_in k o (l_items c) E). lia.
  - assumption.
  - intros q w [H|H]; [injection H as <- <-; apply (sg_in0 k o E)|]. apply in_drop in H. apply (sg_in0 q w (proj1 H)).
Qed.
Lemma remove_good f n i c k : shard_good f n i c ->
  shard_good (fun q => if q =? k then None else f q) n i (fst (remove k c)) /\ (forall o, snd (remove k c) = Some o -> f k = Some o).
Proof.
  intros G. destruct G. unfold remove. cbn [fst snd]. split; [|intros o H; apply find_some in H; apply (sg_in0 k o H)].
  split; cbn [l_items l_cap].
  - apply nodup_drop. assumption.
  - pose proof (length_drop k (l_items c)). lia.
  - assumption.
  - intros q w H. apply in_drop in H. destruct H as (H & N). cbn in N. apply Z.eqb_neq in N. rewrite N. apply (sg_in0 q w H).
Qed.
Lemma pop_good f n i c : shard_good f n i c ->
  shard_good f n i (fst (pop c)) /\ (forall k v, snd (pop c) = Some (k, v) -> f k = Some v) /\ (snd (pop c) = None -> l_items c = []).
Proof.
  intros G. unfold pop. destruct (rev (l_items c)) as [|e r] eqn:E; cbn [fst snd].
  - split; [exact G|]. split; [discriminate|]. intros _. rewrite <- (rev_involutive (l_items c)), E. reflexivity.
  - split; [|split; [|discriminate]].
    + apply good_sub; [exact G | apply nodup_removelast, (sg_nodup _ _ _ _ G) | rewrite length_removelast; pose proof (sg_len _ _ _ _ G); lia | apply incl_removelast].
    + intros k v H. injection H as ->. apply (sg_in _ _ _ _ G k v). apply in_rev. rewrite E. left. reflexivity.
Qed.
Lemma pop_at_good f s i : good f s -> (i < length s)%nat ->
  good f (fst (pop_at i s)) /\ (forall k v, snd (pop_at i s) = APair (Some (k, v)) -> f k = Some v)
  /\ (snd (pop_at i s) = APair None -> l_items (at_shard i s) = []).
Proof.
  intros G L. unfold pop_at. destruct (pop (at_shard i s)) as [c a] eqn:E. cbn [fst snd].
  destruct (pop_good f (length s) i (at_shard i s)) as (A & B & C); [apply (proj2 G i L)|]. rewrite E in A, B, C. cbn [fst snd] in A, B, C.
  split; [apply (good_put f); auto|]. split; [intros k v H; injection H as ->; apply B; reflexivity|]. intros H. injection H as ->. apply C. reflexivity.
Qed.

Lemma step_good f s e : good f s -> good (fun k => stored k (f k) [e]) (fst (step hash s e)).
Proof.
  intros G. assert (P := proj1 G). destruct e as [k v | k | k | k | r | r | i n | i]; cbn [step stored].
  - assert (L := shard_lt k (length s) P).
    destruct (insert_good f (length s) (shard hash k (length s)) (at_shard (shard hash k (length s)) s) k v (proj2 G _ L) eq_refl) as (A & _).
    destruct (insert k v (at_shard (shard hash k (length s)) s)) as [c a]. cbn [fst] in *. apply (good_put f); auto.
    intros q N. destruct (q =? k) eqn:E; [|reflexivity]. apply Z.eqb_eq in E. subst q. contradiction.
  - assert (L := shard_lt k (length s) P).
    destruct (get_good f (length s) (shard hash k (length s)) (at_shard (shard hash k (length s)) s) k (proj2 G _ L) eq_refl) as (A & _).
    destruct (get k (at_shard (shard hash k (length s)) s)) as [c a]. cbn [fst] in *. apply (good_put f); auto.
  - assert (L := shard_lt k (length s) P).
    destruct (remove_good f (length s) (shard hash k (length s)) (at_shard (shard hash k (length s)) s) k (proj2 G _ L)) as (A & _).
    unfold remove in *. cbn [fst] in *. apply (good_put f); auto.
    intros q N. destruct (q =? k) eqn:E; [|reflexivity]. apply Z.eqb_eq in E. subst q. contradiction.
  - apply pop_at_good; [exact G | apply shard_lt; exact P].
  - apply pop_at_good; [exact G | apply Nat.mod_upper_bound; lia].
  - destruct (filter nonempty s) as [|c0 u] eqn:E; [exact G|]. apply pop_at_good; [exact G|].
    assert (N := Nat.mod_upper_bound r (length (c0 :: u)) ltac:(discriminate)).
    assert (M : (length (c0 :: u) <= length s)%nat).
    { rewrite <- E. clear. induction s as [|x s IH]; cbn [filter length]; [lia|]. destruct (nonempty x); cbn [length]; lia. }
    lia.
  - cbn [fst]. apply (good_put f); auto. intros L. pose proof (proj2 G i L) as H. destruct H. unfold set_capacity. split; cbn [l_items l_cap].
    + apply nodup_firstn. assumption.
    + rewrite firstn_length. lia.
    + lia.
    + intros k v I. apply in_firstn in I. apply (sg_in0 k v I).
  - cbn [fst]. apply (good_put f); auto. intros L. pose proof (proj2 G i L) as H. destruct H. split; cbn; auto; [constructor | lia | intros k v []].
Qed.
Lemma run_good : forall h f s, good f s -> good (fun k => stored k (f k) h) (run hash s h).
Proof.
  induction h as [|e r IH]; intros f s G; [exact G|]. cbn [run]. apply (step_good f s e) in G. apply IH in G.
  destruct e; exact G.
Qed.
Lemma run_length : forall h s, length (run hash s h) = length s.
Proof.
  induction h as [|e r IH]; intros s; [reflexivity|]. cbn [run]. rewrite IH.
  assert (PA : forall i, length (fst (pop_at i s)) = length s) by (intros i; unfold pop_at; destruct (pop (at_shard i s)); apply put_length).
  destruct e as [k v | k | k | k | q | q | i n | i]; cbn [step]; auto.
  - destruct (insert k v _); apply put_length.
  - destruct (get k _); apply put_length.
  - unfold remove. apply put_length.
  - destruct (filter nonempty s); auto.
  - apply put_length.
  - apply put_length.
Qed.
Lemma create_good c : good (fun _ => None) (create c).
Proof.
  split; [cbn; lia|]. intros i L. unfold at_shard, create.
  assert (E : nth i (repeat (LRU (per_shard c NUM_SHARDS) []) NUM_SHARDS) (LRU 1 []) = LRU (per_shard c NUM_SHARDS) []).
  { unfold create in L. rewrite repeat_length in L. assert (I : In (nth i (repeat (LRU (per_shard c NUM_SHARDS) []) NUM_SHARDS) (LRU 1 [])) (repeat (LRU (per_shard c NUM_SHARDS) []) NUM_SHARDS)).
    { apply nth_In. rewrite repeat_length. exact L. }
    apply repeat_spec in I. exact I. }
  rewrite E. split; cbn [l_items l_cap map length]; [constructor | lia | unfold per_shard; destruct (Nat.div _ _); lia | intros k v []].
Qed.

Lemma answers f s : good f s ->
  (forall k v, snd (step hash s (CGet k)) = AVal (Some v) -> f k = Some v) /\
  (forall k w v, snd (step hash s (CInsert k w)) = AVal (Some v) -> f k = Some v) /\
  (forall k v, snd (step hash s (CRemove k)) = AVal (Some v) -> f k = Some v) /\
  (forall e k v, (e = CPopShard k \/ exists r, e = CPopAsync r \/ e = CPopSync r) -> forall q, snd (step hash s e) = APair (Some (q, v)) -> f q = Some v).
Proof.
  intros G. assert (P := proj1 G). split; [|split; [|split]].
  - intros k v H. assert (L := shard_lt k (length s) P). cbn [step] in H.
    destruct (get_good f (length s) (shard hash k (length s)) (at_shard (shard hash k (length s)) s) k (proj2 G _ L) eq_refl) as (_ & B).
    destruct (get k (at_shard (shard hash k (length s)) s)) as [c a]. cbn [snd] in *. injection H as ->. apply B. reflexivity.
  - intros k w v H. assert (L := shard_lt k (length s) P). cbn [step] in H.
    destruct (insert_good f (length s) (shard hash k (length s)) (at_shard (shard hash k (length s)) s) k w (proj2 G _ L) eq_refl) as (_ & B).
    destruct (insert k w (at_shard (shard hash k (length s)) s)) as [c a]. cbn [snd] in *. injection H as ->. apply B. reflexivity.
  - intros k v H. assert (L := shard_lt k (length s) P). cbn [step] in H.
    destruct (remove_good f (length s) (shard hash k (length s)) (at_shard (shard hash k (length s)) s) k (proj2 G _ L)) as (_ & B).
    unfold remove in *. cbn [snd] in *. injection H as H. apply B. exact H.
  - intros e k v E q H. destruct E as [-> |(r & [-> | ->])]; cbn [step] in H.
    + destruct (pop_at_good f s (shard hash k (length s)) G (shard_lt k _ P)) as (_ & B & _). apply B. exact H.
    + destruct (pop_at_good f s (Nat.modulo r (length s)) G ltac:(apply Nat.mod_upper_bound; lia)) as (_ & B & _). apply B. exact H.
    + destruct (filter nonempty s) as [|c0 u] eqn:E; [discriminate|].
      assert (N := Nat.mod_upper_bound r (length (c0 :: u)) ltac:(discriminate)).
      assert (M : (length (c0 :: u) <= length s)%nat).
      { rewrite <- E. clear. induction s as [|x s IH]; cbn [filter length]; [lia|]. destruct (nonempty x); cbn [length]; lia. }
      destruct (pop_at_good f s (Nat.modulo r (length (c0 :: u))) G ltac:(lia)) as (_ & B & _). apply B. exact H.
Qed.
Lemma stays_within f s : good f s -> (usage s <= capacity s)%nat.
Proof.
  intros (_ & G). unfold usage, capacity.
  assert (H : forall c, In c s -> (length (l_items c) <= l_cap c)%nat).
  { intros c I. apply In_nth with (d := LRU 1 []) in I. destruct I as (i & L & <-). apply (sg_len _ _ _ _ (G i L)). }
  clear G. induction s as [|c s IH]; [cbn; lia|].
  assert (A := H c (or_introl eq_refl)). specialize (IH (fun x I => H x (or_intror I))).
  cbn [map list_sum fold_right] in *. unfold list_sum in *. lia.
Qed.

(** the least recently used entry goes first *)
Lemma drop_app k a b : drop_key k (a ++ b) = drop_key k a ++ drop_key k b.
Proof. apply filter_app. Qed.
Lemma drop_other k q v l : q <> k -> drop_key k ((q, v) :: l) = (q, v) :: drop_key k l.
Proof. intros N. unfold drop_key. cbn [filter fst]. apply Z.eqb_neq in N. rewrite N. reflexivity. Qed.
Definition recent (k v : Z) (ks : list Z) (cap : nat) (U : Z -> Prop) (c : lru) : Prop :=
  l_cap c = cap /\ exists pre post, l_items c = pre ++ (k, v) :: post /\ (forall q, In q (map fst pre) -> In q ks)
    /\ (forall q, U q -> ~ In q (map fst post)).
Lemma in_post k (pre post : list (Z * Z)) e : In k (map fst post) -> In k (map fst (pre ++ e :: post)).
Proof. intros I. rewrite map_app. apply in_or_app. right. right. exact I. Qed.
Lemma recent_drop k v ks cap (U : Z -> Prop) q w (pre post : list (Z * Z)) : q <> k -> In q ks -> (forall x, In x (map fst pre) -> In x ks) -> (forall x, U x -> ~ In x (map fst post)) ->
  recent k v ks cap (fun x => U x \/ x = q) (LRU cap ((q, w) :: drop_key q (pre ++ (k, v) :: post))).
Proof.
  intros N Q H K. split; [reflexivity|]. exists ((q, w) :: drop_key q pre), (drop_key q post). split; [|split].
  - cbn [l_items]. rewrite drop_app, drop_other by congruence. reflexivity.
  - intros x [<- |I]; [exact Q|]. apply H. apply in_map_iff in I. destruct I as (e & E & I). apply in_drop in I. apply in_map_iff. exists e. tauto.
  - intros x [X | ->] I; apply in_map_iff in I; destruct I as (e & E & I); apply in_drop in I; [|tauto].
    apply (K x X). apply in_map_iff. exists e. tauto.
Qed.
Lemma recent_insert f n i k v ks cap (U : Z -> Prop) c q w : shard_good f n i c -> (length ks < cap)%nat -> q <> k -> In q ks ->
  recent k v ks cap U c -> recent k v ks cap (fun x => U x \/ x = q) (fst (insert q w c)).
Proof.
  intros G L N Q (C & pre & post & E & H & K). unfold insert. destruct (find_key q (l_items c)) as [o|] eqn:F; cbn [fst].
  - rewrite E, C. apply recent_drop; assumption.
  - apply find_none in F. rewrite C.
    assert (K' : forall x, U x \/ x = q -> ~ In x (map fst post)).
    { intros x [X | ->]; [apply K; exact X|]. intros I. apply F. rewrite E. apply in_post. exact I. }
    destruct (Nat.eqb (length (l_items c)) cap) eqn:X.
    + apply Nat.eqb_eq in X. destruct post as [|e post].
      * exfalso. rewrite E, app_length in X. cbn [length] in X.
        assert (ND : NoDup (q :: map fst pre)).
        { pose proof (sg_nodup _ _ _ _ G) as D. rewrite E, map_app in D. apply NoDup_remove in D. rewrite app_nil_r in D.
          constructor; [|apply (proj1 D)]. intros I. apply F. rewrite E, map_app. apply in_or_app. left. exact I. }
        assert (I : incl (q :: map fst pre) ks) by (intros x [<- |I]; auto).
        pose proof (NoDup_incl_length ND I) as M. cbn [length] in M. rewrite map_length in M. lia.
      * split; [reflexivity|]. exists ((q, w) :: pre), (removelast (e :: post)). split; [|split].
        { cbn [l_items]. rewrite E. rewrite removelast_app by discriminate. reflexivity. }
        { intros x [<- |I]; auto. }
        { intros x Y I. apply (K' x Y). apply in_map_iff in I. destruct I as (e' & E' & I). apply in_map_iff. exists e'.
          split; [exact E' | apply incl_removelast; exact I]. }
    + split; [reflexivity|]. exists ((q, w) :: pre), post. split; [cbn [l_items]; rewrite E; reflexivity|]. split; [|exact K']. intros x [<- |I]; auto.
Qed.
Lemma recent_get k v ks cap (U : Z -> Prop) c q : q <> k -> In q ks -> recent k v ks cap U c -> recent k v ks cap (fun x => U x \/ x = q) (fst (get q c)).
Proof.
  intros N Q R. unfold get. destruct R as (C & pre & post & E & H & K). destruct (find_key q (l_items c)) as [o|] eqn:F; cbn [fst].
  - rewrite E, C. apply recent_drop; assumption.
  - apply find_none in F. split; [exact C|]. exists pre, post. split; [exact E|]. split; [exact H|].
    intros x [X | ->]; [apply K; exact X|]. intros I. apply F. rewrite E. apply in_post. exact I.
Qed.
Lemma recent_elsewhere f n i k v ks cap (U : Z -> Prop) c q : shard_good f n i c -> shard hash q n <> i ->
  recent k v ks cap U c -> recent k v ks cap (fun x => U x \/ x = q) c.
Proof.
  intros G N (C & pre & post & E & H & K). split; [exact C|]. exists pre, post. split; [exact E|]. split; [exact H|].
  intros x [X | ->]; [apply K; exact X|]. intros I. apply (in_post q pre post (k, v)) in I. rewrite <- E in I. apply in_map_iff in I.
  destruct I as ([q' w] & <- & I). apply N. apply (sg_in _ _ _ _ G _ _ I).
Qed.
Definition key_of (e : event) (x : Z) : Prop := match e with CInsert q _ | CGet q => x = q | _ => False end.
Lemma recent_step f s k v ks cap (U : Z -> Prop) e : good f s -> (length ks < cap)%nat ->
  match e with CInsert q _ | CGet q => q <> k | _ => False end ->
  match e with CInsert q _ | CGet q => shard hash q (length s) = shard hash k (length s) -> In q ks | _ => True end ->
  recent k v ks cap U (at_shard (shard hash k (length s)) s) ->
  recent k v ks cap (fun x => U x \/ key_of e x) (at_shard (shard hash k (length s)) (fst (step hash s e))).
Proof.
  intros G L V A R. assert (P := proj1 G). assert (SL := shard_lt k (length s) P). assert (GS := proj2 G _ SL).
  destruct e as [q w | q | q | q | r | r | i n | i]; try contradiction; cbn [step key_of].
  - pose proof (recent_insert f (length s) (shard hash k (length s)) k v ks cap U (at_shard (shard hash k (length s)) s) q w GS L V) as K.
    destruct (Nat.eq_dec (shard hash q (length s)) (shard hash k (length s))) as [E|E].
    + rewrite E. specialize (K (A E) R). destruct (insert q w (at_shard (shard hash k (length s)) s)) as [c a]. cbn [fst] in *.
      rewrite at_put, Nat.eqb_refl. apply Nat.ltb_lt in SL. rewrite SL. exact K.
    + destruct (insert q w (at_shard (shard hash q (length s)) s)) as [c a]. cbn [fst]. rewrite at_put.
      destruct (Nat.eqb (shard hash k (length s)) (shard hash q (length s))) eqn:X; [apply Nat.eqb_eq in X; congruence|].
      apply (recent_elsewhere f _ _ _ _ _ _ _ _ _ GS E R).
  - pose proof (recent_get k v ks cap U (at_shard (shard hash k (length s)) s) q V) as K.
    destruct (Nat.eq_dec (shard hash q (length s)) (shard hash k (length s))) as [E|E].
    + rewrite E. specialize (K (A E) R). destruct (get q (at_shard (shard hash k (length s)) s)) as [c a]. cbn [fst] in *.
      rewrite at_put, Nat.eqb_refl. apply Nat.ltb_lt in SL. rewrite SL. exact K.
    + destruct (get q (at_shard (shard hash q (length s)) s)) as [c a]. cbn [fst]. rewrite at_put.
      destruct (Nat.eqb (shard hash k (length s)) (shard hash q (length s))) eqn:X; [apply Nat.eqb_eq in X; congruence|].
      apply (recent_elsewhere f _ _ _ _ _ _ _ _ _ GS E R).
Qed.
Lemma step_length s e : length (fst (step hash s e)) = length s.
Proof. apply (run_length [e] s). Qed.
Lemma recent_run k v ks cap : (length ks < cap)%nat -> forall h f s U, good f s -> uses_others k h ->
  among (fun q => shard hash q (length s) = shard hash k (length s)) ks h ->
  recent k v ks cap U (at_shard (shard hash k (length s)) s) ->
  recent k v ks cap (fun x => U x \/ used x h) (at_shard (shard hash k (length s)) (run hash s h)).
Proof.
  intros L. induction h as [|e r IH]; intros f s U G V A R.
  - destruct R as (C & pre & post & E & H & K). split; [exact C|]. exists pre, post. split; [exact E|]. split; [exact H|].
    intros q [X | (e & [] & _)]. apply K. exact X.
  - cbn [run].
    pose proof (recent_step f s k v ks cap U e G L (V e (or_introl eq_refl)) (A e (or_introl eq_refl)) R) as K.
    rewrite <- (step_length s e) in K |- *.
    apply (IH (fun k => stored k (f k) [e])) in K; [| apply step_good; exact G | intros e' I; apply V; right; exact I
      | rewrite step_length; intros e' I; apply A; right; exact I].
    destruct K as (C & pre & post & E & H & K). split; [exact C|]. exists pre, post. split; [exact E|]. split; [exact H|].
    intros q [X | (e' & [<- |I] & Q)]; apply K; [left; left; exact X | left; right; exact Q | right; exists e'; split; assumption].
Qed.
Lemma after_insert f s k v ks h : good f s ->
  (length ks < l_cap (at_shard (shard hash k (length s)) s))%nat -> uses_others k h ->
  among (fun q => shard hash q (length s) = shard hash k (length s)) ks h ->
  exists cap, recent k v ks cap (fun x => used x h) (at_shard (shard hash k (length s)) (run hash s (CInsert k v :: h))).
Proof.
  intros G L V A. set (s1 := fst (step hash s (CInsert k v))). assert (P := proj1 G). assert (SL := shard_lt k (length s) P).
  assert (LE : length s1 = length s) by apply step_length.
  assert (G1 := step_good f s (CInsert k v) G). fold s1 in G1.
  assert (R1 : recent k v ks (l_cap (at_shard (shard hash k (length s)) s)) (fun _ => False) (at_shard (shard hash k (length s)) s1)).
  { unfold s1. cbn [step]. unfold insert. set (c := at_shard (shard hash k (length s)) s).
    destruct (find_key k (l_items c)); cbn [fst]; rewrite at_put, Nat.eqb_refl; apply Nat.ltb_lt in SL; rewrite SL; cbn [andb];
      (split; [reflexivity|]); (eexists []; eexists; split; [reflexivity|split; [intros x []|intros x []]]). }
  assert (R := recent_run k v ks _ L h _ s1 (fun _ => False) G1 V). rewrite LE in R. specialize (R A R1).
  eexists. cbn [run]. fold s1. destruct R as (C & pre & post & E & H & K). split; [exact C|]. exists pre, post. split; [exact E|]. split; [exact H|].
  intros q X. apply K. right. exact X.
Qed.
Lemma kept f s k v ks h : good f s ->
  (length ks < l_cap (at_shard (shard hash k (length s)) s))%nat -> uses_others k h ->
  among (fun q => shard hash q (length s) = shard hash k (length s)) ks h ->
  snd (step hash (run hash s (CInsert k v :: h)) (CGet k)) = AVal (Some v).
Proof.
  intros G L V A. destruct (after_insert f s k v ks h G L V A) as (cap & C & pre & post & E & _).
  assert (P := proj1 G). assert (SL := shard_lt k (length s) P).
  assert (GR := run_good (CInsert k v :: h) _ s G). set (t := run hash s (CInsert k v :: h)) in *.
  assert (LT : length t = length s) by (unfold t; apply run_length).
  pose proof (proj2 GR (shard hash k (length s)) ltac:(rewrite LT; exact SL)) as SG.
  assert (Iv : In (k, v) (l_items (at_shard (shard hash k (length s)) t))) by (rewrite E; apply in_or_app; right; left; reflexivity).
  destruct (sg_in _ _ _ _ SG k v Iv) as (_ & Fv).
  cbn [step]. rewrite LT. unfold get. destruct (find_key k (l_items (at_shard (shard hash k (length s)) t))) as [o|] eqn:F; cbn [snd].
  - apply find_some in F. destruct (sg_in _ _ _ _ SG k o F) as (_ & Fo). congruence.
  - exfalso. apply find_none in F. apply F. apply in_map_iff. exists (k, v). split; [reflexivity | exact Iv].
Qed.
Lemma pops_old f s k v ks h : good f s ->
  (length ks < l_cap (at_shard (shard hash k (length s)) s))%nat -> uses_others k h ->
  among (fun q => shard hash q (length s) = shard hash k (length s)) ks h ->
  exists q w, snd (step hash (run hash s (CInsert k v :: h)) (CPopShard k)) = APair (Some (q, w)) /\ ~ used q h.
Proof.
  intros G L V A. destruct (after_insert f s k v ks h G L V A) as (cap & C & pre & post & E & _ & K).
  set (t := run hash s (CInsert k v :: h)) in *.
  assert (LT : length t = length s) by (unfold t; apply run_length).
  cbn [step]. rewrite LT. unfold pop_at, pop. rewrite E, rev_app_distr. cbn [rev]. rewrite <- app_assoc. cbn [app].
  destruct (rev post) as [|[q w] r] eqn:Q; cbn [app snd].
  - exists k, v. split; [reflexivity|]. intros (e & I & X). apply V in I. destruct e; try contradiction; congruence.
  - exists q, w. split; [reflexivity|]. intros X. apply (K q X). apply in_map_iff. exists (q, w). split; [reflexivity|]. apply in_rev. rewrite Q. left. reflexivity.
Qed.
Lemma same_caps : forall h s, no_resize h -> map l_cap (run hash s h) = map l_cap s.
Proof.
  assert (PC : forall s i c, l_cap c = l_cap (at_shard i s) -> map l_cap (put_at i c s) = map l_cap s).
  { induction s as [|x s IH]; intros [|i] c H; cbn in *; try reflexivity; [rewrite H; reflexivity|]. rewrite IH; auto. }
  assert (PA : forall s i, map l_cap (fst (pop_at i s)) = map l_cap s).
  { intros s i. unfold pop_at, pop. destruct (rev (l_items (at_shard i s))); cbn [fst]; apply PC; reflexivity. }
  induction h as [|e r IH]; intros s H; [reflexivity|]. cbn [run]. rewrite IH by (intros i n I; apply (H i n); right; exact I).
  destruct e as [q w | q | q | q | x | x | i n | i]; cbn [step]; auto.
  - unfold insert. destruct (find_key q _); cbn [fst]; apply PC; reflexivity.
  - unfold get. destruct (find_key q _); cbn [fst]; apply PC; reflexivity.
  - unfold remove. cbn [fst]. apply PC. reflexivity.
  - destruct (filter nonempty s); auto.
  - exfalso. apply (H i n). left. reflexivity.
  - cbn [fst]. apply PC. reflexivity.
Qed.
End Hash.

Lemma create_capacity c : (1 <= c)%nat -> (c <= capacity (create c) < c + 16)%nat.
Proof.
  intros H. unfold capacity, create. change NUM_SHARDS with 16%nat.
  assert (D := Nat.div_mod (c + (16 - 1)) 16 ltac:(discriminate)). assert (M := Nat.mod_upper_bound (c + (16 - 1)) 16 ltac:(discriminate)).
  assert (E : per_shard c 16 = Nat.div (c + (16 - 1)) 16).
  { unfold per_shard. destruct (Nat.div (c + (16 - 1)) 16) eqn:Q; [|reflexivity]. exfalso. cbn [Nat.mul] in D. lia. }
  rewrite E. remember (Nat.div (c + (16 - 1)) 16) as d. remember (Nat.modulo (c + (16 - 1)) 16) as m. clear Heqd Heqm E.
  cbn [repeat map list_sum fold_right l_cap]. unfold list_sum. cbn [fold_right]. lia.
Qed.
Lemma run_app hash : forall a s b, run hash s (a ++ b) = run hash (run hash s a) b.
Proof. induction a as [|e a IH]; intros s b; [reflexivity|]. cbn [app run]. apply IH. Qed.
Lemma shard_room hash c h0 k (ks : list Z) : no_resize h0 -> (length ks * 16 < c)%nat ->
  length (run hash (create c) h0) = 16%nat /\
  (length ks < l_cap (at_shard (shard hash k (length (run hash (create c) h0))) (run hash (create c) h0)))%nat.
Proof.
  intros N L. set (s := run hash (create c) h0). assert (LE : length s = 16%nat) by (unfold s; rewrite run_length; apply repeat_length).
  split; [exact LE|]. assert (SL : (shard hash k (length s) < length s)%nat) by (apply shard_lt; lia).
  assert (E : map l_cap s = repeat (per_shard c 16) 16).
  { unfold s. rewrite same_caps by exact N. reflexivity. }
  assert (I : In (l_cap (at_shard (shard hash k (length s)) s)) (map l_cap s)).
  { apply in_map. apply nth_In. exact SL. }
  rewrite E in I. apply repeat_spec in I. rewrite I.
  assert (D := Nat.div_mod (c + (16 - 1)) 16 ltac:(discriminate)). assert (M := Nat.mod_upper_bound (c + (16 - 1)) 16 ltac:(discriminate)).
  unfold per_shard. remember (Nat.div (c + (16 - 1)) 16) as d. remember (Nat.modulo (c + (16 - 1)) 16) as m. clear - D M L. destruct d; lia.
Qed.
Lemma pop_full hash f s : good hash f s ->
  (forall i, (i < length s)%nat -> exists k v, shard hash k (length s) = i /\ snd (step hash s (CGet k)) = AVal (Some v)) ->
  forall r, (exists p, snd (step hash s (CPopAsync r)) = APair (Some p)) /\ (exists p, snd (step hash s (CPopSync r)) = APair (Some p)).
Proof.
  intros G F r. assert (P := proj1 G).
  assert (N : forall i, (i < length s)%nat -> l_items (at_shard i s) <> []).
  { intros i L E. destruct (F i L) as (k & v & K & H). cbn [step] in H. rewrite K in H. unfold get, find_key in H. rewrite E in H. cbn in H. discriminate. }
  assert (A : forall i, (i < length s)%nat -> exists p, snd (pop_at i s) = APair (Some p)).
  { intros i L. destruct (pop_at_good hash f s i G L) as (_ & _ & C). unfold pop_at in *. destruct (pop (at_shard i s)) as [c [p|]]; cbn [snd] in *; [exists p; reflexivity|].
    exfalso. apply (N i L). apply C. reflexivity. }
  split; cbn [step]; [apply A, Nat.mod_upper_bound; lia|].
  assert (U : filter nonempty s = s).
  { assert (X : forall c, In c s -> nonempty c = true).
    { intros c I. apply In_nth with (d := LRU 1 []) in I. destruct I as (i & L & <-). specialize (N i L). unfold at_shard in N. unfold nonempty. destruct (l_items _); [contradiction | reflexivity]. }
    clear - X. induction s as [|c s IH]; [reflexivity|]. cbn [filter]. rewrite (X c (or_introl eq_refl)). f_equal. apply IH. intros x I. apply X. right. exact I. }
  rewrite U. destruct s as [|c0 s0] eqn:E; [cbn in P; lia|]. rewrite <- E in *. apply A. apply Nat.mod_upper_bound. lia.
Qed.
