(** Proofs about routing: with a power of two of replica sets the order of the tags does not matter. *)
From Verif Require Import Prelude WriteModel WriteSpec BucketModel RouteModel RouteSpec RouteProofs RouteProofs2 RouteProofs3.

Definition sum (l : list Z) : Z := fold_right Z.add 0 l.
Lemma wrap_diff z : exists k, wrap_u64 z = z + k * 32.
Proof.
  exists (- (z / 2 ^ 64) * 2 ^ 59). unfold wrap_u64. rewrite Z.mod_eq by discriminate.
  replace (2 ^ 64) with (2 ^ 59 * 32) by reflexivity. ring.
Qed.
Lemma hash_diff bytes : forall h, exists k, hash_with h bytes = h + sum bytes + k * 32.
Proof.
  unfold hash_with. induction bytes as [|c bytes IH]; intros h; cbn [fold_left sum fold_right].
  - exists 0. ring.
  - destruct (IH (wrap_u64 (wrap_u64 (h * SEED) + c))) as [k ->]. fold (sum bytes).
    destruct (wrap_diff (wrap_u64 (h * SEED) + c)) as [k1 ->]. destruct (wrap_diff (h * SEED)) as [k2 ->].
    exists (k + k1 + k2 + 41 * h). unfold SEED. ring.
Qed.
Definition tsum (tags : list (str * str)) : Z := sum (map (fun t => sum (fst t) + sum (snd t)) tags).
Lemma hash_tags_diff tags : forall h, exists k, hash_tags h tags = h + tsum tags + k * 32.
Proof.
  unfold hash_tags, tsum. induction tags as [|t tags IH]; intros h; cbn [fold_left map sum fold_right].
  - exists 0. ring.
  - destruct (IH (hash_with (hash_with h (fst t)) (snd t))) as [k ->].
    destruct (hash_diff (snd t) (hash_with h (fst t))) as [k1 ->]. destruct (hash_diff (fst t) h) as [k2 ->].
    exists (k + k1 + k2). unfold sum. ring.
Qed.
Lemma sum_perm l k : Permutation l k -> sum l = sum k.
Proof. induction 1; unfold sum in *; cbn; lia. Qed.
Lemma hash_perm h a b n : Permutation a b -> (n | 32) -> hash_tags h a mod n = hash_tags h b mod n.
Proof.
  intros P [q Q]. destruct (hash_tags_diff a h) as [k1 ->]. destruct (hash_tags_diff b h) as [k2 ->].
  unfold tsum. rewrite (sum_perm _ _ (Permutation_map (fun t => sum (fst t) + sum (snd t)) P)).
  destruct (Z.eq_dec n 0) as [->|N]; [rewrite Z.mul_0_r in Q; discriminate|].
  rewrite Q, !Z.mul_assoc, !Z.mod_add by exact N. reflexivity.
Qed.
Lemma locate_mod bs h1 h2 ts : power_of_two_shards bs -> (forall n, (n | 32) -> h1 mod n = h2 mod n) ->
  locate bs h1 ts = locate bs h2 ts.
Proof.
  intros P H. unfold locate. destruct (bucket_by_timestamp bs ts) as [b|] eqn:B; [|reflexivity].
  unfold bucket_by_timestamp in B. apply find_some in B as [B _]. unfold vnode_for. rewrite (H _ (P _ B)). reflexivity.
Qed.
Lemma lines_any_order bs es T : power_of_two_shards bs -> always bs request_ok es ->
  always bs (lines_and_inserts_any_order T) es -> one_row_each bs es T.
Proof.
  intros W A B.
  assert (L : forall e, In e es -> leaves T e).
  { apply (always_leaves bs T (lines_and_inserts_any_order T)); [|exact B]. intros d [| | | |]; cbn; auto. }
  apply (agreed bs T (fun k ts => loc_or bs (hash_tags (hash_with 0 T) k) ts)); [exact L|exact A|].
  intros p Hp. revert p Hp.
  apply (places_inv bs T (lines_and_inserts_any_order T) _ es empty (NoDup_nil _) L B A).
  intros d e p ND Q R I. destruct e as [v t tags ts fs|t vals ts fs|t n|t old new|t old new]; cbn [place_of] in I; try destruct I.
  - destruct (str_eqb t T) eqn:E; [|destruct I]. apply str_eqb_eq in E. subst t. cbn in Q, R.
    destruct (locate bs (line_hash v T tags) ts) as [r|] eqn:LO; [|destruct I]. destruct I as [<-|[]]. cbn [p_repl p_key p_ts p_fs].
    unfold loc_or. replace (hash_tags (hash_with 0 T) (line_key v tags)) with (line_hash v T tags); [rewrite LO; reflexivity|].
    destruct v; [reflexivity|reflexivity|]. exfalso. apply Q; reflexivity.
  - destruct (str_eqb t T) eqn:E; [|destruct I]. apply str_eqb_eq in E. subst t. cbn in Q, R.
    destruct fs as [|f fs]; [destruct I|].
    destruct (locate bs _ ts) as [r|] eqn:LO; [|destruct I]. destruct I as [<-|[]]. cbn [p_repl p_key p_ts p_fs].
    destruct R as [_ R]. destruct (full_given _ _ R (Q eq_refl)) as [E1 E2].
    unfold loc_or. rewrite (locate_mod bs _ (record_hash T (combine (tags_of d T) vals)) ts W); [rewrite LO; reflexivity|].
    intros n D. unfold record_hash, record_key. rewrite E1. fold (given (tags_of d T) vals).
    apply hash_perm; [|exact D]. apply sort_tags_perm.
Qed.
