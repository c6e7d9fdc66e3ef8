(** Proofs about the memory pool. *)
From Verif Require Import Prelude MemPoolModel MemPoolSpec.

Lemma total_set n f t v : (t < n)%nat ->
  fold_right Z.add 0 (map (fset f t v) (seq 0 n)) = fold_right Z.add 0 (map f (seq 0 n)) + v - f t.
Proof.
  assert (G : forall m k, fold_right Z.add 0 (map (fset f t v) (seq k m)) =
     fold_right Z.add 0 (map f (seq k m)) + (if ((k <=? t) && (t <? k + m))%nat then v - f t else 0)).
  { induction m as [|m IH]; intros k; cbn [seq map fold_right].
    - replace ((k <=? t) && (t <? k + 0))%nat with false by (symmetry; apply andb_false_iff; destruct (Nat.leb_spec k t); auto; right; apply Nat.ltb_ge; lia). lia.
    - rewrite IH. unfold fset at 1. destruct (Nat.eqb_spec k t) as [->|N].
      + replace ((S t <=? t) && (t <? S t + m))%nat with false by (symmetry; apply andb_false_iff; left; apply Nat.leb_gt; lia).
        replace ((t <=? t) && (t <? t + S m))%nat with true by (symmetry; apply andb_true_iff; split; [apply Nat.leb_le|apply Nat.ltb_lt]; lia). lia.
      + replace ((S k <=? t) && (t <? S k + m))%nat with ((k <=? t) && (t <? k + S m))%nat; [lia|].
        apply eq_true_iff_eq. rewrite !andb_true_iff, !Nat.leb_le, !Nat.ltb_lt. lia. }
  intros H. rewrite G. replace ((0 <=? t) && (t <? 0 + n))%nat with true by (symmetry; apply andb_true_iff; split; [apply Nat.leb_le|apply Nat.ltb_lt]; lia). lia.
Qed.

(** The counter always equals the total held, modulo 2^64, on every execution. *)
Lemma used_total n ok size p : prun n ok (pool_new size) p -> p_used p = wrap_u64 (total n p) /\ (forall t, 0 <= p_held p t).
Proof.
  intros H. remember (pool_new size) as p0. induction H as [p|p q t r HR IH HT HS HO]; subst.
  - split; [|cbn; lia]. unfold total. cbn. assert (G : forall k, fold_right Z.add 0 (map (fun _ : nat => 0) (seq k n)) = 0) by (induction n; intros; cbn; auto; rewrite IHn; auto).
    rewrite G. auto.
  - destruct (IH eq_refl) as [A B]. unfold total in *. inversion HS; subst; cbn [p_used p_held]; auto.
    + rewrite total_set by auto. split; [|intros j; unfold fset; destruct (Nat.eqb j t); auto].
      * rewrite A. unfold wrap_u64. rewrite Zplus_mod_idemp_l. f_equal. lia.
      * specialize (B t). cut (0 <= a); [lia|]. clear - HR H. revert H. revert a. set (seen := p_used q) at 1. intros a H.
        assert (G : forall t a s, p_client q t = Trying a s -> is_u64 a).
        { clear - HR. remember (pool_new size) as p0. induction HR as [p|p q t r HR IH HT HS HO]; subst; [cbn; discriminate|].
          intros t0 a s. inversion HS; subst; cbn [p_client]; unfold fset; destruct (Nat.eqb_spec t0 t); intros E; try (injection E as <- <-); subst; eauto; try discriminate. }
        apply G in H. apply H.
    + rewrite total_set by auto. split; [|intros j; unfold fset; destruct (Nat.eqb j t); auto; lia].
      rewrite A. unfold wrap_u64. rewrite Zminus_mod_idemp_l. f_equal. lia.
    + rewrite total_set by auto. split; [|intros j; unfold fset; destruct (Nat.eqb j t); auto].
      * rewrite A. unfold wrap_u64. rewrite Zplus_mod_idemp_l. f_equal. lia.
      * specialize (B t). unfold is_u64 in *. lia.
Qed.

Lemma checked_bound n size bound p : 0 <= size -> 0 <= bound -> size + bound <= U64_MAX -> prun n (checked bound) (pool_new size) p ->
  p_size p = size /\ 0 <= total n p <= size /\ p_used p = total n p /\
  (forall t a s, p_client p t = Trying a s -> 0 <= a < bound /\ 0 <= s <= size).
Proof.
  intros Hs Hb HB H. remember (pool_new size) as p0. induction H as [p|p q t r HR IH HT HS HO]; subst.
  - cbn. assert (G : forall k, fold_right Z.add 0 (map (fun _ : nat => 0) (seq k n)) = 0) by (induction n; intros; cbn; auto; rewrite IHn; auto).
    unfold total. cbn. rewrite G. repeat split; auto; try lia; discriminate.
  - destruct (IH eq_refl) as (A&B&C&D). destruct (used_total _ _ _ _ HR) as [_ NN]. unfold total in *. unfold checked in HO. unfold U64_MAX in *.
    inversion HS; subst; cbn [p_used p_held p_size p_client] in *.
    + unfold fset in HO. rewrite Nat.eqb_refl in HO. repeat split; auto; try lia; unfold fset in H1; destruct (Nat.eqb_spec t0 t); try (injection H1 as <- <-; unfold is_u64 in *; lia); eapply D in H1; lia.
    + destruct (D _ _ _ H) as [D1 D2]. rewrite total_set by auto.
      assert (W : wrap_u64 (p_used q + a) = p_used q + a) by (apply wrap_u64_id; unfold is_u64, U64_MAX; lia). rewrite W in *.
      repeat split; auto; try lia; unfold fset in H1; destruct (Nat.eqb_spec t0 t); try discriminate; eapply D in H1; lia.
    + destruct (D _ _ _ H) as [D1 D2].
      repeat split; auto; try lia; unfold fset in H2; destruct (Nat.eqb_spec t0 t); try (injection H2 as <- <-; lia); eapply D in H2; lia.
    + repeat split; auto; try lia; unfold fset in H1; destruct (Nat.eqb_spec t0 t); try discriminate; eapply D in H1; lia.
    + rewrite total_set by auto. specialize (NN t).
      assert (X : p_held q t <= fold_right Z.add 0 (map (p_held q) (seq 0 n))).
      { pose proof (total_set n (p_held q) t 0 HT) as TS.
        assert (0 <= fold_right Z.add 0 (map (fset (p_held q) t 0) (seq 0 n))); [|lia].
        assert (NN' : forall j, 0 <= fset (p_held q) t 0 j) by (intros j; unfold fset; destruct (Nat.eqb j t); [lia|]; eapply used_total; eauto).
        clear - NN'. generalize 0%nat. induction n; intros k; cbn; [lia|]. specialize (IHn (S k)). specialize (NN' k). lia. }
      assert (W : wrap_u64 (p_used q - a) = p_used q - a) by (apply wrap_u64_id; unfold is_u64, U64_MAX; lia). rewrite W.
      repeat split; auto; try lia; eapply D in H1; lia.
    + rewrite H in HO. specialize (HO eq_refl). unfold fset in HO. rewrite Nat.eqb_refl in HO.
      assert (a = 0) by (unfold is_u64 in *; lia). subst. rewrite total_set by auto.
      assert (W : wrap_u64 (p_used q + 0) = p_used q + 0) by (apply wrap_u64_id; unfold is_u64, U64_MAX; lia). rewrite W.
      repeat split; auto; try lia; eapply D in H1; lia.
Qed.
