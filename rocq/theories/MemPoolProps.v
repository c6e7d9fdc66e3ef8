(** C32: memory accounting under concurrency.  Model: MemPoolModel.v (atomic steps of any number of clients).
    [total n p]: sum of what clients 0..n-1 hold; [checked b]: only the fallible path is used, with requests below [b]. *)
From Verif Require Import Prelude MemPoolModel MemPoolSpec MemPoolProofs.

(** In every interleaving that uses only the checked path, the reserved total is exactly what the clients hold and never
    exceeds the limit.  Missing: requests so large that limit + request passes 2^64 (C32_wrap_refuted). *)
Theorem C32_never_exceeds_limit_partial : forall n size bound p,
  0 <= size -> 0 <= bound -> size + bound <= U64_MAX -> prun n (checked bound) (pool_new size) p ->
  p_used p <= size /\ p_used p = total n p.
Proof. intros n size bound p H1 H2 H3 H4. destruct (checked_bound n size bound p H1 H2 H3 H4) as (_&A&B&_). lia. Qed.
Print Assumptions C32_never_exceeds_limit_partial.

(** After everything is released the total is zero, in every interleaving of checked and unchecked reservations. *)
Theorem C32_released_is_zero : forall n ok size p,
  prun n ok (pool_new size) p -> (forall t, (t < n)%nat -> p_held p t = 0) -> p_used p = 0.
Proof.
  intros n ok size p H HZ. destruct (used_total _ _ _ _ H) as [A _]. rewrite A. unfold total.
  replace (fold_right Z.add 0 (map (p_held p) (seq 0 n))) with 0; [reflexivity|].
  assert (G : forall m k, (k + m <= n)%nat -> fold_right Z.add 0 (map (p_held p) (seq k m)) = 0).
  { induction m as [|m IH]; intros k Hk; cbn; auto. rewrite IH, HZ by lia. auto. }
  symmetry. apply G. lia.
Qed.
Print Assumptions C32_released_is_zero.

(** A request near 2^64 wraps around the check: the checked path grants it and the clients hold more than the limit. *)
Theorem C32_wrap_refuted : exists p, prun 1 (checked U64_MAX) (pool_new 100) p /\ total 1 p > 100 /\ p_used p <= 100.
Proof.
  eexists. split.
  - eapply (PRSnoc _ _ _ _ 0). 2: lia.
    + eapply (PRSnoc _ _ _ _ 0). 2: lia.
      * eapply (PRSnoc _ _ _ _ 0). 2: lia.
        -- eapply (PRSnoc _ _ _ _ 0). 2: lia. apply PRNil.
           ++ apply (PLoad _ _ 10); [reflexivity|unfold is_u64, U64_MAX; lia].
           ++ unfold checked; cbn. unfold U64_MAX; lia.
        -- eapply (PCasOk _ _ 10 0); [reflexivity|vm_compute; discriminate|reflexivity].
        -- unfold checked; cbn. discriminate.
      * apply (PLoad _ _ (2 ^ 64 - 5)); [reflexivity|unfold is_u64, U64_MAX; lia].
      * unfold checked; cbn. unfold U64_MAX; lia.
    + eapply (PCasOk _ _ (2 ^ 64 - 5) 10); [reflexivity|vm_compute; discriminate|reflexivity].
    + unfold checked; cbn. discriminate.
  - split; vm_compute; [reflexivity|discriminate].
Qed.
Print Assumptions C32_wrap_refuted.

(** Non-vacuity: two clients race for a pool of 50; the second sees a stale value, retries and is rejected. *)
Example C32_case : exists p, prun 2 (checked 1000) (pool_new 50) p /\ p_used p = 30 /\ p_held p 0%nat = 30 /\ p_held p 1%nat = 0 /\ p_client p 1%nat = Idle.
Proof.
  eexists. split.
  - eapply (PRSnoc _ _ _ _ 1). 2: lia.
    + eapply (PRSnoc _ _ _ _ 1). 2: lia.
      * eapply (PRSnoc _ _ _ _ 0). 2: lia.
        -- eapply (PRSnoc _ _ _ _ 1). 2: lia.
           ++ eapply (PRSnoc _ _ _ _ 0). 2: lia. apply PRNil.
              ** apply (PLoad _ _ 30); [reflexivity|unfold is_u64, U64_MAX; lia].
              ** unfold checked; cbn. lia.
           ++ apply (PLoad _ _ 25); [reflexivity|unfold is_u64, U64_MAX; lia].
           ++ unfold checked; cbn. lia.
        -- eapply (PCasOk _ _ 30 0); [reflexivity|vm_compute; discriminate|reflexivity].
        -- unfold checked; cbn. discriminate.
      * eapply (PCasFail _ _ 25 0); [reflexivity|vm_compute; discriminate|discriminate].
      * unfold checked; cbn. lia.
    + eapply (PReject _ _ 25 30); [reflexivity|vm_compute; reflexivity].
    + unfold checked; cbn. discriminate.
  - vm_compute. auto.
Qed.
