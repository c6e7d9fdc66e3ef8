(** C29: membership filter.  Model: BloomModel.v.  The hash functions are arbitrary. *)
From Verif Require Import Prelude BloomModel BloomProofs.

(** Inserting never fails and every inserted key is found. *)
Theorem C29_no_false_negative : forall hashers m f0 keys,
  (forall h k, In h hashers -> 0 <= h k) -> bf_new m = Some f0 ->
  exists f, bf_insert_all hashers f0 keys = Some f /\ forall k, In k keys -> maybe_contains hashers f k = Some true.
Proof. exact no_false_negative. Qed.
Print Assumptions C29_no_false_negative.

(** Saving the bytes and reloading them gives the same answers, for filters of more than 32 bits (data files use 2^20). *)
Theorem C29_reload_partial : forall hashers m f0 keys f,
  (forall h k, In h hashers -> 0 <= h k) -> 32 < m -> bf_new m = Some f0 -> bf_insert_all hashers f0 keys = Some f ->
  exists f', bf_with_data (bf_b f) = Some f' /\ forall k, maybe_contains hashers f' k = maybe_contains hashers f k.
Proof. exact reload_no_false_negative. Qed.
Print Assumptions C29_reload_partial.

(** Filters of every size below 2^61 bits can be made. *)
Theorem C29_new_total : forall j, 3 <= j < 62 -> exists f, bf_new (2 ^ j) = Some f /\ Z.of_nat (length (bf_b f)) = 2 ^ (j - 3).
Proof.
  intros j H. unfold bf_new. rewrite pow2_fix by auto. eexists. split; [reflexivity|]. cbn. rewrite repeat_length, Z.shiftr_div_pow2, <- Z.pow_sub_r by lia.
  apply Z2Nat.id. apply Z.pow_nonneg. lia.
Qed.
Print Assumptions C29_new_total.

(** What is missing from C29_reload_partial: a filter of 8 bits (1 byte) is padded to 8 bytes on reload and its mask
    changes, so an inserted key is reported absent, whatever the other three hash functions are. *)
Theorem C29_small_reload_refuted : forall fnv xx sip, (forall k, 0 <= fnv k) -> (forall k, 0 <= xx k) -> (forall k, 0 <= sip k) ->
  exists f0 f f' k, bf_new 8 = Some f0 /\ bf_insert_all [fnv; xx; sip; bkdr] f0 [k] = Some f /\
    bf_with_data (bf_b f) = Some f' /\ maybe_contains [fnv; xx; sip; bkdr] f' k = Some false.
Proof.
  intros fnv xx sip H1 H2 H3. assert (HP : forall h k, In h [fnv; xx; sip; bkdr] -> 0 <= h k).
  { intros h k [<-|[<-|[<-|[<-|[]]]]]; auto. unfold bkdr. assert (G : forall l n, 0 <= n -> 0 <= fold_left (fun n c => wrap_u64 (wrap_u64 (n * 1313) + c)) l n).
    { induction l as [|c l IH]; cbn; auto. intros. apply IH. pose proof (wrap_u64_is_u64 (wrap_u64 (n * 1313) + c)) as [X _]. auto. } apply G. lia. }
  destruct (bf_new 8) as [f0|] eqn:E0; [|vm_compute in E0; discriminate].
  destruct (insert_all_spec _ [[8]] HP f0 (new_wf _ _ E0)) as (f&E&W&M&L&B).
  assert (LB : length (bf_b f) = 1%nat) by (rewrite L; vm_compute in E0; injection E0 as <-; reflexivity).
  destruct (bf_b f) as [|byte [|]] eqn:EB; try discriminate.
  exists f0, f. eexists. exists [8]. split; [auto|]. split; [auto|]. split; [rewrite EB; vm_compute; reflexivity|].
  unfold maybe_contains. rewrite test_hashes_spec.
  2: { exists 6. split; [lia|]. split; reflexivity. }
  2: { repeat constructor; auto; vm_compute; discriminate. }
  f_equal. cbn [map forallb]. replace (bit _ (location _ (bkdr [8]))) with false by reflexivity. rewrite andb_false_l, !andb_false_r. reflexivity.
Qed.
Print Assumptions C29_small_reload_refuted.

Example C29_case :
  let hs := [bkdr; fun k => bkdr (3 :: k)] in
  match bf_new 64 with
  | Some f0 => match bf_insert_all hs f0 [[1; 2]; [5]] with
               | Some f => (maybe_contains hs f [1; 2], maybe_contains hs f [5], maybe_contains hs f [77])
               | None => (None, None, None) end
  | None => (None, None, None) end = (Some true, Some true, Some false).
Proof. vm_compute. reflexivity. Qed.
