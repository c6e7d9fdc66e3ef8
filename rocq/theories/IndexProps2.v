(** Updates of tag values (C18); lookups by several tags (C19). *)
From Coq Require Import Sorted.
From Verif Require Import Prelude Bytes IndexModel IndexSpec IndexUpdateSpec IndexProofs IndexProofs2.
Open Scope Z_scope.

(** C18: after an acknowledged update of a series' tags, a write that names the series by its new tags gets the same id, the
    id has the new tags, and the old name is gone.  Missing: as in C18_dictionary_partial; crashes (C18_update_crash_refuted). *)
Theorem C18_update_keeps_id_partial : forall hash a k upd k' x1 i x2, Forall iop_ok a -> key_ok k -> key_ok k' -> Z.of_nat (length a) + 3 < 2 ^ 32 ->
  updated upd k k' -> istep hash (fst (irun hash a)) (IAdd k) = (x1, OId (ROk i)) -> istep hash x1 (IUpdate upd [k]) = (x2, ODone true) ->
  snd (istep hash x2 (IAdd k')) = OId (ROk i) /\ snd (istep hash x2 (IGetKey i)) = OKey (Some (Some k')) /\
  (k <> k' -> snd (istep hash x2 (IGetId k)) = OId RNo).
Proof. exact update_keeps_id. Qed.
Print Assumptions C18_update_keeps_id_partial.
(** C19: right after a flush, looking up several tags at once returns exactly the series that have all of them.  Missing:
    series that are not flushed (C19_multi_tag_refuted). *)
Theorem C19_multi_tag_flushed_partial : forall hash h tab t tags, Forall iop_ok h -> Z.of_nat (length h) + 1 < 2 ^ 32 -> name_ok tab ->
  Forall (fun t => tag_name (fst t)) (t :: tags) ->
  exists x s, istep hash (fst (irun hash h)) IFlush = (x, ODone true) /\ ix_list x tab (t :: tags) = Some s /\
    forall i, 0 <= i < 2 ^ 32 -> (In i s <-> exists k, snd (istep hash x (IGetKey i)) = OKey (Some (Some k)) /\ sk_table k = tab /\ incl (t :: tags) (sk_tags k)).
Proof. exact flushed_list. Qed.
Print Assumptions C19_multi_tag_flushed_partial.

(** A series with two tags: one is set, a new one sorts between them, and the second is removed. *)
Definition up_s (l : list (bytes * bytes)) : series := SK [99; 112; 117] l.
Definition up_k : series := SK [99; 112; 117] [([49], [97]); ([51], [98])].
Definition up_u : list (bytes * option bytes) := [([50], Some [99]); ([49], Some [100]); ([51], None)].
Definition up_k' : series := SK [99; 112; 117] [([49], [100]); ([50], [99])].
Example C18_update_case : key_ok up_k /\ key_ok up_k' /\ updated up_u up_k up_k' /\
  exists x1 x2, istep series_hash (fst (irun series_hash [])) (IAdd up_k) = (x1, OId (ROk 1)) /\ istep series_hash x1 (IUpdate up_u [up_k]) = (x2, ODone true).
Proof.
  assert (G : forall l, Forall (fun t : bytes * bytes => tag_name (fst t)) l -> (length (enc_key (up_s l)) < MAX_KEY)%nat -> key_ok (up_s l)).
  { intros l H1 H2. split; [cbn; unfold name_ok; cbn; intuition (discriminate || lia)|]. auto. }
  split; [apply G; [repeat constructor; cbn; try discriminate; lia|apply Nat.ltb_lt; vm_compute; reflexivity]|].
  split; [apply G; [repeat constructor; cbn; try discriminate; lia|apply Nat.ltb_lt; vm_compute; reflexivity]|].
  split.
  - change up_k' with (retag up_u up_k). split; [reflexivity|]. apply retag_ok.
  - eexists _, _. split; [vm_compute; reflexivity|]. vm_compute. reflexivity.
Qed.
Example C19_multi_tag_case : let h := [IAdd up_k; IAdd up_k'; IAdd (SK [99; 112; 117] [([49], [97])])] in
  exists x, istep series_hash (fst (irun series_hash h)) IFlush = (x, ODone true) /\ ix_list x [99; 112; 117] [([49], [97]); ([51], [98])] = Some [1].
Proof. cbv zeta. eexists. split; vm_compute; reflexivity. Qed.
