(** C53: the consensus state of the replica groups on a node do not touch each other. *)
From Coq Require Import Permutation.
From Verif Require Import Prelude MetaModel StateStoreModel StateStoreSpec StateStoreProofs.
Open Scope Z_scope.

(** After any history of operations on any groups, every field of every group reads as what was set last in this group since the
    group was last deleted. *)
Theorem C53_fields : forall ops f id, Forall sop_ok ops -> f <> FMembership -> get_field (srun ops) f id = g_fields (grun ops id) f.
Proof. intros ops f id H N. exact (ag_field _ _ (agrees_run ops H) f id N). Qed.
Print Assumptions C53_fields.

Theorem C53_last_membership : forall ops id, Forall sop_ok ops -> get_last_membership (srun ops) id = g_last (grun ops id).
Proof. intros ops id H. exact (ag_last _ _ (agrees_run ops H) id). Qed.
Print Assumptions C53_last_membership.

(** A snapshot at an index not below those memberships were cleared up to gets the membership in force at that index: clearing old
    memberships never removes one that is still needed. *)
Theorem C53_snapshot_membership : forall ops order id index, Forall sop_ok ops -> (forall l, Permutation (order l) l) ->
  (g_cleared (grun ops id) <= index)%N -> in_force (grun ops id) index (get_snapshot_membership order (srun ops) id index).
Proof. intros ops order id index H O C. exact (in_force_found _ _ order id index (agrees_run ops H) O C). Qed.
Print Assumptions C53_snapshot_membership.

(** The groups found when the node starts are those with a summary, each once. *)
Theorem C53_summaries : forall ops, Forall sop_ok ops -> exists ps : list (N * Z),
  all_nodes_summary (srun ops) = map snd ps /\ NoDup (map fst ps) /\ forall id z, In (id, z) ps <-> g_fields (grun ops id) FSummary = Some z.
Proof. intros ops H. exact (summaries _ _ (agrees_run ops H)). Qed.
Print Assumptions C53_summaries.

(** Deleting a group leaves nothing of it under any of its keys. *)
Theorem C53_deleted_gone : forall ops order id k v, Forall sop_ok ops -> (forall l, Permutation (order l) l) ->
  In (k, v) (srun (ops ++ [SDel order id])) -> (forall f, k <> key f id) /\ (forall i, k <> k_list id i).
Proof.
  intros ops order id k v H O I. assert (H' : Forall sop_ok (ops ++ [SDel order id])) by (apply Forall_app; split; [exact H|constructor; [exact O|constructor]]).
  pose proof (agrees_run _ H') as A. destruct (ag_good _ _ A) as [Srt Sh]. pose proof (in_get _ _ _ Srt I) as E.
  assert (G : grun (ops ++ [SDel order id]) id = group_new) by (unfold grun; rewrite fold_left_app; cbn [fold_left gstep]; unfold on; now rewrite N.eqb_refl).
  destruct (Sh _ I) as [(f & a & z & NF & Q)|[(a & m & Q)|(a & i & m & Q & X)]].
  - pose proof (f_equal fst Q) as Q1. pose proof (f_equal snd Q) as Q2. cbn [fst snd] in Q1, Q2. subst k v.
    assert (a <> id) as NA. { intros ->. pose proof (ag_field _ _ A f id NF) as R. rewrite G in R. unfold get_field, get_z in R. rewrite E in R. discriminate R. }
    split; [intros f' R; apply key_inj in R as [_ R]; contradiction|intros i R; now apply key_k_list in R].
  - pose proof (f_equal fst Q) as Q1. pose proof (f_equal snd Q) as Q2. cbn [fst snd] in Q1, Q2. subst k v.
    assert (a <> id) as NA.
    { intros ->. unfold srun in I. rewrite fold_left_app in I. cbn [fold_left sstep] in I. fold (srun ops) in I. unfold del_group in I. cbv zeta in I.
      apply (in_get _ _ _ (proj1 (good_del_keys _ _ (ag_good _ _ (agrees_run ops H))))) in I.
      rewrite (get_del_keys _ _ _ (proj1 (ag_good _ _ (agrees_run ops H)))) in I.
      match type of I with (if ?b then _ else _) = _ => replace b with true in I; [discriminate I|] end.
      symmetry. apply existsb_seqb. apply in_or_app. left. apply (in_map (fun f => key f id)). cbn. tauto. }
    split; [intros f' R; apply key_inj in R as [_ R]; contradiction|intros i R; now apply key_k_list in R].
  - pose proof (f_equal fst Q) as Q1. pose proof (f_equal snd Q) as Q2. cbn [fst snd] in Q1, Q2. subst k v.
    assert (a <> id) as NA.
    { intros ->. assert (R : listed (srun (ops ++ [SDel order id])) id i = Some m) by (unfold listed, get_m; now rewrite E).
      apply (ag_listed _ _ A) in R. rewrite G in R. discriminate R. }
    split; [intros f' R; symmetry in R; now apply key_k_list in R|intros j R; apply k_list_inj in R as [R _]; contradiction].
Qed.
Print Assumptions C53_deleted_gone.

(** A case: groups 1, 12 and 121; memberships at 3, 7, 9 and 20; clearing up to 8; group 12 deleted. *)
Definition rev_order (l : list (str * smem)) := rev l.
Lemma rev_order_ok : forall l, Permutation (rev_order l) l. Proof. intros l. symmetry. apply Permutation_rev. Qed.
Definition sops : list sop :=
  [SSet FApplied 1 5; SSet FApplied 12 6; SSet FSummary 1 100; SSet FSummary 12 200; SSet FSummary 121 300; SMember 1 (SM (Some 3%N) 31); SMember 1 (SM (Some 7%N) 71);
   SMember 12 (SM (Some 4%N) 41); SMember 1 (SM (Some 9%N) 91); SMember 1 (SM (Some 20%N) 201); SClear rev_order 1 8; SSet FVote 121 9; SDel rev_order 12; SSet FApplied 1 8].
Example C53_case_ok : Forall sop_ok sops.
Proof. unfold sops. repeat (apply Forall_cons; [cbn [sop_ok]; first [exact I|discriminate|exact rev_order_ok]|]). apply Forall_nil. Qed.
Example C53_case_reads : get_field (srun sops) FApplied 1 = Some 8 /\ get_field (srun sops) FApplied 12 = None /\ get_field (srun sops) FVote 121 = Some 9
  /\ get_last_membership (srun sops) 1 = SM (Some 20%N) 201 /\ get_snapshot_membership rev_order (srun sops) 1 8 = SM (Some 7%N) 71
  /\ get_snapshot_membership rev_order (srun sops) 1 15 = SM (Some 9%N) 91 /\ all_nodes_summary (srun sops) = [100; 300] /\ g_cleared (grun sops 1%N) = 8%N.
Proof. repeat split; vm_compute; reflexivity. Qed.
