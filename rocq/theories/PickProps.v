(** C54: no file takes part in two compactions at once. *)
From Verif Require Import Prelude TimeRangeModel PickModel PickSpec PickProofs.
From Coq Require Import Sorted.
Open Scope Z_scope.

(** A level compaction takes files of one level between 1 and 4, none of which is in a compaction, oldest and smallest first, until they
    are large enough or none is left, and writes to the next level. *)
Theorem C54_level_pick : forall score max m ls q m', vnode_ok ls -> pick_normal score max m ls = (Some q, m') ->
  1 <= q_in q <= 4 /\ q_out q = Z.min 4 (q_in q + 1) /\ q_range q = tr_all /\ q_files q <> [] /\ NoDup (map p_id (q_files q)) /\
  StronglySorted (fun a b => tmin (p_range a) < tmin (p_range b) \/ tmin (p_range a) = tmin (p_range b) /\ p_size a <= p_size b) (q_files q) /\
  (forall f, In f (q_files q) -> In f (level_files ls (q_in q)) /\ is_free m f) /\
  (forall i, In i m' <-> works_on q i \/ In i m) /\
  (max <= sizes (q_files q) \/ forall f, In f (level_files ls (q_in q)) -> In (p_id f) m') /\
  (0 < max -> forall a x, q_files q = a ++ [x] -> sizes a < max).
Proof.
  intros score max m ls q m' OK P. destruct (normal_ok _ _ _ _ _ _ OK P) as (l & keep & Il & _ & Qi & Qb & Qo & Qr & K & Ne & N & F & M & C & D & _).
  pose proof (levels_nodup _ (proj1 OK)) as Nl. rewrite Qi in *. rewrite (level_files_at ls l Nl Il). sp; auto; try lia.
  - pose proof (sorted_filter _ keep _ (sort_sorted (l_files l))) as S. rewrite <- K in S. clear - S. induction S as [|x l S IH Fa]; constructor; auto.
    rewrite Forall_forall in *. intros y I. specialize (Fa y I). unfold file_le in Fa. lia.
  - intros f I. split; auto. rewrite K in I. apply filter_In in I. destruct I as [I _]. exact (Permutation.Permutation_in _ (sort_perm _) I).
Qed.
Print Assumptions C54_level_pick.

(** A delta compaction starts from level 0 and takes files none of which is in a compaction. *)
Theorem C54_delta_pick : forall trigger m ls q m', vnode_ok ls -> pick_delta trigger m ls = (Some q, m') ->
  q_in q = 0 /\ 1 <= q_out q <= 4 /\ q_files q <> [] /\ NoDup (map p_id (q_files q)) /\
  (forall f, In f (q_files q) -> In f (vnode_files ls) /\ is_free m f) /\ delta_shape trigger m ls q m'.
Proof.
  intros trigger m ls q m' OK P. destruct (delta_ok _ _ _ _ _ OK P) as (A & B & C & D & E & F). sp; auto; try lia. intros f I. destruct (C f I). auto.
Qed.
Print Assumptions C54_delta_pick.

(** No two running compactions have a file in common, whatever is flushed, picked, finished, failed and restarted, as long as the
    picker does not fall into the case below; and their files are all still there. *)
Theorem C54_no_file_twice_partial : forall h a b qa qb i, hist_ok h -> no_gap h -> a <> b ->
  nth_error (ps_jobs (prun h)) a = Some qa -> nth_error (ps_jobs (prun h)) b = Some qb ->
  works_on qa i -> ~ works_on qb i /\ In i (map p_id (vnode_files (ps_levels (prun h)))).
Proof.
  intros h a b qa qb i H G D A B W. pose proof (run_held h H G) as R. split. { exact (jobs_disjoint _ _ _ _ _ _ R D A B W). }
  destruct R as (_ & _ & L). apply L. unfold jids. apply in_concat. exists (ids_of (q_files qa)). split; auto.
  apply (in_map (fun q => ids_of (q_files q)) _ _ (nth_error_In _ _ A)).
Qed.
Print Assumptions C54_no_file_twice_partial.

(** A file that is kept from being picked is in a running compaction, if no compaction has failed since the start. *)
Theorem C54_released_partial : forall h i, hist_ok h -> Forall (fun e => is_fail e = false) h ->
  In i (map p_id (vnode_files (ps_levels (prun h)))) -> In i (ps_marks (prun h)) -> exists q, In q (ps_jobs (prun h)) /\ works_on q i.
Proof.
  intros h i H G V M. pose proof (run_owned h H G i V M) as J. unfold jids in J. apply in_concat in J. destruct J as (x & J & I).
  apply in_map_iff in J. destruct J as (q & <- & J). exists q. auto.
Qed.
Print Assumptions C54_released_partial.

Definition pf (i lo hi : Z) : pfile := PF i (TR lo hi) 10 (Some (TR lo hi)).
Definition nothing (i : Z) : option trange := None.
Lemma hist_by_steps : forall h, (forall n, (n < length h)%nat -> match nth_error h n with Some e => pev_ok (prun (firstn n h)) e | None => True end) -> hist_ok h.
Proof.
  intros h H h1 e h2 E. subst h. assert (L : (length h1 < length (h1 ++ e :: h2))%nat) by (rewrite app_length; cbn; lia). specialize (H _ L).
  rewrite nth_error_app2, Nat.sub_diag in H by lia. cbn [nth_error] in H. rewrite firstn_app, Nat.sub_diag, firstn_all, app_nil_r in H. exact H.
Qed.
Ltac newids := split; [repeat (constructor; [cbn; intuition discriminate|]); constructor|intros ? X; repeat (destruct X as [<-|X]; [vm_compute; intuition discriminate|]); destruct X].
Ltac steps := apply hist_by_steps; intros n L; cbn [length] in L; do 9 (destruct n as [|n]; [cbn [nth_error firstn pev_ok]; first [exact I|newids]|]); exfalso; lia.

(** Not vacuous: two files go to level 1; a later and an overlapping one are written; the delta compaction of the overlapping pair and a
    compaction of the newer files run at once. *)
Definition busy_day : list pev :=
  [PFlush (pf 1 0 10); PFlush (pf 2 5 20); PDelta 2; PFinish 0 (fun _ => true) nothing [pf 3 0 20];
   PFlush (pf 4 5 8); PFlush (pf 5 30 40); PFlush (pf 6 40 50); PDelta 2; PDelta 1].
Example C54_nonvacuous : hist_ok busy_day /\ no_gap busy_day /\
  map (fun q => (map p_id (q_files q), q_out q)) (ps_jobs (prun busy_day)) = [([5; 6], 1); ([4; 3], 1)] /\ ps_marks (prun busy_day) = [3; 4; 5; 6; 1; 2].
Proof.
  split. { unfold busy_day. steps. }
  split; [|vm_compute; auto].
  intros h1 t h2 q m E P (_ & f & t0 & Q & _).
  assert (X : In (Some q, m) (map (fun n => match nth_error busy_day n with Some (PDelta t) => pick_delta t (ps_marks (prun (firstn n busy_day))) (ps_levels (prun (firstn n busy_day))) | _ => (None, []) end) (seq 0 9))).
  { apply in_map_iff. exists (length h1). rewrite E. rewrite nth_error_app2, Nat.sub_diag by lia. cbn [nth_error]. rewrite firstn_app, Nat.sub_diag, firstn_all, app_nil_r.
    split; auto. apply in_seq. assert (length busy_day = length (h1 ++ PDelta t :: h2)) as Y by congruence. rewrite app_length in Y. cbn in Y. lia. }
  vm_compute in X. repeat (destruct X as [X|X]; [try discriminate X; injection X as <- _; discriminate Q|]). destruct X.
Qed.
Example C54_nonvacuous_level : exists q m', vnode_ok [level_of 0 []; level_of 1 [pf 1 0 10; pf 2 5 20; pf 3 30 40]; level_of 2 []; level_of 3 []; level_of 4 []] /\
  pick_normal (fun n k => (9 - n) * k) 15 [1] [level_of 0 []; level_of 1 [pf 1 0 10; pf 2 5 20; pf 3 30 40]; level_of 2 []; level_of 3 []; level_of 4 []] = (Some q, m') /\
  map p_id (q_files q) = [2; 3] /\ q_out q = 2.
Proof.
  eexists _, _. split. { split; [reflexivity|]. cbn. repeat (constructor; [cbn; lia|]). constructor. } split; [vm_compute; reflexivity|]. vm_compute. auto.
Qed.

(** Without that condition it is false: a file of level 0 that falls between the files of a level is compacted without being marked, and
    the next delta compaction takes it again while the first one runs. *)
Theorem C54_gap_refuted : exists h qa qb i, hist_ok h /\ ps_jobs (prun h) = [qa; qb] /\ works_on qa i /\ works_on qb i.
Proof.
  exists [PFlush (pf 1 0 10); PDelta 1; PFinish 0 (fun _ => true) nothing [pf 2 0 10]; PFlush (pf 3 20 30); PDelta 1; PFinish 0 (fun _ => true) nothing [pf 4 20 30];
          PFlush (pf 5 14 16); PDelta 1; PDelta 1]. eexists _, _, 5.
  split. { steps. } split; [vm_compute; reflexivity|]. split; vm_compute; auto.
Qed.
Print Assumptions C54_gap_refuted.

(** A compaction that failed holds its files for ever: no later pick takes them, until the process is restarted. *)
Theorem C54_failed_refuted : exists h, hist_ok h /\ ps_jobs (prun h) = [] /\ map p_id (vnode_files (ps_levels (prun h))) = [1; 2] /\
  (forall trigger, fst (pick_delta trigger (ps_marks (prun h)) (ps_levels (prun h))) = None) /\
  (exists q, fst (pick_delta 2 (ps_marks (prun (h ++ [PRestart]))) (ps_levels (prun (h ++ [PRestart])))) = Some q).
Proof.
  exists [PFlush (pf 1 0 10); PFlush (pf 2 5 20); PDelta 2; PFail 0]. split. { steps. } split; [vm_compute; auto|]. split; [vm_compute; auto|]. split.
  - intros trigger. match goal with |- context [pick_delta _ ?m ?l] => let m1 := eval vm_compute in m in let l1 := eval vm_compute in l in change (fst (pick_delta trigger m1 l1) = None) end. unfold pick_delta. cbn [l_files length]. destruct (_ <? _); reflexivity.
  - eexists. vm_compute. reflexivity.
Qed.
Print Assumptions C54_failed_refuted.
