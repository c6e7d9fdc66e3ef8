(** Reading one series from several files and caches (C23, C24). *)
From Verif Require Import Prelude MergeModel MergeSpec MergeProofs MemProofs ReadModel ReadSpec ReadProofs.
Open Scope Z_scope.

(** The chunks are put into groups: none is lost or duplicated, no group is empty, and two chunks
    that share an instant are in the same group. *)
Theorem C24_groups : forall cs l, time_sorted cs l ->
  (forall c, In c cs -> I64_MIN <= c_max c) ->
  concat (group_overlapping l) = l /\
  ~ In [] (group_overlapping l) /\
  forall a b t, In a cs -> In b cs -> c_min a <= t <= c_max a -> c_min b <= t <= c_max b ->
    exists g, In g (group_overlapping l) /\ In a g /\ In b g.
Proof.
  intros cs l (P & S) HL. destruct (group_ok l S) as (E & N & O & _).
  { intros c Hc. apply HL. apply (Permutation_in c (Permutation_sym P)); auto. }
  split; auto. split.
  { rewrite Forall_forall in N. intros H. apply (N [] H). reflexivity. }
  intros a b t Ha Hb Ta Tb. apply (Permutation_in a P) in Ha. apply (Permutation_in b P) in Hb.
  rewrite <- E in Ha, Hb. clear - O Ha Hb Ta Tb. induction (group_overlapping l) as [|g G IH]; [destruct Ha|].
  apply fop_cons_inv in O as [O1 O2]. rewrite Forall_forall in O1. cbn [concat] in Ha, Hb. apply in_app_iff in Ha, Hb.
  destruct Ha as [Ha | Ha], Hb as [Hb | Hb].
  - exists g. split; [left|]; auto.
  - exfalso. apply in_concat in Hb as (e & He & Hb). specialize (O1 e He a b Ha Hb). lia.
  - exfalso. apply in_concat in Ha as (e & He & Ha). specialize (O1 e He b a Hb Ha). lia.
  - destruct (IH O2 Ha Hb) as (x & Hx & ?). exists x. split; [right|]; auto.
Qed.
Print Assumptions C24_groups.

(** Groups are disjoint in time and come in time order. *)
Theorem C24_groups_ordered : forall cs l, time_sorted cs l ->
  (forall c, In c cs -> I64_MIN <= c_max c) ->
  forall g1 earlier g2 later g3, group_overlapping l = g1 ++ earlier :: g2 ++ later :: g3 ->
  forall a b, In a earlier -> In b later -> c_max a < c_min b.
Proof.
  intros cs l (P & S) HL. destruct (group_ok l S) as (_ & _ & O & _).
  { intros c Hc. apply HL. apply (Permutation_in c (Permutation_sym P)); auto. }
  intros g1 e g2 f g3 E. rewrite E in O. clear E. induction g1 as [|x g1 IH]; cbn [app] in O; apply fop_cons_inv in O as [O1 O2]; auto.
  rewrite Forall_forall in O1. apply O1. apply in_app_iff. right. left. auto.
Qed.
Print Assumptions C24_groups_ordered.

(** A group is no larger than needed: each of its chunks starts no later than some earlier chunk of
    the group ends. *)
Theorem C24_groups_connected : forall cs l, time_sorted cs l ->
  (forall c, In c cs -> I64_MIN <= c_max c) ->
  forall g before c after, In g (group_overlapping l) -> g = before ++ c :: after -> before <> [] ->
  exists x, In x before /\ c_min c <= c_max x.
Proof.
  intros cs l (P & S) HL g bf c af Hg. destruct (group_ok l S) as (_ & _ & _ & C).
  { intros x Hx. apply HL. apply (Permutation_in x (Permutation_sym P)); auto. }
  rewrite Forall_forall in C. apply (C g Hg).
Qed.
Print Assumptions C24_groups_connected.

(** Reading a series: whatever order the sort by time range left ties in and however chunks
    overlap, the rows come out in time order, one per time stamp, each column with the value of the
    chunk with the highest file id that has one among the rows passing the filter. *)
Theorem C24_read : forall width batch_size keep cs l by_file, (1 <= batch_size)%nat ->
  Forall (chunk_ok width) cs -> Forall (fun c => I64_MIN <= c_max c) cs ->
  time_sorted cs l -> file_sorted cs by_file ->
  exists out, read_series width batch_size keep l = Some out /\
    merged width (filter keep (concat (map c_rows by_file))) out.
Proof. intros. eapply read_series_ok; eauto. Qed.
Print Assumptions C24_read.

Local Ltac ss := repeat first [apply SSorted_nil | apply SSorted_cons | apply Forall_nil | apply Forall_cons].
(** C23: the full statement is false.  The chunk filter runs before the versions of a row are
    merged: an old version that satisfies the clause is returned although the current one does not. *)
Theorem C23_filter_refuted : exists width batch_size keep cs l by_file all some,
  (1 <= batch_size)%nat /\ Forall (chunk_ok width) cs /\ Forall (fun c => I64_MIN <= c_max c) cs /\
  time_sorted cs l /\ file_sorted cs by_file /\
  read_series width batch_size (fun _ => true) l = Some all /\
  read_series width batch_size keep l = Some some /\
  filter keep all = [] /\ some = [MR 1 [Some 5]].
Proof.
  set (cs := [CH 1 1 1 [MR 1 [Some 5]]; CH 2 1 1 [MR 1 [Some 10]]]).
  exists 1%nat, 4%nat, (fun r => match col 0 r with Some v => v <? 7 | None => false end), cs, cs, cs, [MR 1 [Some 10]], [MR 1 [Some 5]].
  split; [lia|]. split; [repeat constructor; cbn; lia|]. split; [repeat constructor; vm_compute; discriminate|].
  split; [split; [apply Permutation_refl|]; ss; right; cbn; lia|].
  split; [split; [apply Permutation_refl|]; repeat constructor; cbn; lia|].
  split; [vm_compute; reflexivity|]. split; [vm_compute; reflexivity|]. split; vm_compute; reflexivity.
Qed.
Print Assumptions C23_filter_refuted.

(** What holds: if all versions of a row agree with the current row on the filter, then filtering
    the chunks gives the filtered rows.  Missing: clauses on fields that were overwritten. *)
Theorem C23_filter_partial : forall width batch_size keep cs l by_file all, (1 <= batch_size)%nat ->
  Forall (chunk_ok width) cs -> Forall (fun c => I64_MIN <= c_max c) cs ->
  time_sorted cs l -> file_sorted cs by_file ->
  read_series width batch_size (fun _ => true) l = Some all ->
  (forall r c v, In r all -> In c cs -> In v (c_rows c) -> r_ts v = r_ts r -> keep v = keep r) ->
  read_series width batch_size keep l = Some (filter keep all).
Proof.
  intros width bs keep cs l F all Hbs Hok Hlow HT HF HR Hk.
  destruct (read_series_ok width bs (fun _ => true) cs l F) as (o1 & R1 & M1); auto.
  destruct (read_series_ok width bs keep cs l F) as (o2 & R2 & M2); auto.
  rewrite HR in R1. injection R1 as <-. rewrite R2. f_equal.
  rewrite filter_true in M1 by auto. eapply merged_unique; [exact M2|]. apply merged_keep; auto.
  intros r v Hr Hv E. apply in_concat in Hv as (s & Hs & Hv). apply in_map_iff in Hs as (c & <- & Hc).
  apply (Hk r c v); auto. apply (Permutation_in c (Permutation_sym (proj1 HF))); auto.
Qed.
Print Assumptions C23_filter_partial.

(** In particular for every clause on time (and tags, which are constant in a series) … *)
Theorem C23_filter_by_time : forall width batch_size keep cs l by_file all, (1 <= batch_size)%nat ->
  Forall (chunk_ok width) cs -> Forall (fun c => I64_MIN <= c_max c) cs ->
  time_sorted cs l -> file_sorted cs by_file ->
  read_series width batch_size (fun _ => true) l = Some all ->
  (forall a b, r_ts a = r_ts b -> keep a = keep b) ->
  read_series width batch_size keep l = Some (filter keep all).
Proof. intros. eapply C23_filter_partial; eauto. Qed.
Print Assumptions C23_filter_by_time.

(** … and for every clause when no time stamp was written twice. *)
Theorem C23_filter_written_once : forall width batch_size keep cs l by_file all, (1 <= batch_size)%nat ->
  Forall (chunk_ok width) cs -> Forall (fun c => I64_MIN <= c_max c) cs ->
  time_sorted cs l -> file_sorted cs by_file ->
  read_series width batch_size (fun _ => true) l = Some all ->
  NoDup (map r_ts (concat (map c_rows cs))) ->
  read_series width batch_size keep l = Some (filter keep all).
Proof.
  intros width bs keep cs l F all Hbs Hok Hlow HT HF HR HN. eapply C23_filter_partial; eauto.
  intros r c v Hr Hc Hv E. f_equal.
  destruct (read_series_ok width bs (fun _ => true) cs l F) as (o1 & R1 & M1); auto.
  rewrite HR in R1. injection R1 as <-. rewrite filter_true in M1 by auto.
  assert (HP : Permutation (concat (map c_rows cs)) (concat (map c_rows F))).
  { destruct HF as [P _]. clear - P. induction P; cbn [map concat]; auto.
    - apply Permutation_app_head; auto.
    - rewrite !app_assoc. apply Permutation_app_tail, Permutation_app_comm.
    - etransitivity; eauto. }
  assert (HN' : NoDup (map r_ts (concat (map c_rows F)))).
  { eapply Permutation_NoDup; [|exact HN]. apply Permutation_map; auto. }
  assert (HW : Forall (fun r => length (r_cols r) = width) (concat (map c_rows F))).
  { apply Forall_forall. intros x Hx. apply (Permutation_in x (Permutation_sym HP)) in Hx. apply in_concat in Hx as (s & Hs & Hx).
    apply in_map_iff in Hs as (d & <- & Hd). rewrite Forall_forall in Hok. destruct (Hok d Hd) as (_ & _ & H). rewrite Forall_forall in H.
    apply H; auto. }
  apply (nodup_row (concat (map c_rows F))); auto.
  - apply (Permutation_in v HP). apply in_concat. exists (c_rows c). split; auto. apply in_map; auto.
  - eapply merged_unique_rows; eauto.
Qed.
Print Assumptions C23_filter_written_once.

(** Non-vacuity: three chunks, two overlapping; the filter is on a field, versions agree. *)
Definition ex_chunks : list chunk :=
  [CH 7 1 4 [MR 1 [Some 1; None]; MR 4 [Some 4; None]];
   CH 3 2 4 [MR 2 [Some 2; Some 2]; MR 4 [Some 9; Some 40]];
   CH 5 6 9 [MR 6 [None; Some 6]; MR 9 [Some 9; Some 9]]].
Example C24_nonvacuous :
  time_sorted ex_chunks ex_chunks /\ Forall (chunk_ok 2) ex_chunks /\ Forall (fun c => I64_MIN <= c_max c) ex_chunks /\
  file_sorted ex_chunks (sort_files ex_chunks) /\
  group_overlapping ex_chunks = [[nth 0 ex_chunks (CH 0 0 0 []); nth 1 ex_chunks (CH 0 0 0 [])]; [nth 2 ex_chunks (CH 0 0 0 [])]] /\
  read_series 2 2 (fun _ => true) ex_chunks =
    Some [MR 1 [Some 1; None]; MR 2 [Some 2; Some 2]; MR 4 [Some 4; Some 40]; MR 6 [None; Some 6]; MR 9 [Some 9; Some 9]] /\
  read_series 2 2 (fun r => r_ts r <? 5) ex_chunks = Some [MR 1 [Some 1; None]; MR 2 [Some 2; Some 2]; MR 4 [Some 4; Some 40]].
Proof.
  split; [split; [apply Permutation_refl|]; ss; left; cbn; lia|].
  split; [repeat constructor; cbn; lia|]. split; [repeat constructor; vm_compute; discriminate|].
  split; [split; [apply sort_files_perm|]; repeat constructor; cbn; lia|].
  split; [vm_compute; reflexivity|]. split; vm_compute; reflexivity.
Qed.
