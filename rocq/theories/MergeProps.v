(** C21: merging sorted inputs yields one row per time stamp with last-writer values. *)
From Verif Require Import Prelude MergeModel MergeSpec MergeProofs.

(** For any number of time-sorted streams cut into batches in any way, and any batch size, the
    merge ends without an error; its output is the merge of all rows (one row per time stamp, in
    increasing order, every column the last non-null value in stream order); and every batch it
    hands out has between 1 and [batch_size] rows. *)
Theorem C21_sort_merge width batch_size streams :
  streams <> [] -> (1 <= batch_size)%nat -> Forall (stream_ok width) streams ->
  exists batches,
    (forall fuel, (length (all_rows streams) + 2 <= fuel)%nat ->
       sort_merge fuel width batch_size streams = Some batches) /\
    merged width (all_rows streams) (concat batches) /\
    Forall (fun b => (1 <= length b <= batch_size)%nat) batches.
Proof. apply sort_merge_ok. Qed.
Print Assumptions C21_sort_merge.

(** The rows produced depend only on the rows of the streams, not on how they are cut into batches
    nor on the output batch size. *)
Theorem C21_batching_irrelevant width bs bs' streams streams' fuel fuel' out out' :
  streams <> [] -> (1 <= bs)%nat -> (1 <= bs')%nat ->
  Forall (stream_ok width) streams -> map rows_of streams = map rows_of streams' ->
  (length (all_rows streams) + 2 <= fuel)%nat -> (length (all_rows streams) + 2 <= fuel')%nat ->
  sort_merge fuel width bs streams = Some out -> sort_merge fuel' width bs' streams' = Some out' ->
  concat out = concat out'.
Proof.
  intros Hne Hb Hb' Hok Hrows Hf Hf' H1 H2.
  assert (Hall : all_rows streams' = all_rows streams) by (unfold all_rows; rewrite Hrows; reflexivity).
  assert (Hne' : streams' <> []) by (intros ->; destruct streams; [auto | discriminate]).
  assert (Hok' : Forall (stream_ok width) streams').
  { rewrite Forall_forall in *. intros s Hs. apply (in_map rows_of) in Hs. rewrite <- Hrows in Hs.
    apply in_map_iff in Hs as (s0 & E & Hs0). specialize (Hok s0 Hs0). unfold stream_ok in *. rewrite <- E. exact Hok. }
  destruct (C21_sort_merge width bs streams Hne Hb Hok) as (b1 & R1 & M1 & _).
  destruct (C21_sort_merge width bs' streams' Hne' Hb' Hok') as (b2 & R2 & M2 & _).
  rewrite R1 in H1 by auto. rewrite Hall in R2, M2. rewrite R2 in H2 by auto.
  injection H1 as <-. injection H2 as <-. eapply merged_unique; eauto.
Qed.
Print Assumptions C21_batching_irrelevant.

(** Non-vacuity: five streams, one of them empty, one with an empty batch; equal time stamps within
    a stream and across streams; nulls on both sides. *)
Definition mk t a b := MR t [a; b].
Definition ex1 := [[mk 1 (Some 10) None; mk 3 (Some 11) (Some 12)]; []; [mk 3 None (Some 13); mk 7 None None]].
Definition ex2 := [[mk 1 None (Some 20)]; [mk 2 (Some 21) None; mk 7 (Some 5) None]].
Definition ex3 := [[mk 0 (Some 30) None]; [mk 3 (Some 31) None; mk 9 (Some 5) None]].
Example C21_nonvacuous :
  Forall (stream_ok 2) [ex1; ex2; ex3; []; ex2] /\
  sort_merge 100 2 2 [ex1; ex2; ex3; []; ex2] =
  Some [[mk 0 (Some 30) None; mk 1 (Some 10) (Some 20)]; [mk 2 (Some 21) None; mk 3 (Some 31) (Some 13)];
        [mk 7 (Some 5) None; mk 9 (Some 5) None]].
Proof.
  split; [|vm_compute; reflexivity].
  repeat constructor; cbn; lia.
Qed.
