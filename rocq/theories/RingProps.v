(** C31: the bounded log cache.  Model: RingModel.v; specification: RingSpec.v (a list of entries, oldest first). *)
From Verif Require Import Prelude RingModel RingSpec RingProofs.

(** After any sequence of puts and truncations on a cache of any capacity, lookups and [last] answer as the specification
    list does, and no operation fails. *)
Theorem C31_refines_fifo : forall (V : Type) cap (ops : list (kop V)), (0 < cap)%nat ->
  exists c, fold_left kc_step ops (Some (kc_new cap)) = Some c /\
    (forall k, kc_get c k = lookup (fold_left (s_step cap) ops []) k) /\
    kc_last c = match rev (fold_left (s_step cap) ops []) with [] => None | e :: _ => Some (snd e) end.
Proof.
  intros V cap ops HC. destruct (run_crep cap ops HC) as (c&E&CR). exists c. split; auto. split; [apply CR|].
  eapply last_crep; eauto.
Qed.
Print Assumptions C31_refines_fifo.

(** It never holds more than its capacity, and never two entries for one key. *)
Theorem C31_bounded : forall (V : Type) cap (ops : list (kop V)), (0 < cap)%nat ->
  let l := fold_left (s_step cap) ops [] in (length l <= cap)%nat /\ NoDup (map fst l).
Proof.
  intros V cap ops HC l. destruct (run_crep cap ops HC) as (c&E&(R&ND&_)). split; [|exact ND].
  destruct R as (_&_&R&_). rewrite map_length in R. exact R.
Qed.
Print Assumptions C31_bounded.

(** Puts alone keep exactly the last [cap] entries. *)
Theorem C31_most_recent : forall (V : Type) cap (es : list (Z * V)), (0 < cap)%nat -> NoDup (map fst es) ->
  fold_left (s_step cap) (map (fun e => KPut (fst e) (snd e)) es) [] = skipn (length es - cap) es.
Proof.
  intros V cap es HC. induction es as [|[k v] es IH] using rev_ind; intros ND; auto.
  rewrite map_app, fold_left_app in *. cbn [map fst snd fold_left] in *.
  assert (ND1 : NoDup (map fst es) /\ ~ In k (map fst es)).
  { apply NoDup_remove in ND. rewrite app_nil_r in ND. auto. }
  rewrite IH by apply ND1. cbn [s_step]. unfold s_put.
  replace (lookup (skipn (length es - cap) es) k) with (@None V).
  2: { symmetry. apply lookup_none. intros X. apply (proj2 ND1). rewrite in_map_iff in *. destruct X as (e&E1&E2). exists e. split; auto.
       rewrite <- (firstn_skipn (length es - cap) es). apply in_or_app; auto. }
  rewrite skipn_length, app_length. cbn [length].
  destruct (Nat.ltb_spec (length es - (length es - cap)) cap).
  - replace (length es - cap)%nat with 0%nat by lia. replace (length es + 1 - cap)%nat with 0%nat by lia. auto.
  - replace (length es + 1 - cap)%nat with (S (length es - cap)) by lia. rewrite skipn_app.
    replace (S (length es - cap) - length es)%nat with 0%nat by lia. cbn [skipn]. f_equal.
    generalize (length es - cap)%nat. intros n. revert n. clear. induction es as [|e es IH]; intros [|n]; cbn [skipn tl]; auto.
Qed.
Print Assumptions C31_most_recent.

(** When keys were put in ascending order (log indexes), the truncations remove exactly the keys below, resp. at or above,
    the bound. *)
Theorem C31_truncate_exact : forall (V : Type) cap (l : list (Z * V)) k, StronglySorted Z.lt (map fst l) ->
  s_step cap l (KDelBefore k) = filter (fun e => k <=? fst e) l /\
  s_step cap l (KDelAfter k) = filter (fun e => fst e <? k) l.
Proof. intros V cap l k H. split; [apply drop_filter|apply drop_rev_filter]; auto. Qed.
Print Assumptions C31_truncate_exact.

(** Non-vacuity: capacity 3, wrap-around, truncation at both ends, refill. *)
Example C31_case :
  let ops := [KPut 1 10; KPut 2 20; KPut 3 30; KPut 4 40; KDelBefore 3; KPut 5 50; KDelAfter 5; KPut 5 51; KPut 6 60; KPut 6 61] in
  match fold_left kc_step ops (Some (kc_new 3)) with
  | Some c => (map (kc_get c) [1; 2; 3; 4; 5; 6], kc_last c)
  | None => ([], None)
  end = ([None; None; None; Some 40; Some 51; Some 61], Some 61).
Proof. vm_compute. reflexivity. Qed.
