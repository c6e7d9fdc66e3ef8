(** Lemmas about continuous queries. *)
From Verif Require Import Prelude StreamModel StreamSpec.

Lemma key_eqb_eq a b : key_eqb a b = true <-> a = b.
Proof.
  unfold key_eqb. destruct a as [a1 a2], b as [b1 b2]; cbn [fst snd]. rewrite andb_true_iff, !Z.eqb_eq.
  split; [intros [-> ->]; auto|intros E; injection E as -> ->; auto].
Qed.
Lemma key_eqb_refl a : key_eqb a a = true. Proof. apply key_eqb_eq; auto. Qed.
Lemma key_eqb_neq a b : key_eqb a b = false <-> a <> b.
Proof. rewrite <- key_eqb_eq. destruct (key_eqb a b); split; congruence. Qed.

(** the rows of a key in a list of groups *)
Definition rows_of (k : key) (gs : list grow) : list row :=
  flat_map (fun g => if key_eqb (fst g) k then snd g else []) gs.

Lemma rows_of_app k a b : rows_of k (a ++ b) = rows_of k a ++ rows_of k b.
Proof. apply flat_map_app. Qed.

Lemma rows_of_absent k gs : ~ In k (map fst gs) -> rows_of k gs = [].
Proof.
  induction gs as [|[k' rs] gs IH]; intros H; auto. cbn [rows_of flat_map fst]. cbn [map fst In] in H.
  destruct (key_eqb k' k) eqn:E; [apply key_eqb_eq in E; tauto|]. apply IH; tauto.
Qed.

Lemma rows_of_one k rs gs : NoDup (map fst gs) -> In (k, rs) gs -> rows_of k gs = rs.
Proof.
  induction gs as [|[k' rs'] gs IH]; intros ND H; [destruct H|].
  cbn [map fst] in ND. inversion ND; subst. cbn [rows_of flat_map fst snd]. destruct H as [E|H].
  - injection E as -> ->. rewrite key_eqb_refl. fold (rows_of k gs). rewrite rows_of_absent, app_nil_r; auto.
  - destruct (key_eqb k' k) eqn:E.
    + apply key_eqb_eq in E. subst. exfalso. apply H2. change k with (fst (k, rs)). apply in_map; auto.
    + apply IH; auto.
Qed.

Definition tidy (gs : list grow) : Prop := NoDup (map fst gs) /\ forall k rs, In (k, rs) gs -> rs <> [].

Lemma rows_of_in k gs : tidy gs -> rows_of k gs <> [] -> In (k, rows_of k gs) gs.
Proof.
  intros [ND NE] H. destruct (in_dec (fun a b : key => ltac:(decide equality; apply Z.eq_dec) : {a = b} + {a <> b}) k (map fst gs)) as [I|I].
  - apply in_map_iff in I as ((k', rs) & E & I). cbn [fst] in E. subst k'. rewrite (rows_of_one k rs); auto.
  - rewrite rows_of_absent in H; tauto.
Qed.

Lemma add_group_keys g gs x : In x (map fst (add_group g gs)) <-> x = fst g \/ In x (map fst gs).
Proof.
  induction gs as [|[k rs] gs IH]; cbn [add_group]; [cbn; intuition|].
  destruct (key_eqb k (fst g)) eqn:E.
  - apply key_eqb_eq in E. subst. cbn [map fst In]. intuition.
  - cbn [map fst In]. rewrite IH. intuition.
Qed.

Lemma add_group_rows g gs k : NoDup (map fst gs) ->
  rows_of k (add_group g gs) = rows_of k gs ++ (if key_eqb (fst g) k then snd g else []).
Proof.
  induction gs as [|[k' rs] gs IH]; intros ND; cbn [add_group].
  - cbn [rows_of flat_map]. apply app_nil_r.
  - cbn [map fst] in ND. inversion ND; subst. destruct (key_eqb k' (fst g)) eqn:E.
    + apply key_eqb_eq in E. subst. cbn [rows_of flat_map fst snd]. destruct (key_eqb (fst g) k) eqn:E2.
      * apply key_eqb_eq in E2. subst. fold (rows_of (fst g) gs). rewrite rows_of_absent by auto. rewrite !app_nil_r. auto.
      * rewrite app_nil_r. auto.
    + cbn [rows_of flat_map fst snd]. fold (rows_of k (add_group g gs)) (rows_of k gs). rewrite IH by auto. apply app_assoc.
Qed.

Lemma add_group_tidy g gs : tidy gs -> snd g <> [] -> tidy (add_group g gs).
Proof.
  intros [ND NE] G. split.
  - clear NE. induction gs as [|[k rs] gs IH]; cbn [add_group]; [cbn; constructor; [intros []|constructor]|].
    cbn [map fst] in ND. inversion ND; subst. destruct (key_eqb k (fst g)) eqn:E.
    + cbn [map fst]. constructor; auto.
    + cbn [map fst]. constructor; [|auto]. rewrite add_group_keys. apply key_eqb_neq in E. tauto.
  - clear ND. induction gs as [|[k rs] gs IH]; cbn [add_group]; intros k0 rs0 H.
    + destruct H as [E|[]]. destruct g as [gk gr]. injection E as <- <-. auto.
    + destruct (key_eqb k (fst g)) eqn:E.
      * destruct H as [Q|H]; [|apply (NE k0); right; auto]. injection Q as <- <-. intros Z. apply app_eq_nil in Z. tauto.
      * destruct H as [Q|H]; [apply (NE k0); left; auto|]. apply (IH (fun a b c => NE a b (or_intror c)) k0 rs0 H).
Qed.

Lemma merge_fold gs acc : tidy acc -> (forall g, In g gs -> snd g <> []) ->
  tidy (fold_left (fun acc g => add_group g acc) gs acc)
  /\ (forall k, rows_of k (fold_left (fun acc g => add_group g acc) gs acc) = rows_of k acc ++ rows_of k gs)
  /\ (forall k, In k (map fst (fold_left (fun acc g => add_group g acc) gs acc)) <-> In k (map fst acc) \/ In k (map fst gs)).
Proof.
  revert acc. induction gs as [|g gs IH]; intros acc T H; cbn [fold_left].
  - split; [auto|]. split; [intros; cbn; rewrite app_nil_r; auto|cbn; intuition].
  - destruct (IH (add_group g acc)) as (A & B & C).
    + apply add_group_tidy; auto. apply H; left; auto.
    + intros; apply H; right; auto.
    + split; [auto|]. split.
      * intros k. rewrite B, add_group_rows by apply T. rewrite <- app_assoc. auto.
      * intros k. rewrite C, add_group_keys. cbn [map In]. intuition.
Qed.

Lemma tidy_nil : tidy []. Proof. split; [constructor|intros ? ? []]. Qed.

Lemma merge_spec gs : (forall g, In g gs -> snd g <> []) ->
  tidy (merge_groups gs) /\ (forall k, rows_of k (merge_groups gs) = rows_of k gs)
  /\ (forall k, In k (map fst (merge_groups gs)) <-> In k (map fst gs)).
Proof.
  intros H. destruct (merge_fold gs [] tidy_nil H) as (A & B & C). split; [exact A|]. split; [exact B|].
  intros k. rewrite (C k). cbn; tauto.
Qed.

Lemma rows_of_single kf k rs : rows_of k (map (fun r => (kf r, [r])) rs) = members kf k rs.
Proof.
  induction rs as [|r rs IH]; auto. cbn [map rows_of flat_map fst snd members filter]. fold (rows_of k (map (fun r => (kf r, [r])) rs)).
  rewrite IH. destruct (key_eqb (kf r) k); auto.
Qed.

Lemma partial_spec kf bs : tidy (partial kf bs) /\ (forall k, rows_of k (partial kf bs) = members kf k (concat bs)).
Proof.
  destruct (merge_spec (map (fun r => (kf r, [r])) (concat bs))) as (A & B & _).
  - intros g H. apply in_map_iff in H as (r & <- & _). cbn. discriminate.
  - split; [auto|]. intros k. unfold partial. rewrite B. apply rows_of_single.
Qed.

Lemma members_app kf k a b : members kf k (a ++ b) = members kf k a ++ members kf k b.
Proof. apply filter_app. Qed.
Lemma members_perm kf k a b : Permutation a b -> Permutation (members kf k a) (members kf k b).
Proof.
  induction 1; cbn [members filter]; auto.
  - fold (members kf k l) (members kf k l'). destruct (key_eqb (kf x) k); auto.
  - destruct (key_eqb (kf x) k), (key_eqb (kf y) k); auto. apply perm_swap.
  - etransitivity; eauto.
Qed.
Lemma in_members kf k r t : In r (members kf k t) <-> In r t /\ kf r = k.
Proof. unfold members. rewrite filter_In, key_eqb_eq. tauto. Qed.

Lemma gs_rows kf k parts : rows_of k (concat (map (partial kf) parts)) = members kf k (concat (concat parts)).
Proof.
  induction parts as [|p parts IH]; auto. cbn [map concat]. rewrite rows_of_app, concat_app, members_app, IH.
  destruct (partial_spec kf p) as [_ B]. rewrite B. auto.
Qed.
Lemma gs_nonempty kf parts g : In g (concat (map (partial kf) parts)) -> snd g <> [].
Proof.
  intros H. apply in_concat in H as (l & H & I). apply in_map_iff in H as (bs & <- & _).
  destruct (partial_spec kf bs) as [[_ T] _]. destruct g as [k rs]. apply (T k rs I).
Qed.

Lemma exchange_rows q k gs : rows_of k (exchange q (q_hash q k) gs) = rows_of k gs.
Proof.
  unfold exchange. induction gs as [|[k' rs] gs IH]; auto. cbn [filter fst].
  destruct (Nat.eqb (q_hash q k') (q_hash q k)) eqn:E.
  - cbn [rows_of flat_map fst snd]. fold (rows_of k gs) (rows_of k (filter (fun g => Nat.eqb (q_hash q (fst g)) (q_hash q k)) gs)). rewrite IH. auto.
  - rewrite IH. cbn [rows_of flat_map fst snd]. destruct (key_eqb k' k) eqn:E2; auto.
    apply key_eqb_eq in E2. subst. rewrite Nat.eqb_refl in E. discriminate.
Qed.

Lemma rows_of_rev k gs : NoDup (map fst gs) -> rows_of k (rev gs) = rows_of k gs.
Proof.
  induction gs as [|[k' rs] gs IH]; intros ND; auto. cbn [map fst] in ND. inversion ND; subst.
  cbn [rev]. rewrite rows_of_app, IH by auto. cbn [rows_of flat_map fst snd]. fold (rows_of k gs).
  destruct (key_eqb k' k) eqn:E; [|rewrite !app_nil_r; auto]. apply key_eqb_eq in E. subst.
  rewrite (rows_of_absent k gs) by auto. rewrite app_nil_r. auto.
Qed.

Lemma expired_not_late q wm g : negb (expired q wm g) = not_late q wm g.
Proof.
  unfold expired, not_late. destruct (cols q) as [|c cs]; auto. generalize (c :: cs). clear. intros l.
  induction l as [|f l IH]; auto. cbn [forallb existsb]. rewrite negb_andb, IH. f_equal. lia.
Qed.

(** what a partition holds and passes on *)
Definition st_ok (q : query) (p : nat) (st : store) : Prop :=
  st_unc st = [] /\ tidy (st_comm st) /\ forall k rs, In (k, rs) (st_comm st) -> q_hash q k = p.

Lemma filter_filter_same {A} (f : A -> bool) l : filter f (filter f l) = filter f l.
Proof. induction l as [|x l IH]; auto. cbn. destruct (f x) eqn:E; auto. cbn. rewrite E, IH. auto. Qed.

Lemma tidy_filter f gs : tidy gs -> tidy (filter f gs).
Proof.
  intros [ND NE]. split.
  - clear NE. induction gs as [|g gs IH]; auto. cbn [map] in ND. inversion ND; subst. cbn [filter]. destruct (f g); auto.
    cbn [map]. constructor; auto. intros H. apply H1. apply in_map_iff in H as (x & <- & H). apply filter_In in H as [H _]. apply in_map; auto.
  - intros k rs H. apply filter_In in H as [H _]. apply (NE k); auto.
Qed.

Lemma run_part_spec q wm p st gs : st_ok q p st -> (forall g, In g gs -> snd g <> []) ->
  let r := run_part q wm p st gs in
  st_comm (fst r) = snd r /\ st_ok q p (fst r)
  /\ (forall k, q_hash q k = p ->
        let m := rows_of k (st_comm st) ++ rows_of k gs in
        (m <> [] -> not_late q wm (k, m) = true -> In (k, m) (snd r))
        /\ (forall rs, In (k, rs) (snd r) -> rs = m /\ not_late q wm (k, m) = true)).
Proof.
  intros (U & T & HH) NE. cbv zeta. unfold run_part, put, commit_store. cbn [fst snd st_unc st_comm]. rewrite U. cbn [app].
  rewrite (filter_ext (fun g => negb (expired q wm g)) (not_late q wm)) by (intros; apply expired_not_late).
  rewrite filter_filter_same. split; [auto|].
  assert (NE2 : forall g, In g (rev (st_comm st) ++ exchange q p gs) -> snd g <> []).
  { intros g H. apply in_app_iff in H as [H|H].
    - apply in_rev in H. destruct g as [k rs]. apply (proj2 T k rs H).
    - apply filter_In in H as [H _]. auto. }
  destruct (merge_spec _ NE2) as (MT & MR & MK). unfold restored.
  split.
  - unfold st_ok. cbn [st_unc st_comm]. split; [auto|]. split; [apply tidy_filter; auto|].
    intros k rs H. apply filter_In in H as [H _]. assert (I : In k (map fst (merge_groups (rev (st_comm st) ++ exchange q p gs)))).
    { change k with (fst (k, rs)). apply in_map; auto. }
    apply MK in I. rewrite map_app, in_app_iff in I. destruct I as [I|I]; apply in_map_iff in I as ((k', rs') & E & I); cbn [fst] in E; subst k'.
    + apply in_rev in I. apply (HH k rs' I).
    + apply filter_In in I as [_ I]. cbn [fst] in I. apply Nat.eqb_eq in I. auto.
  - intros k Hk. cbv zeta.
    assert (R : rows_of k (merge_groups (rev (st_comm st) ++ exchange q p gs)) = rows_of k (st_comm st) ++ rows_of k gs).
    { rewrite MR, rows_of_app, rows_of_rev by apply T. f_equal. rewrite <- Hk. apply exchange_rows. }
    split.
    + intros M L. apply filter_In. split; auto. rewrite <- R. apply rows_of_in; auto. rewrite R. auto.
    + intros rs H. apply filter_In in H as [H L]. assert (rs = rows_of k (st_comm st) ++ rows_of k gs).
      { rewrite <- R. symmetry. apply rows_of_one; auto. apply MT. }
      subst rs. auto.
Qed.

(** *** all partitions *)
Definition dummy : store := ST [] [].
Definition held (q : query) (k : key) (s : sq) : list row := rows_of k (st_comm (nth (q_hash q k) (s_stores s) dummy)).

Definition stores_ok (q : query) (ss : list store) : Prop :=
  length ss = q_parts q /\ forall p, (p < q_parts q)%nat -> st_ok q p (nth p ss dummy).

Lemma nth_numbered {B} (f : nat * store -> B) ss p d : (p < length ss)%nat ->
  nth p (map f (numbered ss)) d = f (p, nth p ss dummy).
Proof.
  intros H. unfold numbered. rewrite (nth_indep _ d (f (0%nat, dummy))).
  - rewrite map_nth. f_equal. rewrite combine_nth by apply seq_length. rewrite seq_nth by auto. auto.
  - rewrite map_length, combine_length, seq_length. lia.
Qed.
Lemma length_numbered ss : length (numbered ss) = length ss.
Proof. unfold numbered. rewrite combine_length, seq_length. lia. Qed.

Lemma in_nth_concat {A} (x : A) (ls : list (list A)) : In x (concat ls) <-> exists p, (p < length ls)%nat /\ In x (nth p ls []).
Proof.
  rewrite in_concat. split.
  - intros (l & H & I). apply In_nth with (d := []) in H as (p & L & E). exists p. subst. auto.
  - intros (p & L & I). exists (nth p ls []). split; auto. apply nth_In; auto.
Qed.

(** the effect of the aggregation of one run on a key *)
Lemma agg_key q wm gs ss : sane_query q -> stores_ok q ss -> (forall g, In g gs -> snd g <> []) ->
  let rs := map (fun e => run_part q wm (fst e) (snd e) gs) (numbered ss) in
  stores_ok q (map fst rs)
  /\ forall k, let m := rows_of k (st_comm (nth (q_hash q k) ss dummy)) ++ rows_of k gs in
       let out := concat (map snd rs) in
       (forall x, In (k, x) out -> x = m /\ m <> [] /\ not_late q wm (k, m) = true)
       /\ ((m <> [] /\ not_late q wm (k, m) = true /\ In (k, m) out /\ rows_of k (st_comm (nth (q_hash q k) (map fst rs) dummy)) = m)
           \/ ((m = [] \/ not_late q wm (k, m) = false) /\ (forall x, ~ In (k, x) out) /\ rows_of k (st_comm (nth (q_hash q k) (map fst rs) dummy)) = [])).
Proof.
  intros (QP & QH) (SL & SO) NE. cbv zeta.
  set (rs := map (fun e => run_part q wm (fst e) (snd e) gs) (numbered ss)).
  assert (LR : length rs = q_parts q) by (unfold rs; rewrite map_length, length_numbered; auto).
  assert (NR : forall p, (p < q_parts q)%nat -> nth p rs (dummy, []) = run_part q wm p (nth p ss dummy) gs).
  { intros p Hp. unfold rs. rewrite nth_numbered by (rewrite SL; auto). auto. }
  assert (NF : forall p, (p < q_parts q)%nat -> nth p (map fst rs) dummy = fst (run_part q wm p (nth p ss dummy) gs)).
  { intros p Hp. change dummy with (fst (dummy, @nil grow)) at 1. rewrite map_nth. rewrite NR; auto. }
  assert (NS : forall p, (p < q_parts q)%nat -> nth p (map snd rs) [] = snd (run_part q wm p (nth p ss dummy) gs)).
  { intros p Hp. change (@nil grow) with (snd (dummy, @nil grow)) at 1. rewrite map_nth. rewrite NR; auto. }
  split.
  - split; [rewrite map_length; auto|]. intros p Hp. rewrite NF by auto.
    destruct (run_part_spec q wm p (nth p ss dummy) gs (SO p Hp) NE) as (_ & A & _). auto.
  - intros k. pose proof (QH k) as Hp. set (p := q_hash q k) in *.
    destruct (run_part_spec q wm p (nth p ss dummy) gs (SO p Hp) NE) as (CE & OK & KS).
    destruct (KS k eq_refl) as (K1 & K2). cbv zeta in K1, K2. fold p.
    set (m := rows_of k (st_comm (nth p ss dummy)) ++ rows_of k gs) in *.
    assert (IO : forall x, In (k, x) (concat (map snd rs)) <-> In (k, x) (snd (run_part q wm p (nth p ss dummy) gs))).
    { intros x. rewrite in_nth_concat, map_length, LR. split.
      - intros (p' & L & I). rewrite NS in I by auto.
        destruct (run_part_spec q wm p' (nth p' ss dummy) gs (SO p' L) NE) as (CE' & OK' & _).
        rewrite <- CE' in I. destruct OK' as (_ & _ & HH). pose proof (HH k x I) as E. fold p in E. subst p'. rewrite CE' in I. auto.
      - intros I. exists p. split; auto. rewrite NS; auto. }
    assert (MN : forall x, In (k, x) (snd (run_part q wm p (nth p ss dummy) gs)) -> x <> []).
    { intros x I. rewrite <- CE in I. destruct OK as (_ & T & _). apply (proj2 T k x I). }
    split.
    + intros x I. apply IO in I. destruct (K2 x I) as [-> L]. split; [auto|]. split; [apply (MN _ I)|auto].
    + rewrite NF by auto.
      assert (D : m = [] \/ m <> []) by (destruct m; [left|right]; congruence).
      destruct D as [Z|Z].
      * right. split; [auto|]. split.
        -- intros x I. apply IO in I. pose proof (MN x I). destruct (K2 x I). congruence.
        -- apply rows_of_absent. intros I. apply in_map_iff in I as ((k', x) & E & I). cbn [fst] in E. subst k'. rewrite CE in I.
           pose proof (MN x I). destruct (K2 x I). congruence.
      * destruct (not_late q wm (k, m)) eqn:L.
        -- left. split; [auto|]. split; [auto|]. pose proof (K1 Z eq_refl) as I. split; [apply IO; auto|].
           rewrite <- CE in I. apply rows_of_one; auto. apply OK.
        -- right. split; [auto|]. split.
           ++ intros x I. apply IO in I. destruct (K2 x I). congruence.
           ++ apply rows_of_absent. intros I. apply in_map_iff in I as ((k', x) & E & I). cbn [fst] in E. subst k'. rewrite CE in I.
              destruct (K2 x I). congruence.
Qed.

(** *** the latest result *)
Definition last_of (k : key) (gs : list grow) (a : option (list row)) : option (list row) :=
  fold_left (fun a g => if key_eqb (fst g) k then Some (snd g) else a) gs a.

Lemma latest_app k E o : latest k (E ++ [o]) = last_of k (o_groups o) (latest k E).
Proof. unfold latest, last_of. rewrite map_app, concat_app. cbn [map concat]. rewrite app_nil_r. apply fold_left_app. Qed.

Lemma last_of_none k gs a : (forall x, ~ In (k, x) gs) -> last_of k gs a = a.
Proof.
  unfold last_of. revert a. induction gs as [|[k' rs] gs IH]; intros a H; auto. cbn [fold_left fst snd].
  destruct (key_eqb k' k) eqn:E.
  - apply key_eqb_eq in E. subst. destruct (H rs). left; auto.
  - apply IH. intros x I. apply (H x). right; auto.
Qed.

Lemma last_of_some k gs a m : (forall x, In (k, x) gs -> x = m) -> In (k, m) gs -> last_of k gs a = Some m.
Proof.
  unfold last_of. revert a. induction gs as [|[k' rs] gs IH]; intros a H I; [destruct I|]. cbn [fold_left fst snd].
  destruct (key_eqb k' k) eqn:E.
  - apply key_eqb_eq in E. subst. assert (rs = m) by (apply H; left; auto). subst.
    destruct (in_dec (fun a b : grow => ltac:(repeat decide equality) : {a = b} + {a <> b}) (k, m) gs) as [J|J].
    + apply IH; auto. intros x X. apply H. right; auto.
    + fold (last_of k gs (Some m)). apply last_of_none. intros x X. assert (x = m) by (apply H; right; auto). subst. auto.
  - apply key_eqb_neq in E. destruct I as [Q|I]; [congruence|]. apply IH; auto. intros x X. apply H. right; auto.
Qed.

Lemma last_of_any k gs a m : (forall x, In (k, x) gs -> x = m) -> last_of k gs a = Some m \/ last_of k gs a = a.
Proof.
  intros H. destruct (in_dec (fun a b : grow => ltac:(repeat decide equality) : {a = b} + {a <> b}) (k, m) gs) as [J|J].
  - left. apply last_of_some; auto.
  - right. apply last_of_none. intros x X. assert (x = m) by (apply H; auto). subst. auto.
Qed.

Lemma chosen_in {A} bs (l : list A) x : In x (chosen bs l) -> In x l.
Proof.
  revert l. induction bs as [|b bs IH]; intros [|y l] H; cbn in H; try tauto.
  destruct b; [destruct H as [->|H]|]; [left; auto|right; auto|right; auto].
Qed.

(** *** the watermark *)
Lemma batch_max_spec b v : batch_max b = Some v -> (exists r, In r b /\ r_time r = v) /\ forall r, In r b -> r_time r <= v.
Proof.
  destruct b as [|r b]; [discriminate|]. cbn [batch_max]. intros E. injection E as <-.
  assert (G : forall l m, let v := fold_left (fun m x => Z.max m (r_time x)) l m in
                (v = m \/ exists r, In r l /\ r_time r = v) /\ m <= v /\ forall r, In r l -> r_time r <= v).
  { induction l as [|x l IH]; intros m; cbn [fold_left].
    - split; [auto|]. split; [lia|intros ? []].
    - destruct (IH (Z.max m (r_time x))) as (A & B & C). cbv zeta in *. split; [|split].
      + destruct A as [A|(r0 & I & A)].
        * rewrite A. destruct (Z.max_spec m (r_time x)) as [[_ Q]|[_ Q]]; rewrite Q; [right; exists x; split; [left|]; auto|left; auto].
        * right. exists r0. split; [right|]; auto.
      + lia.
      + intros r0 [->|I]; [lia|auto]. }
  destruct (G b (r_time r)) as (A & B & C). cbv zeta in *. split.
  - destruct A as [A|(x & I & A)]; [exists r; split; [left; auto|rewrite A; auto]|exists x; split; [right|]; auto].
  - intros x [->|I]; auto.
Qed.

Definition flat_max (bs : list (list row)) (w : Z) : Z := fold_left (fun w b => match batch_max b with Some v => v | None => w end) bs w.

Lemma part_max_flat bs w : match part_max bs with Some v => v | None => w end = flat_max bs w.
Proof.
  unfold part_max, flat_max.
  assert (G : forall bs m w, match fold_left (fun m b => match batch_max b with Some v => Some v | None => m end) bs m with Some v => v | None => w end
              = fold_left (fun w b => match batch_max b with Some v => v | None => w end) bs (match m with Some v => v | None => w end)).
  { clear. induction bs as [|b bs IH]; intros m w; cbn [fold_left]; auto. rewrite IH. destruct (batch_max b); auto. }
  apply G.
Qed.

Lemma watermark_flat wm parts : watermark_after wm parts = flat_max (concat parts) wm.
Proof.
  unfold watermark_after. revert wm. induction parts as [|p parts IH]; intros wm; auto. cbn [fold_left concat].
  rewrite IH, part_max_flat. unfold flat_max. rewrite fold_left_app. auto.
Qed.

Lemma flat_max_cases bs w : (concat bs = [] /\ flat_max bs w = w) \/ (exists r, In r (concat bs) /\ r_time r = flat_max bs w).
Proof.
  unfold flat_max. revert w. induction bs as [|b bs IH]; intros w; cbn [fold_left concat]; [left; auto|].
  destruct (batch_max b) as [v|] eqn:E.
  - destruct (IH v) as [[Z Q]|(r & I & Q)].
    + right. apply batch_max_spec in E as [(r & I & <-) _]. exists r. split; [apply in_app_iff; auto|auto].
    + right. exists r. split; [apply in_app_iff; auto|auto].
  - destruct b as [|]; [|discriminate]. cbn [app]. apply IH.
Qed.

Lemma flat_max_latest bs w before b after r : bs = before ++ b :: after -> concat after = [] -> In r b ->
  (forall x, In x (concat bs) -> r_time x <= r_time r) -> flat_max bs w = r_time r.
Proof.
  intros -> Z I H. unfold flat_max. rewrite fold_left_app. cbn [fold_left].
  destruct (batch_max b) as [v|] eqn:E; [|destruct b; [destruct I|discriminate]].
  assert (G : forall l w, concat l = [] -> fold_left (fun w b => match batch_max b with Some v => v | None => w end) l w = w).
  { clear. induction l as [|x l IH]; intros w Z; auto. cbn [concat] in Z. apply app_eq_nil in Z as [-> Z]. cbn [fold_left batch_max]. auto. }
  rewrite G by auto. apply batch_max_spec in E as [(y & J & <-) B]. pose proof (B r I). pose proof (H y).
  assert (r_time y <= r_time r); [|lia]. apply H. rewrite concat_app. apply in_app_iff. right. cbn [concat]. apply in_app_iff. auto.
Qed.

Lemma filter_all {A} (f : A -> bool) l : (forall x, In x l -> f x = true) -> filter f l = l.
Proof. induction l as [|x l IH]; intros H; auto. cbn. rewrite (H x) by (left; auto). f_equal. apply IH. intros; apply H; right; auto. Qed.
Lemma filter_none {A} (f : A -> bool) l : (forall x, In x l -> f x = false) -> filter f l = [].
Proof. induction l as [|x l IH]; intros H; auto. cbn. rewrite (H x) by (left; auto). apply IH. intros; apply H; right; auto. Qed.
Lemma filter_perm {A} (f : A -> bool) a b : Permutation a b -> Permutation (filter f a) (filter f b).
Proof.
  induction 1; cbn [filter]; auto.
  - destruct (f x); auto.
  - destruct (f x), (f y); auto. apply perm_swap.
  - etransitivity; eauto.
Qed.


(** *** one run *)
Section Runs.
Variables (q : query) (kf : row -> key).
Hypothesis (SQQ : sane_query q) (QK : q_key q = Some kf).

(** the shape of a run while offsets are below i64::MAX *)
Definition below (s : sq) : Prop := match s_processed s with Some p => p < I64_MAX | None => True end.

Lemma avail s : below s -> update_available s = SQ (s_wm s) (s_saved s) (s_processed s) (Some I64_MAX) (s_stores s).
Proof.
  unfold below, update_available. intros H. destruct (s_processed s) as [p|].
  - destruct (p <? I64_MAX) eqn:E; auto. lia.
  - change (I64_MIN <? I64_MAX) with true. auto.
Qed.

Definition wm' (s : sq) (parts : list (list (list row))) : Z := flat_max (concat parts) (s_wm s).

Lemma run_shape s parts : below s ->
  let rs := map (fun e => run_part q (s_wm s) (fst e) (snd e) (concat (map (partial kf) parts))) (numbered (s_stores s)) in
  snd (run q parts s) = OUT (concat (map snd rs)) []
  /\ s_stores (fst (run q parts s)) = map fst rs
  /\ ((s_wm s < wm' s parts /\ s_wm (fst (run q parts s)) = wm' s parts /\ s_saved (fst (run q parts s)) = Some (wm' s parts)
       /\ s_processed (fst (run q parts s)) = Some (Z.min (wm' s parts) I64_MAX))
      \/ (wm' s parts <= s_wm s /\ s_wm (fst (run q parts s)) = s_wm s /\ s_saved (fst (run q parts s)) = s_saved s
       /\ s_processed (fst (run q parts s)) = s_processed s)).
Proof.
  intros B. cbv zeta. unfold run. rewrite (avail s B). cbn [s_available s_wm s_stores]. rewrite QK, watermark_flat. fold (wm' s parts).
  cbn [fst snd]. split; [auto|]. unfold finish, set_wm. cbn [s_wm s_available s_saved s_processed s_stores].
  destruct (s_wm s <? wm' s parts) eqn:E; cbn [s_wm s_available s_saved s_processed s_stores]; (split; [auto|]).
  - left. split; [lia|auto].
  - right. split; [lia|auto].
Qed.

(** the effect of a run on a key *)
Lemma run_key s parts : below s -> stores_ok q (s_stores s) ->
  stores_ok q (s_stores (fst (run q parts s))) /\
  forall k, let m := held q k s ++ members kf k (concat (concat parts)) in
    (forall x, In (k, x) (o_groups (snd (run q parts s))) -> x = m /\ m <> [] /\ not_late q (s_wm s) (k, m) = true)
    /\ ((m <> [] /\ held q k (fst (run q parts s)) = m /\ (forall a, last_of k (o_groups (snd (run q parts s))) a = Some m))
        \/ ((m = [] \/ not_late q (s_wm s) (k, m) = false) /\ held q k (fst (run q parts s)) = []
            /\ forall a, last_of k (o_groups (snd (run q parts s))) a = a)).
Proof.
  intros B SO. destruct (run_shape s parts B) as (RO & RS & _). cbv zeta in RO, RS.
  destruct (agg_key q (s_wm s) (concat (map (partial kf) parts)) (s_stores s) SQQ SO (gs_nonempty kf parts)) as (A1 & A2).
  cbv zeta in A1, A2. split; [rewrite RS; auto|]. intros k. cbv zeta. unfold held. rewrite RS, RO. cbn [o_groups].
  destruct (A2 k) as (I1 & I2). rewrite gs_rows in I1, I2. split; [exact I1|].
  destruct I2 as [(M & L & I & H)|(M & I & H)].
  - left. split; [auto|]. split; [auto|]. intros a. apply last_of_some; auto. intros x X. apply I1; auto.
  - right. split; [auto|]. split; [auto|]. intros a. apply last_of_none; auto.
Qed.

Lemma start_held saved k : held q k (start q saved) = [].
Proof.
  unfold held, start. cbn [s_stores]. assert (st_comm (nth (q_hash q k) (repeat (ST [] []) (q_parts q)) dummy) = []) as ->; auto.
  change dummy with (ST [] []). clear. generalize (q_hash q k). induction (q_parts q) as [|n IH]; intros [|i]; cbn; auto.
Qed.
Lemma start_ok saved : stores_ok q (s_stores (start q saved)).
Proof.
  unfold start. cbn [s_stores]. split; [apply repeat_length|]. intros p H. 
  replace (nth p (repeat (ST [] []) (q_parts q)) dummy) with (ST [] []).
  - split; [auto|]. split; [apply tidy_nil|intros ? ? []].
  - change dummy with (ST [] []). clear. revert p. induction (q_parts q) as [|n IH]; intros [|i]; cbn; auto.
Qed.

End Runs.
