(** Refinement of the ring cache to a bounded FIFO list. *)
From Verif Require Import Prelude RingModel RingSpec.

Lemma upd_length n v l : length (upd n v l) = length l.
Proof. revert n. induction l; intros [|n]; cbn; auto. Qed.
Lemma nth_upd n v l m d : (n < length l)%nat -> nth m (upd n v l) d = if Nat.eqb m n then v else nth m l d.
Proof.
  revert n m. induction l as [|h t IH]; intros n m H; cbn [length] in H; [lia|].
  destruct n as [|n], m as [|m]; cbn [upd nth Nat.eqb]; auto. apply IH. lia.
Qed.

(** Circular index without [mod]. *)
Definition idx (len h i : nat) : nat := if (h + i <? len)%nat then (h + i)%nat else (h + i - len)%nat.
Lemma succ_mod len h : (h < len)%nat -> ((h + 1) mod len = idx len h 1)%nat.
Proof.
  intros H. unfold idx. destruct (h + 1 <? len)%nat eqn:E.
  - apply Nat.ltb_lt in E. apply Nat.mod_small; auto.
  - apply Nat.ltb_ge in E. replace (h + 1)%nat with len by lia. rewrite Nat.mod_same by lia. lia.
Qed.
Ltac idxs := unfold idx in *; repeat match goal with |- context [(?a <? ?b)%nat] => destruct (Nat.ltb_spec a b) end;
  repeat match goal with H : context [(?a <? ?b)%nat] |- _ => destruct (Nat.ltb_spec a b) end.

Definition rep (len : nat) (b : ring) (l : list Z) : Prop :=
  length (rbuf b) = len /\ (rhead b < len)%nat /\ (length l <= len)%nat /\
  rempty b = (match l with [] => true | _ => false end) /\
  rtail b = (match l with [] => rhead b | _ => idx len (rhead b) (length l - 1) end) /\
  forall i, (i < length l)%nat -> nth (idx len (rhead b) i) (rbuf b) 0 = nth i l 0.

Lemma rep_new size : (0 < size)%nat -> rep size (ring_new size) [].
Proof. intros. unfold rep, ring_new. cbn. rewrite repeat_length. repeat split; auto; lia. Qed.

Lemma rep_full len b l : rep len b l -> is_full b = match l with [] => Nat.eqb len 1 | _ => Nat.eqb (length l) len end.
Proof.
  intros (A&B&C&D&E&F). unfold is_full. rewrite A, E.
  destruct l as [|x l].
  - rewrite succ_mod by auto. destruct (Nat.eqb len 1) eqn:Q; [apply Nat.eqb_eq in Q; apply Nat.eqb_eq|apply Nat.eqb_neq in Q; apply Nat.eqb_neq]; idxs; lia.
  - remember (length (x :: l)) as n. assert (0 < n)%nat by (subst; cbn; lia). rewrite succ_mod by (idxs; lia).
    destruct (Nat.eqb n len) eqn:Q; [apply Nat.eqb_eq in Q; apply Nat.eqb_eq|apply Nat.eqb_neq in Q; apply Nat.eqb_neq]; idxs; lia.
Qed.

Lemma rep_push len b l x : rep len b l -> (length l < len)%nat -> rep len (push b x) (l ++ [x]).
Proof.
  intros (A&B&C&D&E&F) H. unfold push. rewrite D. destruct l as [|y l].
  - unfold rep. cbn [rbuf rhead rtail rempty app length]. rewrite upd_length, E. repeat split; auto; [idxs; lia|].
    intros i Hi. assert (i = 0)%nat by lia. subst. cbn [nth]. rewrite nth_upd by lia. replace (Nat.eqb _ _) with true; auto. symmetry. apply Nat.eqb_eq. idxs; lia.
  - remember (y :: l) as ll eqn:EL. cbv zeta. rewrite A.
    assert (Hn : (0 < length ll)%nat) by (subst; cbn; lia).
    assert (ET : rtail b = idx len (rhead b) (length ll - 1)) by (rewrite E; subst; auto). rewrite ET.
    assert (EN : ((idx len (rhead b) (length ll - 1) + 1) mod len = idx len (rhead b) (length ll))%nat).
    { rewrite succ_mod by (idxs; lia). idxs; lia. }
    rewrite EN. replace (Nat.eqb (idx len (rhead b) (length ll)) (rhead b)) with false by (symmetry; apply Nat.eqb_neq; idxs; lia).
    unfold rep. cbn [rbuf rhead rtail rempty]. rewrite upd_length, app_length. cbn [length].
    repeat split; auto; try lia.
    + destruct ll; auto.
    + destruct ll; [cbn in Hn; lia|]. cbn [app]. f_equal. lia.
    + intros i Hi. rewrite nth_upd by (rewrite A; idxs; lia).
      destruct (Nat.eq_dec i (length ll)) as [->|N].
      * rewrite Nat.eqb_refl. rewrite app_nth2, Nat.sub_diag by lia. auto.
      * replace (Nat.eqb _ _) with false by (symmetry; apply Nat.eqb_neq; idxs; lia).
        rewrite app_nth1 by lia. apply F. lia.
Qed.

(** Removing the head. *)
Lemma rep_pop len b x l : rep len b (x :: l) ->
  nth (rhead b) (rbuf b) 0 = x /\
  rep len (if Nat.eqb (rhead b) (rtail b) then {| rbuf := upd (rhead b) 0 (rbuf b); rhead := rhead b; rtail := rtail b; rempty := true |}
           else {| rbuf := upd (rhead b) 0 (rbuf b); rhead := (rhead b + 1) mod length (rbuf b); rtail := rtail b; rempty := false |}) l /\
  (Nat.eqb (rhead b) (rtail b) = true <-> l = []).
Proof.
  intros (A&B&C&D&E&F). cbn [length] in *.
  assert (H0 : nth (rhead b) (rbuf b) 0 = x).
  { specialize (F 0%nat ltac:(lia)). cbn [nth] in F. rewrite <- F. f_equal. idxs; lia. }
  assert (HE : Nat.eqb (rhead b) (rtail b) = true <-> l = []).
  { rewrite Nat.eqb_eq, E. destruct l as [|y l]; cbn [length] in *; split; intros H; auto; try discriminate; idxs; try lia. }
  split; [auto|]. split; [|auto].
  destruct (Nat.eqb (rhead b) (rtail b)) eqn:EQ.
  - assert (l = []) by (apply HE; auto). subst l. unfold rep. cbn [rbuf rhead rtail rempty length]. rewrite upd_length.
    apply Nat.eqb_eq in EQ. repeat split; auto; try lia; try (intros; lia).
  - assert (HL : l <> []) by (intros X; apply HE in X; congruence).
    unfold rep. cbn [rbuf rhead rtail rempty]. rewrite upd_length, A, succ_mod by auto.
    destruct l as [|y l]; [congruence|]. cbn [length] in *. repeat split; auto; try lia; try (idxs; lia).
    + intros i Hi. rewrite nth_upd by lia. replace (Nat.eqb _ _) with false by (symmetry; apply Nat.eqb_neq; idxs; lia).
      replace (idx len (idx len (rhead b) 1) i) with (idx len (rhead b) (S i)) by (idxs; lia).
      rewrite F by lia. reflexivity.
Qed.

(** Removing the tail. *)
Lemma rep_unpush len b x l : rep len b (l ++ [x]) ->
  nth (rtail b) (rbuf b) 0 = x /\ rempty b = false /\
  rep len (if Nat.eqb (rhead b) (rtail b) then {| rbuf := upd (rtail b) 0 (rbuf b); rhead := rhead b; rtail := rtail b; rempty := true |}
           else {| rbuf := upd (rtail b) 0 (rbuf b); rhead := rhead b;
                   rtail := if Nat.eqb (rtail b) 0 then (length (rbuf b) - 1)%nat else ((rtail b - 1) mod length (rbuf b))%nat; rempty := false |}) l /\
  (Nat.eqb (rhead b) (rtail b) = true <-> l = []).
Proof.
  intros (A&B&C&D&E&F). rewrite app_length in *. cbn [length] in *.
  assert (ET : rtail b = idx len (rhead b) (length l)). { rewrite E. destruct l; cbn [app length] in *; f_equal; lia. }
  clear E. assert (D' : rempty b = false) by (rewrite D; destruct l; auto). clear D.
  assert (H0 : nth (rtail b) (rbuf b) 0 = x).
  { specialize (F (length l) ltac:(lia)). rewrite app_nth2, Nat.sub_diag in F by lia. cbn [nth] in F. rewrite <- F, ET. auto. }
  assert (HE : Nat.eqb (rhead b) (rtail b) = true <-> l = []).
  { rewrite Nat.eqb_eq, ET. destruct l as [|y l]; cbn [length] in *; split; intros H; auto; try discriminate; idxs; try lia. }
  split; [auto|]. split; [auto|]. split; [|auto].
  destruct (Nat.eqb (rhead b) (rtail b)) eqn:EQ.
  - assert (l = []) by (apply HE; auto). subst l. unfold rep. cbn [rbuf rhead rtail rempty length]. rewrite upd_length.
    apply Nat.eqb_eq in EQ. repeat split; auto; try lia; try (intros; lia).
  - assert (HL : l <> []) by (intros X; apply HE in X; congruence).
    assert (HT : (if Nat.eqb (rtail b) 0 then length (rbuf b) - 1 else (rtail b - 1) mod length (rbuf b))%nat = idx len (rhead b) (length l - 1)).
    { rewrite A, ET. assert (0 < length l)%nat by (destruct l; [congruence|cbn; lia]).
      destruct (Nat.eqb _ 0) eqn:E0; [apply Nat.eqb_eq in E0|apply Nat.eqb_neq in E0; rewrite Nat.mod_small by (idxs; lia)]; idxs; lia. }
    rewrite HT. unfold rep. cbn [rbuf rhead rtail rempty]. rewrite upd_length. repeat split; auto; try lia.
    + destruct l; [congruence|auto].
    + destruct l; [congruence|auto].
    + intros i Hi. rewrite nth_upd by (rewrite A, ET; idxs; lia).
      replace (Nat.eqb _ _) with false by (symmetry; apply Nat.eqb_neq; rewrite ET; idxs; lia).
      rewrite F by lia. apply app_nth1. lia.
Qed.

Fixpoint take_while (f : Z -> bool) (l : list Z) : list Z := match l with [] => [] | x :: l' => if f x then x :: take_while f l' else [] end.
Fixpoint skip_while (f : Z -> bool) (l : list Z) : list Z := match l with [] => [] | x :: l' => if f x then skip_while f l' else l end.

Lemma del_before_loop_spec len key l : forall fuel b, rep len b l -> (length l < fuel)%nat ->
  exists b', del_before_loop fuel b key = Some (take_while (fun x => x <? key) l, b') /\ rep len b' (skip_while (fun x => x <? key) l).
Proof.
  induction l as [|x l IH]; intros fuel b R HF; destruct fuel as [|fuel]; try (cbn in HF; lia); cbn [del_before_loop take_while skip_while].
  - assert (rempty b = true) by apply R. rewrite H. eauto.
  - destruct (rep_pop len b x l R) as (H0&H1&H2). assert (HE : rempty b = false) by apply R. rewrite HE, H0.
    destruct (x <? key); [|eauto]. cbv zeta. destruct (Nat.eqb (rhead b) (rtail b)).
    + assert (l = []) by (apply H2; auto). subst. eauto.
    + destruct (IH fuel _ H1 ltac:(cbn in HF; lia)) as (b'&E1&E2). rewrite E1. eauto.
Qed.
Lemma del_after_loop_spec len key l : forall fuel b, rep len b l -> (length l < fuel)%nat ->
  exists b', del_after_loop fuel b key = Some (take_while (fun x => key <=? x) (rev l), b') /\ rep len b' (rev (skip_while (fun x => key <=? x) (rev l))).
Proof.
  induction l as [|x l IH] using rev_ind; intros fuel b R HF; destruct fuel as [|fuel]; try (rewrite ?app_length in HF; cbn in HF; lia).
  - cbn. assert (rempty b = true) by apply R. rewrite H. eauto.
  - rewrite rev_app_distr. cbn [rev app take_while skip_while del_after_loop].
    destruct (rep_unpush len b x l R) as (H0&HE&H1&H2). rewrite HE, H0.
    destruct (key <=? x).
    + cbv zeta. destruct (Nat.eqb (rhead b) (rtail b)).
      * assert (l = []) by (apply H2; auto). subst. cbn. eauto.
      * destruct (IH fuel _ H1) as (b'&E1&E2); [rewrite app_length in HF; cbn in HF; lia|]. rewrite E1. eauto.
    + cbn [rev]. rewrite rev_involutive. eauto.
Qed.

Section C.
Context {V : Type}.
Notation entries := (@entries V).
(** Relation between the cache and the specification state. *)
Definition crep (cap : nat) (c : kvcache V) (l : entries) : Prop :=
  rep cap (kc_buf c) (map fst l) /\ NoDup (map fst l) /\ forall k, kc_map c k = lookup l k.

Lemma lookup_none (l : entries) k : lookup l k = None <-> ~ In k (map fst l).
Proof.
  unfold lookup. induction l as [|[k' v'] l IH]; cbn; [tauto|]. destruct (k' =? k) eqn:E.
  - split; [discriminate|]. intros H; exfalso; apply H; left; lia.
  - rewrite IH. split; [intros H [X|X]; [lia|tauto]|tauto].
Qed.
Lemma lookup_app (l1 l2 : entries) k : lookup (l1 ++ l2) k = match lookup l1 k with Some v => Some v | None => lookup l2 k end.
Proof. unfold lookup. induction l1 as [|[k' v'] l IH]; cbn; auto. destruct (k' =? k); auto. Qed.
Lemma map_put_keys (l : entries) k v : map fst (map (fun e => if fst e =? k then (k, v) else e) l) = map fst l.
Proof. induction l as [|[k' v'] l IH]; cbn; auto. rewrite IH. destruct (k' =? k) eqn:E; cbn; auto. f_equal; lia. Qed.
Lemma lookup_put (l : entries) k v k' : lookup (map (fun e => if fst e =? k then (k, v) else e) l) k' =
  if k' =? k then match lookup l k with Some _ => Some v | None => None end else lookup l k'.
Proof.
  unfold lookup. induction l as [|[a w] l IH]; cbn; [destruct (k' =? k); auto|].
  destruct (a =? k) eqn:E1; cbn.
  - destruct (k =? k') eqn:E2; [replace (k' =? k) with true by lia; auto|]. replace (k' =? k) with false in * by lia.
    replace (a =? k') with false by lia. auto.
  - destruct (a =? k') eqn:E2; [replace (k' =? k) with false by lia; auto|]. auto.
Qed.

Lemma mremove_spec ks : forall (m : Z -> option V) k, mremove m ks k = if existsb (fun x => x =? k) ks then None else m k.
Proof.
  induction ks as [|a ks IH]; intros m k; cbn [mremove fold_left existsb]; auto. unfold mremove in IH. rewrite IH. unfold mset.
  rewrite (Z.eqb_sym k a). destruct (a =? k), (existsb _ ks); auto.
Qed.

Lemma tw_keys f (l : entries) : skip_while f (map fst l) = map fst (drop_while f l).
Proof. induction l as [|[k v] l IH]; cbn; auto. destruct (f k); auto. Qed.
Lemma drop_lookup f (l : entries) k : NoDup (map fst l) ->
  lookup (drop_while f l) k = if existsb (fun x => x =? k) (take_while f (map fst l)) then None else lookup l k.
Proof.
  induction l as [|[a v] l IH]; cbn; auto. intros ND. inversion ND; subst. destruct (f a) eqn:E; cbn; auto.
  rewrite IH by auto. unfold lookup at 2. cbn. destruct (a =? k) eqn:EK; cbn; auto.
  - destruct (existsb _ _) eqn:EX; auto. assert (a = k) by lia. subst. apply lookup_none in H1. rewrite H1. auto.
Qed.
Lemma drop_nodup f (l : entries) : NoDup (map fst l) -> NoDup (map fst (drop_while f l)).
Proof. induction l as [|[a v] l IH]; cbn; auto. intros ND. inversion ND; subst. destruct (f a); auto. Qed.
Lemma lookup_rev (l : entries) k : NoDup (map fst l) -> lookup (rev l) k = lookup l k.
Proof.
  induction l as [|[a v] l IH]; cbn [rev]; auto. intros ND. inversion ND; subst. rewrite lookup_app, IH by auto.
  unfold lookup at 2 3. cbn. destruct (a =? k) eqn:E.
  - assert (a = k) by lia. subst. apply lookup_none in H1. rewrite H1. auto.
  - fold (lookup l k). destruct (lookup l k); auto.
Qed.
Lemma nodup_rev (l : entries) : NoDup (map fst l) -> NoDup (map fst (rev l)).
Proof. intros. rewrite map_rev. apply NoDup_rev; auto. Qed.

Lemma put_crep cap c l k v : (0 < cap)%nat -> crep cap c l -> crep cap (kc_put c k v) (s_put cap l k v).
Proof.
  intros HC (R&ND&HM). unfold kc_put, s_put. rewrite HM. destruct (lookup l k) as [v0|] eqn:EL.
  - unfold crep. cbn [kc_map kc_buf]. rewrite map_put_keys. split; auto. split; auto. intros k'. rewrite lookup_put, EL. unfold mset.
    destruct (k' =? k); auto.
  - apply lookup_none in EL as NI.
    assert (G : forall c1 l1, crep cap c1 l1 -> (length l1 < cap)%nat -> ~ In k (map fst l1) ->
       crep cap {| kc_map := mset (kc_map c1) k (Some v); kc_buf := push (kc_buf c1) k |} (l1 ++ [(k, v)])).
    { intros c1 l1 (R1&ND1&HM1) HL NI1. unfold crep. cbn [kc_map kc_buf]. rewrite map_app. cbn [map fst].
      split; [apply rep_push; auto; rewrite map_length; auto|]. split.
      - assert (X : NoDup (k :: map fst l1)) by (constructor; auto). apply (Permutation_NoDup (l := k :: map fst l1)); auto.
        apply Permutation_cons_append.
      - intros k'. rewrite lookup_app. unfold mset. rewrite HM1. destruct (k' =? k) eqn:E.
        + assert (k' = k) by lia. subst. apply lookup_none in NI1. rewrite NI1. unfold lookup. cbn. rewrite Z.eqb_refl. auto.
        + destruct (lookup l1 k'); auto. unfold lookup. cbn. replace (k =? k') with false by lia. auto. }
    pose proof (rep_full _ _ _ R) as HF. assert (LE : (length l <= cap)%nat) by (destruct R as (_&_&X&_); rewrite map_length in X; auto).
    destruct l as [|[k0 v0] l].
    + cbn [map] in *. cbn [length] in *. replace (0 <? cap)%nat with true by (symmetry; apply Nat.ltb_lt; lia). cbn [app].
      assert (c = (if is_full (kc_buf c) then match pop (kc_buf c) with (Some old, b) => {| kc_map := mset (kc_map c) old None; kc_buf := b |}
                   | (None, b) => {| kc_map := kc_map c; kc_buf := b |} end else c)) as HC1.
      { destruct (is_full _); auto. unfold pop. destruct R as (_&_&_&D&_). cbn in D. rewrite D. destruct c; auto. }
      rewrite <- HC1. apply (G c []); cbn; auto. split; [auto|split; [constructor|auto]].
    + rewrite HF. cbn [map]. rewrite <- (map_length fst ((k0, v0) :: l)) in LE. cbn [map length] in LE |- *. rewrite map_length in *.
      destruct (Nat.eqb (S (length l)) cap) eqn:EQ.
      * apply Nat.eqb_eq in EQ. replace (S (length l) <? cap)%nat with false by (symmetry; apply Nat.ltb_ge; lia). cbn [tl].
        destruct (rep_pop _ _ _ _ R) as (P0&P1&P2). assert (HE : rempty (kc_buf c) = false) by apply R.
        unfold pop. rewrite HE, P0. cbn [fst]. cbn [map fst] in ND, NI. inversion ND; subst.
        apply (G _ l); [|lia|intros X; apply NI; right; auto].
        unfold crep. cbn [kc_map kc_buf]. split; [exact P1|]. split; auto.
        intros k'. unfold mset. rewrite HM. unfold lookup at 1. cbn [find fst snd]. rewrite (Z.eqb_sym k' k0).
        destruct (k0 =? k') eqn:E; auto. assert (k0 = k') by lia. subst. symmetry. apply lookup_none; auto.
      * apply Nat.eqb_neq in EQ. replace (S (length l) <? cap)%nat with true by (symmetry; apply Nat.ltb_lt; lia).
        apply (G c ((k0, v0) :: l)); [split; [auto|split; auto]|cbn; lia|auto].
Qed.

Lemma step_crep cap c l o : (0 < cap)%nat -> crep cap c l -> exists c', kc_step (Some c) o = Some c' /\ crep cap c' (s_step cap l o).
Proof.
  intros HC CR. pose proof CR as (R&ND&HM). destruct o as [k v|k|k]; cbn [kc_step s_step].
  - eexists; split; [reflexivity|]. apply put_crep; auto.
  - unfold kc_del_before, ring_del_before. destruct (del_before_loop_spec cap k _ (S (length (rbuf (kc_buf c)))) _ R) as (b'&E1&E2).
    { destruct R as (A&_&C&_). lia. }
    rewrite E1. eexists. split; [reflexivity|]. unfold crep. cbn [kc_map kc_buf]. rewrite <- tw_keys. split; auto.
    split; [rewrite tw_keys; apply drop_nodup; auto|]. intros k'. rewrite mremove_spec, HM, drop_lookup; auto.
  - unfold kc_del_after, ring_del_after. destruct (del_after_loop_spec cap k _ (S (length (rbuf (kc_buf c)))) _ R) as (b'&E1&E2).
    { destruct R as (A&_&C&_). lia. }
    rewrite E1. eexists. split; [reflexivity|]. unfold crep. cbn [kc_map kc_buf]. rewrite map_rev, <- tw_keys, map_rev. split; auto.
    split; [rewrite <- map_rev, tw_keys, <- map_rev; apply nodup_rev, drop_nodup, nodup_rev; auto|].
    intros k'. rewrite mremove_spec, HM, lookup_rev by (apply drop_nodup, nodup_rev; auto).
    rewrite drop_lookup by (apply nodup_rev; auto). rewrite lookup_rev, map_rev by auto. auto.
Qed.

Lemma run_crep cap ops : (0 < cap)%nat -> exists c, fold_left kc_step ops (Some (@kc_new V cap)) = Some c /\ crep cap c (fold_left (s_step cap) ops []).
Proof.
  intros HC. assert (G : forall ops c l, crep cap c l -> exists c', fold_left kc_step ops (Some c) = Some c' /\ crep cap c' (fold_left (s_step cap) ops l)).
  { clear ops. induction ops as [|o ops IH]; intros c l CR; cbn [fold_left]; eauto.
    destruct (step_crep cap c l o HC CR) as (c1&E1&CR1). rewrite E1. apply IH; auto. }
  apply G. repeat split; cbn; auto; try constructor; try apply rep_new; auto.
Qed.

Lemma last_crep cap c l : crep cap c l -> kc_last c = match rev l with [] => None | e :: _ => Some (snd e) end.
Proof.
  intros (R&ND&HM). unfold kc_last, get_tail. destruct l as [|e l] using rev_ind.
  - assert (rempty (kc_buf c) = true) by apply R. rewrite H. auto.
  - rewrite rev_app_distr. cbn [rev app]. rewrite map_app in R. cbn [map] in R. destruct (rep_unpush _ _ _ _ R) as (H0&HE&_).
    rewrite HE, H0, HM. clear IHl. rewrite <- lookup_rev by auto. rewrite rev_app_distr. cbn. unfold lookup. cbn. rewrite Z.eqb_refl. auto.
Qed.
End C.

(** On ascending keys the truncations are exactly filters. *)
Lemma drop_filter {V} (l : list (Z * V)) k : StronglySorted Z.lt (map fst l) ->
  drop_while (fun x => x <? k) l = filter (fun e => k <=? fst e) l.
Proof.
  induction l as [|[a v] l IH]; cbn; auto. intros H. inversion H as [|? ? H1 H2]; subst. destruct (a <? k) eqn:E.
  - replace (k <=? a) with false by lia. auto.
  - replace (k <=? a) with true by lia. f_equal. clear IH H. revert H1 H2. induction l as [|[b w] l IH]; cbn; auto. intros H1 H2.
    inversion H2; subst. inversion H1; subst. replace (k <=? b) with true by lia. f_equal. apply IH; auto.
Qed.
Lemma drop_rev_filter {V} (l : list (Z * V)) k : StronglySorted Z.lt (map fst l) ->
  rev (drop_while (fun x => k <=? x) (rev l)) = filter (fun e => fst e <? k) l.
Proof.
  induction l as [|[a v] l IH] using rev_ind; cbn; auto. intros H. rewrite rev_app_distr, filter_app. cbn [rev app drop_while fst filter].
  rewrite map_app in H. cbn [map fst] in H.
  assert (H1 : StronglySorted Z.lt (map fst l)). { clear -H. induction (map fst l) as [|x m IH]; [constructor|]. cbn in H. inversion H; subst. constructor; auto. apply Forall_app in H3. tauto. }
  assert (H2 : forall e, In e l -> fst e < a). { clear -H. intros e He. apply (in_map fst) in He. induction (map fst l) as [|x m IH]; [destruct He|]. cbn in H. inversion H; subst.
    destruct He as [<-|He]; [apply Forall_app in H3 as [_ H3]; inversion H3; auto|auto]. }
  destruct (k <=? a) eqn:E.
  - replace (a <? k) with false by lia. rewrite app_nil_r. auto.
  - replace (a <? k) with true by lia. cbn [rev]. rewrite rev_involutive. f_equal. clear IH H H1. induction l as [|[b w] l IH]; cbn; auto.
    replace (b <? k) with true. { f_equal. apply IH. intros; apply H2; right; auto. } specialize (H2 (b, w) (or_introl eq_refl)). cbn in H2. lia.
Qed.
