From Coq Require Import Sorted.
From Verif Require Import Prelude Bytes IndexModel IndexSpec IndexUpdateSpec IndexProofs.
Open Scope Z_scope.

(** * Looking up several tags in the stored index *)
Lemma and_tags_ok st P tab : stok st P (J_of P) -> Forall pair_ok P -> name_ok tab -> forall tags acc, Forall (fun t => tag_name (fst t)) tags ->
  exists s, and_tags st tab acc tags = Some s /\ forall i, In i s <-> In i acc /\ forall t, In t tags -> J_of P (tab, fst t, snd t) i.
Proof.
  intros S F N. induction tags as [|[k v] tags IH]; intros acc T; cbn [and_tags].
  - exists acc. split; [reflexivity|]. intro i. split; [intro H; split; [exact H|intros t []]|tauto].
  - inversion T as [|? ? [T0 T1] T']; subst. cbn [fst] in *. destruct (rb_ok _ _ tab k v S F N T1) as (r & -> & _ & M). destruct r as [rb|].
    + destruct (IH (set_and acc rb) T') as (s & -> & Ms). exists s. split; [reflexivity|]. intro i. rewrite Ms, set_and_in. cbn [get_l] in M. rewrite M. split.
      * intros [[A B] C]. split; [exact A|]. intros t [<-|Ht]; [exact B|auto].
      * intros [A B]. split; [split; [exact A|apply (B (k, v)); now left]|]. intros t Ht. apply B. now right.
    + exists []. split; [reflexivity|]. intro i. split; [intros []|]. intros [_ B]. assert (J : J_of P (tab, k, v) i) by (apply (B (k, v)); now left).
      apply M in J. destruct J.
Qed.
Lemma by_tags_ok st P tab t tags : stok st P (J_of P) -> Forall pair_ok P -> name_ok tab -> Forall (fun t => tag_name (fst t)) (t :: tags) ->
  exists s, st_by_tags st tab (t :: tags) = Some s /\ forall i, In i s <-> forall q, In q (t :: tags) -> J_of P (tab, fst q, snd q) i.
Proof.
  intros S F N T. destruct t as [k v]. inversion T as [|? ? [T0 T1] T']; subst. cbn [fst st_by_tags] in *. destruct (rb_ok _ _ tab k v S F N T1) as (r & -> & _ & M).
  destruct (and_tags_ok st P tab S F N tags (get_l r) T') as (s & E & Ms). unfold get_l in E. exists s. split; [exact E|]. intro i. rewrite Ms, M. split.
  - intros [A B] q [<-|Hq]; [exact A|auto].
  - intro A. split; [apply (A (k, v)); now left|]. intros q Hq. apply A. now right.
Qed.
Lemma wc_and_new tab tags t acc : wc_and wc_new tab acc (t :: tags) = []. Proof. destruct t. reflexivity. Qed.
Lemma flush_empty hash x x' : istep hash x IFlush = (x', ODone true) -> x_w x' = wc_new.
Proof.
  cbn [istep]. unfold ix_check. cbn [negb andb x_w x_st x_incr]. destruct (st_put _ _ _); [|intros [= _ E]; discriminate]. destruct (wc_flush _ _); [|intros [= _ E]; discriminate].
  intros [= <-]. reflexivity.
Qed.
Lemma flushed_list hash h tab t tags : Forall iop_ok h -> Z.of_nat (length h) + 1 < 2 ^ 32 -> name_ok tab -> Forall (fun t => tag_name (fst t)) (t :: tags) ->
  exists x s, istep hash (fst (irun hash h)) IFlush = (x, ODone true) /\ ix_list x tab (t :: tags) = Some s /\
    forall i, 0 <= i < 2 ^ 32 -> (In i s <-> exists k, snd (istep hash x (IGetKey i)) = OKey (Some (Some k)) /\ sk_table k = tab /\ incl (t :: tags) (sk_tags k)).
Proof.
  intros F L N T. destruct (irun_ok hash h F ltac:(lia)) as (P & D & R & K & D0 & B & _).
  destruct (step_ok hash _ P D IFlush R I ltac:(lia)) as (x & P1 & D1 & r & E & R1 & S & B1). assert (r = ODone true) as -> by (inversion S; reflexivity).
  destruct (dstep_keep _ _ _ _ K S D0) as [K1 _]. assert (BX : x_incr x + 1 < 2 ^ 32) by (rewrite (rl_last _ _ _ _ R1); inversion S; subst; cbn [d_last]; rewrite <- (rl_last _ _ _ _ R); lia).
  pose proof (flush_empty _ _ _ E) as W. exists x. pose proof (rl_inv _ _ _ _ R1) as V.
  destruct (by_tags_ok _ _ tab t tags (v_st _ _ _ V) (pok _ _ _ V) N T) as (s & E1 & M). unfold ix_list. rewrite W, E1. cbn [option_map wc_by_tags]. rewrite wc_and_new. exists (set_or [] s).
  split; [exact E|]. split; [reflexivity|]. intros i Hi. rewrite set_or_in, M.
  assert (AL : all x P1 = P1) by (unfold all; rewrite W; reflexivity). 
  assert (T0 : forall q, In q (t :: tags) -> fst q <> []) by (intros q Hq; rewrite Forall_forall in T; apply T; exact Hq).
  split.
  - intros [[]|A]. pose proof (A t (or_introl eq_refl)) as A0. apply J_tag in A0; [|apply T0; now left]. destruct A0 as (k & Hk & Et & _). exists k.
    split; [apply (probe_key hash _ P1 D1 i k R1 K1 Hi ltac:(lia)), (rl_maps _ _ _ _ R1); now rewrite AL|]. split; [exact Et|].
    intros q Hq. specialize (A q Hq). apply J_tag in A; [|now apply T0]. destruct A as (k' & Hk' & _ & I'). rewrite <- AL in Hk, Hk'. pose proof (nd_fst _ _ _ _ (v_nd1 _ _ _ V) Hk Hk') as <-. now destruct q.
  - intros (k & Hk & Et & Ic). right. intros q Hq. apply J_tag; [now apply T0|]. exists k.
    apply (probe_key hash _ P1 D1 i k R1 K1 Hi ltac:(lia)), (rl_maps _ _ _ _ R1) in Hk. rewrite AL in Hk. split; [exact Hk|]. split; [exact Et|]. destruct q. now apply Ic.
Qed.

(** * What an update makes of a series *)
Definition val_of (n : bytes) (l : list (bytes * bytes)) : option bytes := option_map snd (find (fun t => beq (fst t) n) l).
Lemma beq_sym a b : beq a b = beq b a. Proof. destruct (beq a b) eqn:E; symmetry; [apply beq_eq in E; subst; apply beq_refl|]. apply beq_neq. apply beq_neq in E. congruence. Qed.
Lemma val_del n k l : val_of n (del_buf k l) = if beq k n then None else val_of n l.
Proof.
  unfold val_of, del_buf. induction l as [|[a v] l IH]; cbn [filter find fst]; [now destruct (beq k n)|].
  destruct (beq a k) eqn:E; cbn [negb].
  - rewrite IH. apply beq_eq in E. subst a. destruct (beq k n); reflexivity.
  - cbn [find fst]. destruct (beq a n) eqn:E2; [|exact IH]. apply beq_eq in E2. subst a. rewrite (beq_sym k n), E. reflexivity.
Qed.
Lemma val_set n k v l : val_of n (tags_set l k v) = if beq k n then Some v else val_of n l.
Proof. unfold tags_set, val_of at 1. cbn [find fst]. destruct (beq k n) eqn:E; [reflexivity|]. fold (val_of n (del_buf k l)). now rewrite val_del, E. Qed.
Lemma find_last {A} (f : A -> bool) l x : find f (l ++ [x]) = match find f l with Some y => Some y | None => if f x then Some x else None end.
Proof. induction l as [|a l IH]; cbn; [reflexivity|]. now destruct (f a). Qed.
Lemma val_fold n k : forall l, val_of n (fold_left (fun l t => tags_set l (fst t) (snd t)) k l) = match last_of n k with Some v => Some v | None => val_of n l end.
Proof.
  induction k as [|[a v] k IH]; intros l; cbn [fold_left]; [reflexivity|]. rewrite IH. unfold last_of. cbn [rev]. rewrite find_last. cbn [fst snd].
  destruct (find _ (rev k)) as [[b w]|]; [reflexivity|]. cbn [option_map]. rewrite val_set. now destruct (beq a n).
Qed.
Lemma val_upd n u : forall l, val_of n (fold_left tags_upd u l) = match last_of n u with Some r => r | None => val_of n l end.
Proof.
  induction u as [|[a v] u IH]; intros l; cbn [fold_left]; [reflexivity|]. rewrite IH. unfold last_of. cbn [rev]. rewrite find_last. cbn [fst snd].
  destruct (find _ (rev u)) as [[b w]|]; [reflexivity|]. cbn [option_map]. unfold tags_upd. cbn [snd fst].
  destruct v as [v|]; [rewrite val_set|rewrite val_del]; now destruct (beq a n).
Qed.
Definition names (l : list (bytes * bytes)) : list bytes := map fst l.
Lemma del_nodup k l : NoDup (names l) -> NoDup (names (del_buf k l)) /\ ~ In k (names (del_buf k l)) /\ (forall n, In n (names (del_buf k l)) -> In n (names l)).
Proof.
  intro N. assert (I : forall n, In n (names (del_buf k l)) -> In n (names l) /\ n <> k).
  { intros n H. apply in_map_iff in H. destruct H as (t & <- & H). unfold del_buf in H. rewrite filter_In in H. destruct H as [H E]. split; [now apply in_map|].
    apply negb_true_iff in E. now apply beq_neq in E. }
  split; [|split; [intro H; apply I in H; destruct H; congruence|intros n H; now apply I]].
  clear I. induction l as [|a l IH]; cbn [del_buf filter]; [constructor|]. inversion N; subst. destruct (negb _); [|now apply IH]. cbn [names map]. constructor; [|now apply IH].
  intro H. apply H1. apply in_map_iff in H. destruct H as (t & E & H). rewrite filter_In in H. rewrite <- E. now apply in_map.
Qed.
Lemma set_nodup l k v : NoDup (names l) -> NoDup (names (tags_set l k v)).
Proof. intro N. destruct (del_nodup k l N) as (A & B & _). cbn [tags_set names map fst]. constructor; assumption. Qed.
Lemma sets_nodup k : forall l, NoDup (names l) -> NoDup (names (fold_left (fun l t => tags_set l (fst t) (snd t)) k l)).
Proof. induction k as [|t k IH]; intros l N; cbn [fold_left]; [exact N|]. apply IH. now apply set_nodup. Qed.
Lemma upds_nodup u : forall l, NoDup (names l) -> NoDup (names (fold_left tags_upd u l)).
Proof.
  induction u as [|[a v] u IH]; intros l N; cbn [fold_left]; [exact N|]. apply IH. unfold tags_upd. cbn [snd fst]. destruct v; [now apply set_nodup|]. now apply del_nodup.
Qed.
Lemma lex_trans a : forall b c, lex_lt a b = true -> lex_lt b c = true -> lex_lt a c = true.
Proof.
  induction a as [|x a IH]; intros [|y b] [|z c]; cbn [lex_lt]; try discriminate; auto. intros H1 H2. apply orb_true_iff in H1, H2. apply orb_true_iff.
  rewrite !andb_true_iff, ?Z.ltb_lt, ?Z.eqb_eq in *. destruct H1 as [H1|[H1 G1]], H2 as [H2|[H2 G2]]; [left; lia|left; lia|left; lia|]. right. split; [lia|]. eauto.
Qed.
Lemma ins_sorted t l : StronglySorted by_name l -> ~ In (fst t) (names l) -> StronglySorted by_name (ins_tag t l) /\ (forall q, In q (ins_tag t l) <-> q = t \/ In q l).
Proof.
  induction l as [|u l IH]; intros S N; cbn [ins_tag].
  - split; [constructor; constructor|]. intro q. cbn. split; intros [H|H]; auto; try contradiction; symmetry in H; auto.
  - inversion S as [|? ? S' F]; subst. destruct (lex_lt (fst t) (fst u)) eqn:E.
    + split; [|intro q; cbn; split; intros [H|H]; auto]. constructor; [exact S|]. constructor; [exact E|]. rewrite Forall_forall in *. intros q Hq. specialize (F q Hq).
      unfold by_name in *. eapply lex_trans; eauto.
    + destruct IH as [A B]; [exact S'|intro H; apply N; now right|]. split.
      * constructor; [exact A|]. rewrite Forall_forall in *. intros q Hq. apply B in Hq. destruct Hq as [->|Hq]; [|now apply F]. unfold by_name.
        destruct (lex_lt (fst u) (fst t)) eqn:E2; [reflexivity|]. exfalso. apply N. left. now apply lex_total.
      * intro q. cbn [In]. rewrite B. tauto.
Qed.
Lemma sort_ok l : NoDup (names l) -> StronglySorted by_name (sort_tags l) /\ (forall q, In q (sort_tags l) <-> In q l).
Proof.
  induction l as [|t l IH]; intro N; cbn [sort_tags fold_right]; [split; [constructor|tauto]|]. inversion N; subst. destruct (IH H2) as [A B]. fold (sort_tags l) in *.
  destruct (ins_sorted t (sort_tags l) A) as [C D]; [intro H; apply H1; apply in_map_iff in H; destruct H as (q & E & H); apply B in H; rewrite <- E; now apply in_map|].
  split; [exact C|]. intro q. rewrite D, B. cbn [In]. split; intros [G|G]; auto.
Qed.
Lemma find_in_nd n v l : NoDup (names l) -> (In (n, v) l <-> val_of n l = Some v).
Proof.
  unfold val_of. induction l as [|[a w] l IH]; intro N; cbn [find fst]; [split; [intros []|discriminate]|]. inversion N; subst. destruct (beq a n) eqn:E.
  - apply beq_eq in E. subst a. cbn [option_map snd]. split.
    + intros [H|H]; [congruence|]. exfalso. apply H1. apply in_map_iff. exists (n, v). auto.
    + intros [= ->]. now left.
  - rewrite <- IH by assumption. split; [|now right]. intros [[= -> ->]|H]; [now rewrite beq_refl in E|exact H].
Qed.
Lemma retag_ok upd k : StronglySorted by_name (sk_tags (retag upd k)) /\
  forall n v, In (n, v) (sk_tags (retag upd k)) <-> match last_of n upd with Some r => r = Some v | None => last_of n (sk_tags k) = Some v end.
Proof.
  unfold retag. cbn [sk_tags]. set (l := fold_left tags_upd upd _). assert (N : NoDup (names l)) by (apply upds_nodup, sets_nodup; constructor).
  destruct (sort_ok l N) as [A B]. split; [exact A|]. intros n v. rewrite B, find_in_nd by exact N. unfold l. rewrite val_upd, val_fold.
  destruct (last_of n upd) as [r|]; [tauto|]. cbn. destruct (last_of n (sk_tags k)); [tauto|]. cbn. split; discriminate.
Qed.

Lemma sorted_same a : forall b, StronglySorted by_name a -> StronglySorted by_name b -> (forall t, In t a <-> In t b) -> a = b.
Proof.
  induction a as [|x a IH]; intros [|y b] Sa Sb E.
  - reflexivity.
  - exfalso. apply (E y). now left.
  - exfalso. apply (E x). now left.
  - inversion Sa as [|? ? Sa' Fa]; inversion Sb as [|? ? Sb' Fb]; subst. rewrite Forall_forall in Fa, Fb.
    assert (x = y).
    { destruct (proj1 (E x) (or_introl eq_refl)) as [H|H]; [now symmetry|]. destruct (proj2 (E y) (or_introl eq_refl)) as [H'|H']; [exact H'|].
      specialize (Fa _ H'). specialize (Fb _ H). unfold by_name in *. rewrite (lex_asym _ _ Fa) in Fb. discriminate. }
    subst y. f_equal. apply IH; auto. intro t. split; intro H.
    + destruct (proj1 (E t) (or_intror H)) as [<-|G]; [|exact G]. exfalso. specialize (Fa _ H). unfold by_name in Fa. now rewrite lex_irr in Fa.
    + destruct (proj2 (E t) (or_intror H)) as [<-|G]; [|exact G]. exfalso. specialize (Fb _ H). unfold by_name in Fb. now rewrite lex_irr in Fb.
Qed.
Lemma updated_is upd k k' : updated upd k k' -> k' = retag upd k.
Proof.
  intros (T & S & V). destruct (retag_ok upd k) as [A B]. destruct k' as [t l]. cbn [sk_table sk_tags] in *. subst t. unfold retag in *. cbn [sk_tags] in *. f_equal.
  apply sorted_same; auto. intros [n v]. rewrite V, B. reflexivity.
Qed.
Lemma update_keeps_id hash a k upd k' x1 i x2 : Forall iop_ok a -> key_ok k -> key_ok k' -> Z.of_nat (length a) + 3 < 2 ^ 32 -> updated upd k k' ->
  istep hash (fst (irun hash a)) (IAdd k) = (x1, OId (ROk i)) -> istep hash x1 (IUpdate upd [k]) = (x2, ODone true) ->
  snd (istep hash x2 (IAdd k')) = OId (ROk i) /\ snd (istep hash x2 (IGetKey i)) = OKey (Some (Some k')) /\ (k <> k' -> snd (istep hash x2 (IGetId k)) = OId RNo).
Proof.
  intros Fa K K' L U E1 E2. pose proof (updated_is upd k k' U) as ->. destruct (two_stretches hash a k [] Fa K) as (P & D & y1 & j & P1 & D1 & y2 & P2 & D2 & rs & R & Dk & E & R1 & Dk1 & M1 & I1 & _).
  { constructor. } { cbn [length]. lia. }
  rewrite E in E1. injection E1 as <- <-.
  assert (B1 : x_incr y1 + 1 < 2 ^ 32).
  { destruct (irun_ok hash a Fa ltac:(lia)) as (P0 & D0 & R0 & K0 & _ & B & _). destruct (step_ok hash _ P0 D0 (IAdd k) R0 K ltac:(lia)) as (y & ? & ? & ? & E' & _ & _ & B'). rewrite E in E'. injection E' as <- _. lia. }
  destruct (step_ok hash y1 P1 D1 (IUpdate upd [k]) R1) as (y & P3 & D3 & r & E3 & R3 & S3 & B3); [cbn [iop_ok]; constructor; [split; assumption|constructor]|lia|].
  rewrite E2 in E3. injection E3 as <- <-. inversion S3 as [| | | | | | |u m NR E4 E5 E6| | | | | |]; subst.
  assert (D03 : 0 <= d_last D1) by (rewrite <- (rl_last _ _ _ _ R1); apply (v_incr _ _ _ (rl_inv _ _ _ _ R1))).
  destruct (dstep_keep _ _ _ _ Dk1 S3 D03) as [Dk3 _].
  assert (BX : x_incr x2 + 1 < 2 ^ 32).
  { rewrite (rl_last _ _ _ _ R3). cbn [d_last]. rewrite <- (rl_last _ _ _ _ R1). lia. }
  assert (M3 : maps (DI (map (renamed upd [k]) (d_live D1)) (d_last D1)) j (retag upd k)).
  { destruct M1 as (e & He & Ei & Ek). exists (renamed upd [k] e). cbn [d_live]. split; [now apply in_map|]. unfold renamed. rewrite Ek. cbn [existsb].
    assert (Q : seq_eq k k = true) by (apply seq_eq_eq; reflexivity). rewrite Q. cbn [orb n_id n_key]. auto. }
  destruct (probe hash x2 P3 _ j (retag upd k) R3 Dk3 M3 BX) as (Q1 & _ & Q3). split; [exact Q1|]. split; [exact Q3|]. intro NE.
  destruct (step_ok hash x2 P3 _ (IGetId k) R3 K BX) as (z & P4 & D4 & r & -> & _ & S4 & _). cbn [snd].
  inversion S4 as [| |k0 i0 M4| | | | | | | | | | |]; subst; [|reflexivity]. exfalso. destruct M4 as (e & He & _ & Ek). cbn [d_live] in He. apply in_map_iff in He. destruct He as (e0 & <- & He0).
  unfold renamed in Ek. cbn [existsb] in Ek. destruct (seq_eq (n_key e0) k) eqn:Q; cbn [orb] in Ek.
  - apply seq_eq_eq in Q. cbn [n_key] in Ek. rewrite Q in Ek. congruence.
  - rewrite Ek in Q. assert (Q' : seq_eq k k = true) by (apply seq_eq_eq; reflexivity). congruence.
Qed.
