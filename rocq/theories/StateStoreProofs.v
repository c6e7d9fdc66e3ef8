(** Proofs for C53. *)
From Coq Require Import Permutation Sorted.
From Verif Require Import Prelude MetaModel MetaProofs StateStoreModel StateStoreSpec.
Open Scope Z_scope.

(** * Keys *)
Lemma uint_digits u : ~ In 95 (uint_str u).
Proof. induction u; cbn; auto; intros [H|H]; try discriminate H; auto. Qed.
Lemma show_us n : ~ In 95 (show n). Proof. apply uint_digits. Qed.
Lemma split_us (a b d e : str) : ~ In 95 d -> ~ In 95 e -> a ++ 95 :: d = b ++ 95 :: e -> a = b /\ d = e.
Proof.
  revert b. induction a as [|x a IH]; intros [|y b] D E H; cbn in H.
  - injection H as ->. auto.
  - injection H as _ ->. exfalso. apply D. apply in_or_app. right. now left.
  - injection H as _ <-. exfalso. apply E. apply in_or_app. right. now left.
  - injection H as -> H. destruct (IH b D E H) as [-> ->]. auto.
Qed.
Lemma fname_inj f g : fname f = fname g -> f = g.
Proof. destruct f, g; intros H; try reflexivity; discriminate H. Qed.
Lemma key_inj f g a b : key f a = key g b -> f = g /\ a = b.
Proof.
  unfold key. intros H. apply split_us in H as [H1 H2]; [|apply show_us|apply show_us]. split; [now apply fname_inj|now apply show_inj].
Qed.
Lemma k_list_split id idx : k_list id idx = (fname FMembership ++ 95 :: show id) ++ 95 :: show idx.
Proof. unfold k_list. now rewrite <- app_assoc. Qed.
Lemma k_list_inj a i b j : k_list a i = k_list b j -> a = b /\ i = j.
Proof.
  rewrite !k_list_split. intros H. apply split_us in H as [H1 H2]; [|apply show_us|apply show_us]. apply split_us in H1 as [_ H1]; [|apply show_us|apply show_us].
  split; now apply show_inj.
Qed.
Lemma key_k_list f a b j : key f a <> k_list b j.
Proof.
  rewrite k_list_split. unfold key. intros H. apply split_us in H as [H1 H2]; [|apply show_us|apply show_us].
  destruct f; cbn in H1; discriminate H1.
Qed.
Lemma k_list_prefix_split id : k_list_prefix id = (fname FMembership ++ 95 :: show id) ++ [95].
Proof. unfold k_list_prefix. now rewrite <- app_assoc. Qed.
Lemma app_eq_us (a b d e : str) : ~ In 95 d -> ~ In 95 e -> d ++ 95 :: a = e ++ 95 :: b -> d = e /\ a = b.
Proof.
  revert e. induction d as [|x d IH]; intros [|y e] D E H; cbn in H.
  - injection H as ->. auto.
  - injection H as <- _. exfalso. apply E. now left.
  - injection H as -> _. exfalso. apply D. now left.
  - injection H as -> H. destruct (IH e) as [-> ->]; auto; intros I; [apply D|apply E]; now right.
Qed.
Lemma no_us_app (d e r : str) : ~ In 95 d -> d <> e ++ 95 :: r.
Proof. intros D ->. apply D. apply in_or_app. right. now left. Qed.
(** Only the list keys of the group lie under its prefix. *)
Lemma starts_key id f a : starts (k_list_prefix id) (key f a) = false.
Proof.
  destruct (starts (k_list_prefix id) (key f a)) eqn:E; [|reflexivity]. exfalso. apply starts_inv in E as (r & E).
  unfold key, k_list_prefix in E. destruct f; cbn in E; try discriminate E.
  injection E as E. rewrite <- app_assoc in E. cbn in E. exact (no_us_app _ _ _ (show_us a) E).
Qed.
Lemma starts_k_list id a i : starts (k_list_prefix id) (k_list a i) = (a =? id)%N.
Proof.
  destruct (N.eqb_spec a id) as [->|N].
  - rewrite k_list_prefix_split, k_list_split. change (95 :: show i) with ([95] ++ show i). rewrite app_assoc. apply starts_app.
  - destruct (starts (k_list_prefix id) (k_list a i)) eqn:E; [|reflexivity]. exfalso. apply starts_inv in E as (r & E).
    unfold k_list, k_list_prefix in E. rewrite <- app_assoc in E. apply app_inv_head in E. cbn [app] in E. injection E as E.
    rewrite <- app_assoc in E. cbn [app] in E. apply app_eq_us in E as [E _]; [|apply show_us|apply show_us]. apply N. now apply show_inj.
Qed.
Lemma starts_summary_key f a : starts (fname FSummary ++ [95]) (key f a) = field_eqb f FSummary.
Proof. destruct f; reflexivity. Qed.
Lemma starts_summary_list a i : starts (fname FSummary ++ [95]) (k_list a i) = false.
Proof. reflexivity. Qed.

Lemma field_eqb_eq a b : field_eqb a b = true <-> a = b.
Proof. destruct a, b; cbn; split; intros H; try reflexivity; discriminate H. Qed.
Lemma field_eqb_refl a : field_eqb a a = true. Proof. now destruct a. Qed.

(** * The stored map *)
(** Every stored key is one of the code's keys, with a value of its type. *)
Definition shaped (e : str * sval) : Prop :=
  (exists f id z, f <> FMembership /\ e = (key f id, VZ z)) \/ (exists id m, e = (key FMembership id, VM m)) \/
  (exists id i m, e = (k_list id i, VM m) /\ sm_index m = Some i).
Definition good (s : store) : Prop := sorted s /\ forall e, In e s -> shaped e.
Lemma good_put s k v : good s -> shaped (k, v) -> good (put k v s).
Proof. intros [A B] H. split; [now apply put_sorted|]. intros e I. apply put_in in I as [->|I]; auto. Qed.
Lemma good_del s k : good s -> good (del k s).
Proof. intros [A B]. split; [now apply del_sorted|]. intros e I. apply B. eapply del_in; exact I. Qed.
Lemma good_del_keys ks : forall s, good s -> good (del_keys s ks).
Proof. unfold del_keys. induction ks as [|k ks IH]; intros s G; [exact G|]. cbn. apply IH. now apply good_del. Qed.
Lemma get_del_keys ks : forall (s : store) k, sorted s -> get k (del_keys s ks) = if existsb (seqb k) ks then None else get k s.
Proof.
  unfold del_keys. induction ks as [|x ks IH]; intros s k G; [reflexivity|]. cbn [fold_left existsb]. rewrite IH by now apply del_sorted.
  rewrite get_del by exact G. destruct (seqb k x); cbn; [now destruct (existsb (seqb k) ks)|reflexivity].
Qed.
Lemma existsb_seqb k ks : existsb (seqb k) ks = true <-> In k ks.
Proof.
  rewrite existsb_exists. split; [intros (x & I & E); apply seqb_eq in E; now subst|intros I; exists k; split; [exact I|apply seqb_refl]].
Qed.
Lemma in_get (s : store) k v : sorted s -> In (k, v) s -> get k s = Some v.
Proof.
  unfold sorted. induction 1 as [|[k' v'] m H IH F]; intros I; [destruct I|]. cbn. destruct I as [I|I].
  - injection I as -> ->. now rewrite seqb_refl.
  - rewrite seqb_neq; [now apply IH|]. intros ->. rewrite Forall_forall in F. specialize (F _ I). cbn in F. rewrite scmp_refl in F. discriminate F.
Qed.

(** * The membership list *)
Lemma list_in s id k m : good s -> (In (k, m) (get_membership_list s id) <-> exists i, k = k_list id i /\ get k s = Some (VM m) /\ sm_index m = Some i).
Proof.
  intros [G1 G2]. unfold get_membership_list. rewrite in_flat_map. split.
  - intros ([k' v] & I & J). cbn [fst snd] in J. destruct v as [z|m']; [destruct J|]. destruct (starts (k_list_prefix id) k') eqn:E; [|destruct J].
    destruct J as [J|[]]. injection J as -> ->. destruct (G2 _ I) as [(f & a & z & _ & Q)|[(a & m' & Q)|(a & i & m' & Q & X)]].
    + discriminate Q.
    + apply (f_equal fst) in Q. cbn [fst] in Q. subst k. rewrite starts_key in E. discriminate E.
    + pose proof (f_equal snd Q) as Q2. injection Q2 as <-. apply (f_equal fst) in Q. cbn [fst] in Q. subst k. rewrite starts_k_list in E. apply N.eqb_eq in E. subst a. exists i. split; [reflexivity|]. split; [now apply in_get|exact X].
  - intros (i & -> & H & X). exists (k_list id i, VM m). split; [now apply get_in|]. cbn [fst snd]. rewrite starts_k_list, N.eqb_refl. now left.
Qed.
(** An entry of the list by its index. *)
Definition listed (s : store) (id i : N) : option smem := get_m s (k_list id i).
Lemma listed_in s id i m : good s -> (listed s id i = Some m <-> In (k_list id i, m) (get_membership_list s id)).
Proof.
  intros G. unfold listed, get_m. rewrite list_in by exact G. split.
  - destruct (get (k_list id i) s) as [[z|m']|] eqn:E; try discriminate. intros [= ->]. exists i. split; [reflexivity|]. split; [reflexivity|].
    destruct G as [G1 G2]. destruct (G2 _ (get_in _ _ _ E)) as [(f & a & z & _ & Q)|[(a & m' & Q)|(a & j & m' & Q & X)]].
    + discriminate Q.
    + apply (f_equal fst) in Q. cbn [fst] in Q. symmetry in Q. now apply key_k_list in Q.
    + pose proof (f_equal snd Q) as Q2. injection Q2 as ->. apply (f_equal fst) in Q. cbn [fst] in Q. apply k_list_inj in Q as [_ ->]. exact X.
  - intros (j & _ & -> & _). reflexivity.
Qed.
Lemma list_entry s id e : good s -> In e (get_membership_list s id) ->
  fst e = k_list id (smem_index (snd e)) /\ listed s id (smem_index (snd e)) = Some (snd e).
Proof.
  intros G I. destruct e as [k m]. cbn [fst snd]. pose proof I as J. apply list_in in J as (i & -> & H & X); [|exact G].
  unfold smem_index. rewrite X. split; [reflexivity|]. unfold listed, get_m. now rewrite H.
Qed.

Lemma ins_mem_perm x l : Permutation (ins_mem x l) (x :: l).
Proof. induction l as [|y l IH]; cbn; [reflexivity|]. destruct (_ <=? _)%N; [reflexivity|]. rewrite IH. apply perm_swap. Qed.
Lemma sort_mem_perm l : Permutation (sort_mem l) l.
Proof. induction l as [|x l IH]; cbn; [reflexivity|]. rewrite ins_mem_perm. now constructor. Qed.
Definition le_mem (a b : str * smem) : Prop := (smem_index (snd a) <= smem_index (snd b))%N.
Lemma ins_mem_sorted x l : StronglySorted le_mem l -> StronglySorted le_mem (ins_mem x l).
Proof.
  induction 1 as [|y l L IH F]; cbn; [constructor; constructor|]. destruct (_ <=? _)%N eqn:E.
  - apply N.leb_le in E. constructor; [now constructor|]. constructor; [exact E|]. eapply Forall_impl; [|exact F]. unfold le_mem. intros; lia.
  - apply N.leb_gt in E. constructor; [exact IH|]. rewrite Forall_forall in *. intros z I. apply (Permutation_in _ (ins_mem_perm x l)) in I as [<-|I]; [unfold le_mem; lia|now apply F].
Qed.
Lemma sort_mem_sorted l : StronglySorted le_mem (sort_mem l).
Proof. induction l as [|x l IH]; cbn; [constructor|now apply ins_mem_sorted]. Qed.
Lemma upto_in order s id i e : (forall l, Permutation (order l) l) -> (In e (upto i (order (get_membership_list s id))) <-> In e (get_membership_list s id) /\ (smem_index (snd e) <= i)%N).
Proof.
  intros O. unfold upto. rewrite filter_In, N.leb_le. split; intros [A B]; (split; [|exact B]).
  - eapply Permutation_in; [apply O|]. eapply Permutation_in; [apply sort_mem_perm|exact A].
  - eapply Permutation_in; [symmetry; apply sort_mem_perm|]. eapply Permutation_in; [symmetry; apply O|exact A].
Qed.
Lemma ssorted_filter {A} (R : A -> A -> Prop) f l : StronglySorted R l -> StronglySorted R (filter f l).
Proof.
  induction 1 as [|x l L IH F]; [constructor|]. cbn. destruct (f x); [|exact IH]. constructor; [exact IH|].
  rewrite Forall_forall in *. intros y I. apply filter_In in I. now apply F.
Qed.
(** The last one has the largest index. *)
Lemma ssorted_last {A} (R : A -> A -> Prop) (a : A) l : StronglySorted R (l ++ [a]) -> forall x, In x l -> R x a.
Proof.
  induction l as [|y l IH]; intros H x I; [destruct I|]. cbn in H. inversion H as [|? ? H' F]; subst. destruct I as [<-|I].
  - rewrite Forall_forall in F. apply F. apply in_or_app. right. now left.
  - now apply IH.
Qed.
Lemma list_nodup s id : good s -> NoDup (map fst (get_membership_list s id)).
Proof.
  intros [G _]. unfold get_membership_list. induction G as [|e l G IH F]; [constructor|]. cbn [flat_map].
  destruct (snd e) as [z|m]; [exact IH|]. destruct (starts _ _); [|exact IH]. cbn. constructor; [|exact IH].
  rewrite in_map_iff. intros ((k & m') & E & I). cbn in E. subst k. apply in_flat_map in I as (e' & I & J).
  destruct (snd e') as [z|m2]; [destruct J|]. match type of J with context [if ?b then _ else _] => destruct b end; [|destruct J]. destruct J as [J|[]]. injection J as J _.
  rewrite Forall_forall in F. specialize (F _ I). rewrite J, scmp_refl in F. discriminate F.
Qed.
Lemma upto_nodup order s id i : (forall l, Permutation (order l) l) -> good s -> NoDup (map fst (upto i (order (get_membership_list s id)))).
Proof.
  intros O G. assert (N : NoDup (map fst (sort_mem (order (get_membership_list s id))))).
  { eapply Permutation_NoDup; [|exact (list_nodup s id G)]. apply Permutation_map. symmetry. etransitivity; [apply sort_mem_perm|apply O]. }
  unfold upto. revert N. generalize (sort_mem (order (get_membership_list s id))) as l. induction l as [|x l IH]; intros N; [constructor|].
  cbn in N |- *. inversion N as [|? ? N1 N2]; subst. destruct (_ <=? _)%N; [|auto]. cbn. constructor; [|auto].
  intros I. apply N1. rewrite in_map_iff in *. destruct I as (y & E & I). apply filter_In in I as [I _]. now exists y.
Qed.

(** * The store and the groups *)
Record agrees (s : store) (gs : N -> group) : Prop := {
  ag_good : good s;
  ag_field : forall f id, f <> FMembership -> get_field s f id = g_fields (gs id) f;
  ag_last : forall id, get_last_membership s id = g_last (gs id);
  ag_listed : forall id i m, listed s id i = Some m -> newest i (g_set (gs id)) = Some m;
  ag_kept : forall id i, newest i (g_set (gs id)) <> None ->
    listed s id i <> None \/ exists j, (i < j <= g_cleared (gs id))%N /\ listed s id j <> None }.

Lemma get_put_other {A} k (v : A) s k' : sorted s -> k' <> k -> get k' (put k v s) = get k' s.
Proof. intros H N. rewrite get_put by exact H. now rewrite seqb_neq. Qed.
Lemma get_put_same {A} k (v : A) s : sorted s -> get k (put k v s) = Some v.
Proof. intros H. rewrite get_put by exact H. now rewrite seqb_refl. Qed.
Lemma key_neq f a g b : f <> g \/ a <> b -> key f a <> key g b.
Proof. intros H E. apply key_inj in E as [-> ->]. now destruct H. Qed.

Lemma agrees_new : agrees [] (fun _ => group_new).
Proof.
  constructor; try reflexivity.
  - split; [constructor|intros e []].
  - intros id i m H. discriminate H.
  - intros id i H. now cbn in H.
Qed.
Lemma agrees_set s gs f id z : agrees s gs -> f <> FMembership -> agrees (set_field s f id z) (gstep gs (SSet f id z)).
Proof.
  intros A NF. destruct A as [G F L LI K]. pose proof G as [Srt _]. unfold set_field. cbn [gstep]. unfold on.
  assert (LK : forall i j, listed (put (key f id) (VZ z) s) i j = listed s i j).
  { intros i j. unfold listed, get_m. rewrite get_put_other; [reflexivity|exact Srt|]. intros E. symmetry in E. now apply key_k_list in E. }
  constructor.
  - apply good_put; [exact G|]. left. now exists f, id, z.
  - intros f' id' N. unfold get_field, get_z. destruct (N.eqb_spec id' id) as [->|NI]; cbn [g_fields].
    + destruct (field_eqb f' f) eqn:E.
      * apply field_eqb_eq in E. subst f'. now rewrite get_put_same.
      * rewrite get_put_other; [apply F; exact N|exact Srt|]. apply key_neq. left. intros ->. rewrite field_eqb_refl in E. discriminate E.
    + rewrite get_put_other; [apply F; exact N|exact Srt|]. apply key_neq. now right.
  - intros id'. unfold get_last_membership, get_m. rewrite get_put_other; [|exact Srt|apply key_neq; left; congruence].
    specialize (L id'). unfold get_last_membership, get_m in L. rewrite L. destruct (N.eqb_spec id' id) as [->|_]; reflexivity.
  - intros id' i m H. rewrite LK in H. apply LI in H. destruct (N.eqb_spec id' id) as [->|_]; exact H.
  - intros id' i H. rewrite LK. assert (H' : newest i (g_set (gs id')) <> None) by (destruct (N.eqb_spec id' id) as [->|_]; exact H).
    destruct (K _ _ H') as [P|(j & J & P)]; [now left|right]. exists j. rewrite LK. split; [|exact P]. destruct (N.eqb_spec id' id) as [->|_]; exact J.
Qed.
Lemma agrees_member s gs id m : agrees s gs -> agrees (set_last_membership s id m) (gstep gs (SMember id m)).
Proof.
  intros A. destruct A as [G F L LI K]. pose proof G as [Srt _]. unfold set_last_membership. cbv zeta. cbn [gstep]. unfold on.
  set (s1 := put (key FMembership id) (VM m) s).
  assert (G1 : good s1) by (apply good_put; [exact G|right; left; now exists id, m]). pose proof G1 as [Srt1 _].
  assert (LK1 : forall i j, listed s1 i j = listed s i j).
  { intros i j. unfold listed, get_m, s1. rewrite get_put_other; [reflexivity|exact Srt|]. intros E. symmetry in E. now apply key_k_list in E. }
  set (s2 := match sm_index m with Some i => put (k_list id i) (VM m) s1 | None => s1 end).
  assert (G2 : good s2) by (unfold s2; destruct (sm_index m) as [i|] eqn:E; [apply good_put; [exact G1|right; right; now exists id, i, m]|exact G1]).
  assert (FK : forall f i, get (key f i) s2 = get (key f i) s1).
  { intros f i. unfold s2. destruct (sm_index m); [|reflexivity]. rewrite get_put_other; [reflexivity|exact Srt1|]. apply key_k_list. }
  assert (LK : forall i j, listed s2 i j = if (i =? id)%N then (match sm_index m with Some x => if (x =? j)%N then Some m else listed s i j | None => listed s i j end) else listed s i j).
  { intros i j. unfold s2. destruct (sm_index m) as [x|]; [|rewrite LK1; now destruct (i =? id)%N]. destruct (N.eqb_spec i id) as [->|NI].
    - destruct (N.eqb_spec x j) as [->|NX]; [unfold listed, get_m; now rewrite get_put_same|].
      rewrite <- LK1. unfold listed, get_m. rewrite get_put_other; [reflexivity|exact Srt1|]. intros E. apply k_list_inj in E as [_ E]. congruence.
    - rewrite <- LK1. unfold listed, get_m. rewrite get_put_other; [reflexivity|exact Srt1|]. intros E. apply k_list_inj in E as [E _]. congruence. }
  constructor.
  - exact G2.
  - intros f' id' N. unfold get_field, get_z. rewrite FK. unfold s1. rewrite get_put_other; [|exact Srt|apply key_neq; left; exact N].
    specialize (F f' id' N). unfold get_field, get_z in F. rewrite F. destruct (N.eqb_spec id' id) as [->|_]; reflexivity.
  - intros id'. unfold get_last_membership, get_m. rewrite FK. unfold s1. destruct (N.eqb_spec id' id) as [->|NI]; cbn [g_last]; [now rewrite get_put_same|].
    rewrite get_put_other; [apply L|exact Srt|]. apply key_neq. now right.
  - intros id' i m' H. rewrite LK in H. destruct (N.eqb_spec id' id) as [->|NI]; cbn [g_set]; [|now apply LI].
    destruct (sm_index m) as [x|]; [|now apply LI]. cbn [newest]. destruct (N.eqb_spec x i); [exact H|now apply LI].
  - intros id' i H. destruct (N.eqb_spec id' id) as [->|NI]; cbn [g_set g_cleared] in H |- *.
    + assert (P : listed s2 id i <> None \/ newest i (g_set (gs id)) <> None).
      { rewrite LK, N.eqb_refl. destruct (sm_index m) as [x|]; [|now right]. cbn [newest] in H. destruct (N.eqb_spec x i) as [->|NX]; [left; discriminate|now right]. }
      destruct P as [P|P]; [now left|]. assert (Keep : forall j, listed s id j <> None -> listed s2 id j <> None).
      { intros j Q. rewrite LK, N.eqb_refl. destruct (sm_index m) as [x|]; [|exact Q]. destruct (x =? j)%N; [discriminate|exact Q]. }
      destruct (K _ _ P) as [Q|(j & J & Q)]; [left; now apply Keep|right; exists j; split; [exact J|now apply Keep]].
    + assert (E : (id' =? id)%N = false) by now apply N.eqb_neq. destruct (K _ _ H) as [Q|(j & J & Q)]; [left; now rewrite LK, E|right; exists j; split; [exact J|]]. now rewrite LK, E.
Qed.

Lemma removelast_in {A} (l : list A) x : In x (removelast l) -> In x l.
Proof. destruct l as [|y l] using rev_ind; [auto|]. rewrite removelast_last. intros I. apply in_or_app. now left. Qed.
Lemma agrees_clear s gs order id index : agrees s gs -> (forall l, Permutation (order l) l) -> agrees (clear_memberships order s id index) (gstep gs (SClear order id index)).
Proof.
  intros A O. destruct A as [G F L LI K]. pose proof G as [Srt _]. unfold clear_memberships. cbn [gstep]. unfold on.
  set (u := upto index (order (get_membership_list s id))). set (ks := map fst (removelast u)).
  assert (KS : forall k, In k ks -> exists m, In (k, m) u /\ k = k_list id (smem_index m)).
  { intros k I. unfold ks in I. apply in_map_iff in I as ((k' & m) & E & I). cbn in E. subst k'. apply removelast_in in I. exists m. split; [exact I|].
    apply upto_in in I as [I _]; [|exact O]. exact (proj1 (list_entry _ _ _ G I)). }
  assert (FK : forall f i, get (key f i) (del_keys s ks) = get (key f i) s).
  { intros f i. rewrite get_del_keys by exact Srt. destruct (existsb (seqb (key f i)) ks) eqn:E; [|reflexivity]. apply existsb_seqb in E. apply KS in E as (m & _ & E). now apply key_k_list in E. }
  assert (LK : forall i j, listed (del_keys s ks) i j = if existsb (seqb (k_list i j)) ks then None else listed s i j).
  { intros i j. unfold listed, get_m. rewrite get_del_keys by exact Srt. now destruct (existsb (seqb (k_list i j)) ks). }
  assert (LO : forall i j, i <> id -> listed (del_keys s ks) i j = listed s i j).
  { intros i j N. rewrite LK. destruct (existsb (seqb (k_list i j)) ks) eqn:E; [|reflexivity]. apply existsb_seqb in E. apply KS in E as (m & _ & E). apply k_list_inj in E as [E _]. congruence. }
  constructor.
  - now apply good_del_keys.
  - intros f' id' N. unfold get_field, get_z. rewrite FK. specialize (F f' id' N). unfold get_field, get_z in F. rewrite F. destruct (N.eqb_spec id' id) as [->|_]; reflexivity.
  - intros id'. unfold get_last_membership, get_m. rewrite FK. specialize (L id'). unfold get_last_membership, get_m in L. rewrite L. destruct (N.eqb_spec id' id) as [->|_]; reflexivity.
  - intros id' i m H. assert (H' : listed s id' i = Some m) by (rewrite LK in H; destruct (existsb _ _); [discriminate H|exact H]).
    apply LI in H'. destruct (N.eqb_spec id' id) as [->|_]; exact H'.
  - intros id' i H. destruct (N.eqb_spec id' id) as [->|NI]; [|rewrite LO by exact NI; destruct (K _ _ H) as [Q|(j & J & Q)]; [now left|right; exists j; now rewrite LO]].
    cbn [g_set g_cleared] in *.
    (* a listed entry is kept, or a later one up to the index is *)
    assert (Keep : forall j, listed s id j <> None -> listed (del_keys s ks) id j <> None \/ exists x, (j < x <= index)%N /\ listed (del_keys s ks) id x <> None).
    { intros j Q. rewrite LK. destruct (existsb (seqb (k_list id j)) ks) eqn:E; [|now left]. right. apply existsb_seqb in E.
      assert (U : exists v a, u = v ++ [a]).
      { destruct u as [|a v _] using rev_ind; [destruct E|]. now exists v, a. }
      destruct U as (v & a & U). unfold ks in E. rewrite U, removelast_last in E.
      apply in_map_iff in E as ((k & m) & Ek & I). cbn in Ek. subst k.
      assert (Ia : In a u) by (rewrite U; apply in_or_app; right; now left). pose proof Ia as Ia'. apply upto_in in Ia' as [Ia1 Ia2]; [|exact O].
      assert (Im : In (k_list id j, m) u) by (rewrite U; apply in_or_app; now left). pose proof Im as Im'. apply upto_in in Im' as [Im1 Im2]; [|exact O].
      destruct (list_entry _ _ _ G Im1) as [Em1 Em2]. cbn [fst snd] in *. apply k_list_inj in Em1 as [_ Em1].
      destruct (list_entry _ _ _ G Ia1) as [Ea1 Ea2].
      assert (ND : NoDup (map fst u)) by now apply upto_nodup. rewrite U, map_app in ND. cbn [map] in ND.
      assert (NA : ~ In (fst a) (map fst v)).
      { intros X. apply NoDup_remove_2 in ND. apply ND. rewrite app_nil_r. exact X. }
      assert (LE : (smem_index m <= smem_index (snd a))%N).
      { apply (ssorted_last le_mem a v) with (x := (k_list id j, m)); [|exact I]. rewrite <- U. apply ssorted_filter, sort_mem_sorted. }
      assert (NE : smem_index m <> smem_index (snd a)).
      { intros X. apply NA. rewrite Ea1, <- X, <- Em1. apply (in_map fst _ _ I). }
      exists (smem_index (snd a)). split; [lia|]. rewrite LK. destruct (existsb (seqb (k_list id (smem_index (snd a)))) ks) eqn:E; [|rewrite Ea2; discriminate].
      apply existsb_seqb in E. unfold ks in E. rewrite U, removelast_last, <- Ea1 in E. contradiction. }
    destruct (K _ _ H) as [Q|(j & J & Q)]; destruct (Keep _ Q) as [P|(x & X & P)].
    + now left.
    + right. exists x. split; [lia|exact P].
    + right. exists j. split; [lia|exact P].
    + right. exists x. split; [lia|exact P].
Qed.
Lemma agrees_del s gs order id : agrees s gs -> (forall l, Permutation (order l) l) -> agrees (del_group order s id) (gstep gs (SDel order id)).
Proof.
  intros A O. destruct A as [G F L LI K]. pose proof G as [Srt _]. unfold del_group. cbv zeta. cbn [gstep]. unfold on.
  set (fs := [FApplied; FMembership; FPurged; FSnapIndex; FVote; FSnapshot; FInit; FSummary; FSnapApplied]).
  set (ks := map (fun f => key f id) fs ++ map fst (order (get_membership_list s id))).
  assert (All : forall f, In f fs) by (intros []; unfold fs; cbn; tauto).
  assert (KS : forall k, In k ks <-> (exists f, k = key f id) \/ exists j, k = k_list id j /\ listed s id j <> None).
  { intros k. unfold ks. rewrite in_app_iff, !in_map_iff. split.
    - intros [(f & <- & _)|((k' & m) & E & I)]; [left; now exists f|right]. cbn in E. subst k'. apply (Permutation_in _ (O _)) in I.
      destruct (list_entry _ _ _ G I) as [E1 E2]. cbn [fst snd] in *. exists (smem_index m). split; [exact E1|]. rewrite E2. discriminate.
    - intros [(f & ->)|(j & -> & H)]; [left; exists f; split; [reflexivity|apply All]|right].
      destruct (listed s id j) as [m|] eqn:E; [|now destruct H]. exists (k_list id j, m). split; [reflexivity|]. apply (Permutation_in _ (Permutation_sym (O _))). now apply listed_in. }
  assert (GK : forall k, get k (del_keys s ks) = if existsb (seqb k) ks then None else get k s) by (intros; now apply get_del_keys).
  assert (FK : forall f i, get (key f i) (del_keys s ks) = if (i =? id)%N then None else get (key f i) s).
  { intros f i. rewrite GK. destruct (existsb (seqb (key f i)) ks) eqn:E.
    - apply existsb_seqb, KS in E as [(f' & E)|(j & E & _)]; [|now apply key_k_list in E]. apply key_inj in E as [_ ->]. now rewrite N.eqb_refl.
    - destruct (N.eqb_spec i id) as [->|]; [|reflexivity]. assert (X : existsb (seqb (key f id)) ks = true) by (apply existsb_seqb, KS; left; now exists f). congruence. }
  assert (LK : forall i j, listed (del_keys s ks) i j = if (i =? id)%N then None else listed s i j).
  { intros i j. unfold listed, get_m. rewrite GK. destruct (existsb (seqb (k_list i j)) ks) eqn:E.
    - apply existsb_seqb, KS in E as [(f' & E)|(j' & E & _)]; [symmetry in E; now apply key_k_list in E|]. apply k_list_inj in E as [-> ->]. now rewrite N.eqb_refl.
    - destruct (N.eqb_spec i id) as [->|]; [|reflexivity]. destruct (get (k_list id j) s) as [[z|m]|] eqn:Q; try reflexivity.
      assert (X : existsb (seqb (k_list id j)) ks = true) by (apply existsb_seqb, KS; right; exists j; split; [reflexivity|unfold listed, get_m; now rewrite Q]). congruence. }
  constructor.
  - now apply good_del_keys.
  - intros f' id' N. unfold get_field, get_z. rewrite FK. destruct (N.eqb_spec id' id) as [->|NI]; [reflexivity|]. exact (F f' id' N).
  - intros id'. unfold get_last_membership, get_m. rewrite FK. destruct (N.eqb_spec id' id) as [->|NI]; [reflexivity|]. exact (L id').
  - intros id' i m H. rewrite LK in H. destruct (N.eqb_spec id' id) as [->|NI]; [discriminate H|now apply LI].
  - intros id' i H. destruct (N.eqb_spec id' id) as [->|NI]; [now cbn in H|]. assert (E : (id' =? id)%N = false) by now apply N.eqb_neq.
    destruct (K _ _ H) as [Q|(j & J & Q)]; [left; now rewrite LK, E|right; exists j; split; [exact J|]]. now rewrite LK, E.
Qed.
Lemma agrees_step s gs o : agrees s gs -> sop_ok o -> agrees (sstep s o) (gstep gs o).
Proof.
  destruct o as [f id z|id m|order id index|order id]; cbn [sop_ok sstep]; intros A H.
  - now apply agrees_set. - now apply agrees_member. - now apply agrees_clear. - now apply agrees_del.
Qed.
Lemma agrees_run ops : Forall sop_ok ops -> agrees (srun ops) (grun ops).
Proof.
  unfold srun, grun. generalize agrees_new. generalize (fun _ : N => group_new) as gs. generalize ([] : store) as s.
  induction ops as [|o ops IH]; intros s gs A H; [exact A|]. inversion H; subst. cbn [fold_left]. apply IH; [now apply agrees_step|assumption].
Qed.

Lemma in_force_found s gs order id index : agrees s gs -> (forall l, Permutation (order l) l) -> (g_cleared (gs id) <= index)%N ->
  in_force (gs id) index (get_snapshot_membership order s id index).
Proof.
  intros A O C. destruct A as [G F L LI K]. unfold get_snapshot_membership, in_force.
  set (u := upto index (order (get_membership_list s id))).
  assert (U : u = [] \/ exists v a, u = v ++ [a]) by (destruct u as [|a v _] using rev_ind; [now left|right; now exists v, a]).
  assert (Best : forall j, (j <= index)%N -> newest j (g_set (gs id)) <> None -> exists x, In x u /\ (j <= smem_index (snd x))%N).
  { intros j J N. assert (W : exists x, (j <= x <= index)%N /\ listed s id x <> None).
    { destruct (K _ _ N) as [Q|(x & X & Q)]; [exists j; split; [lia|exact Q]|exists x; split; [lia|exact Q]]. }
    destruct W as (x & X & Q). destruct (listed s id x) as [m|] eqn:E; [|now destruct Q]. apply listed_in in E; [|exact G].
    destruct (list_entry _ _ _ G E) as [E1 _]. cbn [fst snd] in E1. apply k_list_inj in E1 as [_ E1].
    exists (k_list id x, m). cbn [snd]. rewrite <- E1. split; [|lia]. apply upto_in; [exact O|]. cbn [snd]. rewrite <- E1. split; [exact E|lia]. }
  destruct U as [U|(v & a & U)].
  - rewrite U. cbn [rev]. right. split; [|apply L]. intros j J. destruct (newest j (g_set (gs id))) eqn:E; [|reflexivity].
    destruct (Best j J) as (x & X & _); [congruence|]. rewrite U in X. destruct X.
  - rewrite U, rev_app_distr. cbn [rev app]. left. assert (Ia : In a u) by (rewrite U; apply in_or_app; right; now left).
    pose proof Ia as Ib. apply upto_in in Ib as [I1 I2]; [|exact O]. destruct (list_entry _ _ _ G I1) as [_ E2].
    exists (smem_index (snd a)). split; [exact I2|]. split; [now apply LI|]. intros j J N. destruct (Best j J N) as (x & X & LE).
    rewrite U in X. apply in_app_or in X as [X|[X|[]]]; [|now subst x].
    assert (W : le_mem x a) by (apply (ssorted_last le_mem a v); [rewrite <- U; apply ssorted_filter, sort_mem_sorted|exact X]). unfold le_mem in W. lia.
Qed.

(** * The list of groups *)
Lemma summary_pairs : forall s, good s -> exists ps : list (N * Z), all_nodes_summary s = map snd ps /\ NoDup (map fst ps) /\
  forall g z, In (g, z) ps <-> In (key FSummary g, VZ z) s.
Proof.
  induction s as [|e s IH]; intros [G1 G2]; [exists []; split; [reflexivity|split; [constructor|intros; split; intros []]]|].
  inversion G1 as [|? ? G1' F]; subst. destruct IH as (ps & E & ND & I); [split; [exact G1'|intros x X; apply G2; now right]|].
  assert (Skip : (forall g z, e <> (key FSummary g, VZ z)) -> all_nodes_summary (e :: s) = all_nodes_summary s ->
    exists ps0 : list (N * Z), all_nodes_summary (e :: s) = map snd ps0 /\ NoDup (map fst ps0) /\ forall g z, In (g, z) ps0 <-> In (key FSummary g, VZ z) (e :: s)).
  { intros NE Q. exists ps. rewrite Q. split; [exact E|]. split; [exact ND|]. intros g z. rewrite I. cbn [In]. split; [now right|]. intros [X|X]; [now destruct (NE g z)|exact X]. }
  destruct (G2 e (or_introl eq_refl)) as [(f & g & z & NF & ->)|[(g & m & ->)|(g & i & m & -> & _)]].
  - destruct (field_eqb f FSummary) eqn:Ef.
    + apply field_eqb_eq in Ef. subst f. exists ((g, z) :: ps). split; [|split].
      * unfold all_nodes_summary. cbn [flat_map fst snd]. rewrite starts_summary_key. cbn [field_eqb app map snd]. f_equal. exact E.
      * cbn [map fst]. constructor; [|exact ND]. intros X. apply in_map_iff in X as ((g' & z') & Eg & X). cbn in Eg. subst g'. apply I in X.
        rewrite Forall_forall in F. specialize (F _ X). cbn [fst] in F. rewrite scmp_refl in F. discriminate F.
      * intros g' z'. cbn [In]. rewrite I. split; (intros [X|X]; [left|now right]).
        -- now injection X as -> ->.
        -- pose proof (f_equal snd X) as X2. injection X2 as ->. apply (f_equal fst) in X. cbn [fst] in X. apply key_inj in X as [_ ->]. reflexivity.
    + apply Skip.
      * intros g' z' X. apply (f_equal fst) in X. cbn [fst] in X. apply key_inj in X as [-> _]. discriminate Ef.
      * unfold all_nodes_summary. cbn [flat_map fst snd]. rewrite starts_summary_key, Ef. reflexivity.
  - apply Skip; [intros g' z' X; discriminate X|]. unfold all_nodes_summary. cbn [flat_map fst snd]. rewrite starts_summary_key. reflexivity.
  - apply Skip; [intros g' z' X; discriminate X|]. unfold all_nodes_summary. cbn [flat_map fst snd]. rewrite starts_summary_list. reflexivity.
Qed.
Lemma summaries s gs : agrees s gs -> exists ps : list (N * Z), all_nodes_summary s = map snd ps /\ NoDup (map fst ps) /\
  forall g z, In (g, z) ps <-> g_fields (gs g) FSummary = Some z.
Proof.
  intros A. destruct (summary_pairs s (ag_good _ _ A)) as (ps & E & ND & I). exists ps. split; [exact E|]. split; [exact ND|]. intros g z. rewrite I.
  rewrite <- (ag_field _ _ A) by discriminate. unfold get_field, get_z. split.
  - intros X. apply (in_get _ _ _ (proj1 (ag_good _ _ A))) in X. now rewrite X.
  - destruct (get (key FSummary g) s) as [[z'|m]|] eqn:Q; try discriminate. intros [= ->]. now apply get_in.
Qed.
