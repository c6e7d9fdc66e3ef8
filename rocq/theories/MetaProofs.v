(** Proofs about the metadata state machine. *)
From Coq Require Import Permutation Sorted DecimalN DecimalFacts.
From Verif Require Import Prelude MetaModel MetaSpec.
From Verif Require BucketModel RateModel PrivilegeModel.
Open Scope Z_scope.

(** * Strings *)
Lemma scmp_refl a : scmp a a = Eq.
Proof. induction a as [|x a IH]; cbn; [reflexivity|]. rewrite Z.compare_refl. exact IH. Qed.
Lemma scmp_eq a b : scmp a b = Eq -> a = b.
Proof.
  revert b. induction a as [|x a IH]; intros [|y b]; cbn; try discriminate; [reflexivity|].
  destruct (x ?= y) eqn:E; try discriminate. intro H. apply Z.compare_eq in E. f_equal; auto.
Qed.
Lemma scmp_opp a b : scmp b a = CompOpp (scmp a b).
Proof.
  revert b. induction a as [|x a IH]; intros [|y b]; cbn; try reflexivity.
  rewrite (Z.compare_antisym x y). destruct (x ?= y); cbn; auto.
Qed.
Lemma scmp_trans a b c : scmp a b = Lt -> scmp b c = Lt -> scmp a c = Lt.
Proof.
  revert b c. induction a as [|x a IH]; intros [|y b] [|z c]; cbn; try discriminate; auto.
  destruct (x ?= y) eqn:E1; destruct (y ?= z) eqn:E2; try discriminate; intros H1 H2.
  - apply Z.compare_eq in E1. apply Z.compare_eq in E2. subst. rewrite Z.compare_refl. eauto.
  - apply Z.compare_eq in E1. subst. rewrite E2. reflexivity.
  - apply Z.compare_eq in E2. subst. rewrite E1. reflexivity.
  - assert (E : (x ?= z) = Lt) by (rewrite Z.compare_lt_iff in *; lia). rewrite E. reflexivity.
Qed.
Lemma seqb_eq a b : seqb a b = true <-> a = b.
Proof.
  unfold seqb. split; intro H.
  - destruct (scmp a b) eqn:E; try discriminate. now apply scmp_eq.
  - subst. now rewrite scmp_refl.
Qed.
Lemma seqb_refl a : seqb a a = true. Proof. now apply seqb_eq. Qed.
Lemma seqb_neq a b : a <> b -> seqb a b = false.
Proof. intro N. destruct (seqb a b) eqn:E; [|reflexivity]. apply seqb_eq in E. contradiction. Qed.
Lemma seqb_sym a b : seqb a b = seqb b a.
Proof. destruct (seqb a b) eqn:E.
  - apply seqb_eq in E. subst. now rewrite seqb_refl.
  - destruct (seqb b a) eqn:E2; [|reflexivity]. apply seqb_eq in E2. subst. now rewrite seqb_refl in E. Qed.

Lemma uint_str_inj a b : uint_str a = uint_str b -> a = b.
Proof. revert b. induction a; intros [| | | | | | | | | |]; cbn; intro H; try discriminate; try reflexivity; injection H as H; f_equal; auto. Qed.
Lemma show_inj a b : show a = show b -> a = b.
Proof. intro H. apply uint_str_inj in H. now apply DecimalN.Unsigned.to_uint_inj. Qed.
Lemma uint_str_no_slash u : ~ In 47 (uint_str u).
Proof. induction u; cbn; auto; intros [H|H]; try discriminate H; auto. Qed.
Lemma show_ok n : name_ok (show n).
Proof.
  split; [|apply uint_str_no_slash]. unfold show. intro H.
  assert (E : N.to_uint n = Decimal.Nil) by (destruct (N.to_uint n); [reflexivity|discriminate H..]).
  assert (X : N.of_uint (N.to_uint n) = 0%N) by now rewrite E.
  rewrite DecimalN.Unsigned.of_to in X. subst n. discriminate E.
Qed.

Lemma has_slash_false s : has_slash s = false <-> ~ In 47 s.
Proof.
  unfold has_slash. split.
  - intros H I. assert (existsb (Z.eqb 47) s = true) by (apply existsb_exists; exists 47; split; [exact I|reflexivity]). congruence.
  - intro H. destruct (existsb (Z.eqb 47) s) eqn:E; [|reflexivity]. apply existsb_exists in E. destruct E as (x & I & X).
    apply Z.eqb_eq in X. subst. contradiction.
Qed.
Lemma starts_app p r : starts p (p ++ r) = true.
Proof. induction p; cbn; [reflexivity|]. now rewrite Z.eqb_refl. Qed.
Lemma starts_inv p s : starts p s = true -> exists r, s = p ++ r.
Proof.
  revert s. induction p as [|x p IH]; intros s H; [now exists s|]. destruct s as [|y s]; [discriminate|]. cbn in H.
  apply andb_prop in H. destruct H as [E H]. apply Z.eqb_eq in E. subst y. destruct (IH _ H) as (r & ->). now exists r.
Qed.
Lemma strip_app p r : strip p (p ++ r) = Some r.
Proof. unfold strip. rewrite starts_app. rewrite skipn_app, skipn_all, Nat.sub_diag. reflexivity. Qed.
Lemma strip_inv p s r : strip p s = Some r -> s = p ++ r.
Proof.
  unfold strip. destruct (starts p s) eqn:E; [|discriminate]. destruct (starts_inv _ _ E) as (q & ->).
  rewrite skipn_app, skipn_all, Nat.sub_diag. cbn. now intros [= ->].
Qed.

(** * Paths *)
Lemma path_cons c cs : path (c :: cs) = 47 :: c ++ path cs. Proof. reflexivity. Qed.
Lemma path_app a b : path (a ++ b) = path a ++ path b. Proof. unfold path. now rewrite flat_map_app. Qed.
Lemma no_slash_split (a n X Y : str) : ~ In 47 a -> ~ In 47 n -> a ++ 47 :: X = n ++ Y ->
  (Y = [] \/ exists Z, Y = 47 :: Z) -> n = a /\ Y = 47 :: X.
Proof.
  revert n. induction a as [|x a IH]; intros n Na Nn E HY.
  - destruct n as [|y n]; cbn in E; [auto|]. injection E as E1 E2. subst y. exfalso. apply Nn. now left.
  - destruct n as [|y n]; cbn in E.
    + destruct HY as [->|(W & ->)]; [discriminate|]. injection E as E1 E2. subst x. exfalso. apply Na. now left.
    + injection E as E1 E2. subst y. destruct (IH n) as [-> ->]; auto.
      * intro I. apply Na. now right. * intro I. apply Nn. now right.
Qed.
Lemma path_head cs : path cs = [] \/ exists Z, path cs = 47 :: Z.
Proof. destruct cs; cbn; eauto. Qed.
Lemma split_path cs ks r : Forall name_ok cs -> Forall name_ok ks -> path ks = path cs ++ 47 :: r ->
  exists n ks', ks = cs ++ n :: ks' /\ r = n ++ path ks'.
Proof.
  revert ks. induction cs as [|a cs IH]; intros ks Hc Hk E.
  - destruct ks as [|n ks]; [discriminate|]. cbn in E. injection E as E. exists n, ks. auto.
  - destruct ks as [|n ks]; [discriminate|]. rewrite !path_cons in E. cbn [app] in E. injection E as E.
    inversion Hc as [|? ? [_ Ha] Hc']; subst. inversion Hk as [|? ? [_ Hn] Hk']; subst.
    assert (G : exists W, path cs ++ 47 :: r = 47 :: W) by (destruct (path_head cs) as [->|(W & ->)]; cbn; eauto).
    destruct G as (W & G). rewrite <- app_assoc, G in E. symmetry in E.
    destruct (no_slash_split a n W (path ks) Ha Hn E (path_head ks)) as [-> P].
    destruct (IH ks Hc' Hk') as (m & ks' & -> & ->); [congruence|]. exists m, ks'. auto.
Qed.
Lemma path_inj cs ks : Forall name_ok cs -> Forall name_ok ks -> path cs = path ks -> cs = ks.
Proof.
  revert ks. induction cs as [|a cs IH]; intros [|n ks] Hc Hk E; try discriminate; [reflexivity|].
  rewrite !path_cons in E. injection E as E.
  inversion Hc as [|? ? [_ Ha] Hc']; subst. inversion Hk as [|? ? [_ Hn] Hk']; subst.
  destruct (path_head cs) as [E1|(W & E1)]; destruct (path_head ks) as [E2|(V & E2)].
  - rewrite E1, E2, !app_nil_r in E. subst. f_equal. apply IH; auto. congruence.
  - rewrite E1, app_nil_r, E2 in E. subst a. exfalso. apply Ha. apply in_or_app. right. now left.
  - rewrite E2, app_nil_r, E1 in E. subst n. exfalso. apply Hn. apply in_or_app. right. now left.
  - rewrite E1 in E. destruct (no_slash_split a n W (path ks) Ha Hn E (path_head ks)) as [-> P].
    f_equal. apply IH; auto. congruence.
Qed.
Lemma dir_path cs : Forall name_ok cs -> cs <> [] -> dir (path cs) = path cs ++ [47].
Proof.
  intros H N. unfold dir. destruct (exists_last N) as (cs' & n & ->).
  apply Forall_app in H. destruct H as [_ H]. inversion H as [|? ? [N1 N2] _]; subst.
  rewrite path_app. cbn [path flat_map]. rewrite app_nil_r.
  destruct (exists_last N1) as (n' & x & ->). rewrite app_comm_cons, app_assoc, rev_app_distr. cbn [rev app].
  assert (X : x <> 47) by (intros ->; apply N2; apply in_or_app; right; now left).
  destruct x as [|p|p]; try reflexivity.
  destruct (Pos.eq_dec p 47) as [->|Q]; [contradiction X; reflexivity|].
  repeat (destruct p as [p|p|]; try reflexivity; try (now destruct Q)).
Qed.
Lemma dir_tenants c : dir (k_tenants c) = path [c; s_tenants] ++ [47].
Proof. unfold dir, k_tenants. rewrite rev_app_distr. reflexivity. Qed.
Lemma child_name_dir p cs ks n : dir p = path cs ++ [47] -> Forall name_ok cs -> Forall name_ok ks ->
  (child_name p (path ks) = Some n <-> ks = cs ++ [n]).
Proof.
  intros D Hc Hk. unfold child_name. rewrite D. split.
  - destruct (strip (path cs ++ [47]) (path ks)) as [[|x sub]|] eqn:E; try discriminate.
    destruct (has_slash (x :: sub)) eqn:S; [discriminate|]. intros [= <-].
    apply strip_inv in E. rewrite <- app_assoc in E. cbn [app] in E.
    destruct (split_path cs ks _ Hc Hk E) as (m & ks' & -> & R).
    destruct (path_head ks') as [P|(W & P)].
    + destruct ks'; [|discriminate]. rewrite P, app_nil_r in R. now subst m.
    + apply has_slash_false in S. exfalso. apply S. rewrite R, P. apply in_or_app. right. now left.
  - intros ->. apply Forall_app in Hk. destruct Hk as [_ Hk]. inversion Hk as [|? ? [N1 N2] _]; subst.
    rewrite path_app. cbn [path flat_map]. rewrite app_nil_r.
    replace (path cs ++ 47 :: n) with ((path cs ++ [47]) ++ n) by (rewrite <- app_assoc; reflexivity).
    rewrite strip_app. destruct n as [|x n]; [contradiction|]. apply has_slash_false in N2. now rewrite N2.
Qed.

(** * Ordered maps *)
Section Map.
  Context {A : Type}.
  Implicit Types m : list (str * A).
  Definition sorted m : Prop := StronglySorted (fun a b => scmp (fst a) (fst b) = Lt) m.
  Lemma get_in k v m : get k m = Some v -> In (k, v) m.
  Proof.
    induction m as [|(k', v') m IH]; cbn; [discriminate|]. destruct (seqb k k') eqn:E.
    - apply seqb_eq in E. subst. intros [= ->]. now left.
    - intro H. right. auto.
  Qed.
  Lemma in_get k v m : sorted m -> In (k, v) m -> get k m = Some v.
  Proof.
    induction m as [|(k', v') m IH]; intros S I; [contradiction|]. inversion S as [|? ? S' F]; subst. cbn.
    destruct I as [[= -> ->]|I]; [now rewrite seqb_refl|].
    rewrite Forall_forall in F. specialize (F _ I). cbn in F.
    rewrite seqb_neq; [auto|]. intros ->. rewrite scmp_refl in F. discriminate.
  Qed.
  Lemma get_none_in k m v : get k m = None -> ~ In (k, v) m.
  Proof.
    induction m as [|(k', v') m IH]; cbn; [auto|]. destruct (seqb k k') eqn:E; [discriminate|].
    intros H [[= -> ->]|I]; [now rewrite seqb_refl in E|]. now apply IH.
  Qed.
  Lemma put_in k v m x : In x (put k v m) -> x = (k, v) \/ In x m.
  Proof.
    induction m as [|(k', v') m IH]; cbn; [intuition|]. destruct (scmp k k'); cbn.
    - intros [<-|I]; auto. - intros [<-|I]; auto. - intros [<-|I]; auto. destruct (IH I); auto.
  Qed.
  Lemma put_sorted k v m : sorted m -> sorted (put k v m).
  Proof.
    induction m as [|(k', v') m IH]; intro S; cbn; [constructor; constructor|]. inversion S as [|? ? S' F]; subst.
    destruct (scmp k k') eqn:E.
    - apply scmp_eq in E. subst. constructor; auto.
    - constructor; [exact S|]. apply Forall_cons; [exact E|]. eapply Forall_impl; [|exact F].
      intros [a b] H. cbn in *. eapply scmp_trans; eauto.
    - constructor; [now apply IH|]. apply Forall_forall. intros x I. destruct (put_in _ _ _ _ I) as [->|J]; cbn.
      + rewrite scmp_opp, E. reflexivity.
      + rewrite Forall_forall in F. now apply F in J.
  Qed.
  Lemma get_put k v m k' : sorted m -> get k' (put k v m) = if seqb k' k then Some v else get k' m.
  Proof.
    induction m as [|(a, w) m IH]; intro S; cbn; [now destruct (seqb k' k)|]. inversion S as [|? ? S' F]; subst.
    destruct (scmp k a) eqn:E; cbn.
    - apply scmp_eq in E. subst. now destruct (seqb k' a).
    - reflexivity.
    - rewrite IH by auto. destruct (seqb k' a) eqn:Q; [|reflexivity].
      apply seqb_eq in Q. subst. rewrite seqb_neq; [reflexivity|]. intros ->. rewrite scmp_refl in E. discriminate.
  Qed.
  Lemma del_in k m x : In x (del k m) -> In x m.
  Proof. induction m as [|(k', v') m IH]; cbn; [auto|]. destruct (seqb k k'); cbn; [auto|]. intros [H|H]; auto. Qed.
  Lemma del_sorted k m : sorted m -> sorted (del k m).
  Proof.
    induction m as [|(k', v') m IH]; intro S; cbn; [constructor|]. inversion S as [|? ? S' F]; subst.
    destruct (seqb k k'); [exact S'|]. constructor; [now apply IH|]. apply Forall_forall. intros x I.
    rewrite Forall_forall in F. apply F. eapply del_in; eauto.
  Qed.
  Lemma get_del k m k' : sorted m -> get k' (del k m) = if seqb k' k then None else get k' m.
  Proof.
    induction m as [|(a, w) m IH]; intro S; cbn; [now destruct (seqb k' k)|]. inversion S as [|? ? S' F]; subst.
    destruct (seqb k a) eqn:E.
    - apply seqb_eq in E. subst. destruct (seqb k' a) eqn:Q; [|reflexivity]. apply seqb_eq in Q. subst.
      destruct (get a m) as [v|] eqn:G; [|reflexivity]. apply get_in in G. rewrite Forall_forall in F. apply F in G.
      cbn in G. now rewrite scmp_refl in G.
    - cbn. rewrite IH by auto. destruct (seqb k' a) eqn:Q; [|reflexivity].
      apply seqb_eq in Q. subst. rewrite seqb_sym, E. reflexivity.
  Qed.
  Lemma sorted_ext m1 m2 : sorted m1 -> sorted m2 -> (forall k, get k m1 = get k m2) -> m1 = m2.
  Proof.
    revert m2. induction m1 as [|(a, v) m1 IH]; intros [|(b, w) m2] S1 S2 H.
    - reflexivity.
    - specialize (H b). cbn in H. rewrite seqb_refl in H. discriminate.
    - specialize (H a). cbn in H. rewrite seqb_refl in H. discriminate.
    - inversion S1 as [|? ? S1' F1]; inversion S2 as [|? ? S2' F2]; subst. rewrite Forall_forall in F1, F2.
      assert (E : a = b).
      { pose proof (H a) as Ha. pose proof (H b) as Hb. cbn in Ha, Hb. rewrite seqb_refl in Ha, Hb.
        destruct (seqb a b) eqn:Q; [now apply seqb_eq in Q|]. rewrite (seqb_sym b a), Q in Hb.
        symmetry in Ha. apply get_in in Ha. apply get_in in Hb. apply F2 in Ha. apply F1 in Hb. cbn in Ha, Hb.
        rewrite scmp_opp, Hb in Ha. discriminate. }
      subst b. pose proof (H a) as Ha. cbn in Ha. rewrite seqb_refl in Ha. injection Ha as ->. f_equal.
      apply IH; auto. intro k. specialize (H k). cbn in H. destruct (seqb k a) eqn:Q; [|exact H].
      apply seqb_eq in Q. subst k.
      destruct (get a m1) eqn:G1; [apply get_in, F1 in G1; cbn in G1; now rewrite scmp_refl in G1|].
      destruct (get a m2) eqn:G2; [apply get_in, F2 in G2; cbn in G2; now rewrite scmp_refl in G2|]. reflexivity.
  Qed.
  Lemma sorted_nodup m : sorted m -> NoDup (map fst m).
  Proof.
    induction m as [|(a, v) m IH]; intro S; cbn; constructor; inversion S as [|? ? S' F]; subst; auto.
    intro I. apply in_map_iff in I. destruct I as ((b, w) & E & I). cbn in E. subst b.
    rewrite Forall_forall in F. apply F in I. cbn in I. now rewrite scmp_refl in I.
  Qed.
End Map.

(** * What a command can add *)
Definition holds (s : st) (k : str) (v : value) : Prop := In (k, v) (s_map s).
Lemma insert_in s k0 v0 k v : holds (insert s k0 v0) k v -> (k = k0 /\ v = v0) \/ holds s k v.
Proof. intro H. apply put_in in H. destruct H as [[= -> ->]|H]; auto. Qed.
Lemma remove_in s k0 k v : holds (remove s k0) k v -> holds s k v.
Proof. apply del_in. Qed.
Lemma fold_remove_in {A} (f : A -> str) l s k v : holds (fold_left (fun s x => remove s (f x)) l s) k v -> holds s k v.
Proof. revert s. induction l as [|x l IH]; cbn; [auto|]. intros s H. apply IH in H. now apply remove_in in H. Qed.
Lemma try_all_in {A} (f : st -> A -> st * reply) : (forall s x k v, holds (fst (f s x)) k v -> holds s k v) ->
  forall l s k v, holds (fst (try_all f s l)) k v -> holds s k v.
Proof.
  intros F l. induction l as [|x l IH]; cbn; [auto|]. intros s k v H. specialize (F s x). destruct (f s x) as [s1 r].
  cbn in F. destruct r; [apply F, IH, H|apply F, H|apply F, IH, H].
Qed.
Lemma with_meta_fst e s c t : fst (with_meta e s c t) = s. Proof. reflexivity. Qed.
Lemma fetch_add_map s c n : s_map (snd (fetch_add s c n)) = s_map s. Proof. reflexivity. Qed.
Lemma get_as_holds {A} (dec : value -> option A) s k a : get_as dec s k = Got a -> exists v, holds s k v /\ get k (s_map s) = Some v /\ dec v = Some a.
Proof.
  unfold get_as. destruct (get k (s_map s)) as [v|] eqn:G; [|discriminate]. destruct (dec v) eqn:D; [|discriminate].
  intros [= ->]. exists v. split; [now apply get_in|auto].
Qed.
Lemma contains_true s k : contains s k = true <-> exists v, get k (s_map s) = Some v.
Proof. unfold contains. destruct (get k (s_map s)); split; eauto; intro H; try discriminate; destruct H; discriminate. Qed.
Lemma contains_false s k : contains s k = false <-> get k (s_map s) = None.
Proof. unfold contains. destruct (get k (s_map s)); split; intro; congruence. Qed.

Definition writes (s : st) (x : cmd) (k : str) (v : value) : Prop :=
  match x with
  | CSet k0 v0 => k = k0 /\ v = v0
  | CAddNode c n => (k = k_data_node c (n_id n) /\ v = VNode n) \/ (k = k_resources_mark c /\ v = VMark (n_id n) true)
  | CMetrics c m => k = k_metric c (m_id m) /\ v = VMetrics m
  | CCreateDb c t d => k = k_db c t (d_name d) /\ v = VDb d
  | CAlterDb c t d => contains s (k_db c t (d_name d)) = true /\ k = k_db c t (d_name d) /\ v = VDb d
  | CDbHidden c t dn _ => exists d d', holds s (k_db c t dn) (VDb d) /\ d_name d' = d_name d /\ k = k_db c t dn /\ v = VDb d'
  | CCreateTable c t tb => contains s (k_db c t (tb_db tb)) = true /\ k = k_schema c t (tb_db tb) (tb_name tb) /\ v = VTable tb
  | CUpdateTable c t tb => k = k_schema c t (tb_db tb) (tb_name tb) /\ v = VTable tb
  | CCreateBucket c t d _ => contains s (k_db c t d) = true /\ exists id b, k = k_bucket c t d id /\ v = VBucket b
  | CCreateUser c u => k = k_user c (u_name u) /\ v = VUser u
  | CAlterUser c n _ => exists u u', holds s (k_user c n) (VUser u) /\ u_id u' = u_id u /\ u_name u' = n /\ k = k_user c n /\ v = VUser u'
  | CCreateTenant c t => (k = k_tenant c (t_name t) /\ v = VTenant t) \/ (exists l, k = k_limiter c (t_name t) /\ v = VLimiter l)
  | CAlterTenant c n _ | CTenantHidden c n _ => contains s (k_tenant c n) = true /\
      ((exists t', t_name t' = n /\ k = k_tenant c n /\ v = VTenant t') \/ (exists l, k = k_limiter c n /\ v = VLimiter l))
  | CAddMember c uid r t | CReasign c uid r t => k = k_member c t uid /\ v = VMember r
  | CCreateRole c r _ _ t => exists ro, ro_name ro = r /\ k = k_role c t r /\ v = VRole ro
  | CGrant c _ r t | CRevoke c _ r t => exists ro ro', holds s (k_role c t r) (VRole ro) /\ ro_name ro' = ro_name ro /\ k = k_role c t r /\ v = VRole ro'
  | CUpdateReplSet c t d bid _ _ _ | CChangeLeader c t d bid _ _ _ | CUpdateVnode c t d bid =>
      contains s (k_bucket c t d bid) = true /\ exists b, k = k_bucket c t d bid /\ v = VBucket b
  | CLimiter c t _ _ => contains s (k_limiter c t) = true /\ exists l, k = k_limiter c t /\ v = VLimiter l
  | CResource c n r => k = k_resource c n /\ v = VResource r
  | CMark c n l => k = k_resources_mark c /\ v = VMark n l
  | CWriteQuery c id q => k = k_query c id /\ v = VQuery q
  | CMoveQuery c _ _ => exists q, k = k_query c (q_id q) /\ v = VQuery q
  | _ => False
  end.

Lemma dec_user v a : as_user v = Some a -> v = VUser a. Proof. destruct v; cbn; congruence. Qed.
Lemma dec_tenant v a : as_tenant v = Some a -> v = VTenant a. Proof. destruct v; cbn; congruence. Qed.
Lemma dec_role v a : as_role v = Some a -> v = VRole a. Proof. destruct v; cbn; congruence. Qed.
Lemma dec_member v a : as_member v = Some a -> v = VMember a. Proof. destruct v; cbn; congruence. Qed.
Lemma dec_db v a : as_db v = Some a -> v = VDb a. Proof. destruct v; cbn; congruence. Qed.
Lemma dec_table v a : as_table v = Some a -> v = VTable a. Proof. destruct v; cbn; congruence. Qed.
Lemma dec_bucket v a : as_bucket v = Some a -> v = VBucket a. Proof. destruct v; cbn; congruence. Qed.
Lemma dec_node v a : as_node v = Some a -> v = VNode a. Proof. destruct v; cbn; congruence. Qed.
Lemma dec_metrics v a : as_metrics v = Some a -> v = VMetrics a. Proof. destruct v; cbn; congruence. Qed.
Lemma dec_query v a : as_query v = Some a -> v = VQuery a. Proof. destruct v; cbn; congruence. Qed.

Lemma write_mark_in s c n l k v : holds (fst (process_write_mark s c n l)) k v -> (k = k_resources_mark c /\ v = VMark n l) \/ holds s k v.
Proof.
  unfold process_write_mark. destruct (read_mark s c) as [[o ol]|]; [|auto]. destruct (_ || _); [auto|]. apply insert_in.
Qed.
Lemma set_limiter_in s c t l k v : holds (set_limiter s c t l) k v -> (exists l, k = k_limiter c t /\ v = VLimiter l) \/ holds s k v.
Proof. destruct l as [l|]; cbn; intro H; [apply insert_in in H; destruct H as [[-> ->]|H]; eauto|apply remove_in in H; auto]. Qed.
Lemma remove_member_in s c uid t k v : holds (fst (process_remove_member s c uid t)) k v -> holds s k v.
Proof. unfold process_remove_member. destruct (contains _ _); [apply remove_in|auto]. Qed.
Lemma drop_role_in s c r t k v : holds (fst (process_drop_role s c r t)) k v -> holds s k v.
Proof. unfold process_drop_role. destruct (contains _ _); [apply remove_in|auto]. Qed.
Lemma drop_tenant_in e s c n k v : holds (fst (process_drop_tenant e s c n)) k v -> holds s k v.
Proof.
  unfold process_drop_tenant. destruct (read_members e s c n) as [ms|]; [|auto]. destruct (read_users e s c) as [us|]; [|auto].
  match goal with |- context [try_all ?f s ?l] => pose proof (try_all_in f (fun s x k v => remove_member_in s c (u_id x) n k v) l s) as T1;
    destruct (try_all f s l) as [s1 r1] end. cbn in T1.
  assert (G : forall k v, holds (fst (match read_roles e s1 c n with
       | Some rs => match try_all (fun s r => process_drop_role s c (ro_name r) n) s1 rs with
                    | (s2, Refused) => (s2, Refused)
                    | (s2, _) => (remove (remove s2 (k_tenant c n)) (k_limiter c n), Done) end
       | None => (s1, Refused) end)) k v -> holds s k v).
  { intros k0 v0. destruct (read_roles e s1 c n) as [rs|]; [|apply T1].
    match goal with |- context [try_all ?f s1 ?l] => pose proof (try_all_in f (fun s x k v => drop_role_in s c (ro_name x) n k v) l s1) as T2;
      destruct (try_all f s1 l) as [s2 r2] end. cbn in T2.
    destruct r2; cbn [fst]; intro H; apply T1, T2; auto; apply remove_in in H; now apply remove_in in H. }
  destruct r1; [apply G|apply T1|apply G].
Qed.

Lemma step_in e s x k v : holds (fst (step e s x)) k v -> holds s k v \/ writes s x k v.
Proof.
  destruct x; cbn [step writes].
  - intro H. apply insert_in in H. tauto.
  - unfold process_add_node. destruct (children_values _ _ _ _ _); [|auto]. destruct (existsb _ _); [auto|]. cbn [fst].
    intro H. apply write_mark_in in H. destruct H as [H|H]; [tauto|]. apply insert_in in H. tauto.
  - intro H. apply insert_in in H. tauto.
  - unfold process_create_db. destruct (contains _ _); [auto|]. destruct (db_schema_valid _ _ _ _); [|auto].
    rewrite with_meta_fst. intro H. apply insert_in in H. tauto.
  - unfold process_alter_db. destruct (contains s (k_db c t (d_name d))) eqn:G; [|auto]. destruct (db_schema_valid _ _ _ _); [|auto]. cbn [negb].
    rewrite with_meta_fst. intro H. apply insert_in in H. tauto.
  - unfold process_db_hidden. destruct (get_as as_db s (k_db c t d)) as [| |a] eqn:G; auto. rewrite with_meta_fst.
    apply get_as_holds in G. destruct G as (w & G & _ & D). apply dec_db in D. subst w. intro H. apply insert_in in H.
    destruct H as [[-> ->]|H]; [|auto]. right. eexists _, _. split; [exact G|]. split; [|split; reflexivity]. reflexivity.
  - unfold process_drop_db. cbn [fst]. intro H. left. apply (fold_remove_in (fun k => k)) in H.
    apply (fold_remove_in (fun k => k)) in H. now apply remove_in in H.
  - unfold process_drop_table. destruct (contains _ _); [|auto]. cbn [fst]. intro H. apply remove_in in H. auto.
  - unfold process_create_table. destruct (contains s (k_db c t (tb_db tb))); [|auto]. cbn [negb]. destruct (contains _ _); [auto|].
    rewrite with_meta_fst. intro H. apply insert_in in H. tauto.
  - unfold process_update_table. destruct (get_as as_table _ _) as [| |a].
    + intro H. apply insert_in in H. tauto.
    + auto.
    + destruct (_ && _); [|auto]. destruct (_ =? _); [|auto]. intro H. apply insert_in in H. tauto.
  - unfold process_create_bucket. destruct (children_values _ _ _ _ _) as [bs|]; [|auto]. destruct (existsb _ _); [auto|].
    destruct (get_as as_db s (k_db c t d)) as [| |a] eqn:G; auto. apply get_as_holds in G. destruct G as (w & _ & G & _).
    destruct (valid_nodes e s c) as [ns|]; [|auto]. destruct (negb _); [auto|]. destruct (_ =? 0); [auto|]. destruct (_ <? _); [auto|].
    destruct (fetch_add s c 1) as [id s1] eqn:F. destruct (BucketModel.get_time_range _ _) as [b0 e0].
    assert (M : s_map s1 = s_map s) by (change s1 with (snd (id, s1)); rewrite <- F; apply fetch_add_map).
    destruct (BucketModel.allocation_replication_set _ _ _ _) as [[g used]|].
    + rewrite with_meta_fst. intro H. apply insert_in in H. destruct H as [[-> ->]|H].
      * right. split; [apply contains_true; eauto|eauto].
      * left. unfold holds in *. rewrite fetch_add_map, M in H. exact H.
    + cbn. unfold holds. rewrite M. auto.
  - intro H. apply remove_in in H. auto.
  - unfold process_create_user. destruct (contains _ _); [auto|]. intro H. apply insert_in in H. tauto.
  - unfold process_alter_user. destruct (get_as as_user s (k_user c n)) as [| |a] eqn:G; auto.
    apply get_as_holds in G. destruct G as (w & G & _ & D). apply dec_user in D. subst w. intro H. apply insert_in in H.
    destruct H as [[-> ->]|H]; [|auto]. right. eexists _, _. split; [exact G|]. split; [|split; [|split; reflexivity]]; reflexivity.
  - auto.
  - unfold process_drop_user. destruct (get_as as_user s (k_user c n)); auto. destruct (children_values _ _ _ _ _); auto.
    cbn [fst]. intro H. apply remove_in in H.
    apply (fold_remove_in (fun t => k_member (t_name t) (t_name t) (u_id a))) in H. auto.
  - unfold process_create_tenant. destruct (contains _ _); [auto|]. intro H. apply insert_in in H. destruct H as [H|H]; [tauto|].
    apply set_limiter_in in H. tauto.
  - unfold process_alter_tenant. destruct (get_as as_tenant s (k_tenant c n)) as [| |a] eqn:G; auto.
    apply get_as_holds in G. destruct G as (w & _ & G & _).
    destruct (t_hidden a); [auto|]. intro H. apply set_limiter_in in H. destruct H as [(l & H)|H].
    + right. split; [apply contains_true; eauto|]. right. eauto.
    + apply insert_in in H. destruct H as [[-> ->]|H]; [|auto]. right. split; [apply contains_true; eauto|]. left. eexists. split; [|split; reflexivity]. reflexivity.
  - unfold process_tenant_hidden. destruct (get_as as_tenant s (k_tenant c n)) as [| |a] eqn:G; auto.
    apply get_as_holds in G. destruct G as (w & _ & G & _).
    intro H. apply set_limiter_in in H. destruct H as [(l & H)|H].
    + right. split; [apply contains_true; eauto|]. right. eauto.
    + apply insert_in in H. destruct H as [[-> ->]|H]; [|auto]. right. split; [apply contains_true; eauto|]. left. eexists. split; [|split; reflexivity]. reflexivity.
  - auto.
  - intro H. left. eapply drop_tenant_in; eauto.
  - unfold process_add_member. destruct (contains _ _); [auto|]. destruct (role_known _ _ _ _); [|auto]. intro H. apply insert_in in H. tauto.
  - intro H. apply remove_member_in in H. auto.
  - unfold process_reasign. destruct (contains _ _); [|auto]. destruct (role_known _ _ _ _); [|auto]. intro H. apply insert_in in H. tauto.
  - unfold process_create_role. destruct (contains _ _); [auto|]. intro H. apply insert_in in H. destruct H as [[-> ->]|H]; [|auto].
    right. eexists. split; [|split; reflexivity]. reflexivity.
  - intro H. apply drop_role_in in H. auto.
  - unfold process_grant. destruct (get_as as_role s (k_role c t r)) as [| |a] eqn:G; auto.
    apply get_as_holds in G. destruct G as (w & G & _ & D). apply dec_role in D. subst w.
    destruct (grant_all _ _ _ _ _); [|auto]. intro H. apply insert_in in H. destruct H as [[-> ->]|H]; [|auto].
    right. eexists _, _. split; [exact G|]. split; [|split; reflexivity]. reflexivity.
  - unfold process_revoke. destruct (get_as as_role s (k_role c t r)) as [| |a] eqn:G; auto.
    apply get_as_holds in G. destruct G as (w & G & _ & D). apply dec_role in D. subst w.
    destruct (revoke_all _ _); [|auto]. intro H. apply insert_in in H. destruct H as [[-> ->]|H]; [|auto].
    right. eexists _, _. split; [exact G|]. split; [|split; reflexivity]. reflexivity.
  - auto.
  - unfold process_update_repl_set. destruct (get_as as_bucket _ _) as [| |a] eqn:G; auto. apply get_as_holds in G. destruct G as (w & _ & G & _).
    cbn [fst]. match goal with |- context [match ?l with [] => _ | _ :: _ => _ end] => destruct l end; intro H.
    + apply remove_in in H. auto.
    + apply insert_in in H. destruct H as [[-> ->]|H]; [|auto]. right. split; [apply contains_true; eauto|eauto].
  - unfold process_change_leader. destruct (get_as as_bucket _ _) as [| |a] eqn:G; auto. apply get_as_holds in G. destruct G as (w & _ & G & _).
    intro H. apply insert_in in H. destruct H as [[-> ->]|H]; [|auto]. right. split; [apply contains_true; eauto|eauto].
  - unfold process_update_vnode. destruct (get_as as_bucket _ _) as [| |a] eqn:G; auto. apply get_as_holds in G. destruct G as (w & _ & G & _).
    intro H. apply insert_in in H. destruct H as [[-> ->]|H]; [|auto]. right. split; [apply contains_true; eauto|eauto].
  - unfold process_limiter. destruct (get_as as_limiter _ _) as [| |a] eqn:G; auto. apply get_as_holds in G. destruct G as (w & _ & G & _).
    destruct (get kind a); [|auto]. destruct (RateModel.acquire_closed _ _ _). cbn [fst]. intro H. apply set_limiter_in in H.
    destruct H as [H|H]; [|auto]. right. split; [apply contains_true; eauto|eauto].
  - intro H. apply insert_in in H. tauto.
  - intro H. apply write_mark_in in H. tauto.
  - intro H. apply insert_in in H. tauto.
  - intro H. apply remove_in in H. auto.
  - unfold process_move_query. destruct (children_values _ _ _ _ _) as [qs|]; [|auto]. cbn [fst].
    generalize (filter (fun q => (q_node q =? src)%N) qs). intro l. revert s. induction l as [|q l IH]; cbn; [auto|]. intros s H.
    apply IH in H. destruct H as [H|H]; [|auto]. apply insert_in in H. destruct H as [[-> ->]|H]; [|auto]. right. exists (QU (q_id q) dst (q_rest q)). auto.
Qed.

(** * The invariant of a store *)
Definition srt (s : st) : Prop := sorted (s_map s).
Lemma insert_srt s k v : srt s -> srt (insert s k v). Proof. apply put_sorted. Qed.
Lemma remove_srt s k : srt s -> srt (remove s k). Proof. apply del_sorted. Qed.
Lemma fold_remove_srt {A} (f : A -> str) l : forall s, srt s -> srt (fold_left (fun s x => remove s (f x)) l s).
Proof. induction l as [|x l IH]; cbn; auto. intros s H. apply IH, remove_srt, H. Qed.
Lemma fold_insert_srt {A} (f : A -> str) (g : A -> value) l : forall s, srt s -> srt (fold_left (fun s x => insert s (f x) (g x)) l s).
Proof. induction l as [|x l IH]; cbn; auto. intros s H. apply IH, insert_srt, H. Qed.
Lemma try_all_srt {A} (f : st -> A -> st * reply) : (forall s x, srt s -> srt (fst (f s x))) -> forall l s, srt s -> srt (fst (try_all f s l)).
Proof.
  intros F l. induction l as [|x l IH]; cbn; [auto|]. intros s H. specialize (F s x H). destruct (f s x) as [s1 []]; cbn in F; auto.
Qed.
Lemma fetch_add_srt s c n : srt s -> srt (snd (fetch_add s c n)). Proof. exact (fun H => H). Qed.
Lemma set_limiter_srt s c t l : srt s -> srt (set_limiter s c t l).
Proof. destruct l; cbn; [apply insert_srt|apply remove_srt]. Qed.
Lemma write_mark_srt s c n l : srt s -> srt (fst (process_write_mark s c n l)).
Proof. intro H. unfold process_write_mark. destruct (read_mark s c) as [[]|]; [|exact H]. destruct (_ || _); [exact H|]. now apply insert_srt. Qed.
Lemma remove_member_srt s c uid t : srt s -> srt (fst (process_remove_member s c uid t)).
Proof. intro H. unfold process_remove_member. destruct (contains _ _); [now apply remove_srt|exact H]. Qed.
Lemma drop_role_srt s c r t : srt s -> srt (fst (process_drop_role s c r t)).
Proof. intro H. unfold process_drop_role. destruct (contains _ _); [now apply remove_srt|exact H]. Qed.
Lemma drop_tenant_srt e s c n : srt s -> srt (fst (process_drop_tenant e s c n)).
Proof.
  intro H. unfold process_drop_tenant. destruct (read_members e s c n) as [ms|]; [|auto]. destruct (read_users e s c) as [us|]; [|auto].
  match goal with |- context [try_all ?f s ?l] => pose proof (try_all_srt f (fun s x => remove_member_srt s c (u_id x) n) l s H) as T1;
    destruct (try_all f s l) as [s1 r1] end. cbn in T1.
  assert (G : srt (fst (match read_roles e s1 c n with
       | Some rs => match try_all (fun s r => process_drop_role s c (ro_name r) n) s1 rs with
                    | (s2, Refused) => (s2, Refused)
                    | (s2, _) => (remove (remove s2 (k_tenant c n)) (k_limiter c n), Done) end
       | None => (s1, Refused) end))).
  { destruct (read_roles e s1 c n) as [rs|]; [|apply T1].
    match goal with |- context [try_all ?f s1 ?l] => pose proof (try_all_srt f (fun s x => drop_role_srt s c (ro_name x) n) l s1 T1) as T2;
      destruct (try_all f s1 l) as [s2 r2] end. cbn in T2.
    destruct r2; cbn [fst]; auto using remove_srt. }
  destruct r1; [apply G|apply T1|apply G].
Qed.
Lemma step_srt e s x : srt s -> srt (fst (step e s x)).
Proof.
  intro H. destruct x; cbn [step]; try (exact H); try (apply insert_srt, H); try (apply remove_srt, H);
    try (apply drop_tenant_srt, H); try (apply remove_member_srt, H); try (apply drop_role_srt, H); try (apply write_mark_srt, H).
  - unfold process_add_node. destruct (children_values _ _ _ _ _); [|auto]. destruct (existsb _ _); [auto|]. cbn [fst].
    apply write_mark_srt, insert_srt, H.
  - unfold process_create_db. destruct (contains _ _); [auto|]. destruct (db_schema_valid _ _ _ _); [|auto].
    rewrite with_meta_fst. apply insert_srt, H.
  - unfold process_alter_db. destruct (contains _ _); [|auto]. destruct (db_schema_valid _ _ _ _); [|auto]. cbn [negb].
    rewrite with_meta_fst. apply insert_srt, H.
  - unfold process_db_hidden. destruct (get_as _ _ _); auto. rewrite with_meta_fst. apply insert_srt, H.
  - unfold process_drop_db. cbn [fst]. apply (fold_remove_srt (fun k => k)). apply (fold_remove_srt (fun k => k)). apply remove_srt, H.
  - unfold process_drop_table. destruct (contains _ _); [|auto]. apply remove_srt, H.
  - unfold process_create_table. destruct (contains s (k_db c t (tb_db tb))); [|auto]. cbn [negb]. destruct (contains _ _); [auto|].
    rewrite with_meta_fst. apply insert_srt, H.
  - unfold process_update_table. destruct (get_as as_table _ _) as [| |a]; [apply insert_srt, H|exact H|].
    destruct (_ && _); [|auto]. destruct (_ =? _); [|auto]. apply insert_srt, H.
  - unfold process_create_bucket. destruct (children_values _ _ _ _ _) as [bs|]; [|auto]. destruct (existsb _ _); [auto|].
    destruct (get_as as_db s (k_db c t d)) as [| |a] eqn:G; auto.
    destruct (valid_nodes e s c) as [ns|]; [|auto]. destruct (negb _); [auto|]. destruct (_ =? 0); [auto|]. destruct (_ <? _); [auto|].
    destruct (fetch_add s c 1) as [id s1] eqn:F. destruct (BucketModel.get_time_range _ _) as [b0 e0].
    assert (M : srt s1) by (change s1 with (snd (id, s1)); rewrite <- F; apply H).
    destruct (BucketModel.allocation_replication_set _ _ _ _) as [[g used]|]; [|exact M].
    rewrite with_meta_fst. apply insert_srt, fetch_add_srt, M.
  - unfold process_create_user. destruct (contains _ _); [auto|]. apply insert_srt, H.
  - unfold process_alter_user. destruct (get_as _ _ _); auto. apply insert_srt, H.
  - unfold process_drop_user. destruct (get_as as_user s (k_user c n)); auto. destruct (children_values _ _ _ _ _); auto.
    cbn [fst]. apply remove_srt. apply (fold_remove_srt (fun t => k_member (t_name t) (t_name t) (u_id a))), H.
  - unfold process_create_tenant. destruct (contains _ _); [auto|]. apply insert_srt, set_limiter_srt, H.
  - unfold process_alter_tenant. destruct (get_as _ _ _); auto. destruct (t_hidden _); [auto|]. apply set_limiter_srt, insert_srt, H.
  - unfold process_tenant_hidden. destruct (get_as _ _ _); auto. apply set_limiter_srt, insert_srt, H.
  - unfold process_add_member. destruct (contains _ _); [auto|]. destruct (role_known _ _ _ _); [|auto]. apply insert_srt, H.
  - unfold process_reasign. destruct (contains _ _); [|auto]. destruct (role_known _ _ _ _); [|auto]. apply insert_srt, H.
  - unfold process_create_role. destruct (contains _ _); [auto|]. apply insert_srt, H.
  - unfold process_grant. destruct (get_as _ _ _); auto. destruct (grant_all _ _ _ _ _); [|auto]. apply insert_srt, H.
  - unfold process_revoke. destruct (get_as _ _ _); auto. destruct (revoke_all _ _); [|auto]. apply insert_srt, H.
  - unfold process_update_repl_set. destruct (get_as _ _ _); auto. cbn [fst].
    match goal with |- context [match ?l with [] => _ | _ :: _ => _ end] => destruct l end; [apply remove_srt, H|apply insert_srt, H].
  - unfold process_change_leader. destruct (get_as _ _ _); auto. apply insert_srt, H.
  - unfold process_update_vnode. destruct (get_as _ _ _); auto. apply insert_srt, H.
  - unfold process_limiter. destruct (get_as as_limiter _ _) as [| |a]; auto. destruct (get kind a); [|auto].
    destruct (RateModel.acquire_closed _ _ _). apply set_limiter_srt, H.
  - unfold process_move_query. destruct (children_values _ _ _ _ _) as [qs|]; [|auto]. cbn [fst].
    apply (fold_insert_srt (fun q => k_query c (q_id q)) (fun q => VQuery (QU (q_id q) dst (q_rest q)))), H.
Qed.

Definition legal (k : str) (v : value) : Prop := exists cs, k = path cs /\ Forall name_ok cs /\ entry_ok cs v.
Definition wf (s : st) : Prop := srt s /\ forall k v, holds s k v -> legal k v.

Ltac ok_const := split; [discriminate|cbn; intros Hin; repeat (destruct Hin as [Hin|Hin]; [discriminate Hin|]); exact Hin].
Lemma users_ok : name_ok s_users. Proof. ok_const. Qed.
Lemma tenants_ok : name_ok s_tenants. Proof. ok_const. Qed.
Lemma roles_ok : name_ok s_roles. Proof. ok_const. Qed.
Lemma members_ok : name_ok s_members. Proof. ok_const. Qed.
Lemma limiter_ok : name_ok s_limiter. Proof. ok_const. Qed.
Lemma dbs_ok : name_ok s_dbs. Proof. ok_const. Qed.
Lemma buckets_ok : name_ok s_buckets. Proof. ok_const. Qed.
Lemma schemas_ok : name_ok s_schemas. Proof. ok_const. Qed.
Lemma data_nodes_ok : name_ok s_data_nodes. Proof. ok_const. Qed.
Lemma data_nodes_metrics_ok : name_ok s_data_nodes_metrics. Proof. ok_const. Qed.
Lemma resourceinfos_ok : name_ok s_resourceinfos. Proof. ok_const. Qed.
Lemma resourceinfosmark_ok : name_ok s_resourceinfosmark. Proof. ok_const. Qed.
Lemma queries_ok : name_ok s_queries. Proof. ok_const. Qed.
Global Hint Resolve users_ok tenants_ok roles_ok members_ok limiter_ok dbs_ok buckets_ok schemas_ok data_nodes_ok
  data_nodes_metrics_ok resourceinfos_ok resourceinfosmark_ok queries_ok show_ok : nm.
Global Hint Constructors Forall : nm.
Arguments path : simpl never.

(** The keys of the commands, as component lists. *)
Lemma legal_path cs v : Forall name_ok cs -> legal (path cs) v -> entry_ok cs v.
Proof. intros H (cs' & E & H' & O). apply path_inj in E; auto. now subst. Qed.

Lemma writes_legal s x k v : wf s -> cmd_ok x -> writes s x k v -> legal k v.
Proof.
  intros [S W] O H. destruct x; cbn [writes cmd_ok] in *; try contradiction;
    repeat match goal with O : _ /\ _ |- _ => destruct O end;
    try (subst; eexists; split; [reflexivity|split; [auto 10 with nm|constructor]]; fail).
  - subst. destruct O as (cs & -> & ? & ?). exists cs. auto.
  - destruct H as [[-> ->]|[-> ->]]; eexists; split; try reflexivity; (split; [auto 10 with nm|constructor]).
  - destruct H as (d0 & d' & G & N & -> & ->). apply W in G. apply legal_path in G; [|auto 10 with nm].
    inversion G; subst. eexists. split; [reflexivity|]. split; [auto 10 with nm|]. rewrite <- N. constructor.
  - subst. eexists. split; [reflexivity|]. split; [auto 10 with nm|]. now constructor.
  - subst. eexists. split; [reflexivity|]. split; [auto 10 with nm|]. now constructor.
  - match goal with H : exists _ _, _ |- _ => destruct H as (id & b & -> & ->) end.
    eexists. split; [reflexivity|]. split; [auto 10 with nm|]. constructor.
  - destruct H as (u & u' & G & I & <- & -> & ->). eexists. split; [reflexivity|]. split; [auto 10 with nm|]. constructor.
  - destruct H as [[-> ->]|(l & -> & ->)]; eexists; split; try reflexivity; (split; [auto 10 with nm|constructor]).
  - match goal with H : _ \/ _ |- _ => destruct H as [(t' & <- & -> & ->)|(l & -> & ->)] end;
      eexists; split; try reflexivity; (split; [auto 10 with nm|constructor]).
  - match goal with H : _ \/ _ |- _ => destruct H as [(t' & <- & -> & ->)|(l & -> & ->)] end;
      eexists; split; try reflexivity; (split; [auto 10 with nm|constructor]).
  - destruct H as (ro & <- & -> & ->). eexists. split; [reflexivity|]. split; [auto 10 with nm|]. constructor.
  - destruct H as (ro & ro' & G & N & -> & ->). apply W in G. apply legal_path in G; [|auto 10 with nm].
    inversion G; subst. eexists. split; [reflexivity|]. split; [auto 10 with nm|]. rewrite <- N. constructor.
  - destruct H as (ro & ro' & G & N & -> & ->). apply W in G. apply legal_path in G; [|auto 10 with nm].
    inversion G; subst. eexists. split; [reflexivity|]. split; [auto 10 with nm|]. rewrite <- N. constructor.
  - match goal with H : exists _, _ |- _ => destruct H as (b & -> & ->) end.
    eexists. split; [reflexivity|]. split; [auto 10 with nm|]. constructor.
  - match goal with H : exists _, _ |- _ => destruct H as (b & -> & ->) end.
    eexists. split; [reflexivity|]. split; [auto 10 with nm|]. constructor.
  - match goal with H : exists _, _ |- _ => destruct H as (b & -> & ->) end.
    eexists. split; [reflexivity|]. split; [auto 10 with nm|]. constructor.
  - match goal with H : exists _, _ |- _ => destruct H as (b & -> & ->) end.
    eexists. split; [reflexivity|]. split; [auto 10 with nm|]. constructor.
  - destruct H as (q & -> & ->). eexists. split; [reflexivity|]. split; [auto 10 with nm|]. constructor.
Qed.
Lemma step_wf e s x : wf s -> cmd_ok x -> wf (fst (step e s x)).
Proof.
  intros [S W] O. split; [now apply step_srt|]. intros k v H. apply step_in in H. destruct H as [H|H]; [auto|].
  eapply writes_legal; eauto. split; assumption.
Qed.
Lemma run_wf h : forall s, wf s -> Forall (fun ex => env_ok (fst ex) /\ cmd_ok (snd ex)) h -> wf (run s h).
Proof.
  induction h as [|(e, x) h IH]; cbn; intros s W F; [exact W|]. inversion F as [|? ? [_ O] F']; subst.
  apply IH; [now apply step_wf|exact F'].
Qed.
Lemma wf0 : wf st0. Proof. split; [constructor|]. intros k v []. Qed.

(** * Traces below a path *)
Definition under (p k : str) : Prop := k = p \/ exists r, k = p ++ 47 :: r.
Lemma under_path cs ks : Forall name_ok cs -> Forall name_ok ks -> under (path cs) (path ks) -> exists rest, ks = cs ++ rest.
Proof.
  intros Hc Hk [E|(r & E)].
  - apply path_inj in E; auto. exists []. now rewrite app_nil_r.
  - destruct (split_path cs ks r Hc Hk E) as (n & ks' & -> & _). eauto.
Qed.
Lemma path_under cs rest : under (path cs) (path (cs ++ rest)).
Proof.
  destruct rest as [|n rest]; [left; now rewrite app_nil_r|]. right. exists (n ++ path rest). rewrite path_app. reflexivity.
Qed.
Lemma no_trace_under s p : no_trace s p <-> forall k v, holds s k v -> ~ under p k.
Proof.
  split.
  - intros H k v I [->|(r & ->)]; destruct (H _ _ I) as [A B]; [now apply A|now apply (B r)].
  - intros H k v I. split; [intros ->|intros r ->]; apply (H _ _ I); [now left|right; eauto].
Qed.
Lemma holds_remove s k0 k v : srt s -> (holds (remove s k0) k v <-> holds s k v /\ k <> k0).
Proof.
  intro S. split.
  - intro H. split; [now apply remove_in in H|]. intros ->. apply in_get in H; [|now apply remove_srt]. unfold remove in H. cbn in H.
    rewrite get_del, seqb_refl in H by exact S. discriminate.
  - intros [H N]. apply get_in. unfold remove. cbn. rewrite get_del by exact S. rewrite seqb_neq by exact N. now apply in_get.
Qed.
Lemma holds_fold_remove ks : forall s k v, srt s -> (holds (fold_left remove ks s) k v <-> holds s k v /\ ~ In k ks).
Proof.
  induction ks as [|x ks IH]; cbn; intros s k v S; [intuition|]. rewrite IH by now apply remove_srt. rewrite holds_remove by exact S.
  intuition.
Qed.
Lemma fullpath_in s p k : In k (children_fullpath s p) <-> (exists v, holds s k v) /\ child_name p k <> None.
Proof.
  unfold children_fullpath. rewrite in_map_iff. split.
  - intros ((k', v) & E & I). cbn in E. subst k'. apply filter_In in I. destruct I as [I C]. cbn in C. split; [eauto|].
    destruct (child_name p k); [discriminate|discriminate].
  - intros ((v & H) & C). exists (k, v). split; [reflexivity|]. apply filter_In. split; [exact H|]. cbn. now destruct (child_name p k).
Qed.
Lemma app_len5 {A} (a b c d e : A) l : [a; b; c; d; e] ++ l = a :: b :: c :: d :: e :: l. Proof. reflexivity. Qed.

Lemma drop_db_trace s c t d : wf s -> name_ok c -> name_ok t -> name_ok d -> no_trace (fst (process_drop_db s c t d)) (k_db c t d).
Proof.
  intros [S W] Oc Ot Od. apply no_trace_under. intros k v H U. unfold process_drop_db in H. cbn [fst] in H.
  set (s1 := remove s (k_db c t d)) in *. assert (S1 : srt s1) by now apply remove_srt.
  set (s2 := fold_left remove (children_fullpath s1 (k_buckets c t d)) s1) in *.
  assert (S2 : srt s2) by (apply (fold_remove_srt (fun k => k)), S1).
  rewrite holds_fold_remove in H by exact S2. destruct H as [H2 N2]. pose proof H2 as H2'. unfold s2 in H2'.
  rewrite holds_fold_remove in H2' by exact S1. destruct H2' as [H1 N1]. pose proof H1 as H1'. unfold s1 in H1'. rewrite holds_remove in H1' by exact S.
  destruct H1' as [H N0]. destruct (W _ _ H) as (cs & -> & Hcs & E). unfold k_db in U.
  apply under_path in U; [|auto 10 with nm|exact Hcs]. destruct U as (rest & ->). rewrite app_len5 in *.
  inversion E; subst; try discriminate.
  - apply N0. reflexivity.
  - apply N1. apply fullpath_in. split; [eauto|].
    assert (X : child_name (k_buckets c t d) (path [c; s_tenants; t; s_dbs; d; s_buckets; show id]) = Some (show id)).
    { apply (child_name_dir _ [c; s_tenants; t; s_dbs; d; s_buckets]); auto 10 with nm. apply dir_path; [auto 10 with nm|discriminate]. }
    rewrite X. discriminate.
  - apply N2. apply fullpath_in. split; [eauto|].
    assert (X : child_name (k_schemas c t (tb_db tb)) (path [c; s_tenants; t; s_dbs; tb_db tb; s_schemas; tb_name tb]) = Some (tb_name tb)).
    { apply (child_name_dir _ [c; s_tenants; t; s_dbs; tb_db tb; s_schemas]); auto 10 with nm. apply dir_path; [auto 10 with nm|discriminate]. }
    rewrite X. discriminate.
Qed.

Lemma contains_holds s k : contains s k = true -> exists v, holds s k v.
Proof. rewrite contains_true. intros (v & G). exists v. now apply get_in. Qed.
Lemma no_trace_contains s p k : no_trace s p -> under p k -> contains s k = true -> False.
Proof. rewrite no_trace_under. intros N U C. apply contains_holds in C. destruct C as (v & H). exact (N _ _ H U). Qed.

Lemma no_trace_step e s x c t d : wf s -> cmd_ok x -> name_ok c -> name_ok t -> name_ok d -> ~ may_recreate c t d x ->
  no_trace s (k_db c t d) -> no_trace (fst (step e s x)) (k_db c t d).
Proof.
  intros W O Oc Ot Od M N. pose proof (step_wf e s x W O) as W'. pose proof N as N'. rewrite no_trace_under in N. apply no_trace_under. intros k v H U.
  destruct (step_in _ _ _ _ _ H) as [G|G]; [exact (N _ _ G U)|].
  apply W' in H. destruct H as (cs & E & Hcs & EO). subst k. unfold k_db in U.
  apply under_path in U; [|auto 10 with nm|exact Hcs]. destruct U as (rest & ->).
  assert (U0 : under (k_db c t d) (path ([c; s_tenants; t; s_dbs; d] ++ rest))) by apply path_under.
  rewrite app_len5 in *.
  assert (PI : forall ks, Forall name_ok ks -> path (c :: s_tenants :: t :: s_dbs :: d :: rest) = path ks -> c :: s_tenants :: t :: s_dbs :: d :: rest = ks)
    by (intros; apply path_inj; auto).
  destruct x; cbn [writes cmd_ok may_recreate] in *; try contradiction;
    repeat match goal with O : _ /\ _ |- _ => destruct O end;
    repeat match goal with H : exists _, _ |- _ => destruct H | H : _ /\ _ |- _ => destruct H | H : _ \/ _ |- _ => destruct H end;
    match goal with H : path (_ :: _) = _ |- _ => pose proof H as PE; apply PI in PE; [|now auto 10 with nm] end;
    try discriminate; injection PE as ? ? ?; subst;
    try (now apply M);
    try (eapply (no_trace_contains _ _ _ N'); [|eassumption]; first [now left | eapply path_under | idtac]; fail).
  - exact (N _ _ H2 (or_introl eq_refl)).
  - eapply no_trace_contains; [exact N'|exact U0|assumption].
  - eapply no_trace_contains; [exact N'|exact U0|assumption].
  - eapply no_trace_contains; [exact N'|exact U0|assumption].
Qed.
Lemma no_trace_run c t d : name_ok c -> name_ok t -> name_ok d -> forall h s, wf s ->
  Forall (fun ex => env_ok (fst ex) /\ cmd_ok (snd ex)) h -> Forall (fun ex => ~ may_recreate c t d (snd ex)) h ->
  no_trace s (k_db c t d) -> no_trace (run s h) (k_db c t d).
Proof.
  intros Oc Ot Od h. induction h as [|(e, x) h IH]; cbn; intros s W F G N; [exact N|].
  inversion F as [|? ? [_ O] F']; subst. inversion G as [|? ? M G']; subst. cbn in *.
  apply IH; auto. - now apply step_wf. - now apply no_trace_step.
Qed.

(** * Reading a directory *)
Lemma children_in_spec p m n v : In (n, v) (children_in p m) <-> exists k, In (k, v) m /\ child_name p k = Some n.
Proof.
  induction m as [|(k, w) m IH]; cbn.
  - split; [intros []|intros (k & [] & _)].
  - destruct (child_name p k) as [n'|] eqn:C; cbn; rewrite IH; split.
    + intros [[= -> ->]|(k' & I & X)]; eauto.
    + intros (k' & [[= -> ->]|I] & X); [left; congruence|right; eauto].
    + intros (k' & I & X); eauto.
    + intros (k' & [[= -> ->]|I] & X); [congruence|eauto].
Qed.
Lemma child_name_key p k n : child_name p k = Some n -> k = dir p ++ n.
Proof.
  unfold child_name. destruct (strip (dir p) k) as [[|x l]|] eqn:E; try discriminate. destruct (has_slash _); [discriminate|].
  intros [= <-]. now apply strip_inv in E.
Qed.
Lemma children_nodup p m : NoDup (map fst m) -> NoDup (map fst (children_in p m)).
Proof.
  induction m as [|(k, w) m IH]; cbn; intro H; [constructor|]. inversion H as [|? ? N H']; subst.
  destruct (child_name p k) as [n|] eqn:C; [|auto]. cbn. constructor; [|auto]. intro I. apply in_map_iff in I.
  destruct I as ((n', v') & E & I). cbn in E. subst n'. apply children_in_spec in I. destruct I as (k' & I & C').
  apply child_name_key in C, C'. apply N. apply in_map_iff. exists (k', v'). cbn. split; [congruence|exact I].
Qed.
Lemma decode_spec {A} (dec : value -> option A) l : (forall n v, In (n, v) l -> exists a, dec v = Some a) ->
  exists r, decode dec l = Some r /\ map fst r = map fst l /\ forall n a, In (n, a) r <-> exists v, In (n, v) l /\ dec v = Some a.
Proof.
  induction l as [|(k, v) l IH]; intro H.
  - exists []. cbn. split; [reflexivity|split; [reflexivity|]]. intros; split; [intros []|intros (? & [] & _)].
  - destruct (H k v (or_introl eq_refl)) as (a & D). destruct IH as (r & E & M & X); [intros; eapply H; right; eauto|].
    exists ((k, a) :: r). cbn. rewrite D, E, M. split; [reflexivity|split; [reflexivity|]]. intros n b. rewrite X. split.
    + intros [[= -> ->]|(w & I & Y)]; eauto.
    + intros (w & [[= -> ->]|I] & Y); [left; congruence|right; eauto].
Qed.
(** A directory all of whose entries decode. *)
Definition typed {A} (dec : value -> option A) (cs : list str) : Prop :=
  forall n v, entry_ok (cs ++ [n]) v -> exists a, dec v = Some a.
Lemma children_spec {A} (dec : value -> option A) e i s p cs : wf s -> env_ok e -> dir p = path cs ++ [47] -> Forall name_ok cs ->
  typed dec cs -> exists l, children_data e i dec s p = Some l /\ NoDup (map fst l) /\
  (forall n a, In (n, a) l <-> exists v, holds s (path (cs ++ [n])) v /\ name_ok n /\ dec v = Some a).
Proof.
  intros [S W] E D Hc T. unfold children_data. specialize (E i (children_in p (s_map s))).
  assert (C : forall n v, In (n, v) (children_in p (s_map s)) <-> holds s (path (cs ++ [n])) v /\ name_ok n).
  { intros n v. rewrite children_in_spec. split.
    - intros (k & I & C). destruct (W k v I) as (ks & -> & Hk & EO). apply (child_name_dir p cs ks n D Hc Hk) in C. subst ks.
      split; [exact I|]. apply Forall_app in Hk. destruct Hk as [_ Hk]. now inversion Hk.
    - intros [H N]. exists (path (cs ++ [n])). split; [exact H|]. apply (child_name_dir p cs); auto. apply Forall_app. auto. }
  destruct (decode_spec dec (e_order e i (children_in p (s_map s)))) as (r & R1 & R2 & R3).
  - intros n v I. eapply Permutation_in in I; [|exact E]. apply C in I. destruct I as [H N]. apply (T n). apply legal_path; [|now apply W].
    apply Forall_app. auto.
  - exists r. split; [exact R1|]. split.
    + rewrite R2. eapply Permutation_NoDup; [apply Permutation_map; symmetry; exact E|]. apply children_nodup, sorted_nodup, S.
    + intros n a. rewrite R3. split.
      * intros (v & I & Y). eapply Permutation_in in I; [|exact E]. apply C in I. destruct I. eauto.
      * intros (v & H & N & Y). exists v. split; [|exact Y]. eapply Permutation_in; [symmetry; exact E|]. now apply C.
Qed.
Ltac typed_tac := intros n v EO; cbn [app] in EO; inversion EO; subst; try discriminate; cbn; eauto.
Lemma typed_users c : typed as_user [c; s_users]. Proof. typed_tac. Qed.
Lemma typed_tenants c : typed as_tenant [c; s_tenants]. Proof. typed_tac. Qed.
Lemma typed_roles c t : typed as_role [c; s_tenants; t; s_roles]. Proof. typed_tac. Qed.
Lemma typed_members c t : typed as_member [c; s_tenants; t; s_members]. Proof. typed_tac. Qed.
Lemma typed_dbs c t : typed as_db [c; s_tenants; t; s_dbs]. Proof. typed_tac. Qed.
Lemma typed_buckets c t d : typed as_bucket [c; s_tenants; t; s_dbs; d; s_buckets]. Proof. typed_tac. Qed.
Lemma typed_schemas c t d : typed as_table [c; s_tenants; t; s_dbs; d; s_schemas]. Proof. typed_tac. Qed.
Lemma typed_nodes c : typed as_node [c; s_data_nodes]. Proof. typed_tac. Qed.
Lemma typed_metrics c : typed as_metrics [c; s_data_nodes_metrics]. Proof. typed_tac. Qed.
Lemma typed_queries c : typed as_query [c; s_queries]. Proof. typed_tac. Qed.

(** * The metadata of a tenant *)
Lemma values_spec {A} (dec : value -> option A) e i s p cs : wf s -> env_ok e -> dir p = path cs ++ [47] -> Forall name_ok cs ->
  typed dec cs -> exists l, children_values e i dec s p = Some l /\
  (forall a, In a l <-> exists n v, holds s (path (cs ++ [n])) v /\ name_ok n /\ dec v = Some a).
Proof.
  intros W E D Hc T. destruct (children_spec dec e i s p cs W E D Hc T) as (l & L1 & _ & L2). exists (map snd l). unfold children_values. rewrite L1.
  split; [reflexivity|]. intro a. rewrite in_map_iff. split.
  - intros ((n, b) & <- & I). apply L2 in I. destruct I as (v & I). exists n, v. exact I.
  - intros (n & v & H). exists (n, a). split; [reflexivity|]. apply L2. exists v. exact H.
Qed.
Ltac dirp := apply dir_path; [now auto 12 with nm|discriminate].
Lemma db_infos_spec e s c t : wf s -> env_ok e -> name_ok c -> name_ok t -> forall ds, (forall n d, In (n, d) ds -> name_ok n) ->
  exists r, db_infos e s c t ds = Some r /\
  forall n i, In (n, i) r -> In (n, i_schema i) ds /\
    (forall x tb, In (x, tb) (i_tables i) <-> holds s (path [c; s_tenants; t; s_dbs; n; s_schemas; x]) (VTable tb) /\ name_ok x) /\
    (forall b, In b (i_buckets i) <-> exists x, name_ok x /\ holds s (path [c; s_tenants; t; s_dbs; n; s_buckets; x]) (VBucket b)).
Proof.
  intros W E Oc Ot ds. induction ds as [|(n, d) ds IH]; intro O.
  - exists []. split; [reflexivity|]. intros n i [].
  - destruct IH as (r & R1 & R2); [intros; eapply O; right; eauto|]. assert (On : name_ok n) by (eapply O; left; reflexivity).
    assert (D1 : dir (k_buckets c t n) = path [c; s_tenants; t; s_dbs; n; s_buckets] ++ [47]) by dirp.
    assert (D2 : dir (k_schemas c t n) = path [c; s_tenants; t; s_dbs; n; s_schemas] ++ [47]) by dirp.
    destruct (values_spec as_bucket e 7 s _ _ W E D1 ltac:(auto 10 with nm) (typed_buckets c t n)) as (bs & B1 & B2).
    destruct (children_spec as_table e 8 s _ _ W E D2 ltac:(auto 10 with nm) (typed_schemas c t n)) as (ts & T1 & _ & T2).
    exists ((n, DI d ts bs) :: r). cbn [db_infos]. rewrite B1, T1, R1. split; [reflexivity|].
    intros n0 i [[= <- <-]|I].
    + cbn [i_schema i_tables i_buckets]. split; [now left|]. split.
      * intros x tb. rewrite T2. cbn [app]. split.
        -- intros (v & H & N & X). apply dec_table in X. subst v. auto.
        -- intros (H & N). exists (VTable tb). auto.
      * intros b. rewrite B2. cbn [app]. split.
        -- intros (x & v & H & N & X). apply dec_bucket in X. subst v. eauto.
        -- intros (x & N & H). exists x, (VBucket b). auto.
    + destruct (R2 n0 i I) as (X & Y). split; [now right|exact Y].
Qed.
Lemma db_infos_names e s c t : forall ds r, db_infos e s c t ds = Some r -> map fst r = map fst ds.
Proof.
  induction ds as [|(n, d) ds IH]; cbn; intros r H; [now injection H as <-|].
  destruct (children_values _ _ _ _ _); [|discriminate]. destruct (children_data _ _ _ _ _); [|discriminate].
  destruct (db_infos e s c t ds) as [r'|]; [|discriminate]. injection H as <-. cbn. f_equal. auto.
Qed.
Lemma tenant_meta_spec e s c t : wf s -> env_ok e -> name_ok c -> name_ok t -> exists td, tenant_meta e s c t = Some td /\
  (forall d, In d (map fst (td_dbs td)) <-> exists v, holds s (k_db c t d) v /\ name_ok d) /\
  (forall r ro, In (r, ro) (td_roles td) <-> holds s (k_role c t r) (VRole ro) /\ name_ok r) /\
  (forall m ri, In (m, ri) (td_members td) <-> holds s (path [c; s_tenants; t; s_members; m]) (VMember ri) /\ name_ok m) /\
  forall n i, In (n, i) (td_dbs td) -> holds s (k_db c t n) (VDb (i_schema i)) /\
    (forall x tb, In (x, tb) (i_tables i) <-> holds s (path [c; s_tenants; t; s_dbs; n; s_schemas; x]) (VTable tb) /\ name_ok x) /\
    (forall b, In b (i_buckets i) <-> exists x, name_ok x /\ holds s (path [c; s_tenants; t; s_dbs; n; s_buckets; x]) (VBucket b)).
Proof.
  intros W E Oc Ot.
  assert (D1 : dir (k_roles c t) = path [c; s_tenants; t; s_roles] ++ [47]) by dirp.
  assert (D2 : dir (k_members c t) = path [c; s_tenants; t; s_members] ++ [47]) by dirp.
  assert (D3 : dir (k_dbs c t) = path [c; s_tenants; t; s_dbs] ++ [47]) by dirp.
  destruct (children_spec as_role e 4 s _ _ W E D1 ltac:(auto 10 with nm) (typed_roles c t)) as (rs & R1 & _ & R2).
  destruct (children_spec as_member e 5 s _ _ W E D2 ltac:(auto 10 with nm) (typed_members c t)) as (ms & M1 & _ & M2).
  destruct (children_spec as_db e 6 s _ _ W E D3 ltac:(auto 10 with nm) (typed_dbs c t)) as (ds & X1 & _ & X2).
  destruct (db_infos_spec e s c t W E Oc Ot ds) as (r & I1 & I2); [intros n d I; apply X2 in I; destruct I as (v & _ & N & _); exact N|].
  exists (TD rs ms r). unfold tenant_meta. rewrite R1, M1, X1, I1. split; [reflexivity|]. cbn [td_dbs td_roles td_members]. split; [|split; [|split]].
  - intro d. rewrite (db_infos_names _ _ _ _ _ _ I1). rewrite in_map_iff. split.
    + intros ((n, a) & <- & I). apply X2 in I. destruct I as (v & H & N & _). exists v. auto.
    + intros (v & H & N). assert (EO : entry_ok ([c; s_tenants; t; s_dbs] ++ [d]) v) by (apply (legal_path [c; s_tenants; t; s_dbs; d]); [auto 10 with nm|apply W, H]).
      destruct (typed_dbs c t d v EO) as (a & Da). exists (d, a). split; [reflexivity|]. apply X2. exists v. auto.
  - intros x ro. rewrite R2. cbn [app]. split.
    + intros (v & H & N & Y). apply dec_role in Y. subst. auto.
    + intros (H & N). exists (VRole ro). auto.
  - intros x ri. rewrite M2. cbn [app]. split.
    + intros (v & H & N & Y). apply dec_member in Y. subst. auto.
    + intros (H & N). exists (VMember ri). auto.
  - intros n i I. destruct (I2 n i I) as (X & Y). split; [|exact Y]. apply X2 in X. destruct X as (v & H & N & Z). apply dec_db in Z. subst. exact H.
Qed.

Lemma create_db_clean e s c t d : wf s -> env_ok e -> name_ok c -> name_ok t -> name_ok (d_name d) -> no_trace s (k_db c t (d_name d)) ->
  snd (step e s (CCreateDb c t d)) = Done -> forall e', env_ok e' -> exists td i,
  tenant_meta e' (fst (step e s (CCreateDb c t d))) c t = Some td /\ In (d_name d, i) (td_dbs td) /\
  (forall i', In (d_name d, i') (td_dbs td) -> i_schema i' = d /\ i_tables i' = [] /\ i_buckets i' = []).
Proof.
  intros W E Oc Ot Od N R e' E'. assert (O : cmd_ok (CCreateDb c t d)) by (cbn; auto).
  pose proof (step_wf e s _ W O) as W'. cbn [step] in *. unfold process_create_db in *.
  destruct (contains s (k_db c t (d_name d))) eqn:C; [discriminate|]. destruct (db_schema_valid e s c d); [|discriminate].
  rewrite with_meta_fst in *. set (s' := insert s (k_db c t (d_name d)) (VDb d)) in *.
  assert (H0 : holds s' (k_db c t (d_name d)) (VDb d)).
  { apply get_in. unfold s', insert. cbn [s_map]. rewrite get_put by apply W. now rewrite seqb_refl. }
  destruct (tenant_meta_spec e' s' c t W' E' Oc Ot) as (td & T1 & T2 & _ & _ & T3).
  assert (I : In (d_name d) (map fst (td_dbs td))) by (apply T2; eauto).
  apply in_map_iff in I. destruct I as ((n, i) & Q & I). cbn in Q. subst n. exists td, i. split; [exact T1|]. split; [exact I|].
  intros i' I'. destruct (T3 _ _ I') as (A & B & C'). split; [|split].
  - apply in_get in A; [|apply W']. apply in_get in H0; [|apply W']. congruence.
  - destruct (i_tables i') as [|(x, tb) l] eqn:L; [reflexivity|]. destruct (proj1 (B x tb) (or_introl eq_refl)) as (H & Ox).
    apply insert_in in H. destruct H as [[Q _]|H].
    + apply path_inj in Q; [discriminate|auto 10 with nm|auto 10 with nm].
    + rewrite no_trace_under in N. exfalso. apply (N _ _ H). apply (path_under [c; s_tenants; t; s_dbs; d_name d] [s_schemas; x]).
  - destruct (i_buckets i') as [|b l] eqn:L; [reflexivity|]. destruct (proj1 (C' b) (or_introl eq_refl)) as (x & Ox & H).
    apply insert_in in H. destruct H as [[Q _]|H].
    + apply path_inj in Q; [discriminate|auto 10 with nm|auto 10 with nm].
    + rewrite no_trace_under in N. exfalso. apply (N _ _ H). apply (path_under [c; s_tenants; t; s_dbs; d_name d] [s_buckets; x]).
Qed.
