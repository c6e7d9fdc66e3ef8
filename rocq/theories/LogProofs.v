(** Proofs about log records. *)
From Coq Require Import Ascii String.
From Coq Require Import List.
From Verif Require Import Prelude LogModel LogSpec.
Open Scope list_scope.
Open Scope Z_scope.

(** * Text *)
Lemma str_eqb_spec a b : reflect (a = b) (str_eqb a b).
Proof. unfold str_eqb. destruct (list_eq_dec _ _ _); constructor; auto. Qed.
Lemma str_cmp_eq : forall a b, str_cmp a b = Eq <-> a = b.
Proof.
  induction a as [|x a IH]; destruct b as [|y b]; cbn [str_cmp]; try (split; [discriminate|discriminate]); [split; auto|].
  destruct (Z.compare_spec x y).
  - subst. rewrite IH. split; [intros ->; auto|intros E; injection E; auto].
  - split; [discriminate|intros E; injection E; lia].
  - split; [discriminate|intros E; injection E; lia].
Qed.
Lemma str_cmp_refl a : str_cmp a a = Eq.
Proof. apply str_cmp_eq. reflexivity. Qed.
Lemma str_cmp_trans : forall a b c, str_cmp a b = Lt -> str_cmp b c = Lt -> str_cmp a c = Lt.
Proof.
  induction a as [|x a IH]; destruct b as [|y b]; destruct c as [|z c]; cbn [str_cmp]; try discriminate; auto.
  destruct (Z.compare_spec x y); try discriminate; destruct (Z.compare_spec y z); try discriminate; intros H1 H2.
  - subst. rewrite Z.compare_refl. eauto.
  - subst. replace (z ?= z) with Eq by (symmetry; apply Z.compare_refl). destruct (Z.compare_spec y z); auto; lia.
  - subst. destruct (Z.compare_spec x z); auto; lia.
  - destruct (Z.compare_spec x z); auto; lia.
Qed.
Lemma str_cmp_anti : forall a b, str_cmp a b = CompOpp (str_cmp b a).
Proof.
  induction a as [|x a IH]; destruct b as [|y b]; cbn [str_cmp]; auto. rewrite (Z.compare_antisym y x).
  destruct (y ?= x); cbn [CompOpp]; auto.
Qed.

Lemma digits_ok : forall k z, 0 <= z -> Forall (fun c => 48 <= c <= 57) (digits k z).
Proof.
  induction k as [|k IH]; intros z P; cbn [digits]; auto. destruct (Z.ltb_spec z 10).
  - constructor; auto. lia.
  - apply Forall_app. split; [apply IH; apply Z.div_pos; lia|]. constructor; auto. pose proof (Z.mod_pos_bound z 10 ltac:(lia)). lia.
Qed.
Definition numval (s : str) : Z := fold_left (fun a c => 10 * a + (c - 48)) s 0.
Lemma numval_snoc s c : numval (s ++ [c]) = 10 * numval s + (c - 48).
Proof. unfold numval. rewrite fold_left_app. reflexivity. Qed.
Lemma digits_val : forall k z, 0 <= z < 10 ^ Z.of_nat k -> numval (digits k z) = z.
Proof.
  induction k as [|k IH]; intros z B.
  - cbn in B. unfold numval. cbn [digits fold_left]. change (10 ^ 0) with 1 in B. lia.
  - cbn [digits]. destruct (Z.ltb_spec z 10); [unfold numval; cbn [fold_left]; lia|]. rewrite numval_snoc, IH.
    + pose proof (Z.div_mod z 10 ltac:(lia)). lia.
    + rewrite Nat2Z.inj_succ, Z.pow_succ_r in B by lia. split; [apply Z.div_pos; lia|]. apply Z.div_lt_upper_bound; lia.
Qed.
Lemma digits_head : forall k z, 0 < z < 10 ^ Z.of_nat k -> match digits k z with [] => False | c :: _ => c <> 48 end.
Proof.
  induction k as [|k IH]; intros z B.
  - cbn in B. change (10 ^ 0) with 1 in B. lia.
  - cbn [digits]. destruct (Z.ltb_spec z 10); [lia|].
    assert (0 < z / 10 < 10 ^ Z.of_nat k) as Q.
    { rewrite Nat2Z.inj_succ, Z.pow_succ_r in B by lia. split; [apply Z.div_str_pos; lia|]. apply Z.div_lt_upper_bound; lia. }
    specialize (IH _ Q). destruct (digits k (z / 10)); cbn [app]; auto.
Qed.
Lemma dec_decimal z : 0 <= z < 2 ^ 64 -> decimal (dec z) z.
Proof.
  intros B. unfold dec. destruct (Z.ltb_spec z 0); [lia|]. assert (0 <= z < 10 ^ Z.of_nat 20) as B2.
  { split; [lia|]. eapply Z.lt_trans; [apply B|]. reflexivity. }
  split; [apply digits_ok; lia|]. split; [exact (digits_val 20 z B2)|]. destruct (Z.eq_dec z 0) as [->|N].
  - cbv. auto.
  - pose proof (digits_head 20 z ltac:(lia)) as H0. destruct (digits 20 z) as [|c [|d r]]; auto.
Qed.
Lemma decimal_pos : forall s z, decimal s z -> 0 <= z.
Proof.
  intros s z (D & V & _). subst. change (0 <= numval s). induction s as [|c s IH] using rev_ind; [unfold numval; cbn; lia|].
  apply Forall_app in D. destruct D as [D1 D2]. inversion D2; subst. rewrite numval_snoc. specialize (IH D1). lia.
Qed.
(** a number is written in one way only *)
Lemma numval_nonzero s : Forall (fun c => 48 <= c <= 57) s -> match s with [] => True | c :: _ => c <> 48 end -> s <> [] -> 0 < numval s.
Proof.
  induction s as [|c s IH] using rev_ind; [congruence|]. intros D H _. apply Forall_app in D. destruct D as [D1 D2]. inversion D2; subst.
  rewrite numval_snoc. destruct s as [|a s]; [cbn [app] in H; unfold numval; cbn [fold_left]; lia|].
  cbn [app] in H. specialize (IH D1 H ltac:(discriminate)). lia.
Qed.
Lemma decimal_unique : forall s t z, decimal s z -> decimal t z -> s = t.
Proof.
  induction s as [|c s IH] using rev_ind; intros t z (D1 & V1 & H1) (D2 & V2 & H2); [destruct H1|].
  destruct t as [|d t _] using rev_ind; [destruct H2|].
  fold (numval (s ++ [c])) in V1. fold (numval (t ++ [d])) in V2. rewrite numval_snoc in V1, V2.
  apply Forall_app in D1, D2. destruct D1 as [D1 E1], D2 as [D2 E2]. inversion E1; subst. inversion E2; subst.
  assert (numval s = numval t /\ c = d) as [E ->] by lia. f_equal.
  destruct s as [|a s], t as [|b t]; auto.
  - exfalso. pose proof (numval_nonzero (b :: t) D2) as P. destruct t; cbn [app] in H2; specialize (P H2 ltac:(discriminate)); unfold numval at 1 in E; cbn [fold_left] in E; lia.
  - exfalso. pose proof (numval_nonzero (a :: s) D1) as P. destruct s; cbn [app] in H1; specialize (P H1 ltac:(discriminate)); unfold numval at 2 in E; cbn [fold_left] in E; lia.
  - apply (IH (b :: t) (numval (b :: t))).
    + split; [auto|]. split; [exact E|]. cbn [app] in H1. destruct s; auto.
    + split; [auto|]. split; [reflexivity|]. cbn [app] in H2. destruct t; auto.
Qed.

(** * The map of the fields *)
Fixpoint find (k : str) (m : fields) : option json :=
  match m with [] => None | (k', v) :: r => if str_eqb k k' then Some v else find k r end.
Lemma find_put k v m k2 : find k2 (put k v m) = if str_eqb k2 k then Some v else find k2 m.
Proof.
  induction m as [|[a w] m IH]; cbn [put find].
  - destruct (str_eqb_spec k2 k); reflexivity.
  - destruct (str_cmp k a) eqn:E; cbn [find].
    + apply str_cmp_eq in E. subst. destruct (str_eqb_spec k2 a); reflexivity.
    + reflexivity.
    + rewrite IH. destruct (str_eqb_spec k2 a); destruct (str_eqb_spec k2 k); auto. subst. rewrite str_cmp_refl in E. discriminate.
Qed.
Definition klt (a b : str * json) : Prop := str_cmp (fst a) (fst b) = Lt.
Definition ordered (m : fields) : Prop := StronglySorted klt m.
Lemma put_in k v m e : In e (put k v m) -> e = (k, v) \/ In e m.
Proof.
  induction m as [|[a w] m IH]; cbn [put]; [intros [H|[]]; auto|]. destruct (str_cmp k a); cbn [In]; intuition.
Qed.
Lemma put_ordered k v m : ordered m -> ordered (put k v m).
Proof.
  unfold ordered. induction m as [|[a w] m IH]; cbn [put]; intros S.
  - repeat constructor.
  - inversion S as [|? ? S1 F1]; subst. destruct (str_cmp k a) eqn:E.
    + apply str_cmp_eq in E. subst. constructor; auto.
    + constructor; auto. constructor; [exact E|]. eapply Forall_impl; [|exact F1]. intros b Q. unfold klt in *. cbn [fst] in *. eapply str_cmp_trans; eauto.
    + constructor; auto. apply Forall_forall. intros e I. apply put_in in I. destruct I as [->|I].
      * unfold klt. cbn [fst]. rewrite str_cmp_anti, E. reflexivity.
      * rewrite Forall_forall in F1. auto.
Qed.
Lemma puts_ordered l : forall m, ordered m -> ordered (puts l m).
Proof. induction l as [|e l IH]; intros m S; cbn [puts fold_left]; auto. apply IH. apply put_ordered. exact S. Qed.
Lemma ordered_nodup m : ordered m -> NoDup (map fst m).
Proof.
  induction 1 as [|a m S IH F]; cbn [map]; constructor; auto. intros I. apply in_map_iff in I. destruct I as (b & E & I).
  rewrite Forall_forall in F. specialize (F _ I). unfold klt in F. rewrite E, str_cmp_refl in F. discriminate.
Qed.
Lemma find_in k v m : find k m = Some v -> In (k, v) m.
Proof. induction m as [|[a w] m IH]; cbn [find]; [discriminate|]. destruct (str_eqb_spec k a); [intros E; injection E as <-; subst; left; auto|right; auto]. Qed.
Lemma in_find k v m : NoDup (map fst m) -> In (k, v) m -> find k m = Some v.
Proof.
  induction m as [|[a w] m IH]; cbn [find map]; [intros _ []|]. intros ND I. inversion ND; subst. destruct I as [E|I].
  - injection E as -> ->. destruct (str_eqb_spec k k); congruence.
  - destruct (str_eqb_spec k a); [|auto]. subst. exfalso. apply H1. apply in_map_iff. exists (a, v). auto.
Qed.
(** the last value put wins; every key put is there, and every key there was put *)
Lemma find_puts_none : forall l m k, ~ In k (map fst l) -> find k (puts l m) = find k m.
Proof.
  induction l as [|[a w] l IH]; intros m k N; cbn [puts fold_left]; auto. cbn [map fst] in N.
  change (fold_left (fun m e => put (fst e) (snd e) m) l (put (fst (a, w)) (snd (a, w)) m)) with (puts l (put a w m)).
  rewrite IH by (intros I; apply N; right; auto). rewrite find_put. destruct (str_eqb_spec k a); auto. subst. exfalso. apply N. left. auto.
Qed.
Lemma find_puts_some : forall l m k v, NoDup (map fst l) -> In (k, v) l -> find k (puts l m) = Some v.
Proof.
  induction l as [|[a w] l IH]; intros m k v ND I; [destruct I|]. cbn [map fst] in ND. inversion ND; subst. cbn [puts fold_left fst snd].
  change (fold_left (fun m e => put (fst e) (snd e) m) l (put a w m)) with (puts l (put a w m)). destruct I as [E|I].
  - injection E as -> ->. rewrite find_puts_none by auto. rewrite find_put. destruct (str_eqb_spec k k); congruence.
  - eauto.
Qed.

(** * Paths *)
Definition comp (a : str) : Prop := a <> [] /\ ~ In 46 a.
Lemma decimal_comp s i : decimal s i -> comp s.
Proof. intros (D & _ & H). split; [destruct s; congruence|]. intros I. rewrite Forall_forall in D. apply D in I. lia. Qed.
Lemma leaf_comp j p x : plain_keys j -> leaf j p x -> Forall comp p.
Proof.
  intros P L. revert P. induction L as [| | | |m k v p x I L IH|l i s v p x I D L IH]; intros P; auto; inversion P; subst; constructor.
  - match goal with H : Forall _ (map fst m) |- _ => rewrite Forall_forall in H; apply H; apply in_map_iff; exists (k, v); auto end.
  - apply IH. match goal with H : Forall _ (map snd m) |- _ => rewrite Forall_forall in H; apply H; apply in_map_iff; exists (k, v); auto end.
  - eapply decimal_comp; eauto.
  - apply IH. match goal with H : Forall _ l |- _ => rewrite Forall_forall in H; apply H; eapply nth_error_In; eauto end.
Qed.
Lemma split_at_dot : forall a b r s, ~ In 46 a -> ~ In 46 b -> a ++ 46 :: r = b ++ 46 :: s -> a = b /\ r = s.
Proof.
  induction a as [|x a IH]; intros [|y b] r s N1 N2 E; cbn [app] in E; injection E; intros; subst; auto.
  - exfalso. apply N2. left. auto.
  - exfalso. apply N1. left. auto.
  - destruct (IH b r s) as [-> ->]; auto; intros I; [apply N1|apply N2]; right; auto.
Qed.
Lemma dotted_cons a p : p <> [] -> dotted (a :: p) = a ++ 46 :: dotted p.
Proof. destruct p; [congruence|reflexivity]. Qed.
Lemma dotted_inj : forall p q, Forall comp p -> Forall comp q -> dotted p = dotted q -> p = q.
Proof.
  induction p as [|a p IH]; intros q F1 F2 E.
  - destruct q as [|b q]; auto. inversion F2 as [|? ? [B1 B2] F2']; subst. destruct q; cbn [dotted] in E; destruct b; try discriminate; congruence.
  - inversion F1 as [|? ? [A1 A2] F1']; subst. destruct q as [|b q].
    { destruct p; cbn [dotted] in E; destruct a; try discriminate; congruence. }
    inversion F2 as [|? ? [B1 B2] F2']; subst. destruct p as [|a2 p], q as [|b2 q].
    + cbn [dotted] in E. congruence.
    + rewrite (dotted_cons b) in E by discriminate. cbn [dotted] in E. exfalso. apply A2. rewrite E. apply in_or_app. right. left. auto.
    + rewrite (dotted_cons a) in E by discriminate. cbn [dotted] in E. exfalso. apply B2. rewrite <- E. apply in_or_app. right. left. auto.
    + rewrite (dotted_cons a), (dotted_cons b) in E by discriminate. apply split_at_dot in E; auto. destruct E as [-> E]. f_equal. apply IH; auto.
Qed.
(** the children of a node *)
Fixpoint index (i : Z) (l : list json) : list (str * json) := match l with [] => [] | v :: r => (dec i, v) :: index (i + 1) r end.
Definition kids (j : json) : list (str * json) := match j with JObj m => m | JArr l => index 0 l | _ => [] end.
Definition node (j : json) : bool := match j with JObj _ | JArr _ => true | _ => false end.
Definition nest (name : str) (e : str * json) : fields := map (fun kv => (under name (fst kv), snd kv)) (flatten (fst e) (snd e)).
Lemma puts_app a b m : puts (a ++ b) m = puts b (puts a m).
Proof. unfold puts. apply fold_left_app. Qed.
Lemma flatten_obj name m : flatten name (JObj m) = puts (flat_map (nest name) m) [].
Proof.
  cbn [flatten]. generalize (@nil (str * json)) as out. induction m as [|e m IH]; intros out; [reflexivity|]. cbn [flat_map]. rewrite puts_app.
  rewrite <- IH. reflexivity.
Qed.
Lemma flatten_arr name l : flatten name (JArr l) = puts (flat_map (nest name) (index 0 l)) [].
Proof.
  cbn [flatten]. generalize (@nil (str * json)) as out. generalize 0 as i. induction l as [|e l IH]; intros i out; [reflexivity|]. cbn [index flat_map]. rewrite puts_app.
  rewrite <- IH. reflexivity.
Qed.
Lemma flatten_node name j : node j = true -> flatten name j = puts (flat_map (nest name) (kids j)) [].
Proof. destruct j; try discriminate; intros _; [apply flatten_arr|apply flatten_obj]. Qed.
Lemma flatten_leaf name j : node j = false -> flatten name j = [(name, j)].
Proof. destruct j; try discriminate; reflexivity. Qed.

Lemma index_in : forall l i a v, In (a, v) (index i l) <-> exists n, nth_error l n = Some v /\ a = dec (i + Z.of_nat n).
Proof.
  induction l as [|w l IH]; intros i a v; cbn [index].
  - split; [intros []|]. intros (n & E & _). destruct n; discriminate.
  - cbn [In]. rewrite IH. split.
    + intros [E|(n & E & ->)].
      * injection E as <- <-. exists 0%nat. split; [reflexivity|]. f_equal. lia.
      * exists (S n). split; [exact E|]. f_equal. lia.
    + intros (n & E & ->). destruct n as [|n]; cbn [nth_error] in E.
      * injection E as ->. left. f_equal. f_equal. lia.
      * right. exists n. split; auto. f_equal. lia.
Qed.
Lemma index_nodup : forall l i, 0 <= i -> i + Z.of_nat (length l) < 2 ^ 64 -> NoDup (map fst (index i l)).
Proof.
  induction l as [|w l IH]; intros i P B; cbn [index map fst]; constructor.
  - intros I. apply in_map_iff in I. destruct I as ([a v] & E & I). cbn [fst] in E. subst. apply index_in in I. destruct I as (n & E & Q).
    assert (n < length l)%nat as Ln by (apply nth_error_Some; congruence). cbn [length] in B.
    pose proof (dec_decimal i ltac:(lia)) as D1. pose proof (dec_decimal (i + 1 + Z.of_nat n) ltac:(lia)) as D2. rewrite <- Q in D2.
    destruct D1 as (_ & V1 & _), D2 as (_ & V2 & _). lia.
  - apply IH; [lia|]. cbn [length] in B. lia.
Qed.
Lemma kids_nodup j : plain_keys j -> NoDup (map fst (kids j)).
Proof. intros P. inversion P; subst; cbn [kids]; try constructor; auto. apply index_nodup; lia. Qed.
Lemma kids_comp j a v : plain_keys j -> In (a, v) (kids j) -> comp a /\ plain_keys v.
Proof.
  intros P I. inversion P; subst; cbn [kids] in I; try (destruct I; fail).
  - split; [apply (proj1 (Forall_forall _ _) H0)|apply (proj1 (Forall_forall _ _) H1)]; apply in_map_iff; exists (a, v); auto.
  - apply index_in in I. destruct I as (n & E & ->). assert (n < length l)%nat as Ln by (apply nth_error_Some; congruence). split.
    + eapply decimal_comp. apply dec_decimal. lia.
    + apply (proj1 (Forall_forall _ _) H0). eapply nth_error_In; eauto.
Qed.
Lemma leaf_kids j p x : plain_keys j -> node j = true -> (leaf j p x <-> exists a v q, p = a :: q /\ In (a, v) (kids j) /\ leaf v q x).
Proof.
  intros P N. split.
  - intros L. destruct L; try discriminate; cbn [kids].
    + exists k, v, p. auto.
    + exists s, v, p. repeat split; auto. apply index_in. exists i. split; auto. eapply decimal_unique; [eauto|].
      inversion P; subst. assert (i < length l)%nat as Ln by (apply nth_error_Some; congruence). replace (0 + Z.of_nat i) with (Z.of_nat i) by lia. apply dec_decimal. lia.
  - intros (a & v & q & -> & I & L). destruct j; try discriminate; cbn [kids] in I.
    + apply index_in in I. destruct I as (n & E & ->). inversion P; subst. assert (n < length l)%nat as Ln by (apply nth_error_Some; congruence).
      eapply leaf_arr; eauto. replace (0 + Z.of_nat n) with (Z.of_nat n) by lia. apply dec_decimal. lia.
    + eapply leaf_obj; eauto.
Qed.
Definition key (name : str) (p : list str) : str := match name with [] => dotted p | _ => dotted (name :: p) end.
Definition good_name (n : str) : Prop := n = [] \/ comp n.
Lemma under_key name a p : comp a -> under name (key a p) = key name (a :: p).
Proof. intros [A1 A2]. destruct a as [|c a]; [congruence|]. destruct name; cbn [under key]; [reflexivity|]. rewrite dotted_cons with (p := _ :: p) by discriminate. reflexivity. Qed.
Lemma key_inj name p q : good_name name -> Forall comp p -> Forall comp q -> key name p = key name q -> p = q.
Proof.
  intros [->|G] F1 F2 E; [apply dotted_inj; auto|]. destruct name as [|c n]; [destruct G; congruence|]. cbn [key] in E. apply dotted_inj in E; auto. congruence.
Qed.

Section JsonInd.
Variable P : json -> Prop.
Hypothesis Hnull : P JNull.
Hypothesis Hbool : forall b, P (JBool b).
Hypothesis Hnum : forall n, P (JNum n).
Hypothesis Hstr : forall s, P (JStr s).
Hypothesis Harr : forall l, Forall P l -> P (JArr l).
Hypothesis Hobj : forall m, Forall (fun e => P (snd e)) m -> P (JObj m).
Fixpoint json_nested_ind (j : json) : P j :=
  match j with
  | JNull => Hnull | JBool b => Hbool b | JNum n => Hnum n | JStr s => Hstr s
  | JArr l => Harr l ((fix go (l : list json) : Forall P l := match l with [] => Forall_nil _ | v :: r => Forall_cons v (json_nested_ind v) (go r) end) l)
  | JObj m => Hobj m ((fix go (l : list (str * json)) : Forall (fun e => P (snd e)) l :=
      match l with [] => Forall_nil _ | e :: r => Forall_cons e (json_nested_ind (snd e)) (go r) end) m)
  end.
End JsonInd.
Lemma kids_ind (P : json -> Prop) : (forall j, (forall a v, In (a, v) (kids j) -> P v) -> P j) -> forall j, P j.
Proof.
  intros S. apply json_nested_ind; intros; apply S; cbn [kids]; try (intros ? ? []; fail).
  - intros a v I. apply index_in in I. destruct I as (n & E & _). rewrite Forall_forall in H. apply H. eapply nth_error_In; eauto.
  - intros a v I. rewrite Forall_forall in H. apply (H _ I).
Qed.

Lemma NoDup_flat {A B : Type} (f : A -> list B) : forall l, NoDup l -> (forall a, In a l -> NoDup (f a)) ->
  (forall a b x, In a l -> In b l -> In x (f a) -> In x (f b) -> a = b) -> NoDup (flat_map f l).
Proof.
  induction l as [|a l IH]; intros ND F D; cbn [flat_map]; [constructor|]. inversion ND; subst.
  assert (NoDup (flat_map f l)) as N2 by (apply IH; auto; [intros; apply F; right; auto|intros; eapply D; eauto; right; auto]).
  assert (NoDup (f a)) as N1 by (apply F; left; auto).
  assert (forall x, In x (f a) -> ~ In x (flat_map f l)) as DJ.
  { intros x I J. apply in_flat_map in J. destruct J as (b & Ib & J). assert (a = b) by (eapply D; [left; auto|right; exact Ib|exact I|exact J]). subst. auto. }
  revert N1 DJ. generalize (f a) as u. induction u as [|y u IHu]; intros N1 DJ; cbn [app]; auto. inversion N1; subst. constructor.
  - intros I. apply in_app_or in I. destruct I as [I|I]; [auto|]. apply (DJ y); [left; auto|auto].
  - apply IHu; auto. intros x I. apply DJ. right. auto.
Qed.
Lemma NoDup_of_map {A B : Type} (f : A -> B) l : NoDup (map f l) -> NoDup l.
Proof. induction l as [|a l IH]; cbn [map]; intros N1; constructor; inversion N1; subst; auto. intros I. apply H1. apply in_map. auto. Qed.

Lemma flatten_ordered j name : ordered (flatten name j).
Proof. destruct (node j) eqn:N1; [rewrite flatten_node by auto; apply puts_ordered; constructor|rewrite flatten_leaf by auto; repeat constructor]. Qed.
Lemma leaf_exists_comp j a v : plain_keys j -> In (a, v) (kids j) -> comp a.
Proof. intros. eapply kids_comp; eauto. Qed.
Theorem flatten_values : forall j, plain_keys j -> forall name, good_name name -> forall k x,
  In (k, x) (flatten name j) <-> exists p, leaf j p x /\ k = key name p.
Proof.
  intros j. induction j as [j IH] using kids_ind. intros P name G k x. destruct (node j) eqn:N1.
  - rewrite flatten_node by auto.
    assert (forall e, In e (kids j) -> forall k x, In (k, x) (nest name e) <-> exists q, leaf (snd e) q x /\ k = key name (fst e :: q)) as NE.
    { intros [a v] I k0 x0. destruct (kids_comp _ _ _ P I) as [Ca Pv]. unfold nest. cbn [fst snd]. rewrite in_map_iff. split.
      - intros ([k1 x1] & E & J). cbn [fst snd] in E. injection E as <- <-. apply (IH _ _ I Pv a (or_intror Ca)) in J. destruct J as (q & L & ->).
        exists q. split; auto. apply under_key. auto.
      - intros (q & L & ->). exists (key a q, x0). cbn [fst snd]. split; [f_equal; apply under_key; auto|]. apply (IH _ _ I Pv a (or_intror Ca)). eauto. }
    assert (NoDup (map fst (flat_map (nest name) (kids j)))) as ND.
    { rewrite flat_map_concat_map, concat_map, map_map, <- flat_map_concat_map. apply NoDup_flat.
      - apply (NoDup_of_map fst). apply kids_nodup. auto.
      - intros [a v] I. destruct (kids_comp _ _ _ P I) as [Ca Pv]. unfold nest. cbn [fst snd]. rewrite map_map. cbn [fst].
        pose proof (ordered_nodup _ (flatten_ordered v a)) as ND. rewrite <- (map_map fst (under name)). revert ND. generalize (map fst (flatten a v)) as u. induction u as [|y u IHu]; intros ND; cbn [map]; constructor; inversion ND; subst; auto.
        intros J. apply in_map_iff in J. destruct J as (z & E & J). assert (z = y); [|subst; auto]. destruct name; cbn [under] in E; [auto|]. apply app_inv_head in E. congruence.
      - intros [a v] [b w] y I J U V. apply in_map_iff in U, V. destruct U as ([k1 x1] & <- & U), V as ([k2 x2] & E & V). cbn [fst] in E. subst k2.
        apply NE in U, V; auto. cbn [fst snd] in U, V. destruct U as (q1 & L1 & E1), V as (q2 & L2 & E2).
        destruct (kids_comp _ _ _ P I) as [Ca Pv]. destruct (kids_comp _ _ _ P J) as [Cb Pw].
        pose proof (leaf_comp _ _ _ Pv L1). pose proof (leaf_comp _ _ _ Pw L2). rewrite E1 in E2. apply key_inj in E2; auto. injection E2 as -> _.
        f_equal. pose proof (kids_nodup _ P) as NK. pose proof (in_find _ _ _ NK I). pose proof (in_find _ _ _ NK J). congruence. }
    split.
    + intros I. apply in_find in I; [|apply ordered_nodup; apply puts_ordered; constructor].
      destruct (in_dec (list_eq_dec Z.eq_dec) k (map fst (flat_map (nest name) (kids j)))) as [K|K].
      * apply in_map_iff in K. destruct K as ([k1 x1] & E & K). cbn [fst] in E. subst k1. rewrite (find_puts_some _ _ _ _ ND K) in I. injection I as ->.
        apply in_flat_map in K. destruct K as ([a v] & I & K). apply NE in K; auto. cbn [fst snd] in K. destruct K as (q & L & ->). exists (a :: q). split; auto.
        apply leaf_kids; eauto 8.
      * rewrite find_puts_none in I by auto. discriminate.
    + intros (p & L & ->). apply leaf_kids in L; auto. destruct L as (a & v & q & -> & I & L). apply find_in. apply find_puts_some; auto.
      apply in_flat_map. exists (a, v). split; auto. apply NE; auto. exists q. auto.
  - rewrite flatten_leaf by auto. cbn [In]. split.
    + intros [E|[]]. injection E as <- <-. exists []. split; [destruct j; try discriminate; constructor|]. destruct name; reflexivity.
    + intros (p & L & ->). left. inversion L; subst; try discriminate; f_equal; destruct name; reflexivity.
Qed.

(** * Texts of values *)
Lemma trim_left_id c s : hd 0 s <> c \/ s = [] -> trim_left c s = s.
Proof. destruct s as [|x s]; auto. cbn [trim_left hd]. intros [H|H]; [|discriminate]. destruct (Z.eqb_spec x c); congruence. Qed.
Lemma hd_rev (s : str) : hd 0 (rev s) = last s 0.
Proof. induction s as [|x s IH]; [reflexivity|]. cbn [rev]. destruct s as [|y s]; [reflexivity|]. cbn [last]. cbn [last] in IH. rewrite <- IH. cbn [rev]. destruct (rev s); reflexivity. Qed.
Lemma trim_id c s : hd 0 s <> c \/ s = [] -> last s 0 <> c \/ s = [] -> trim c s = s.
Proof.
  intros H1 H2. unfold trim. rewrite (trim_left_id c s) by auto. rewrite trim_left_id.
  - apply rev_involutive.
  - rewrite hd_rev. destruct H2 as [H2| ->]; auto.
Qed.
Lemma notin_ends c s : ~ In c s -> (hd 0 s <> c \/ s = []) /\ (last s 0 <> c \/ s = []).
Proof.
  intros N1. split; destruct s as [|x s]; auto; left.
  - cbn [hd]. intros ->. apply N1. left. auto.
  - intros E. apply N1. rewrite <- E. clear. revert x. induction s as [|y s IH]; intros x; [left; reflexivity|]. right. exact (IH y).
Qed.
Lemma trim_notin c s : ~ In c s -> trim c s = s.
Proof. intros N1. destruct (notin_ends _ _ N1). apply trim_id; auto. Qed.
Lemma esc_plain s : plain_text s -> flat_map esc_char s = s.
Proof.
  induction 1 as [|c s (H1 & H2 & H3) F IH]; [reflexivity|]. cbn [flat_map]. rewrite IH. unfold esc_char.
  repeat match goal with |- context [c =? ?d] => destruct (Z.eqb_spec c d); [lia|] end. destruct (Z.ltb_spec c 32); [lia|]. reflexivity.
Qed.
Lemma trim_quoted s : ~ In 34 s -> trim 34 (34 :: s ++ [34]) = s.
Proof.
  intros N1. unfold trim. cbn [trim_left]. change (34 =? 34) with true. cbv iota.
  destruct (list_eq_dec Z.eq_dec s []) as [->|NE]; [reflexivity|]. rewrite (trim_left_id 34 (s ++ [34])).
  - rewrite rev_app_distr. cbn [rev app trim_left]. change (34 =? 34) with true. cbv iota.
    rewrite trim_left_id; [apply rev_involutive|]. left. rewrite hd_rev. destruct (proj2 (notin_ends _ _ N1)) as [H|H]; [exact H|congruence].
  - left. destruct s as [|x s]; [congruence|]. cbn [app hd]. intros ->. apply N1. left. auto.
Qed.
Lemma dec_noquote z : Z.abs z < 2 ^ 64 -> ~ In 34 (dec z).
Proof.
  intros B I. unfold dec in I. destruct (Z.ltb_spec z 0).
  - destruct I as [I|I]; [discriminate|]. pose proof (digits_ok 20 (- z) ltac:(lia)) as D. rewrite Forall_forall in D. apply D in I. lia.
  - pose proof (digits_ok 20 z ltac:(lia)) as D. rewrite Forall_forall in D. apply D in I. lia.
Qed.
Definition tag_fit (v : json) : Prop :=
  match v with JStr s => plain_text s | JNum (NInt z) => Z.abs z < 2 ^ 64 | JNum (NFloat t _) => ~ In 34 t | _ => True end.
Lemma tag_text_iff v t : node v = false -> tag_fit v -> (text_of v t <-> t = tag_text v).
Proof.
  intros N1 F. destruct v as [|b|[z|ft bits]|s|l|m]; try discriminate; unfold tag_text; cbn [to_text tag_fit] in *.
  - split; [intros H; inversion H; subst; reflexivity|intros ->; exact text_null].
  - destruct b; (split; [intros H; inversion H; subst; reflexivity|intros ->; constructor]).
  - rewrite trim_notin by (apply dec_noquote; auto). split.
    + intros H. inversion H; subst.
      * eapply decimal_unique; eauto. apply dec_decimal. lia.
      * unfold dec. destruct (Z.ltb_spec (- z0) 0); [|lia]. f_equal. eapply decimal_unique; eauto. replace (- - z0) with z0 by lia.
        assert (decimal (dec z0) z0) as D by (apply dec_decimal; lia). unfold dec in D. destruct (Z.ltb_spec z0 0); [lia|]. exact D.
    + intros ->. destruct (Z.ltb_spec z 0).
      * assert (decimal (dec (- z)) (- z)) as D by (apply dec_decimal; lia). unfold dec in *. destruct (Z.ltb_spec z 0); [|lia]. destruct (Z.ltb_spec (- z) 0); [lia|].
        replace (NInt z) with (NInt (- - z)) by (f_equal; lia). constructor; [lia|exact D].
      * constructor; auto. apply dec_decimal. lia.
  - rewrite trim_notin by auto. split; [intros H; inversion H; subst; reflexivity|intros ->; constructor].
  - rewrite esc_plain by auto. rewrite trim_quoted.
    + split; [intros H; inversion H; subst; reflexivity|intros ->; constructor].
    + intros I. unfold plain_text in F. rewrite Forall_forall in F. apply F in I. lia.
Qed.
Lemma f64_exact z : Z.abs z <= 2 ^ 53 -> f64_of_int z = z.
Proof.
  intros B. destruct (Z.ltb_spec (Z.abs z) (2 ^ 53)) as [H|H]; [unfold f64_of_int; cbv zeta; destruct (Z.ltb_spec (Z.abs z) (2 ^ 53)); [reflexivity|lia]|].
  assert (z = 2 ^ 53 \/ z = - 2 ^ 53) as [-> | ->] by lia; reflexivity.
Qed.
Definition field_fit (v : json) : Prop := match v with JNull => False | JNum (NInt z) => Z.abs z <= 2 ^ 53 | _ => True end.
Lemma field_of_iff v f : node v = false -> field_fit v -> (same_value v f <-> field_of v = Some f).
Proof.
  intros N1 F. destruct v as [|b|[z|ft bits]|s|l|m]; try discriminate; cbn [field_of num_f64 field_fit] in *; [destruct F|..].
  - split; [intros H; inversion H; subst; reflexivity|intros E; injection E as <-; constructor].
  - rewrite f64_exact by auto. split; [intros H; inversion H; subst; reflexivity|intros E; injection E as <-; constructor].
  - split; [intros H; inversion H; subst; reflexivity|intros E; injection E as <-; constructor].
  - split; [intros H; inversion H; subst; reflexivity|intros E; injection E as <-; constructor].
Qed.
Lemma time_of_iff rfc v t : time_from rfc v t <-> time_of rfc v = Some t.
Proof.
  split.
  - intros H. inversion H; subst; cbn [time_of num_i64].
    + replace ((I64_MIN <=? t) && (t <=? I64_MAX)) with true; auto. symmetry. unfold I64_MIN, I64_MAX. lia.
    + rewrite H0. reflexivity.
  - destruct v as [|b|[z|ft bits]|s|l|m]; cbn [time_of num_i64]; try discriminate.
    + destruct ((I64_MIN <=? z) && (z <=? I64_MAX)) eqn:E; [|discriminate]. intros Q. injection Q as <-. constructor. unfold I64_MIN, I64_MAX in E. lia.
    + destruct (rfc s) as [[u|]|] eqn:E; try discriminate. intros Q. injection Q as <-. constructor. auto.
Qed.

(** * The names of the tag columns *)
Lemma split_nocomma : forall a cur r, ~ In 44 a -> split_comma cur (a ++ 44 :: r) = (rev cur ++ a) :: split_comma [] r.
Proof.
  induction a as [|c a IH]; intros cur r N1; cbn [app split_comma].
  - change (44 =? 44) with true. cbv iota. rewrite app_nil_r. reflexivity.
  - destruct (Z.eqb_spec c 44); [exfalso; apply N1; left; auto|]. rewrite IH by (intros I; apply N1; right; auto). cbn [rev]. rewrite <- app_assoc. reflexivity.
Qed.
Lemma split_end : forall a cur, ~ In 44 a -> split_comma cur a = [rev cur ++ a].
Proof.
  induction a as [|c a IH]; intros cur N1; cbn [split_comma]; [rewrite app_nil_r; reflexivity|].
  destruct (Z.eqb_spec c 44); [exfalso; apply N1; left; auto|]. rewrite IH by (intros I; apply N1; right; auto). cbn [rev]. rewrite <- app_assoc. reflexivity.
Qed.
Lemma tag_list_commas tags : listable tags -> tag_list (commas tags) = tags.
Proof.
  intros [NE F]. unfold tag_list. induction tags as [|a tags IH]; [congruence|]. inversion F as [|? ? (A1 & A2 & A3) F2]; subst. destruct tags as [|b tags].
  - cbn [commas]. rewrite split_end by auto. cbn [rev app map]. rewrite trim_id by auto. reflexivity.
  - change (commas (a :: b :: tags)) with (a ++ 44 :: commas (b :: tags)). rewrite split_nocomma by auto. cbn [rev app map]. rewrite trim_id by auto. f_equal.
    apply IH; [discriminate|auto].
Qed.
Lemma mem_spec k l : reflect (In k l) (mem k l).
Proof.
  unfold mem. destruct (existsb (str_eqb k) l) eqn:E; constructor.
  - apply existsb_exists in E. destruct E as (x & I & E). destruct (str_eqb_spec k x); [subst; auto|discriminate].
  - intros I. assert (existsb (str_eqb k) l = true); [|congruence]. apply existsb_exists. exists k. split; auto. destruct (str_eqb_spec k k); auto.
Qed.

(** * The line of a record *)
Section Line.
Variable rfc : str -> option (option Z).
Variable tc : str.
Variable tags : list str.
Definition is_tag (k : str) : bool := mem k tags.
Definition is_field (k : str) : bool := negb (mem k tags) && negb (str_eqb tc k).
Definition bad (e : str * json) : Prop :=
  ~ In (fst e) tags /\ (fst e = tc /\ time_of rfc (snd e) = None \/ fst e <> tc /\ field_of (snd e) = None).
Lemma loop_none : forall m ln, to_line_loop rfc tc tags m ln = None <-> exists e, In e m /\ bad e.
Proof.
  induction m as [|[k v] m IH]; intros ln; cbn [to_line_loop].
  - split; [discriminate|intros (e & [] & _)].
  - destruct (mem_spec k tags) as [T|T].
    + rewrite IH. split.
      * intros (e & I & B). exists e. split; [right|]; auto.
      * intros (e & [<-|I] & B); [destruct B as [B _]; exfalso; apply B; exact T|]. eauto.
    + destruct (str_eqb_spec tc k) as [E|E].
      * destruct (time_of rfc v) eqn:Q.
        -- rewrite IH. split.
           ++ intros (e & I & B). exists e. split; [right|]; auto.
           ++ intros (e & [<-|I] & B); [|eauto]. destruct B as [_ [[_ B]|[B _]]]; cbn [fst snd] in B; congruence.
        -- split; auto. intros _. exists (k, v). split; [left; auto|]. split; auto.
      * destruct (field_of v) eqn:Q.
        -- rewrite IH. split.
           ++ intros (e & I & B). exists e. split; [right|]; auto.
           ++ intros (e & [<-|I] & B); [|eauto]. destruct B as [_ [[B _]|[_ B]]]; cbn [fst snd] in B; congruence.
        -- split; auto. intros _. exists (k, v). split; [left; auto|]. split; auto.
Qed.
Lemma loop_some : forall m ln ln', to_line_loop rfc tc tags m ln = Some ln' ->
  l_table ln' = l_table ln /\
  map fst (l_tags ln') = map fst (l_tags ln) ++ filter is_tag (map fst m) /\
  map fst (l_fields ln') = map fst (l_fields ln) ++ filter is_field (map fst m) /\
  (forall k t, In (k, t) (l_tags ln') <-> In (k, t) (l_tags ln) \/ exists v, In (k, v) m /\ In k tags /\ t = tag_text v) /\
  (forall k f, In (k, f) (l_fields ln') <-> In (k, f) (l_fields ln) \/ exists v, In (k, v) m /\ ~ In k tags /\ k <> tc /\ field_of v = Some f) /\
  (NoDup (map fst m) -> forall v, ~ In tc tags -> In (tc, v) m -> time_of rfc v = Some (l_time ln')) /\
  ((In tc tags \/ ~ In tc (map fst m)) -> l_time ln' = l_time ln).
Proof.
  induction m as [|[k v] m IH]; intros ln ln'; cbn [to_line_loop].
  - intros E. injection E as <-. cbn [map filter]. rewrite !app_nil_r. split; [auto|]. split; [auto|]. split; [auto|].
    split; [intros; split; [auto|intros [H|(? & [] & _)]; auto]|]. split; [intros; split; [auto|intros [H|(? & [] & _)]; auto]|]. split; [intros _ ? _ []|auto].
  - cbn [map fst filter]. unfold is_tag at 1, is_field at 1. destruct (mem_spec k tags) as [T|T]; cbn [negb andb].
    + intros E. apply IH in E. cbn [l_table l_tags l_fields l_time] in E. destruct E as (A1 & A2 & A3 & A4 & A5 & A6 & A7).
      split; [auto|]. split; [rewrite A2, map_app, <- app_assoc; reflexivity|]. split; [auto|]. split; [|split; [|split]].
      * intros k0 t. rewrite A4, in_app_iff. cbn [In]. split.
        -- intros [[H|[H|[]]]|(w & I & H)]; [auto|injection H as <- <-; right; exists v; auto|right; exists w; auto].
        -- intros [H|(w & [I|I] & H1 & H2)]; [auto|injection I as <- <-; subst; auto|right; exists w; auto].
      * intros k0 f. rewrite A5. split.
        -- intros [H|(w & I & H)]; [auto|right; exists w; cbn [In]; auto].
        -- intros [H|(w & [I|I] & H1 & H2)]; [auto|injection I as <- <-; contradiction|right; exists w; auto].
      * intros ND w NT [I|I]; [injection I as <- <-; contradiction|]. inversion ND; subst. apply A6; auto.
      * intros H. apply A7. destruct H as [H|H]; auto. right. intros I. apply H. right. auto.
    + destruct (str_eqb_spec tc k) as [E|E]; cbn [negb].
      * destruct (time_of rfc v) as [t0|] eqn:Q; [|discriminate]. intros R. apply IH in R. cbn [l_table l_tags l_fields l_time] in R. destruct R as (A1 & A2 & A3 & A4 & A5 & A6 & A7).
        split; [auto|]. split; [auto|]. split; [auto|]. split; [|split; [|split]].
        -- intros k0 t. rewrite A4. split.
           ++ intros [H|(w & I & H)]; [auto|right; exists w; cbn [In]; auto].
           ++ intros [H|(w & [I|I] & H1 & H2)]; [auto|injection I as <- <-; contradiction|right; exists w; auto].
        -- intros k0 f. rewrite A5. split.
           ++ intros [H|(w & I & H)]; [auto|right; exists w; cbn [In]; auto].
           ++ intros [H|(w & [I|I] & H1 & H2 & H3)]; [auto|injection I as <- <-; congruence|right; exists w; auto].
        -- intros ND w NT I. inversion ND; subst. destruct I as [I|I].
           ++ injection I as <-. rewrite A7; auto.
           ++ exfalso. apply H1. exact (in_map fst _ _ I).
        -- intros [H|H]; exfalso; subst; [auto|]. apply H. left. auto.
      * destruct (field_of v) as [f0|] eqn:Q; [|discriminate]. intros R. apply IH in R. cbn [l_table l_tags l_fields l_time] in R. destruct R as (A1 & A2 & A3 & A4 & A5 & A6 & A7).
        split; [auto|]. split; [auto|]. split; [rewrite A3, map_app, <- app_assoc; reflexivity|]. split; [|split; [|split]].
        -- intros k0 t. rewrite A4. split.
           ++ intros [H|(w & I & H)]; [auto|right; exists w; cbn [In]; auto].
           ++ intros [H|(w & [I|I] & H1 & H2)]; [auto|injection I as <- <-; contradiction|right; exists w; auto].
        -- intros k0 f. rewrite A5, in_app_iff. cbn [In]. split.
           ++ intros [[H|[H|[]]]|(w & I & H)]; [auto|injection H as <- <-; right; exists v; auto|right; exists w; auto].
           ++ intros [H|(w & [I|I] & H1 & H2 & H3)]; [auto|injection I as <- <-; rewrite Q in H3; injection H3 as <-; auto|right; exists w; auto].
        -- intros ND w NT [I|I]; [injection I as <- <-; congruence|]. inversion ND; subst. apply A6; auto.
        -- intros H. apply A7. destruct H as [H|H]; auto. right. intros I. apply H. right. auto.
Qed.
End Line.
Lemma nodup_filters {A : Type} (f g : A -> bool) : forall l, NoDup l -> (forall x, f x = true -> g x = false) -> NoDup (filter f l ++ filter g l).
Proof.
  intros l ND D. pose proof (NoDup_filter f ND) as N1. pose proof (NoDup_filter g ND) as N2.
  assert (forall x, In x (filter f l) -> ~ In x (filter g l)) as DJ by (intros x I J; apply filter_In in I, J; destruct I as [_ I], J as [_ J]; rewrite (D _ I) in J; discriminate).
  revert N1 DJ. generalize (filter f l) as u. induction u as [|y u IHu]; intros N1 DJ; cbn [app]; auto. inversion N1; subst. constructor.
  - intros I. apply in_app_or in I. destruct I as [I|I]; [auto|]. apply (DJ y); [left; auto|auto].
  - apply IHu; auto. intros x I. apply DJ. right. auto.
Qed.
Lemma value_iff j k x : plain_keys j -> (In (k, x) (flatten [] j) <-> value_of j k x).
Proof. intros P. rewrite (flatten_values j P [] (or_introl eq_refl)). reflexivity. Qed.
Lemma leaf_scalar j p x : leaf j p x -> node x = false.
Proof. induction 1; auto. Qed.
Lemma value_scalar j k x : value_of j k x -> node x = false.
Proof. intros (p & L & _). eapply leaf_scalar; eauto. Qed.

Lemma storable_cases rfc tc tags k v : storable rfc tc tags k v ->
  (In k tags -> tag_fit v) /\ (~ In k tags -> k = tc -> exists t, time_from rfc v t) /\ (~ In k tags -> k <> tc -> field_fit v).
Proof. unfold storable. destruct (in_dec (list_eq_dec Z.eq_dec) k tags); [|destruct (list_eq_dec Z.eq_dec k tc)]; intros H; repeat split; intros; try contradiction; auto. Qed.
Theorem record_ok rfc now table tc tags j : listable tags -> plain_keys j -> (forall k v, value_of j k v -> storable rfc tc tags k v) ->
  exists ln, to_line rfc now table tc (commas tags) (flatten [] j) = Some ln /\ row_of rfc now table tc tags (value_of j) ln.
Proof.
  intros LT P ST. unfold to_line. rewrite tag_list_commas by auto.
  destruct (to_line_loop rfc tc tags (flatten [] j) (Line table [] [] now)) as [ln|] eqn:E.
  - exists ln. split; auto. apply loop_some in E. cbn [l_table l_tags l_fields l_time map app] in E. destruct E as (A1 & A2 & A3 & A4 & A5 & A6 & A7).
    pose proof (ordered_nodup _ (flatten_ordered j [])) as ND. constructor.
    + exact A1.
    + intros k t. rewrite A4. cbn [In]. split.
      * intros [[]|(v & I & T & ->)]. split; auto. apply value_iff in I; auto. exists v. split; auto.
        apply (tag_text_iff v (tag_text v)); auto; [eapply value_scalar; eauto|]. apply (storable_cases _ _ _ _ _ (ST _ _ I)). auto.
      * intros (T & v & V & X). right. exists v. split; [apply value_iff; auto|]. split; auto.
        apply tag_text_iff; auto; [eapply value_scalar; eauto|]. apply (storable_cases _ _ _ _ _ (ST _ _ V)). auto.
    + intros k f. rewrite A5. cbn [In]. split.
      * intros [[]|(v & I & T & N1 & Q)]. apply value_iff in I; auto. repeat split; auto. exists v. split; auto. apply field_of_iff; auto; [eapply value_scalar; eauto|].
        apply (storable_cases _ _ _ _ _ (ST _ _ I)); auto.
      * intros (T & N1 & v & V & X). right. exists v. split; [apply value_iff; auto|]. repeat split; auto. apply field_of_iff; auto; [eapply value_scalar; eauto|].
        apply (storable_cases _ _ _ _ _ (ST _ _ V)); auto.
    + rewrite A2, A3. apply nodup_filters; auto. unfold is_tag, is_field. intros x ->. reflexivity.
    + intros v NT V. apply time_of_iff. apply A6; auto. apply value_iff; auto.
    + intros H. apply A7. destruct H as [H|H]; auto. right. intros I. apply in_map_iff in I. destruct I as ([k v] & E & I). cbn [fst] in E. subst. apply (H v). apply value_iff; auto.
  - exfalso. apply loop_none in E. destruct E as ([k v] & I & NT & B). cbn [fst snd] in *. apply value_iff in I; auto. destruct (storable_cases _ _ _ _ _ (ST _ _ I)) as (_ & S2 & S3).
    destruct B as [[-> B]|[N1 B]].
    + destruct (S2 NT eq_refl) as (t & X). apply time_of_iff in X. congruence.
    + specialize (S3 NT N1). destruct v as [|b|[z|ft bits]|s|l|m]; cbn [field_of] in B; try discriminate; [exact S3|..]; apply value_scalar in I; discriminate.
Qed.
Theorem record_rejected rfc now table tc tags j : listable tags -> plain_keys j ->
  (to_line rfc now table tc (commas tags) (flatten [] j) = None <->
   exists k v, value_of j k v /\ ~ In k tags /\ (k = tc /\ (forall t, ~ time_from rfc v t) \/ k <> tc /\ v = JNull)).
Proof.
  intros LT P. unfold to_line. rewrite tag_list_commas by auto. rewrite loop_none. split.
  - intros ([k v] & I & NT & B). cbn [fst snd] in *. exists k, v. apply value_iff in I; auto. repeat split; auto. destruct B as [[-> B]|[N1 B]]; [left|right]; split; auto.
    + intros t X. apply time_of_iff in X. congruence.
    + destruct v as [|b|[z|ft bits]|s|l|m]; cbn [field_of] in B; try discriminate; auto; apply value_scalar in I; discriminate.
  - intros (k & v & V & NT & B). exists (k, v). split; [apply value_iff; auto|]. split; auto. cbn [fst snd]. destruct B as [[-> B]|[N1 ->]]; [left|right]; split; auto.
    destruct (time_of rfc v) eqn:Q; auto. exfalso. apply time_of_iff in Q. eapply B; eauto.
Qed.

(** * Requests *)
Lemma ndjson_all docs : ndjson (map Some docs) = Some (map (flatten []) docs).
Proof. induction docs as [|j docs IH]; cbn [map ndjson]; auto. rewrite IH. reflexivity. Qed.
Lemma bulk_all docs : bulk (map (fun d : command * json => (Some (fst d), Some (snd d))) docs) = Some (map (fun d => flatten [] (snd d)) docs).
Proof. induction docs as [|[c j] docs IH]; cbn [map bulk fst snd]; auto. rewrite IH. reflexivity. Qed.
Lemma to_lines_ok rfc table tc tc' : forall logs clock, (forall i m, nth_error logs i = Some m -> exists ln, to_line rfc (clock i) table tc tc' m = Some ln) ->
  exists lns, to_lines rfc clock table tc tc' logs = Some lns /\ length lns = length logs /\
    forall i m, nth_error logs i = Some m -> exists ln, nth_error lns i = Some ln /\ to_line rfc (clock i) table tc tc' m = Some ln.
Proof.
  induction logs as [|m logs IH]; intros clock H; cbn [to_lines].
  - exists []. repeat split. intros [|i] m E; discriminate.
  - destruct (H 0%nat m eq_refl) as (ln & E). rewrite E. destruct (IH (fun i => clock (S i))) as (lns & E2 & Q & R).
    { intros i m0 I. apply (H (S i) m0 I). }
    rewrite E2. exists (ln :: lns). repeat split; [cbn [length]; lia|]. intros [|i] m0 I; cbn [nth_error] in *.
    + injection I as <-. exists ln. auto.
    + apply R. auto.
Qed.
Lemma to_lines_none rfc table tc tc' : forall logs clock, to_lines rfc clock table tc tc' logs = None <-> exists i m, nth_error logs i = Some m /\ to_line rfc (clock i) table tc tc' m = None.
Proof.
  induction logs as [|m logs IH]; intros clock; cbn [to_lines].
  - split; [discriminate|intros ([|i] & m & E & _); discriminate].
  - destruct (to_line rfc (clock 0%nat) table tc tc' m) eqn:E.
    + specialize (IH (fun i => clock (S i))). destruct (to_lines rfc (fun i => clock (S i)) table tc tc' logs) eqn:Q.
      * split; [discriminate|]. intros ([|i] & m0 & I & R); cbn [nth_error] in I; [injection I as <-; congruence|].
        assert (Some l0 = None :> option (list line)); [|discriminate]. apply IH. exists i, m0. auto.
      * split; auto. intros _. destruct (proj1 IH eq_refl) as (i & m0 & I & R). exists (S i), m0. auto.
    + split; auto. intros _. exists 0%nat, m. auto.
Qed.

(** * Loki *)
Lemma wrap_add a b : wrap_i64 (wrap_i64 a + b) = wrap_i64 (a + b).
Proof.
  assert (exists q, wrap_i64 a = a + q * 2 ^ 64) as (q & ->).
  { unfold wrap_i64. cbv zeta. pose proof (Z.div_mod a (2 ^ 64) ltac:(lia)) as D. remember (a mod 2 ^ 64) as r. remember (a / 2 ^ 64) as d. clear - D.
    destruct (r <? 2 ^ 63); [exists (- d)|exists (- d - 1)]; rewrite two64 in *; lia. }
  unfold wrap_i64. cbv zeta. replace (a + q * 2 ^ 64 + b) with ((a + b) + q * 2 ^ 64) by ring. rewrite Z_mod_plus_full. reflexivity.
Qed.
Lemma entry_time_ok e : - 2 ^ 63 <= nanos e < 2 ^ 63 -> entry_time e = nanos e.
Proof.
  unfold entry_time, nanos. destruct (e_time e) as [[s n]|]; auto. intros B. rewrite wrap_add. apply wrap_i64_id. unfold is_i64, I64_MIN, I64_MAX. lia.
Qed.
Definition loki_fields (p : str * entry) : fields :=
  [(txt "lables", JStr (fst p)); (txt "msg", JStr (e_line (snd p))); (txt "time", JNum (NInt (entry_time (snd p))))].
Lemma put_first a e : put (txt "msg") (JStr (e_line e)) (put (txt "time") (JNum (NInt (entry_time e))) [(txt "lables", JStr a)]) = loki_fields (a, e).
Proof. reflexivity. Qed.
Lemma put_next p e : put (txt "msg") (JStr (e_line e)) (put (txt "time") (JNum (NInt (entry_time e))) (loki_fields p)) = loki_fields (fst p, e).
Proof. reflexivity. Qed.
Lemma entries_loki : forall es a, entries [(txt "lables", JStr a)] es = map (fun e => loki_fields (a, e)) es.
Proof.
  assert (forall es p, entries (loki_fields p) es = map (fun e => loki_fields (fst p, e)) es) as G.
  { induction es as [|e es IH]; intros p; cbn [entries map]; auto. cbv zeta. rewrite put_next. rewrite IH. reflexivity. }
  destruct es as [|e es]; intros a; auto. cbn [entries map]. cbv zeta. rewrite put_first, G. reflexivity.
Qed.
Lemma loki_all streams : loki streams = map loki_fields (loki_entries streams).
Proof.
  unfold loki, loki_entries. induction streams as [|s streams IH]; cbn [flat_map map]; auto. rewrite map_app, IH, entries_loki, map_map. reflexivity.
Qed.
Lemma loki_line rfc now table p : - 2 ^ 63 <= nanos (snd p) < 2 ^ 63 ->
  to_line rfc now table (txt "time") [] (loki_fields p) = Some (Line table [] [(txt "lables", VStr (fst p)); (txt "msg", VStr (e_line (snd p)))] (nanos (snd p))).
Proof.
  intros B. unfold to_line, loki_fields. rewrite entry_time_ok by auto. cbn [to_line_loop].
  change (mem (txt "lables") (tag_list [])) with false. change (mem (txt "msg") (tag_list [])) with false. change (mem (txt "time") (tag_list [])) with false.
  change (str_eqb (txt "time") (txt "lables")) with false. change (str_eqb (txt "time") (txt "msg")) with false. change (str_eqb (txt "time") (txt "time")) with true.
  cbv iota. cbn [field_of time_of num_i64]. replace ((I64_MIN <=? nanos (snd p)) && (nanos (snd p) <=? I64_MAX)) with true by (symmetry; unfold I64_MIN, I64_MAX; lia).
  reflexivity.
Qed.
Theorem loki_ok rfc table streams : Forall (fun p => - 2 ^ 63 <= nanos (snd p) < 2 ^ 63) (loki_entries streams) -> forall clock,
  to_lines rfc clock table (txt "time") [] (loki streams) =
  Some (map (fun p => Line table [] [(txt "lables", VStr (fst p)); (txt "msg", VStr (e_line (snd p)))] (nanos (snd p))) (loki_entries streams)).
Proof.
  intros F. rewrite loki_all. induction F as [|p l B F IH]; intros clock; cbn [map to_lines]; auto. rewrite loki_line by auto. rewrite IH. reflexivity.
Qed.
