From Verif Require Import Prelude Bytes IndexModel IndexSpec.
Open Scope Z_scope.

(** * Equality and sets *)
Lemma beq_eq a b : beq a b = true <-> a = b.
Proof.
  revert b; induction a as [|x a IH]; intros [|y b]; cbn; split; intros H; try discriminate; auto.
  - apply andb_true_iff in H as [H1 H2]. apply Z.eqb_eq in H1. apply IH in H2. congruence.
  - injection H as -> ->. rewrite Z.eqb_refl. cbn. apply IH. reflexivity.
Qed.
Lemma beq_refl a : beq a a = true. Proof. apply beq_eq. reflexivity. Qed.
Lemma beq_neq a b : beq a b = false <-> a <> b.
Proof. destruct (beq a b) eqn:E; split; intros H; try discriminate; try congruence. - apply beq_eq in E. congruence. - intros ->. rewrite beq_refl in E. discriminate. Qed.
Lemma teq_eq a b : teq a b = true <-> a = b.
Proof.
  revert b; induction a as [|[x v] a IH]; intros [|[y w] b]; cbn; split; intros H; try discriminate; auto.
  - rewrite !andb_true_iff, !beq_eq, IH in H. destruct H as [[-> ->] ->]. reflexivity.
  - injection H as -> -> ->. rewrite !beq_refl. cbn. apply IH. reflexivity.
Qed.
Lemma seq_eq_eq a b : seq_eq a b = true <-> a = b.
Proof.
  destruct a as [t l], b as [t' l']. unfold seq_eq. cbn. rewrite andb_true_iff, beq_eq, teq_eq. split; [intros [-> ->]; auto|]. intros H. injection H as -> ->. auto.
Qed.
Lemma seq_eq_neq a b : seq_eq a b = false <-> a <> b.
Proof. rewrite <- not_true_iff_false, seq_eq_eq. tauto. Qed.
Lemma tk_eq_eq a b : tk_eq a b = true <-> a = b.
Proof.
  destruct a as [[x y] z], b as [[x' y'] z']. cbn. rewrite !andb_true_iff, !beq_eq. split; [intros [[-> ->] ->]; auto|]. intros H. injection H as -> -> ->. auto.
Qed.
Lemma tk_eq_refl a : tk_eq a a = true. Proof. apply tk_eq_eq. reflexivity. Qed.
Lemma tk_eq_neq a b : tk_eq a b = false <-> a <> b.
Proof. rewrite <- not_true_iff_false, tk_eq_eq. tauto. Qed.
Lemma series_dec (a b : series) : {a = b} + {a <> b}.
Proof. destruct (seq_eq a b) eqn:E; [left; apply seq_eq_eq; auto | right; apply seq_eq_neq; auto]. Defined.

Lemma sid_mem_in x s : sid_mem x s = true <-> In x s.
Proof. unfold sid_mem. rewrite existsb_exists. split; [intros (y & H & E); apply Z.eqb_eq in E; subst; auto | intros H; exists x; split; auto; apply Z.eqb_refl]. Qed.
Lemma set_add_in x y s : In y (set_add x s) <-> y = x \/ In y s.
Proof. unfold set_add. destruct (sid_mem x s) eqn:E; cbn; [apply sid_mem_in in E|]; intuition (subst; auto). Qed.
Lemma set_add_nodup x s : NoDup s -> NoDup (set_add x s).
Proof. intros H. unfold set_add. destruct (sid_mem x s) eqn:E; auto. constructor; auto. rewrite <- sid_mem_in, E. discriminate. Qed.
Lemma set_del_in x y s : In y (set_del x s) <-> y <> x /\ In y s.
Proof. unfold set_del. rewrite filter_In, negb_true_iff, Z.eqb_neq. tauto. Qed.
Lemma set_or_in x a b : In x (set_or a b) <-> In x a \/ In x b.
Proof. unfold set_or. induction a as [|y a IH]; cbn; [tauto|]. rewrite set_add_in, IH. intuition. Qed.
Lemma set_or_nodup a b : NoDup b -> NoDup (set_or a b).
Proof. intros H. unfold set_or. induction a; cbn; auto. apply set_add_nodup; auto. Qed.
Lemma set_and_in x a b : In x (set_and a b) <-> In x a /\ In x b.
Proof. unfold set_and. rewrite filter_In, sid_mem_in. tauto. Qed.

(** * Keys *)
Lemma be_inj n a b : 0 <= a < 256 ^ Z.of_nat n -> 0 <= b < 256 ^ Z.of_nat n -> be_bytes n a = be_bytes n b -> a = b.
Proof.
  intros Ha Hb E. assert (E' : of_be (be_bytes n a) = of_be (be_bytes n b)) by congruence. rewrite !of_be_be_bytes in E'.
  rewrite (Z.mod_small a), (Z.mod_small b) in E'; auto.
Qed.
Lemma app_inj_len {A} (a b c d : list A) : length a = length c -> a ++ b = c ++ d -> a = c /\ b = d.
Proof. revert c; induction a as [|x a IH]; intros [|y c] L E; cbn in *; try discriminate; auto. injection E as -> E. destruct (IH c) as [-> ->]; auto. Qed.
Lemma enc_str_inj a b x y : Z.of_nat (length a) < 65536 -> Z.of_nat (length b) < 65536 -> enc_str a ++ x = enc_str b ++ y -> a = b /\ x = y.
Proof.
  unfold enc_str. intros La Lb E. rewrite <- !app_assoc in E. apply app_inj_len in E as [E1 E2]; [|rewrite !be_bytes_length; auto].
  apply be_inj in E1; [|cbn; lia|cbn; lia]. apply Nat2Z.inj in E1. apply app_inj_len in E2; auto.
Qed.
Lemma enc_str_length s : length (enc_str s) = (2 + length s)%nat.
Proof. unfold enc_str. rewrite app_length, be_bytes_length. reflexivity. Qed.
Definition enc_tags (l : list (bytes * bytes)) : bytes := concat (map (fun t => enc_str (fst t) ++ enc_str (snd t)) l).
Definition short (k : series) : Prop :=
  Z.of_nat (length (sk_table k)) < 65536 /\ Forall (fun t => Z.of_nat (length (fst t)) < 65536 /\ Z.of_nat (length (snd t)) < 65536) (sk_tags k).
Lemma enc_tags_inj a b : Forall (fun t => Z.of_nat (length (fst t)) < 65536 /\ Z.of_nat (length (snd t)) < 65536) a ->
  Forall (fun t => Z.of_nat (length (fst t)) < 65536 /\ Z.of_nat (length (snd t)) < 65536) b -> enc_tags a = enc_tags b -> a = b.
Proof.
  unfold enc_tags. revert b. induction a as [|[k v] a IH]; intros [|[k' v'] b] Fa Fb E; auto; cbn [map concat fst snd] in E.
  - apply (f_equal (@length Z)) in E. rewrite !app_length, enc_str_length in E. cbn in E. lia.
  - apply (f_equal (@length Z)) in E. rewrite !app_length, enc_str_length in E. cbn in E. lia.
  - inversion Fa as [|? ? [A1 A2] A3]; subst. inversion Fb as [|? ? [B1 B2] B3]; subst. cbn in A1, A2, B1, B2.
    rewrite <- !app_assoc in E. apply enc_str_inj in E as [-> E]; auto. apply enc_str_inj in E as [-> E]; auto. f_equal. auto.
Qed.
Lemma enc_with_inj p a b : short a -> short b -> enc_with p a = enc_with p b -> a = b.
Proof.
  intros [A1 A2] [B1 B2] E. unfold enc_with in E. apply app_inv_head in E. apply enc_str_inj in E as [E1 E2]; auto.
  apply enc_tags_inj in E2; auto. destruct a, b; cbn in *. congruence.
Qed.
Lemma enc_tags_length l : Forall (fun t => (length (fst t) <= length (enc_tags l))%nat /\ (length (snd t) <= length (enc_tags l))%nat) l.
Proof.
  induction l as [|[k v] l IH]; [constructor|]. unfold enc_tags in *. cbn [map concat fst snd]. rewrite !app_length, !enc_str_length. constructor; [cbn; lia|].
  eapply Forall_impl; [|exact IH]. cbn. intros t [H1 H2]. lia.
Qed.
Lemma key_ok_short k : key_ok k -> short k.
Proof.
  intros (_ & _ & L). unfold enc_key, enc_with in L. fold (enc_tags (sk_tags k)) in L. rewrite !app_length, enc_str_length in L. unfold MAX_KEY in L.
  split; [lia|]. eapply Forall_impl; [|apply enc_tags_length]. cbn. intros t [H1 H2]. lia.
Qed.

Definition t_ok (t : tagkey) : Prop :=
  let '(tab, tk, tv) := t in name_ok tab /\ Forall digit tk /\ (length (enc_inv tab tk tv) <= MAX_KEY)%nat.
Definition enc_t (t : tagkey) : bytes := let '(tab, tk, tv) := t in enc_inv tab tk tv.
Lemma digit_not_eq tk : Forall digit tk -> ~ In 61 tk.
Proof. intros F H. rewrite Forall_forall in F. specialize (F 61 H). unfold digit in F. lia. Qed.
(** Splitting at the first separator. *)
Lemma split_first c (a b x y : bytes) : ~ In c a -> ~ In c b -> a ++ c :: x = b ++ c :: y -> a = b /\ x = y.
Proof.
  revert b. induction a as [|z a IH]; intros [|w b] Ha Hb E; cbn in *.
  - injection E as ->. auto.
  - injection E as -> _. tauto.
  - injection E as -> _. tauto.
  - injection E as -> E. destruct (IH b) as [-> ->]; auto.
Qed.
Lemma enc_inv_inj t t' : t_ok t -> t_ok t' -> enc_t t = enc_t t' -> t = t'.
Proof.
  destruct t as [[a b] c], t' as [[a' b'] c']. cbn. intros ((A & _) & B & _) ((A' & _) & B' & _) E. unfold enc_inv in E. cbn [app] in E.
  apply split_first in E as [-> E]; auto. apply split_first in E as [-> ->]; auto using digit_not_eq.
Qed.
Lemma prefixb_app p x : prefixb p (p ++ x) = true.
Proof. induction p; cbn; auto. rewrite Z.eqb_refl. auto. Qed.
Lemma prefixb_iff p k : prefixb p k = true <-> exists x, k = p ++ x.
Proof.
  revert k; induction p as [|a p IH]; intros k; cbn; [split; eauto|]. destruct k as [|b k].
  - split; [discriminate | intros [x E]; discriminate].
  - rewrite andb_true_iff, Z.eqb_eq, IH. split; [intros [-> [x ->]]; eauto | intros [x E]; injection E as -> ->; eauto].
Qed.
(** A reserved prefix without a dot cannot start [tab.…] unless it starts [tab]. *)
Lemma reserved p tab x y : ~ In 46 p -> prefixb p tab = false -> p ++ x = tab ++ 46 :: y -> False.
Proof.
  revert tab. induction p as [|a p IH]; intros tab Hp Hf E; [discriminate|]. destruct tab as [|b tab]; cbn in *.
  - injection E as -> _. tauto.
  - injection E as -> E. rewrite Z.eqb_refl in Hf. cbn in Hf. apply (IH tab); auto.
Qed.

Inductive kkind := KAuto | KId (i : Z) | KKey (k : series) | KTomb (k : series) | KInv (t : tagkey).
Definition kenc (a : kkind) : bytes :=
  match a with KAuto => K_AUTO | KId i => enc_id i | KKey k => enc_key k | KTomb k => enc_tomb k | KInv t => enc_t t end.
Definition kok (a : kkind) : Prop :=
  match a with KAuto => True | KId i => 0 <= i < 2 ^ 32 | KKey k | KTomb k => key_ok k | KInv t => t_ok t end.
Definition vok (a : kkind) (v : sval) : Prop :=
  match a, v with KAuto, VId _ | KId _, VKey _ | KKey _, VId _ | KTomb _, VId _ | KInv _, VSet _ => True | _, _ => False end.
Lemma nodot_id : ~ In 46 P_ID. Proof. unfold P_ID. cbn. lia. Qed.
Lemma nodot_key : ~ In 46 P_KEY. Proof. unfold P_KEY. cbn. lia. Qed.
Lemma nodot_tomb : ~ In 46 P_TOMB. Proof. unfold P_TOMB. cbn. lia. Qed.
Lemma inv_not_reserved t a : t_ok t -> (match a with KInv _ => False | _ => True end) -> enc_t t = kenc a -> False.
Proof.
  destruct t as [[tab tk] tv]. intros ((N & N1 & N2 & N3) & _) Ha E. unfold enc_t, enc_inv in E. cbn [app] in E.
  destruct a as [|i|k|k|]; cbn [kenc] in E; auto.
  - assert (H : In 46 K_AUTO) by (rewrite <- E; apply in_app_iff; right; left; auto). unfold K_AUTO in H. cbn in H. lia.
  - symmetry in E. eapply reserved in E; auto. apply nodot_id.
  - symmetry in E. eapply reserved in E; auto. apply nodot_key.
  - symmetry in E. eapply reserved in E; auto. apply nodot_tomb.
Qed.
Lemma enc_id_inj i j : 0 <= i < 2 ^ 32 -> 0 <= j < 2 ^ 32 -> enc_id i = enc_id j -> i = j.
Proof. intros Hi Hj E. unfold enc_id in E. apply app_inv_head in E. apply be_inj in E; auto. Qed.
Lemma kenc_inj a b : kok a -> kok b -> kenc a = kenc b -> a = b.
Proof.
  intros Ha Hb E.
  destruct a as [|i|k|k|t].
  5: { destruct b as [| | | |t']; try (exfalso; eapply (inv_not_reserved t) in E; auto; fail). f_equal. apply enc_inv_inj; auto. }
  all: destruct b as [|i'|k'|k'|t']; try (exfalso; symmetry in E; eapply (inv_not_reserved t') in E; auto; fail);
    cbn [kenc kok] in *; try (f_equal; apply enc_id_inj; auto; fail); unfold enc_id, enc_key, enc_tomb, enc_with, P_ID, P_KEY, P_TOMB, K_AUTO in E; cbn [app] in E; try discriminate; auto.
  - f_equal. apply (enc_with_inj P_KEY); auto using key_ok_short.
  - f_equal. apply (enc_with_inj P_TOMB); auto using key_ok_short.
Qed.
Lemma kenc_len a : kok a -> (length (kenc a) <=? MAX_KEY)%nat && negb (beq (kenc a) []) = true.
Proof.
  intros H. apply andb_true_iff. split.
  - apply Nat.leb_le. destruct a; cbn [kok kenc] in *.
    + unfold K_AUTO, MAX_KEY. cbn. lia.
    + unfold enc_id. rewrite app_length, be_bytes_length. unfold P_ID, MAX_KEY. cbn. lia.
    + destruct H as (_ & _ & H). unfold MAX_KEY in *. lia.
    + destruct H as (_ & _ & H). unfold enc_tomb, enc_key, enc_with in *. rewrite app_length in *. unfold P_TOMB, P_KEY, MAX_KEY in *. cbn [length] in *. lia.
    + destruct t as [[tab tk] tv]. cbn. apply H.
  - apply negb_true_iff, beq_neq. destruct a; cbn [kenc]; try discriminate. destruct t as [[tab tk] tv]. unfold enc_t, enc_inv. destruct tab; discriminate.
Qed.

Arguments enc_key : simpl never.
Arguments enc_id : simpl never.
Arguments enc_tomb : simpl never.
Arguments enc_inv : simpl never.
(** * The storage *)
Lemma st_get_in st k v : st_get st k = Some v -> In (k, v) st.
Proof.
  unfold st_get. intros H. destruct (find _ st) as [[k' v']|] eqn:E; cbn in H; [|discriminate]. injection H as ->. apply find_some in E as [H E]. cbn in E.
  apply beq_eq in E. subst. auto.
Qed.
Lemma st_get_nodup st k v : NoDup (map fst st) -> In (k, v) st -> st_get st k = Some v.
Proof.
  unfold st_get. induction st as [|[k' v'] st IH]; intros N H; [contradiction|]. cbn [map fst] in N. inversion N; subst. cbn [find fst]. destruct H as [H | H].
  - injection H as -> ->. rewrite beq_refl. reflexivity.
  - destruct (beq k' k) eqn:E; [|auto]. apply beq_eq in E. subst. exfalso. apply H2. apply in_map_iff. exists (k, v). auto.
Qed.
Lemma st_get_del st k k' : st_get (st_del st k) k' = if beq k k' then None else st_get st k'.
Proof.
  unfold st_get, st_del. induction st as [|[b v] st IH]; cbn [filter find]; [destruct (beq k k'); reflexivity|]. cbn [fst]. destruct (beq b k) eqn:E; cbn [negb].
  - apply beq_eq in E. subst. rewrite IH. destruct (beq k k') eqn:E; auto.
  - cbn [find fst]. destruct (beq b k') eqn:E'; [|exact IH]. apply beq_eq in E'. subst. destruct (beq k k') eqn:E'; auto. apply beq_eq in E'. subst. rewrite beq_refl in E. discriminate.
Qed.
Lemma map_filter_nodup {A B} (f : A -> B) g (l : list A) : NoDup (map f l) -> NoDup (map f (filter g l)).
Proof.
  induction l as [|x l IH]; intros H; auto. cbn [map filter] in *. inversion H; subst. destruct (g x); auto. cbn [map]. constructor; auto.
  intros HI. apply H2. apply in_map_iff in HI as (y & E & Hy). apply filter_In in Hy as [Hy _]. apply in_map_iff. eauto.
Qed.
Lemma st_put_ok st a v : kok a -> st_put st (kenc a) v = Some ((kenc a, v) :: st_del st (kenc a)).
Proof. intros H. unfold st_put. rewrite kenc_len; auto. Qed.
Lemma st_get_put st a v b : st_get ((a, v) :: st_del st a) b = if beq a b then Some v else st_get st b.
Proof. change ((a, v) :: st_del st a) with ([(a, v)] ++ st_del st a). unfold st_get at 1. cbn [app find fst]. destruct (beq a b) eqn:E; [reflexivity|]. fold (st_get (st_del st a) b). rewrite st_get_del, E. reflexivity. Qed.
Lemma st_put_nodup st (a : bytes) (v : sval) : NoDup (map fst st) -> NoDup (map fst ((a, v) :: st_del st a)).
Proof.
  intros H. cbn [map fst]. constructor; [|apply map_filter_nodup; auto]. intros HI. apply in_map_iff in HI as ([b w] & E & Hb). unfold st_del in Hb.
  apply filter_In in Hb as [_ Hb]. cbn in *. subst. rewrite beq_refl in Hb. discriminate.
Qed.

Definition smem (st : store) (t : tagkey) (i : Z) : Prop := exists s, st_get st (enc_t t) = Some (VSet s) /\ In i s.
Definition pairs := list (Z * series).
Record stok (st : store) (P : pairs) (J : tagkey -> Z -> Prop) : Prop := {
  so_nd : NoDup (map fst st);
  so_kind : forall b v, In (b, v) st -> exists a, kok a /\ b = kenc a /\ vok a v;
  so_id : forall i k, 0 <= i < 2 ^ 32 -> (st_get st (enc_id i) = Some (VKey k) <-> In (i, k) P);
  so_key : forall i k, key_ok k -> (st_get st (enc_key k) = Some (VId i) <-> In (i, k) P);
  so_inv : forall t i, t_ok t -> (smem st t i <-> J t i);
  so_sets : forall b s, In (b, VSet s) st -> NoDup s }.
Lemma so_get st P J a v : stok st P J -> kok a -> st_get st (kenc a) = Some v -> vok a v.
Proof. intros S Ka E. apply st_get_in in E. destruct (so_kind _ _ _ S _ _ E) as (b & Kb & Eb & V). apply kenc_inj in Eb; auto. subst. auto. Qed.
Lemma kbeq a b : kok a -> kok b -> a <> b -> beq (kenc a) (kenc b) = false.
Proof. intros Ka Kb N. apply beq_neq. intros E. apply kenc_inj in E; auto. Qed.
Lemma put_kind st P J a v : stok st P J -> kok a -> vok a v ->
  forall b w, In (b, w) ((kenc a, v) :: st_del st (kenc a)) -> exists c, kok c /\ b = kenc c /\ vok c w.
Proof.
  intros S Ka Va b w [H | H]; [injection H as <- <-; exists a; auto|]. unfold st_del in H. apply filter_In in H as [H _]. apply (so_kind _ _ _ S); auto.
Qed.
Lemma put_sets st P J a v : stok st P J -> (forall s, v = VSet s -> NoDup s) ->
  forall b s, In (b, VSet s) ((a, v) :: st_del st a) -> NoDup s.
Proof. intros S Hv b s [H | H]; [injection H as _ H; auto|]. unfold st_del in H. apply filter_In in H as [H _]. apply (so_sets _ _ _ S b); auto. Qed.

(** Keys without meaning to the dictionary: the counter and the tombstones. *)
Lemma put_other st P J a n : stok st P J -> (a = KAuto \/ exists k, a = KTomb k) -> kok a ->
  exists st', st_put st (kenc a) (VId n) = Some st' /\ stok st' P J /\ (forall b, kok b -> st_get st' (kenc b) = if beq (kenc a) (kenc b) then Some (VId n) else st_get st (kenc b)).
Proof.
  intros S Ha Ka. rewrite st_put_ok by auto. eexists. split; [reflexivity|]. split; [|intros b _; apply st_get_put].
  assert (V : vok a (VId n)) by (destruct Ha as [-> | [k ->]]; exact I).
  split.
  - apply st_put_nodup, S.
  - apply (put_kind st P J); auto.
  - intros i k Hi. rewrite st_get_put. change (enc_id i) with (kenc (KId i)). rewrite kbeq; auto; [apply S; auto|]. destruct Ha as [-> | [? ->]]; discriminate.
  - intros i k Hk. rewrite st_get_put. change (enc_key k) with (kenc (KKey k)). rewrite kbeq; auto; [apply S; auto|]. destruct Ha as [-> | [? ->]]; discriminate.
  - intros t i Ht. unfold smem. rewrite st_get_put. change (enc_t t) with (kenc (KInv t)). rewrite kbeq; auto; [apply S; auto|]. destruct Ha as [-> | [? ->]]; discriminate.
  - apply (put_sets st P J); auto. discriminate.
Qed.
Definition fresh (P : pairs) (i : Z) (k : series) : Prop := forall i' k', In (i', k') P -> i' <> i /\ k' <> k.
Lemma put_fwd st P J i k : stok st P J -> 0 <= i < 2 ^ 32 -> key_ok k -> fresh P i k ->
  exists st1 st', st_put st (enc_key k) (VId i) = Some st1 /\ st_put st1 (enc_id i) (VKey k) = Some st' /\ stok st' ((i, k) :: P) J /\
    st_get st' K_AUTO = st_get st K_AUTO.
Proof.
  intros S Hi Hk F. change (enc_key k) with (kenc (KKey k)). change (enc_id i) with (kenc (KId i)). rewrite (st_put_ok st (KKey k)) by auto. eexists. eexists. split; [reflexivity|].
  split; [apply st_put_ok; auto|]. set (st1 := (kenc (KKey k), VId i) :: st_del st (kenc (KKey k))).
  assert (G : forall b, kok b -> st_get ((kenc (KId i), VKey k) :: st_del st1 (kenc (KId i))) (kenc b) =
    if beq (kenc (KId i)) (kenc b) then Some (VKey k) else if beq (kenc (KKey k)) (kenc b) then Some (VId i) else st_get st (kenc b)).
  { intros b Hb. rewrite st_get_put. destruct (beq _ _); auto. unfold st1. apply st_get_put. }
  split; [|change K_AUTO with (kenc KAuto); rewrite G by exact I; rewrite !kbeq; cbn; auto; discriminate]. split.
  - apply st_put_nodup, st_put_nodup, S.
  - intros b w [H | H]; [injection H as <- <-; exists (KId i); split; [exact Hi | split; [reflexivity | exact I]]|]. unfold st_del at 1 in H. apply filter_In in H as [H _].
    revert H. apply (put_kind st P J); auto. exact I.
  - intros j k' Hj. change (enc_id j) with (kenc (KId j)). rewrite G by auto. destruct (Z.eq_dec j i) as [-> | N].
    + rewrite beq_refl. split; [intros E; injection E as ->; left; auto|]. intros [E | HI]; [congruence|]. destruct (F _ _ HI). congruence.
    + rewrite (kbeq (KId i) (KId j)) by (cbn; auto; congruence). rewrite (kbeq (KKey k) (KId j)) by (cbn; auto; discriminate).
      cbn [kenc]. rewrite (so_id _ _ _ S) by auto. split; [right; auto|]. intros [E | HI]; auto. congruence.
  - intros j k' Hk'. change (enc_key k') with (kenc (KKey k')). rewrite G by auto. rewrite (kbeq (KId i) (KKey k')) by (cbn; auto; discriminate).
    destruct (series_dec k' k) as [-> | N].
    + rewrite beq_refl. split; [intros E; injection E as ->; left; auto|]. intros [E | HI]; [congruence|]. destruct (F _ _ HI). congruence.
    + rewrite (kbeq (KKey k) (KKey k')) by (cbn; auto; congruence). cbn [kenc]. rewrite (so_key _ _ _ S) by auto. split; [right; auto|]. intros [E | HI]; auto. congruence.
  - intros t j Ht. unfold smem. change (enc_t t) with (kenc (KInv t)). rewrite G by auto. rewrite !kbeq; cbn; auto; try discriminate. apply S; auto.
  - intros b s [H | H]; [discriminate|]. unfold st_del at 1 in H. apply filter_In in H as [H _]. revert H. apply (put_sets st P J); auto. discriminate.
Qed.
Lemma put_inv st P J t s : stok st P J -> t_ok t -> NoDup s ->
  exists st', st_put st (enc_t t) (VSet s) = Some st' /\ stok st' P (fun t' i => (t' <> t /\ J t' i) \/ (t' = t /\ In i s)) /\ st_get st' K_AUTO = st_get st K_AUTO.
Proof.
  intros S Ht Hs. change (enc_t t) with (kenc (KInv t)). rewrite (st_put_ok st (KInv t)) by auto. eexists. split; [reflexivity|].
  split; [|rewrite st_get_put; change K_AUTO with (kenc KAuto); rewrite kbeq; cbn; auto; discriminate]. split.
  - apply st_put_nodup, S.
  - apply (put_kind st P J); auto. exact I.
  - intros i k Hi. rewrite st_get_put. change (enc_id i) with (kenc (KId i)). rewrite kbeq by (cbn; auto; discriminate). apply S; auto.
  - intros i k Hk. rewrite st_get_put. change (enc_key k) with (kenc (KKey k)). rewrite kbeq by (cbn; auto; discriminate). apply S; auto.
  - intros t' i Ht'. unfold smem. rewrite st_get_put. change (enc_t t') with (kenc (KInv t')).
    assert (D : t' = t \/ t' <> t) by (destruct (tk_eq t' t) eqn:E; [left; apply tk_eq_eq | right; apply tk_eq_neq]; auto). destruct D as [-> | N].
    + rewrite beq_refl. split; [intros (s' & E & H); injection E as ->; auto|]. intros [[N _] | [_ H]]; [congruence|]. eauto.
    + rewrite kbeq by (cbn; auto; congruence). pose proof (so_inv _ _ _ S t' i Ht') as Q. unfold smem in Q. cbn [kenc]. rewrite Q. split; [auto|]. intros [[_ H] | [E _]]; [auto|congruence].
  - apply (put_sets st P J); auto. intros s' E. injection E as ->. auto.
Qed.
Lemma stok_ext st P J J' : stok st P J -> (forall t i, t_ok t -> (J t i <-> J' t i)) -> stok st P J'.
Proof. intros [A B C D E F] H. split; auto. intros t i Ht. rewrite E by auto. auto. Qed.
Lemma stok_perm st P P' J : stok st P J -> (forall p, In p P <-> In p P') -> stok st P' J.
Proof. intros [A B C D E F] H. split; auto; intros; rewrite <- H; auto. Qed.
Lemma get_rb_ok st P J t : stok st P J -> t_ok t ->
  exists r, get_rb st (enc_t t) = Some r /\ (match r with Some s => NoDup s | None => True end) /\
  (forall i, (match r with Some s => In i s | None => False end) <-> J t i).
Proof.
  intros S Ht. unfold get_rb. destruct (st_get st (enc_t t)) as [v|] eqn:E.
  - pose proof (so_get _ _ _ (KInv t) v S Ht E) as V. destruct v; cbn in V; try contradiction. exists (Some s). split; auto. split.
    + apply (so_sets _ _ _ S (enc_t t)), st_get_in; auto.
    + intros i. rewrite <- (so_inv _ _ _ S) by auto. unfold smem. rewrite E. split; [eauto|]. intros (s' & E' & H). congruence.
  - exists None. split; auto. split; auto. intros i. rewrite <- (so_inv _ _ _ S) by auto. unfold smem. rewrite E. split; [tauto|]. intros (s' & E' & H). discriminate.
Qed.
Lemma merge_ok st P J t rb : stok st P J -> t_ok t -> NoDup rb ->
  exists st', merge_rb st (enc_t t) rb = Some st' /\ stok st' P (fun t' i => J t' i \/ (t' = t /\ In i rb)) /\ st_get st' K_AUTO = st_get st K_AUTO.
Proof.
  intros S Ht N. destruct (get_rb_ok st P J t S Ht) as (r & E & N' & M). unfold merge_rb. rewrite E. destruct r as [s|].
  - destruct (put_inv st P J t (set_or s rb) S Ht (set_or_nodup _ _ N)) as (st' & E1 & S1 & A1). exists st'. split; auto. split; auto.
    eapply stok_ext; [exact S1|]. cbn. intros t' i _. rewrite set_or_in, M.
    assert (D : t' = t \/ t' <> t) by (destruct (tk_eq t' t) eqn:E0; [left; apply tk_eq_eq | right; apply tk_eq_neq]; auto). destruct D as [-> | D]; tauto.
  - destruct (put_inv st P J t rb S Ht N) as (st' & E1 & S1 & A1). exists st'. split; auto. split; auto.
    eapply stok_ext; [exact S1|]. cbn. intros t' i _. specialize (M i).
    assert (D : t' = t \/ t' <> t) by (destruct (tk_eq t' t) eqn:E0; [left; apply tk_eq_eq | right; apply tk_eq_neq]; auto). destruct D as [-> | D]; tauto.
Qed.
Lemma modify_ok st P J t id : stok st P J -> t_ok t ->
  exists st', modify_del st (enc_t t) id = Some st' /\ stok st' P (fun t' i => J t' i /\ ~ (t' = t /\ i = id)) /\ st_get st' K_AUTO = st_get st K_AUTO.
Proof.
  intros S Ht. destruct (get_rb_ok st P J t S Ht) as (r & E & N' & M). unfold modify_del. rewrite E. set (s := match r with Some v => v | None => [] end).
  assert (Ns : NoDup s) by (destruct r; [auto | constructor]). assert (Ms : forall i, In i s <-> J t i) by (destruct r; auto).
  destruct (put_inv st P J t (set_del id s) S Ht) as (st' & E1 & S1 & A1); [apply NoDup_filter; auto|]. exists st'. split; auto. split; auto.
  eapply stok_ext; [exact S1|]. cbn. intros t' i _. rewrite set_del_in, Ms.
  assert (D : t' = t \/ t' <> t) by (destruct (tk_eq t' t) eqn:E0; [left; apply tk_eq_eq | right; apply tk_eq_neq]; auto). destruct D as [-> | D]; tauto.
Qed.
Lemma del_tags_ok st P J id l : stok st P J -> Forall t_ok l ->
  exists st', del_tags st id l = Some st' /\ stok st' P (fun t i => J t i /\ ~ (In t l /\ i = id)) /\ st_get st' K_AUTO = st_get st K_AUTO.
Proof.
  revert st J. induction l as [|[[tab tk] tv] l IH]; intros st J S F; cbn [del_tags].
  - exists st. split; auto. split; auto. eapply stok_ext; [exact S|]. cbn. tauto.
  - inversion F; subst. destruct (modify_ok st P J (tab, tk, tv) id S H1) as (st1 & E1 & S1 & A1). cbn [enc_t] in E1. rewrite E1.
    destruct (IH st1 _ S1 H2) as (st2 & E2 & S2 & A2). exists st2. split; auto. split; [|congruence]. eapply stok_ext; [exact S2|]. cbn. intros t i _.
    split; [intros [[H3 H4] H5]; split; auto; intros [[<- | H6] ->]; tauto | intros [H3 H4]; split; [split; auto; intros [-> ->]; apply H4; auto | intros [H5 ->]; apply H4; auto]].
Qed.
(** Deleting the forward records of a series. *)
Lemma del_fwd st P J i k : stok st P J -> 0 <= i < 2 ^ 32 -> key_ok k -> (forall i' k', In (i', k') P -> (i' = i <-> k' = k)) ->
  stok (st_del (st_del st (enc_id i)) (enc_key k)) (del_id i P) J /\ st_get (st_del (st_del st (enc_id i)) (enc_key k)) K_AUTO = st_get st K_AUTO.
Proof.
  intros S Hi Hk U.
  assert (G : forall b, kok b -> st_get (st_del (st_del st (enc_id i)) (enc_key k)) (kenc b) =
    if beq (kenc (KKey k)) (kenc b) then None else if beq (kenc (KId i)) (kenc b) then None else st_get st (kenc b)).
  { intros b _. rewrite st_get_del. change (enc_key k) with (kenc (KKey k)). destruct (beq _ _); auto. rewrite st_get_del. reflexivity. }
  assert (PI : forall j k', In (j, k') (del_id i P) <-> j <> i /\ In (j, k') P).
  { intros. unfold del_id. rewrite filter_In. cbn. rewrite negb_true_iff, Z.eqb_neq. tauto. }
  split; [|change K_AUTO with (kenc KAuto); rewrite G by exact I; rewrite !kbeq; cbn; auto; discriminate]. split.
  - apply map_filter_nodup, map_filter_nodup, S.
  - intros b w H. unfold st_del in H. apply filter_In in H as [H _]. apply filter_In in H as [H _]. apply (so_kind _ _ _ S); auto.
  - intros j k' Hj. change (enc_id j) with (kenc (KId j)). rewrite G by auto. rewrite (kbeq (KKey k) (KId j)) by (cbn; auto; discriminate). rewrite PI. destruct (Z.eq_dec j i) as [-> | N].
    + rewrite beq_refl. split; [discriminate|tauto].
    + rewrite (kbeq (KId i) (KId j)) by (cbn; auto; congruence). cbn [kenc]. rewrite (so_id _ _ _ S) by auto. tauto.
  - intros j k' Hk'. change (enc_key k') with (kenc (KKey k')). rewrite G by auto. rewrite PI. rewrite (kbeq (KId i) (KKey k')) by (cbn; auto; discriminate). destruct (series_dec k' k) as [-> | N].
    + rewrite beq_refl. split; [discriminate|]. intros [N HI]. apply U in HI. tauto.
    + rewrite (kbeq (KKey k) (KKey k')) by (cbn; auto; congruence). cbn [kenc]. rewrite (so_key _ _ _ S) by auto. split; [|tauto]. intros HI. split; auto. pose proof (U _ _ HI). tauto.
  - intros t j Ht. unfold smem. change (enc_t t) with (kenc (KInv t)). rewrite G by auto. rewrite !kbeq; cbn; auto; try discriminate. apply S; auto.
  - intros b s H. unfold st_del in H. apply filter_In in H as [H _]. apply filter_In in H as [H _]. apply (so_sets _ _ _ S b); auto.
Qed.

(** * The write cache *)
Definition wmem (m : list (tagkey * list Z)) (t : tagkey) (i : Z) : Prop := exists s, inv_get m t = Some s /\ In i s.
Lemma inv_get_map (m : list (tagkey * list Z)) f t : (forall p, fst (f p) = fst p) ->
  inv_get (map f m) t = match find (fun p => tk_eq (fst p) t) m with Some p => Some (snd (f p)) | None => None end.
Proof.
  intros H. unfold inv_get. induction m as [|p m IH]; cbn [map find]; [reflexivity|]. rewrite H. destruct (tk_eq (fst p) t); [reflexivity|exact IH].
Qed.
Lemma inv_get_find (m : list (tagkey * list Z)) t p : find (fun p => tk_eq (fst p) t) m = Some p -> inv_get m t = Some (snd p) /\ fst p = t.
Proof. intros E. unfold inv_get. rewrite E. apply find_some in E as [_ E]. apply tk_eq_eq in E. auto. Qed.
Lemma tk_dec (t t' : tagkey) : {t = t'} + {t <> t'}.
Proof. destruct (tk_eq t t') eqn:E; [left; apply tk_eq_eq | right; apply tk_eq_neq]; auto. Defined.
Lemma inv_get_add id m t t' : inv_get (add_inv id m t) t' =
  if tk_eq t t' then Some (match inv_get m t with None => [id] | Some s => set_add id s end) else inv_get m t'.
Proof.
  unfold add_inv. destruct (inv_get m t) as [s|] eqn:E.
  - rewrite inv_get_map by (intros p; destruct (tk_eq (fst p) t); reflexivity). destruct (tk_eq t t') eqn:T.
    + apply tk_eq_eq in T. subst. unfold inv_get in E. destruct (find _ m) as [p|] eqn:F; [|discriminate]. apply find_some in F as [_ F]. rewrite F. cbn in *. congruence.
    + destruct (find (fun p => tk_eq (fst p) t') m) as [p|] eqn:F.
      * apply inv_get_find in F as [F1 F2]. rewrite F1, F2. replace (tk_eq t' t) with false; auto. symmetry. apply tk_eq_neq. apply tk_eq_neq in T. congruence.
      * unfold inv_get. rewrite F. reflexivity.
  - unfold inv_get in *. induction m as [|p m IH]; cbn [app find fst].
    + destruct (tk_eq t t') eqn:T; reflexivity.
    + cbn [find] in E. destruct (tk_eq (fst p) t) eqn:P; [discriminate|]. specialize (IH E). destruct (tk_eq (fst p) t') eqn:P'; auto.
      destruct (tk_eq t t') eqn:T; auto. apply tk_eq_eq in T. subst. congruence.
Qed.
Lemma inv_get_delt id m t t' : inv_get (del_inv id m t) t' = if tk_eq t t' then option_map (set_del id) (inv_get m t') else inv_get m t'.
Proof.
  unfold del_inv. rewrite inv_get_map by (intros p; destruct (tk_eq (fst p) t); reflexivity).
  destruct (find (fun p => tk_eq (fst p) t') m) as [p|] eqn:F.
  - apply inv_get_find in F as [F1 F2]. rewrite F1, F2. destruct (tk_dec t t') as [-> | N].
    + rewrite tk_eq_refl. reflexivity.
    + rewrite (proj2 (tk_eq_neq t' t)), (proj2 (tk_eq_neq t t')) by congruence. reflexivity.
  - unfold inv_get. rewrite F. destruct (tk_eq t t'); reflexivity.
Qed.
Record winv_ok (m : list (tagkey * list Z)) (J : tagkey -> Z -> Prop) : Prop := {
  wo_nd : NoDup (map fst m);
  wo_keys : Forall (fun p => t_ok (fst p) /\ NoDup (snd p)) m;
  wo_mem : forall t i, wmem m t i <-> J t i }.
Lemma winv_ext m J J' : winv_ok m J -> (forall t i, J t i <-> J' t i) -> winv_ok m J'.
Proof. intros [A B C] H. split; auto. intros. rewrite C. auto. Qed.
Lemma add_inv_ok id m J t : winv_ok m J -> t_ok t -> winv_ok (add_inv id m t) (fun t' i => J t' i \/ (t' = t /\ i = id)).
Proof.
  intros [A B C] Ht. split.
  - unfold add_inv. destruct (inv_get m t) eqn:E.
    + rewrite map_map. erewrite map_ext; [exact A|]. intros p. cbn. destruct (tk_eq (fst p) t); reflexivity.
    + rewrite map_app. cbn [map fst]. apply NoDup_rev in A. rewrite <- (rev_involutive (map fst m)). change [t] with (rev [t]). rewrite <- rev_app_distr. apply NoDup_rev. cbn [app]. constructor; auto.
      rewrite <- in_rev. intros H. apply in_map_iff in H as (p & Ep & Hp). unfold inv_get in E. destruct (find (fun p => tk_eq (fst p) t) m) eqn:F; [discriminate|].
      pose proof (find_none _ _ F p Hp) as H. cbn in H. rewrite Ep, tk_eq_refl in H. discriminate.
  - unfold add_inv. destruct (inv_get m t) eqn:E.
    + rewrite Forall_forall in *. intros p Hp. apply in_map_iff in Hp as (q & <- & Hq). specialize (B q Hq). destruct (tk_eq (fst q) t); cbn; auto. destruct B. split; auto using set_add_nodup.
    + apply Forall_app. split; auto. constructor; [|constructor]. cbn. split; auto. constructor; [intros []|constructor].
  - intros t' i. unfold wmem. rewrite inv_get_add. destruct (tk_dec t t') as [<- | N].
    + rewrite tk_eq_refl. rewrite <- C. unfold wmem. split.
      * intros (s & E & H). injection E as <-. destruct (inv_get m t) as [s'|]; [apply set_add_in in H as [-> | H]; eauto | destruct H as [<- | []]; auto].
      * intros [(s & E & H) | [_ ->]]; eexists; (split; [reflexivity|]); [rewrite E; apply set_add_in; auto|]. destruct (inv_get m t); [apply set_add_in; auto | left; auto].
    + rewrite (proj2 (tk_eq_neq t t')) by auto. fold (wmem m t' i). rewrite C. split; [auto|]. intros [H | [-> _]]; [auto|congruence].
Qed.
Lemma del_inv_ok id m J t : winv_ok m J -> winv_ok (del_inv id m t) (fun t' i => J t' i /\ ~ (t' = t /\ i = id)).
Proof.
  intros [A B C]. split.
  - unfold del_inv. rewrite map_map. erewrite map_ext; [exact A|]. intros p. cbn. destruct (tk_eq (fst p) t); reflexivity.
  - unfold del_inv. rewrite Forall_forall in *. intros p Hp. apply in_map_iff in Hp as (q & <- & Hq). specialize (B q Hq). destruct (tk_eq (fst q) t); cbn; auto. destruct B. split; auto. apply NoDup_filter; auto.
  - intros t' i. unfold wmem. rewrite inv_get_delt. destruct (tk_dec t t') as [<- | N].
    + rewrite tk_eq_refl. rewrite <- C. unfold wmem. destruct (inv_get m t) as [s|]; cbn.
      * split; [intros (s0 & E & H); injection E as <-; apply set_del_in in H; split; [exists s; tauto|tauto] |]. intros [Q H2]. destruct Q as (s0 & E & H0). injection E as ->. eexists. split; [reflexivity|]. apply set_del_in. tauto.
      * split; [intros (s' & E & H); discriminate | intros [(s' & E & H) _]; discriminate].
    + rewrite (proj2 (tk_eq_neq t t')) by auto. fold (wmem m t' i). rewrite C. split; [intros H; split; auto; intros [-> _]; congruence | tauto].
Qed.
Lemma add_invs_ok id l m J : winv_ok m J -> Forall t_ok l -> winv_ok (fold_left (add_inv id) l m) (fun t i => J t i \/ (In t l /\ i = id)).
Proof.
  revert m J. induction l as [|t l IH]; intros m J W F; cbn [fold_left].
  - eapply winv_ext; [exact W|]. cbn. tauto.
  - inversion F; subst. eapply winv_ext; [apply (IH _ _ (add_inv_ok id m J t W H1)); auto|]. cbn. intros t' i. intuition (subst; auto).
Qed.
Lemma del_invs_ok id l m J : winv_ok m J -> winv_ok (fold_left (del_inv id) l m) (fun t i => J t i /\ ~ (In t l /\ i = id)).
Proof.
  revert m J. induction l as [|t l IH]; intros m J W; cbn [fold_left].
  - eapply winv_ext; [exact W|]. cbn. tauto.
  - eapply winv_ext; [apply (IH _ _ (del_inv_ok id m J t W))|]. cbn. intros t' i. split; [intros [[H1 H2] H3]; split; auto; intros [[<- | H4] ->]; tauto | intros [H1 H2]; split; [split; auto; intros [-> ->]; apply H2; auto | intros [H5 ->]; apply H2; auto]].
Qed.
Lemma wmem_in m J t i : winv_ok m J -> (wmem m t i <-> exists s, In (t, s) m /\ In i s).
Proof.
  intros [A B C]. unfold wmem. split; intros (s & E & H); exists s; split; auto.
  - unfold inv_get in E. destruct (find _ m) as [[t' s']|] eqn:F; [|discriminate]. cbn in E. injection E as ->. apply find_some in F as [F T]. cbn in T. apply tk_eq_eq in T. subst. auto.
  - clear B C H. unfold inv_get. induction m as [|[t' s'] m IH]; [contradiction|]. cbn [map fst] in A. inversion A; subst. cbn [find fst]. destruct E as [E | E].
    + injection E as -> ->. rewrite tk_eq_refl. reflexivity.
    + destruct (tk_eq t' t) eqn:T; [|auto]. apply tk_eq_eq in T. subst. exfalso. apply H1. apply in_map_iff. exists (t, s). auto.
Qed.

(** * Flushing *)
Definition J_of (L : pairs) (t : tagkey) (i : Z) : Prop := exists k, In (i, k) L /\ In t (triples k).
Definition pair_ok (p : Z * series) : Prop := 0 <= fst p < 2 ^ 32 /\ key_ok (snd p).
Lemma flush_ids_ok l : forall st P J, stok st P J -> Forall pair_ok l -> NoDup (map fst (l ++ P)) -> NoDup (map snd (l ++ P)) ->
  exists st', flush_ids st l = Some st' /\ stok st' (rev l ++ P) J /\ st_get st' K_AUTO = st_get st K_AUTO.
Proof.
  unfold flush_ids. induction l as [|[i k] l IH]; intros st P J S F N1 N2; cbn [fold_left].
  - exists st. auto.
  - inversion F as [|? ? [Hi Hk] F']; subst. cbn [fst snd] in *. cbn [app map fst snd] in N1, N2. inversion N1; subst. inversion N2; subst.
    destruct (put_fwd st P J i k S Hi Hk) as (st1 & st2 & E1 & E2 & S2 & A2).
    { intros i' k' HI. split; intros ->; [apply H1 | apply H3]; apply in_map_iff; eexists; split; try reflexivity; try (apply in_app_iff; right; exact HI); reflexivity. }
    rewrite E1, E2. destruct (IH st2 ((i, k) :: P) J S2 F') as (st' & E & S' & A').
    + rewrite map_app in *. cbn [map fst]. apply NoDup_Add with (a := i) (l := map fst l ++ map fst P); [apply Add_app|]. split; auto.
    + rewrite map_app in *. cbn [map snd]. apply NoDup_Add with (a := k) (l := map snd l ++ map snd P); [apply Add_app|]. split; auto.
    + exists st'. split; auto. cbn [rev]. rewrite <- app_assoc. cbn [app]. split; [auto|congruence].
Qed.
Lemma flush_inv_ok m : forall st P J, stok st P J -> Forall (fun p => t_ok (fst p) /\ NoDup (snd p)) m ->
  exists st', flush_inv st m = Some st' /\ stok st' P (fun t i => J t i \/ exists s, In (t, s) m /\ In i s) /\ st_get st' K_AUTO = st_get st K_AUTO.
Proof.
  unfold flush_inv. induction m as [|[[[tab tk] tv] s] m IH]; intros st P J S F; cbn [fold_left].
  - exists st. split; auto. split; auto. eapply stok_ext; [exact S|]. cbn. intros t i _. split; auto. intros [H | (s & [] & _)]; auto.
  - inversion F as [|? ? [Ht Hs] F']; subst. cbn [fst snd] in *. destruct (merge_ok st P J (tab, tk, tv) s S Ht Hs) as (st1 & E1 & S1 & A1). cbn [enc_t] in E1. rewrite E1.
    destruct (IH st1 P _ S1 F') as (st' & E & S' & A'). exists st'. split; auto. split; [|congruence]. eapply stok_ext; [exact S'|]. cbn. intros t i _.
    split.
    + intros [[H | [-> H]] | (s' & H1 & H2)]; auto; right; eauto.
    + intros [H | (s' & [H1 | H1] & H2)]; auto; [injection H1 as <- <-; auto|]. right. eauto.
Qed.

(** * The invariant *)
Section Hash.
Variable hash : series -> Z.
Definition all (x : index) (P : pairs) : pairs := w_ids (x_w x) ++ P.
Record inv (x : index) (P : pairs) : Prop := {
  v_keys : w_keys (x_w x) = map (fun p => (enc_key (snd p), fst p)) (w_ids (x_w x));
  v_inv : winv_ok (w_inv (x_w x)) (J_of (w_ids (x_w x)));
  v_st : stok (x_st x) P (J_of P);
  v_auto1 : forall p, In p P -> exists n, st_get (x_st x) K_AUTO = Some (VId n) /\ fst p <= n;
  v_auto2 : forall n, st_get (x_st x) K_AUTO = Some (VId n) -> 0 <= n <= x_incr x;
  v_rid : forall p, In p (r_ids (x_r x)) -> In p (all x P);
  v_rh : forall h p, In (h, p) (r_hash (x_r x)) -> h = hash (snd p) /\ In p (all x P);
  v_nd1 : NoDup (map fst (all x P));
  v_nd2 : NoDup (map snd (all x P));
  v_ok : Forall (fun p => pair_ok p /\ 1 <= fst p <= x_incr x) (all x P);
  v_incr : 0 <= x_incr x < 2 ^ 32 }.

Lemma nd_fst (L : pairs) i k k' : NoDup (map fst L) -> In (i, k) L -> In (i, k') L -> k = k'.
Proof.
  induction L as [|[j q] L IH]; intros N H H'; [contradiction|]. cbn [map fst] in N. inversion N; subst.
  destruct H as [H | H], H' as [H' | H']; try congruence; auto.
  - injection H as -> ->. exfalso. apply H2. apply in_map_iff. exists (i, k'). auto.
  - injection H' as -> ->. exfalso. apply H2. apply in_map_iff. exists (i, k). auto.
Qed.
Lemma nd_snd (L : pairs) i i' k : NoDup (map snd L) -> In (i, k) L -> In (i', k) L -> i = i'.
Proof.
  induction L as [|[j q] L IH]; intros N H H'; [contradiction|]. cbn [map snd] in N. inversion N; subst.
  destruct H as [H | H], H' as [H' | H']; try congruence; auto.
  - injection H as -> ->. exfalso. apply H2. apply in_map_iff. exists (i', k). auto.
  - injection H' as -> ->. exfalso. apply H2. apply in_map_iff. exists (i, k). auto.
Qed.
Lemma find_id_some {A} (l : list (Z * A)) i a : find_id l i = Some a -> In (i, a) l.
Proof. unfold find_id. destruct (find _ l) as [[j b]|] eqn:E; [|discriminate]. cbn. intros H. injection H as ->. apply find_some in E as [H E]. cbn in E. apply Z.eqb_eq in E. subst. auto. Qed.
Lemma find_id_none {A} (l : list (Z * A)) i : find_id l i = None -> forall a, ~ In (i, a) l.
Proof.
  unfold find_id. destruct (find _ l) as [[j b]|] eqn:E; [discriminate|]. intros _ a H. pose proof (find_none _ _ E _ H) as F. cbn in F. rewrite Z.eqb_refl in F. discriminate.
Qed.
Lemma inv_all_ok x P i k : inv x P -> In (i, k) (all x P) -> pair_ok (i, k) /\ 1 <= i <= x_incr x.
Proof. intros V H. pose proof (v_ok _ _ V) as F. rewrite Forall_forall in F. apply (F (i, k) H). Qed.
Lemma wc_id_some x P k i : inv x P -> key_ok k -> wc_id (x_w x) k = Some i -> In (i, k) (w_ids (x_w x)).
Proof.
  intros V Hk. unfold wc_id. rewrite (v_keys _ _ V). destruct (find _ _) as [[b j]|] eqn:E; [|discriminate]. cbn. intros H. injection H as ->.
  apply find_some in E as [H E]. cbn in E. apply beq_eq in E. apply in_map_iff in H as ([j k'] & Hp & HI). injection Hp as E1 E2. cbn in *. subst j.
  assert (k' = k) as <-; auto. destruct (inv_all_ok x P i k' V) as [[_ K] _]; [apply in_app_iff; auto|]. cbn in K.
  assert (Q : KKey k' = KKey k) by (apply kenc_inj; cbn; auto; congruence). congruence.
Qed.
Lemma wc_id_none x P k : inv x P -> wc_id (x_w x) k = None -> forall i, ~ In (i, k) (w_ids (x_w x)).
Proof.
  intros V. unfold wc_id. rewrite (v_keys _ _ V). destruct (find _ _) as [[b j]|] eqn:E; [discriminate|]. intros _ i H.
  pose proof (find_none _ _ E (enc_key k, i)) as F. cbn in F. rewrite beq_refl in F. enough (true = false) by discriminate. apply F. apply in_map_iff. exists (i, k). auto.
Qed.
Definition same (x x' : index) : Prop := x_incr x' = x_incr x /\ x_w x' = x_w x /\ x_st x' = x_st x.
Lemma inv_rc x P r' c : inv x P -> (forall p, In p (r_ids r') -> In p (all x P)) ->
  (forall h p, In (h, p) (r_hash r') -> h = hash (snd p) /\ In p (all x P)) -> inv (IX (x_incr x) c (x_w x) r' (x_st x)) P.
Proof. intros V A B. destruct V. split; auto. Qed.
Lemma del_id_in {A} i (l : list (Z * A)) j a : In (j, a) (del_id i l) <-> j <> i /\ In (j, a) l.
Proof. unfold del_id. rewrite filter_In. cbn. rewrite negb_true_iff, Z.eqb_neq. tauto. Qed.
Lemma inv_rc_add x P i k c : inv x P -> In (i, k) (all x P) -> inv (IX (x_incr x) c (x_w x) (rc_add hash i k (x_r x)) (x_st x)) P.
Proof.
  intros V H. apply inv_rc; auto; unfold rc_add; cbn [r_ids r_hash].
  - intros [j q] [E | E]; [injection E as <- <-; auto|]. apply del_id_in in E as [_ E]. apply (v_rid _ _ V); auto.
  - intros h p [E | E]; [injection E as <- <-; auto|]. apply del_id_in in E as [_ E]. apply (v_rh _ _ V); auto.
Qed.
Lemma get_id_ok x P k : inv x P -> key_ok k -> exists x' r, ix_get_id hash x k = (x', r) /\ inv x' P /\ same x x' /\
  ((exists i, r = ROk i /\ In (i, k) (all x P)) \/ (r = RNo /\ forall i, ~ In (i, k) (all x P))).
Proof.
  intros V Hk. unfold ix_get_id, cache_id. destruct (wc_id (x_w x) k) as [i|] eqn:E.
  { exists x, (ROk i). split; auto. split; auto. split; [repeat split|]. left. exists i. split; auto. apply in_app_iff. left. eapply wc_id_some; eauto. }
  destruct (rc_id hash (x_r x) k) as [i|] eqn:E1.
  { exists x, (ROk i). split; auto. split; auto. split; [repeat split|]. left. exists i. split; auto. unfold rc_id in E1. destruct (find_id (r_hash (x_r x)) (hash k)) as [[j q]|] eqn:E2; [|discriminate].
    destruct (seq_eq q k) eqn:E3; [|discriminate]. injection E1 as ->. apply seq_eq_eq in E3. subst. apply find_id_some in E2. apply (v_rh _ _ V) in E2. apply E2. }
  pose proof (v_st _ _ V) as S. destruct (st_get (x_st x) (enc_key k)) as [v|] eqn:E2.
  - pose proof (so_get _ _ _ (KKey k) v S Hk E2) as Q. destruct v; cbn in Q; try contradiction. apply (so_key _ _ _ S) in E2; auto.
    assert (HI : In (id, k) (all x P)) by (apply in_app_iff; auto). exists (IX (x_incr x) (x_count x) (x_w x) (rc_add hash id k (x_r x)) (x_st x)), (ROk id).
    split; auto. split; [apply inv_rc_add; auto|]. split; [repeat split|]. left. eauto.
  - exists x, RNo. split; auto. split; auto. split; [repeat split|]. right. split; auto. intros i HI. apply in_app_iff in HI as [HI | HI].
    + eapply wc_id_none; eauto.
    + apply (so_key _ _ _ S) in HI; auto. congruence.
Qed.
Lemma get_key_ok x P i : inv x P -> 0 <= i < 2 ^ 32 -> exists x' r, ix_get_key hash x i = (x', Some r) /\ inv x' P /\ same x x' /\
  ((exists k, r = Some k /\ In (i, k) (all x P)) \/ (r = None /\ forall k, ~ In (i, k) (all x P))).
Proof.
  intros V Hi. unfold ix_get_key, cache_key. destruct (find_id (w_ids (x_w x)) i) as [k|] eqn:E.
  { exists x, (Some k). split; auto. split; auto. split; [repeat split|]. left. exists k. split; auto. apply in_app_iff. left. apply find_id_some; auto. }
  destruct (find_id (r_ids (x_r x)) i) as [k|] eqn:E1.
  { exists x, (Some k). split; auto. split; auto. split; [repeat split|]. left. exists k. split; auto. apply (v_rid _ _ V), find_id_some; auto. }
  pose proof (v_st _ _ V) as S. destruct (st_get (x_st x) (enc_id i)) as [v|] eqn:E2.
  - pose proof (so_get _ _ _ (KId i) v S Hi E2) as Q. destruct v; cbn in Q; try contradiction. apply (so_id _ _ _ S) in E2; auto.
    assert (HI : In (i, k) (all x P)) by (apply in_app_iff; auto). exists (IX (x_incr x) (x_count x) (x_w x) (rc_add hash i k (x_r x)) (x_st x)), (Some k).
    split; auto. split; [apply inv_rc_add; auto|]. split; [repeat split|]. left. eauto.
  - exists x, None. split; auto. split; auto. split; [repeat split|]. right. split; auto. intros k HI. apply in_app_iff in HI as [HI | HI].
    + revert HI. apply find_id_none; auto.
    + apply (so_id _ _ _ S) in HI; auto. congruence.
Qed.

(** ** Flushing keeps the series *)
Lemma inv_count x P c : inv x P -> inv (IX (x_incr x) c (x_w x) (x_r x) (x_st x)) P.
Proof. intros V. destruct V. split; auto. Qed.
Lemma check_ok force x P : inv x P -> exists x' P', ix_check force x = (x', true) /\ inv x' P' /\ x_incr x' = x_incr x /\
  (forall p, In p (all x' P') <-> In p (all x P)) /\ incl P P' /\ (force = true -> forall p, In p (all x P) -> In p P').
Proof.
  intros V. unfold ix_check. cbn [x_incr x_count x_w x_r x_st]. destruct (negb force && (x_count x <? 10000)) eqn:C.
  - eexists. exists P. split; [reflexivity|]. split; [apply inv_count; auto|]. split; [reflexivity|]. split; [reflexivity|]. split; [intros p Hp; auto|]. intros ->. discriminate.
  - clear C. pose proof (v_st _ _ V) as S. destruct (put_other _ _ _ KAuto (x_incr x) S (or_introl eq_refl) Logic.I) as (st1 & E1 & S1 & G1). cbn [kenc] in E1. rewrite E1.
    unfold wc_flush. pose proof (v_ok _ _ V) as F. unfold all in F. apply Forall_app in F as [F1 F2].
    destruct (flush_ids_ok (w_ids (x_w x)) st1 P (J_of P) S1) as (st2 & E2 & S2 & A2).
    { eapply Forall_impl; [|exact F1]. cbn. tauto. } { apply V. } { apply V. }
    rewrite E2. destruct (flush_inv_ok (w_inv (x_w x)) st2 _ _ S2 (wo_keys _ _ (v_inv _ _ V))) as (st3 & E3 & S3 & A3). rewrite E3.
    set (P' := rev (w_ids (x_w x)) ++ P) in *. eexists. exists P'. split; [reflexivity|]. cbn [x_incr].
    assert (PI : forall p, In p P' <-> In p (all x P)) by (intros p; unfold P', all; rewrite !in_app_iff, <- in_rev; tauto).
    assert (PM : Permutation P' (all x P)) by (unfold P', all; apply Permutation_app_tail, Permutation_sym, Permutation_rev).
    assert (AU : st_get st3 K_AUTO = Some (VId (x_incr x))).
    { rewrite A3, A2. change K_AUTO with (kenc KAuto). rewrite G1 by exact Logic.I. rewrite beq_refl. reflexivity. }
    split; [split; unfold all; cbn [x_w w_ids w_keys w_inv x_st x_r x_incr wc_new app map]|].
    + reflexivity.
    + split; [constructor|constructor|]. intros t i. split; [intros (s & H & _); discriminate | intros (k & [] & _)].
    + eapply stok_ext; [exact S3|]. cbn. intros t i _. rewrite <- (wmem_in _ _ t i (v_inv _ _ V)), (wo_mem _ _ (v_inv _ _ V)). unfold J_of. split.
      * intros [(k & H & T) | (k & H & T)]; exists k; split; auto; apply PI; apply in_app_iff; auto.
      * intros (k & H & T). apply PI in H. apply in_app_iff in H as [H | H]; [right | left]; eauto.
    + intros p Hp. exists (x_incr x). split; auto. apply PI in Hp. destruct p as [i k]. apply (inv_all_ok x P i k V Hp).
    + intros n Hn. rewrite AU in Hn. injection Hn as <-. pose proof (v_incr _ _ V). lia.
    + intros p Hp. apply PI, (v_rid _ _ V); auto.
    + intros h p Hp. rewrite PI. apply (v_rh _ _ V); auto.
    + eapply Permutation_NoDup; [|apply V]. apply Permutation_map, Permutation_sym; auto.
    + eapply Permutation_NoDup; [|apply (v_nd2 _ _ V)]. apply Permutation_map, Permutation_sym; auto.
    + eapply Permutation_Forall; [apply Permutation_sym; exact PM|]. apply V.
    + apply V.
    + split; [reflexivity|]. split; [intros p; unfold all; cbn; apply PI|]. split; [intros p Hp; apply in_app_iff; auto|]. intros _ p Hp. apply PI; auto.
Qed.

(** ** Adding *)
Lemma triples_ok k : key_ok k -> Forall t_ok (triples k).
Proof.
  intros (N & T & L). unfold triples. rewrite Forall_forall. intros t Ht. apply in_map_iff in Ht as ([tk tv] & <- & Hf). cbn [fst snd]. unfold t_ok. split; [exact N|].
  unfold enc_key, enc_with in L. fold (enc_tags (sk_tags k)) in L. rewrite !app_length, enc_str_length in L. unfold enc_inv. rewrite !app_length. cbn [length].
  unfold filed in Hf. destruct (sk_tags k) as [|u us] eqn:E.
  - destruct Hf as [Hf | []]. injection Hf as <- <-. cbn [length]. split; [constructor|]. unfold P_KEY, MAX_KEY in *. cbn [length] in L. lia.
  - rewrite Forall_forall in T. split; [apply (T (tk, tv) Hf)|].
    assert (H : (4 + length tk + length tv <= length (enc_tags (u :: us)))%nat).
    { clear - Hf. induction (u :: us) as [|[a b] l IH]; [contradiction|]. unfold enc_tags in *. cbn [map concat fst snd]. rewrite !app_length, !enc_str_length.
      destruct Hf as [Hf | Hf]; [injection Hf as -> ->; lia|]. apply IH in Hf. lia. }
    unfold P_KEY, MAX_KEY in *. cbn [length] in L. lia.
Qed.
Lemma del_none {A} i (l : list (Z * A)) : (forall a, ~ In (i, a) l) -> del_id i l = l.
Proof.
  intros H. unfold del_id. induction l as [|[j b] l IH]; auto. cbn [filter fst]. destruct (j =? i) eqn:E; cbn [negb].
  - apply Z.eqb_eq in E. subst. exfalso. apply (H b). left. auto.
  - f_equal. apply IH. intros a Ha. apply (H a). right. auto.
Qed.
Lemma keys_del x P i k : inv x P -> pair_ok (i, k) -> (forall j q, In (j, q) (w_ids (x_w x)) -> (j = i <-> q = k)) ->
  del_buf (enc_key k) (w_keys (x_w x)) = map (fun p => (enc_key (snd p), fst p)) (del_id i (w_ids (x_w x))).
Proof.
  intros V [_ Hk] U. cbn in Hk. rewrite (v_keys _ _ V). pose proof (v_ok _ _ V) as F. unfold all in F. apply Forall_app in F as [F _]. unfold del_buf, del_id.
  induction (w_ids (x_w x)) as [|[j q] l IH]; auto. cbn [map filter fst snd]. inversion F as [|? ? [[_ K] _] F']; subst. cbn [snd] in K.
  assert (B : beq (enc_key q) (enc_key k) = (j =? i)).
  { pose proof (U j q (or_introl eq_refl)) as Q. destruct (j =? i) eqn:E.
    - apply Z.eqb_eq in E. apply beq_eq. f_equal. tauto.
    - apply Z.eqb_neq in E. apply beq_neq. intros X. assert (KKey q = KKey k) by (apply kenc_inj; cbn; auto). apply E, Q. congruence. }
  rewrite B. destruct (j =? i); cbn [negb map fst snd]; [|f_equal]; apply IH; auto; intros; apply U; right; auto.
Qed.
Definition unused (L : pairs) (i : Z) (k : series) : Prop := (forall q, ~ In (i, q) L) /\ (forall j, ~ In (j, k) L).
Lemma wc_add_ok x P i k c n : inv x P -> pair_ok (i, k) -> 1 <= i <= n -> x_incr x <= n < 2 ^ 32 -> unused (all x P) i k ->
  inv (IX n c (wc_add i k (x_w x)) (x_r x) (x_st x)) P /\
  all (IX n c (wc_add i k (x_w x)) (x_r x) (x_st x)) P = (i, k) :: all x P.
Proof.
  intros V Hp Hi Hn [U1 U2].
  assert (UW : forall j q, In (j, q) (w_ids (x_w x)) -> (j = i <-> q = k)).
  { intros j q H. assert (HA : In (j, q) (all x P)) by (apply in_app_iff; auto). split; intros ->; exfalso; [eapply U1 | eapply U2]; eauto. }
  assert (D1 : del_id i (w_ids (x_w x)) = w_ids (x_w x)) by (apply del_none; intros a Ha; apply (U1 a), in_app_iff; auto).
  assert (EA : all (IX n c (wc_add i k (x_w x)) (x_r x) (x_st x)) P = (i, k) :: all x P).
  { unfold all, wc_add. cbn [x_w w_ids]. rewrite D1. reflexivity. }
  split; auto. split; rewrite ?EA; cbn [x_w x_st x_r x_incr wc_add w_ids w_keys w_inv].
  - cbn [map fst snd]. f_equal. apply (keys_del x P); auto.
  - rewrite D1. eapply winv_ext; [apply (add_invs_ok i (triples k) _ _ (v_inv _ _ V)), triples_ok, Hp|]. cbn. intros t j. unfold J_of. split.
    + intros [(q & H & T) | [T ->]]; [exists q; split; auto; right; auto | exists k; split; auto; left; auto].
    + intros (q & [H | H] & T); [injection H as <- <-; auto | left; eauto].
  - apply V.
  - apply V.
  - intros m Hm. pose proof (v_auto2 _ _ V m Hm). lia.
  - intros p H. right. apply (v_rid _ _ V); auto.
  - intros h p H. destruct (v_rh _ _ V h p H). split; auto. right. auto.
  - cbn [map fst]. constructor; [|apply V]. intros H. apply in_map_iff in H as ([j q] & E & H). cbn in E. subst. apply (U1 q H).
  - cbn [map snd]. constructor; [|apply V]. intros H. apply in_map_iff in H as ([j q] & E & H). cbn in E. subst. apply (U2 j H).
  - constructor; [cbn; auto|]. eapply Forall_impl; [|apply V]. cbn. intros p [H1 H2]. split; auto. lia.
  - pose proof (v_incr _ _ V). lia.
Qed.

(** ** Deleting *)
Lemma del_ok x P i : inv x P -> 0 <= i < 2 ^ 32 -> exists x' P', ix_del hash x i = (x', true) /\ inv x' P' /\ x_incr x' = x_incr x /\
  (forall p, In p (all x' P') <-> In p (all x P) /\ fst p <> i) /\ (forall p, In p P -> fst p <> i -> In p P').
Proof.
  intros V Hi. unfold ix_del. destruct (get_key_ok x P i V Hi) as (x1 & r & -> & V1 & (S1 & S2 & S3) & R).
  assert (EA : all x1 P = all x P) by (unfold all; rewrite S2; reflexivity). rewrite <- EA in R. rewrite <- EA, <- S1. clear S1 S2 S3 V EA x. rename x1 into x. rename V1 into V.
  pose proof (v_st _ _ V) as S. destruct R as [(k & -> & HI) | [-> HN]].
  - destruct (inv_all_ok x P i k V HI) as [[_ Hk] HR]. cbn in Hk.
    assert (U : forall j q, In (j, q) (all x P) -> (j = i <-> q = k)).
    { intros j q H. split; intros ->; [eapply nd_fst | eapply nd_snd]; eauto; apply V. }
    destruct (del_fwd (x_st x) P (J_of P) i k S Hi Hk) as [S1 A1]; [intros; apply U, in_app_iff; auto|].
    set (st1 := st_del (st_del (x_st x) (enc_id i)) (enc_key k)) in *.
    destruct (del_tags_ok st1 _ _ i (triples k) S1 (triples_ok k Hk)) as (st2 & E2 & S2 & A2). rewrite E2.
    set (x2 := IX (x_incr x) (x_count x) (wc_del i k (x_w x)) (rc_del hash i k (x_r x)) st2).
    assert (EA : all x2 (del_id i P) = del_id i (all x P)).
    { unfold all, x2, wc_del, del_id. cbn [x_w w_ids]. rewrite filter_app. reflexivity. }
    assert (V2 : inv x2 (del_id i P)).
    { split; rewrite ?EA; unfold x2; cbn [x_w x_st x_r x_incr wc_del w_ids w_keys w_inv rc_del r_ids r_hash].
      - apply (keys_del x P); auto; [split; auto|]. intros j q H. apply U, in_app_iff. auto.
      - eapply winv_ext; [apply (del_invs_ok i (triples k) _ _ (v_inv _ _ V))|]. cbn. intros t j. unfold J_of. split.
        + intros [(q & H & T) N]. exists q. split; auto. apply del_id_in. split; auto. intros ->. apply N. split; auto.
          assert (q = k) as <-; auto. apply (U i q); auto. apply in_app_iff; auto.
        + intros (q & H & T). apply del_id_in in H as [N H]. split; [eauto|]. intros [_ ->]. auto.
      - eapply stok_ext; [exact S2|]. cbn. intros t j _. unfold J_of. split.
        + intros [(q & H & T) N]. exists q. split; auto. apply del_id_in. split; auto. intros ->. apply N. split; auto.
          assert (q = k) as <-; auto. apply (U i q); auto. apply in_app_iff; auto.
        + intros (q & H & T). apply del_id_in in H as [N H]. split; [eauto|]. intros [_ ->]. auto.
      - intros [j q] H. apply del_id_in in H as [_ H]. rewrite A2, A1. apply (v_auto1 _ _ V); auto.
      - intros n H. rewrite A2, A1 in H. apply (v_auto2 _ _ V); auto.
      - intros [j q] H. apply del_id_in in H as [N H]. apply del_id_in. split; auto. apply (v_rid _ _ V); auto.
      - intros h [j q] H. apply del_id_in in H as [N H]. destruct (v_rh _ _ V h _ H) as [H1 H2]. split; auto. apply del_id_in. split; auto.
        intros ->. apply (U i q) in H2. cbn in H1. apply N. rewrite H1. f_equal. tauto.
      - apply map_filter_nodup, V.
      - apply map_filter_nodup, V.
      - unfold del_id. pose proof (v_ok _ _ V) as F. rewrite Forall_forall in *. intros p H. apply filter_In in H as [H _]. auto.
      - apply V. }
    destruct (check_ok false x2 _ V2) as (x3 & P3 & E3 & V3 & I3 & L3 & C3 & _). exists x3, P3. rewrite E3. split; auto. split; auto. split; [rewrite I3; reflexivity|]. split.
    + intros [j q]. rewrite L3, EA, del_id_in. cbn. tauto.
    + intros [j q] H N. apply C3, del_id_in. auto.
  - set (x2 := IX (x_incr x) (x_count x) (x_w x) (x_r x) (st_del (x_st x) (enc_id i))).
    assert (G : forall b, kok b -> st_get (st_del (x_st x) (enc_id i)) (kenc b) = if beq (enc_id i) (kenc b) then None else st_get (x_st x) (kenc b)) by (intros; apply st_get_del).
    assert (V2 : inv x2 P).
    { destruct V as [V1 V2 V3 V4 V5 V6 V7 V8 V9 V10 V11]. split; auto; unfold x2; cbn [x_st x_incr].
      - destruct S as [B1 B2 B3 B4 B5 B6]. split.
        + apply map_filter_nodup; auto.
        + intros b w H. unfold st_del in H. apply filter_In in H as [H _]. auto.
        + intros j q Hj. change (enc_id j) with (kenc (KId j)). rewrite G by auto. change (enc_id i) with (kenc (KId i)). destruct (Z.eq_dec i j) as [<- | N].
          * rewrite beq_refl. split; [discriminate|]. intros H. exfalso. apply (HN q), in_app_iff. auto.
          * rewrite kbeq by (cbn; auto; congruence). apply B3; auto.
        + intros j q Hq. change (enc_key q) with (kenc (KKey q)). rewrite G by auto. change (enc_id i) with (kenc (KId i)). rewrite kbeq by (cbn; auto; discriminate). apply B4; auto.
        + intros t j Ht. unfold smem. change (enc_t t) with (kenc (KInv t)). rewrite G by auto. change (enc_id i) with (kenc (KId i)). rewrite kbeq by (cbn; auto; discriminate). apply B5; auto.
        + intros b s H. unfold st_del in H. apply filter_In in H as [H _]. eauto.
      - intros p H. change K_AUTO with (kenc KAuto). rewrite G by exact Logic.I. change (enc_id i) with (kenc (KId i)). rewrite kbeq by (cbn; auto; discriminate). apply V4; auto.
      - intros n. change K_AUTO with (kenc KAuto). rewrite G by exact Logic.I. change (enc_id i) with (kenc (KId i)). rewrite kbeq by (cbn; auto; discriminate). apply V5. }
    destruct (check_ok false x2 _ V2) as (x3 & P3 & E3 & V3 & I3 & L3 & C3 & _). exists x3, P3. rewrite E3. split; auto. split; auto. split; [rewrite I3; reflexivity|]. split.
    + intros [j q]. rewrite L3. cbn. split; [|tauto]. intros H. split; auto. intros ->. apply (HN q); auto.
    + intros [j q] H N. apply C3; auto.
Qed.

(** ** Updating tag values *)
Lemma same_all x x' P : same x x' -> all x' P = all x P.
Proof. intros (_ & E & _). unfold all. rewrite E. reflexivity. Qed.
Lemma same_trans x y z : same x y -> same y z -> same x z.
Proof. unfold same. intuition congruence. Qed.
Definition keyb (L : pairs) (k : series) : bool := existsb (fun p => seq_eq (snd p) k) L.
Lemma keyb_true L k : keyb L k = true <-> exists i, In (i, k) L.
Proof.
  unfold keyb. rewrite existsb_exists. split.
  - intros ([i q] & H & E). apply seq_eq_eq in E. cbn in E. subst. eauto.
  - intros [i H]. exists (i, k). split; auto. apply seq_eq_eq. reflexivity.
Qed.
Lemma keyb_false L k : keyb L k = false <-> forall i, ~ In (i, k) L.
Proof.
  rewrite <- not_true_iff_false, keyb_true. split; [intros H i HI; apply H; eauto | intros H [i HI]; apply (H i); auto].
Qed.
Lemma find_olds_ok l : forall x P, inv x P -> Forall key_ok l -> exists x' r, find_olds hash x l = (x', Some r) /\ inv x' P /\ same x x' /\
  Forall (fun p => In p (all x P)) r /\ map snd r = filter (keyb (all x P)) l.
Proof.
  induction l as [|k l IH]; intros x P V F; cbn [find_olds filter].
  - exists x, []. split; auto. split; auto. split; [repeat split|]. split; [constructor|reflexivity].
  - inversion F; subst. destruct (get_id_ok x P k V H1) as (x1 & r1 & -> & V1 & S1 & R). destruct (IH x1 P V1 H2) as (x2 & r & E & V2 & S2 & A & B).
    rewrite (same_all _ _ P S1) in A, B. destruct R as [(i & -> & HI) | [-> HN]].
    + rewrite E. exists x2, ((i, k) :: r). split; auto. split; auto. split; [eapply same_trans; eauto|]. split; [constructor; auto|].
      rewrite (proj2 (keyb_true (all x P) k)) by eauto. cbn [map snd]. congruence.
    + rewrite E. exists x2, r. split; auto. split; auto. split; [eapply same_trans; eauto|]. split; auto. rewrite (proj2 (keyb_false (all x P) k)) by auto. auto.
Qed.
Lemma no_conflict_ok l : forall x P, inv x P -> Forall key_ok l -> exists x' b, no_conflict hash x l = (x', b) /\ inv x' P /\ same x x' /\
  b = forallb (fun k => negb (keyb (all x P) k)) l.
Proof.
  induction l as [|k l IH]; intros x P V F; cbn [no_conflict forallb].
  - exists x, true. split; auto. split; auto. split; [repeat split|]. reflexivity.
  - inversion F; subst. destruct (get_id_ok x P k V H1) as (x1 & r1 & -> & V1 & S1 & R). destruct R as [(i & -> & HI) | [-> HN]].
    + exists x1, false. split; auto. split; auto. split; auto. rewrite (proj2 (keyb_true (all x P) k)) by eauto. reflexivity.
    + destruct (IH x1 P V1 H2) as (x2 & b & E & V2 & S2 & B). rewrite (same_all _ _ P S1) in B. rewrite E. exists x2, b. split; auto. split; auto. split; [eapply same_trans; eauto|].
      rewrite (proj2 (keyb_false (all x P) k)) by auto. auto.
Qed.
Lemma distinct_nodup l : distinct l = true <-> NoDup l.
Proof.
  induction l as [|k l IH]; cbn [distinct]; [split; auto; constructor|]. rewrite andb_true_iff, IH, negb_true_iff. split.
  - intros [H1 H2]. constructor; auto. intros HI. assert (Q : existsb (seq_eq k) l = true) by (apply existsb_exists; exists k; split; auto; apply seq_eq_eq; auto). congruence.
  - intros H. inversion H; subst. split; auto. apply not_true_iff_false. rewrite existsb_exists. intros (q & Hq & E). apply seq_eq_eq in E. subst. auto.
Qed.
Lemma rename_ok x P i old new : inv x P -> In (i, old) (all x P) -> key_ok new -> (forall j, ~ In (j, new) (all x P)) ->
  exists x' P', ix_rename hash x i old new = (x', true) /\ inv x' P' /\ x_incr x' = x_incr x /\
  (forall p, In p (all x' P') <-> p = (i, new) \/ (In p (all x P) /\ fst p <> i)) /\ (forall p, In p P -> fst p <> i -> In p P').
Proof.
  intros V HI Hn U. destruct (inv_all_ok x P i old V HI) as [[Hi Ho] HR]. cbn in Hi, Ho. unfold ix_rename.
  destruct (del_ok x P i V Hi) as (x1 & P1 & -> & V1 & I1 & L1 & C1).
  destruct (put_other _ _ _ (KTomb old) i (v_st _ _ V1) (or_intror (ex_intro _ old eq_refl)) Ho) as (st2 & E2 & S2 & G2). cbn [kenc] in E2. rewrite E2.
  set (x2 := IX (x_incr x1) (x_count x1) (x_w x1) (x_r x1) st2).
  assert (A2 : st_get st2 K_AUTO = st_get (x_st x1) K_AUTO).
  { change K_AUTO with (kenc KAuto). rewrite G2 by exact Logic.I. change (enc_tomb old) with (kenc (KTomb old)). rewrite kbeq by (cbn; auto; discriminate). reflexivity. }
  assert (V2 : inv x2 P1).
  { destruct V1 as [W1 W2 W3 W4 W5 W6 W7 W8 W9 W10 W11]. split; auto; unfold x2; cbn [x_st x_incr].
    - intros p. rewrite A2. apply W4. - intros n. rewrite A2. apply W5. }
  destruct (wc_add_ok x2 P1 i new (x_count x1) (x_incr x1) V2) as [V3 EA]; [split; auto | rewrite I1; auto | unfold x2; cbn; pose proof (v_incr _ _ V1); lia | |].
  { change (all x2 P1) with (all x1 P1). split; [intros q Hq | intros j Hj]; [apply L1 in Hq as [_ Hq] | apply L1 in Hj as [Hj _]]; [cbn in Hq; auto | apply (U j); auto]. }
  unfold x2 in V3, EA. cbn [x_incr x_count x_w x_r x_st] in V3, EA.
  destruct (check_ok false _ _ V3) as (x4 & P4 & E4 & V4 & I4 & L4 & C4 & _). rewrite E4. exists x4, P4. split; auto. split; auto. split; [rewrite I4; auto|]. split.
  - intros p. rewrite L4, EA. cbn [In]. change (all (IX (x_incr x1) (x_count x1) (x_w x1) (x_r x1) st2) P1) with (all x1 P1). rewrite L1. intuition congruence.
  - intros p Hp N. apply C4, C1; auto.
Qed.
Lemma renames_ok upd olds : forall x P, inv x P -> Forall (fun p => In p (all x P)) olds -> NoDup (map fst olds) ->
  NoDup (map (fun p => retag upd (snd p)) olds) -> Forall (fun p => key_ok (retag upd (snd p)) /\ forall j, ~ In (j, retag upd (snd p)) (all x P)) olds ->
  exists x' P', ix_renames hash x upd olds = (x', true) /\ inv x' P' /\ x_incr x' = x_incr x /\
  (forall p, In p (all x' P') <-> (exists q, In q olds /\ p = (fst q, retag upd (snd q))) \/ (In p (all x P) /\ ~ In (fst p) (map fst olds))) /\
  (forall p, In p P -> ~ In (fst p) (map fst olds) -> In p P').
Proof.
  induction olds as [|[i old] olds IH]; intros x P V F N1 N2 F2; cbn [ix_renames].
  - exists x, P. split; auto. split; auto. split; auto. split; [|auto]. intros p. cbn. split; [tauto|]. intros [(q & [] & _) | [H _]]; auto.
  - inversion F; subst. inversion N1; subst. inversion N2; subst. inversion F2 as [|? ? [K U] F2']; subst. cbn [snd fst] in *.
    destruct (rename_ok x P i old (retag upd old) V H1 K U) as (x1 & P1 & -> & V1 & I1 & L1 & C1).
    destruct (IH x1 P1 V1) as (x2 & P2 & E2 & V2 & I2 & L2 & C2); auto.
    + rewrite Forall_forall in *. intros [j q] Hq. apply L1. right. split; auto. cbn. intros ->. apply H3. apply in_map_iff. exists (i, q). auto.
    + rewrite Forall_forall in *. intros [j q] Hq. destruct (F2' _ Hq) as [K' U']. split; auto. intros j' Hj. apply L1 in Hj as [Hj | [Hj _]]; [|apply (U' j'); auto].
      cbn [snd] in Hj. apply (f_equal snd) in Hj. cbn [snd] in Hj. apply H5. rewrite <- Hj. apply in_map_iff. exists (j, q). auto.
    + exists x2, P2. split; auto. split; auto. split; [congruence|]. split.
      * intros p. rewrite L2, L1. cbn [map fst In]. split.
        -- intros [(q & Hq & ->) | [[-> | [Hp Np]] Nl]]; [left; eauto | left; exists (i, old); auto | right; split; auto; intros [E | E]; auto].
        -- intros [(q & [<- | Hq] & ->) | [Hp Np]]; [right; cbn [fst snd]; auto | left; eauto |].
           right. split; [right; split; auto; intros E; apply Np; auto | auto].
      * intros p Hp Np. cbn [map fst In] in Np. apply C2; [apply C1; auto|]; auto.
Qed.
Definition stays (L : pairs) (upd : list (bytes * option bytes)) (matched : list series) : pairs -> Prop := fun L' =>
  forall i k', In (i, k') L' <-> (In (i, k') L /\ ~ In k' matched) \/ (exists k, In (i, k) L /\ In k matched /\ k' = retag upd k).
Lemma update_ok x P upd matched : inv x P -> Forall (fun k => key_ok k /\ key_ok (retag upd k)) matched ->
  exists x' P' b, ix_update hash x upd matched true = (x', b) /\ inv x' P' /\ x_incr x' = x_incr x /\
  let good := NoDup (map (retag upd) (filter (keyb (all x P)) matched)) /\ (forall k, In k matched -> keyb (all x P) k = true -> keyb (all x P) (retag upd k) = false) in
  if b then good /\ stays (all x P) upd matched (all x' P') /\ (forall i k, In (i, k) P -> ~ In k matched -> In (i, k) P')
  else ~ good /\ all x' P' = all x P /\ P' = P.
Proof.
  intros V F. unfold ix_update, ix_prepare.
  destruct (find_olds_ok matched x P V) as (x1 & r & -> & V1 & S1 & A1 & B1). { eapply Forall_impl; [|exact F]. cbn. tauto. }
  set (news := map (fun p => retag upd (snd p)) r).
  assert (EN : news = map (retag upd) (filter (keyb (all x P)) matched)) by (unfold news; rewrite <- B1, map_map; reflexivity).
  assert (KN : Forall key_ok news).
  { rewrite EN. rewrite Forall_forall in *. intros k Hk. apply in_map_iff in Hk as (q & <- & Hq). apply filter_In in Hq as [Hq _]. apply F; auto. }
  destruct (no_conflict_ok news x1 P V1 KN) as (x2 & b2 & -> & V2 & S2 & B2). rewrite (same_all _ _ P S1) in B2.
  pose proof (same_trans _ _ _ S1 S2) as S12. pose proof (same_all _ _ P S12) as SA. cbn zeta.
  assert (GOOD : b2 && distinct news = true <-> NoDup (map (retag upd) (filter (keyb (all x P)) matched)) /\
     (forall k, In k matched -> keyb (all x P) k = true -> keyb (all x P) (retag upd k) = false)).
  { rewrite andb_true_iff, distinct_nodup, EN, B2, forallb_forall. split; intros [H1 H2]; split; auto.
    - intros k Hk Kk. apply negb_true_iff, H1. rewrite EN. apply in_map, filter_In. auto.
    - intros k Hk. rewrite EN in Hk. apply in_map_iff in Hk as (q & <- & Hq). apply filter_In in Hq as [Hq1 Hq2]. apply negb_true_iff. auto. }
  destruct (b2 && distinct news) eqn:EB.
  - pose proof (proj1 GOOD eq_refl) as [G1 G2].
    assert (NR : NoDup (map snd r)).
    { rewrite B1. clear - G1. induction (filter (keyb (all x P)) matched) as [|k l IH]; [constructor|]. cbn [map] in G1. inversion G1; subst. constructor; auto.
      intros HI. apply H1, in_map; auto. }
    destruct (renames_ok upd r x2 P V2) as (x3 & P3 & E3 & V3 & I3 & L3 & C3).
    + rewrite SA. auto.
    + pose proof (v_nd1 _ _ V) as N1. clear - NR A1 N1. induction r as [|[i k] r IH]; [constructor|]. cbn [map fst snd] in *. inversion NR; subst. inversion A1; subst. constructor; auto.
      intros HI. apply in_map_iff in HI as ([j q] & E & Hq). cbn in E. subst. rewrite Forall_forall in H4. assert (q = k) as -> by (eapply nd_fst; eauto).
      apply H1. apply in_map_iff. exists (i, k). auto.
    + rewrite EN in *. fold news. rewrite EN. auto.
    + rewrite SA. rewrite Forall_forall in *. intros [i k] Hp. cbn [snd]. split; [apply KN; unfold news; apply in_map_iff; exists (i, k); auto|].
      apply keyb_false. assert (Hk : In k (filter (keyb (all x P)) matched)) by (rewrite <- B1; apply in_map_iff; exists (i, k); auto). apply filter_In in Hk as [H1 H2]. auto.
    + exists x3, P3, true. split; auto. split; auto. split; [rewrite I3; apply S12|]. rewrite SA in L3. split; [auto|].
      assert (RI : forall i k, In (i, k) (all x P) -> (In i (map fst r) <-> In k matched)).
      { intros i k Hk. split; intros H.
        - apply in_map_iff in H as ([j q] & E & Hq). cbn in E. subst. rewrite Forall_forall in A1. assert (q = k) as -> by (eapply nd_fst; [apply V| |]; eauto).
          assert (Hm : In k (map snd r)) by (apply in_map_iff; exists (i, k); auto). rewrite B1 in Hm. apply filter_In in Hm. tauto.
        - assert (Hm : In k (map snd r)) by (rewrite B1; apply filter_In; split; auto; apply keyb_true; eauto). apply in_map_iff in Hm as ([j q] & E & Hq). cbn in E. subst.
          rewrite Forall_forall in A1. assert (j = i) as -> by (eapply nd_snd; [apply (v_nd2 _ _ V)| |]; eauto). apply in_map_iff. exists (i, k). auto. }
      split.
      * intros i k'. rewrite L3. cbn [fst]. split.
        -- intros [([j q] & Hq & E) | [H N]].
           ++ cbn [fst snd] in E. injection E as -> ->. right. rewrite Forall_forall in A1. exists q. split; auto. split; auto. apply (RI j q); auto. apply in_map_iff. exists (j, q). auto.
           ++ left. split; auto. rewrite <- (RI i k'); auto.
        -- intros [[H N] | (k & H & M & ->)].
           ++ right. split; auto. rewrite (RI i k'); auto.
           ++ left. exists (i, k). split; auto. assert (Hm : In k (map snd r)) by (rewrite B1; apply filter_In; split; auto; apply keyb_true; eauto).
              apply in_map_iff in Hm as ([j q] & E & Hq). cbn in E. subst. rewrite Forall_forall in A1. assert (j = i) as -> by (eapply nd_snd; [apply (v_nd2 _ _ V)| |]; eauto). auto.
      * intros i k Hp N. apply C3; auto. cbn [fst]. rewrite (RI i k); auto. apply in_app_iff. auto.
  - exists x2, P, false. split; auto. split; auto. split; [apply S12|]. split; [rewrite <- GOOD; discriminate|]. auto.
Qed.
End Hash.

(** ** Byte order and scans *)
Lemma lex_lt_app p a b : lex_lt (p ++ a) (p ++ b) = lex_lt a b.
Proof. induction p as [|x p IH]; cbn [app lex_lt]; auto. rewrite Z.ltb_irrefl, Z.eqb_refl. cbn. auto. Qed.
Lemma lex_irr a : lex_lt a a = false.
Proof. induction a as [|x a IH]; cbn; auto. rewrite Z.ltb_irrefl, Z.eqb_refl, IH. reflexivity. Qed.
Lemma lex_total a : forall b, lex_lt a b = false -> lex_lt b a = false -> a = b.
Proof.
  induction a as [|x a IH]; intros [|y b]; cbn [lex_lt]; try discriminate; auto. intros H1 H2.
  apply orb_false_iff in H1 as [A1 B1]. apply orb_false_iff in H2 as [A2 B2]. apply Z.ltb_ge in A1, A2. assert (x = y) as -> by lia. rewrite Z.eqb_refl in *. cbn in *. f_equal; auto.
Qed.
Lemma lex_asym a : forall b, lex_lt a b = true -> lex_lt b a = false.
Proof.
  induction a as [|x a IH]; intros [|y b]; cbn [lex_lt]; try discriminate; auto. intros H. apply orb_true_iff in H as [H | H].
  - apply Z.ltb_lt in H. apply orb_false_iff. split; [apply Z.ltb_ge; lia|]. rewrite (proj2 (Z.eqb_neq y x)) by lia. reflexivity.
  - apply andb_true_iff in H as [H1 H2]. apply Z.eqb_eq in H1. subst. rewrite Z.ltb_irrefl, Z.eqb_refl. cbn. auto.
Qed.
Lemma lex_trans_ge a : forall b c, lex_lt a b = false -> lex_lt b c = false -> lex_lt a c = false.
Proof.
  induction a as [|x a IH]; intros [|y b] [|z c]; cbn [lex_lt]; try discriminate; auto. intros H1 H2.
  apply orb_false_iff in H1 as [A1 B1]. apply orb_false_iff in H2 as [A2 B2]. apply Z.ltb_ge in A1, A2. apply orb_false_iff. split; [apply Z.ltb_ge; lia|].
  destruct (x =? z) eqn:E; auto. apply Z.eqb_eq in E. assert (x = y) by lia. assert (y = z) by lia. subst. rewrite Z.eqb_refl in *. cbn in *. eauto.
Qed.
Lemma lex_between p : forall k a b, lex_lt k (p ++ a) = false -> lex_lt (p ++ b) k = false -> exists c, k = p ++ c.
Proof.
  induction p as [|x p IH]; intros k a b; [intros; exists k; reflexivity|]. destruct k as [|y k]; cbn [app lex_lt]; [intros H1; discriminate H1|]. intros H1 H2.
  apply orb_false_iff in H1 as [A1 B1]. apply orb_false_iff in H2 as [A2 B2]. apply Z.ltb_ge in A1, A2. assert (x = y) as -> by lia. rewrite Z.eqb_refl in *. cbn in *.
  destruct (IH k a b B1 B2) as [c ->]. eauto.
Qed.
Lemma union_ok f st : (forall b v, In (b, v) st -> f b = true -> exists s, v = VSet s) ->
  exists s, union_where f st = Some s /\ NoDup s /\ forall i, In i s <-> exists b s', In (b, VSet s') st /\ f b = true /\ In i s'.
Proof.
  induction st as [|[b v] st IH]; intros H; unfold union_where; cbn [fold_right fst snd].
  - exists []. split; auto. split; [constructor|]. intros i. split; [intros [] | intros (? & ? & [] & _)].
  - fold (union_where f st). destruct IH as (s & E & N & M). { intros; eapply H; eauto. right; eauto. } destruct (f b) eqn:F.
    + destruct (H b v (or_introl eq_refl) F) as [s' ->]. rewrite E. exists (set_or s' s). split; auto. split; [apply set_or_nodup; auto|].
      intros i. rewrite set_or_in, M. split.
      * intros [Hi | (b' & s2 & H1 & H2 & H3)]; [exists b, s' | exists b', s2]; cbn; auto.
      * intros (b' & s2 & [H1 | H1] & H2 & H3); [injection H1 as E1 E2; subst; auto | right; eauto].
    + exists s. split; auto. split; auto. intros i. rewrite M. split.
      * intros (b' & s2 & H1 & H2 & H3). exists b', s2. cbn; auto.
      * intros (b' & s2 & [H1 | H1] & H2 & H3); [injection H1 as E1 E2; congruence | eauto].
Qed.
Lemma kenc_inv_len t : t_ok t -> (length (enc_t t) <= MAX_KEY)%nat.
Proof. destruct t as [[a b] c]. cbn. tauto. Qed.
Lemma kenc_le a : kok a -> (length (kenc a) <= MAX_KEY)%nat.
Proof. intros H. apply kenc_len in H. apply andb_true_iff in H as [H _]. apply Nat.leb_le in H. auto. Qed.
(** A stored key that starts with the table and a dot files a tag of that table. *)
Lemma key_of_table st P J tab b v y : stok st P J -> name_ok tab -> In (b, v) st -> b = tab ++ 46 :: y ->
  exists tk tv s, t_ok (tab, tk, tv) /\ b = enc_inv tab tk tv /\ y = tk ++ 61 :: tv /\ v = VSet s.
Proof.
  intros S (N & N1 & N2 & N3) HI E. destruct (so_kind _ _ _ S _ _ HI) as (a & Ka & Eb & Va). destruct a as [|i|k|k|[[tab' tk] tv]]; cbn [kenc] in Eb; rewrite E in Eb.
  - exfalso. assert (H : In 46 K_AUTO) by (rewrite <- Eb; apply in_app_iff; right; left; auto). unfold K_AUTO in H. cbn in H. lia.
  - symmetry in Eb. eapply reserved in Eb; auto. destruct Eb. apply nodot_id.
  - symmetry in Eb. eapply reserved in Eb; auto. destruct Eb. apply nodot_key.
  - symmetry in Eb. eapply reserved in Eb; auto. destruct Eb. apply nodot_tomb.
  - unfold enc_t, enc_inv in Eb. cbn [app] in Eb. destruct Ka as ((M & M') & Kb & Kc). apply split_first in Eb as [-> ->]; auto.
    destruct v; try contradiction. exists tk, tv, s. split; [split; [split; auto | auto]|]. split; auto.
Qed.
Lemma triple_get st P J tab tk tv v : stok st P J -> name_ok tab -> Forall digit tk -> st_get st (enc_inv tab tk tv) = Some v -> t_ok (tab, tk, tv) /\ exists s, v = VSet s.
Proof.
  intros S N D G. apply st_get_in in G. destruct (key_of_table _ _ _ tab _ _ (tk ++ 61 :: tv) S N G eq_refl) as (tk' & tv' & s & T & E & E' & ->).
  apply split_first in E' as [-> ->]; [|apply digit_not_eq; auto|apply digit_not_eq; apply T]. eauto.
Qed.
Definition get_l (r : option (list Z)) : list Z := match r with Some s => s | None => [] end.
Lemma rb_ok st P tab tk tv : stok st P (J_of P) -> Forall pair_ok P -> name_ok tab -> Forall digit tk ->
  exists r, get_rb st (enc_inv tab tk tv) = Some r /\ NoDup (get_l r) /\ forall i, In i (get_l r) <-> J_of P (tab, tk, tv) i.
Proof.
  intros S F N D. unfold get_rb. destruct (st_get st (enc_inv tab tk tv)) as [v|] eqn:E.
  - destruct (triple_get _ _ _ _ _ _ _ S N D E) as [T [s ->]]. exists (Some s). split; auto. split; [eapply (so_sets _ _ _ S); eapply st_get_in; eauto|].
    intros i. rewrite <- (so_inv _ _ _ S) by auto. unfold smem, enc_t. rewrite E. cbn [get_l]. split; [eauto|]. intros (s' & E' & H). injection E' as <-. auto.
  - exists None. split; auto. split; [constructor|]. intros i. split; [intros []|]. intros HJ. exfalso.
    assert (T : t_ok (tab, tk, tv)). { destruct HJ as (k & Hk & Ht). rewrite Forall_forall in F. destruct (F _ Hk) as [_ K]. pose proof (triples_ok series_hash k K) as Q. rewrite Forall_forall in Q. auto. }
    rewrite <- (so_inv _ _ _ S) in HJ by auto. destruct HJ as (s & E' & _). unfold enc_t in E'. congruence.
Qed.
Lemma prefix_scan st P tab : stok st P (J_of P) -> Forall pair_ok P -> name_ok tab ->
  exists s, union_where (prefixb (tab ++ [46])) st = Some s /\ NoDup s /\ forall i, In i s <-> exists tk tv, J_of P (tab, tk, tv) i.
Proof.
  intros S F N. destruct (union_ok (prefixb (tab ++ [46])) st) as (s & E & Nd & M).
  - intros b v HI Hf. apply prefixb_iff in Hf as [y Hy]. rewrite <- app_assoc in Hy. destruct (key_of_table _ _ _ _ _ _ _ S N HI Hy) as (? & ? & s & _ & _ & _ & ->). eauto.
  - exists s. split; auto. split; auto. intros i. rewrite M. split.
    + intros (b & s' & HI & Hf & Hi). apply prefixb_iff in Hf as [y Hy]. rewrite <- app_assoc in Hy. destruct (key_of_table _ _ _ _ _ _ _ S N HI Hy) as (tk & tv & s2 & T & E2 & _ & _).
      exists tk, tv. rewrite <- (so_inv _ _ _ S) by auto. exists s'. split; auto. cbn [enc_t]. rewrite <- E2. apply st_get_nodup; auto. apply (so_nd _ _ _ S).
    + intros (tk & tv & HJ). assert (T : t_ok (tab, tk, tv)).
      { destruct HJ as (k & Hk & Ht). rewrite Forall_forall in F. destruct (F _ Hk) as [_ K]. pose proof (triples_ok series_hash k K) as Q. rewrite Forall_forall in Q. auto. }
      rewrite <- (so_inv _ _ _ S) in HJ by auto. destruct HJ as (s' & E' & Hi). exists (enc_inv tab tk tv), s'. split; [apply st_get_in; auto|]. split; auto.
      apply prefixb_iff. exists (tk ++ 61 :: tv). rewrite <- app_assoc. reflexivity.
Qed.
Lemma digits_split tk tk' x c tv : Forall digit tk -> Forall digit tk' -> ~ digit x -> tk' ++ 61 :: tv = tk ++ x :: c -> tk' = tk /\ x = 61 /\ tv = c.
Proof.
  intros D D' X. revert tk' D'. induction D as [|y tk Hy D IH]; intros [|z tk'] D' E; cbn [app] in E; injection E as E1 E2; subst; auto.
  - inversion D'; subst. contradiction.
  - exfalso. unfold digit in *. lia.
  - inversion D'; subst. destruct (IH tk') as (-> & -> & ->); auto.
Qed.
Lemma lo_ge tab tk lo b : above (key_lo tab tk lo) b = true -> lex_lt b ((tab ++ 46 :: tk) ++ [60]) = false.
Proof.
  destruct lo as [v|v|]; cbn [key_lo above]; unfold enc_inv, enc_inv_min; cbn [app]; intros H.
  - apply negb_true_iff in H. eapply lex_trans_ge; [exact H|]. rewrite <- app_assoc, lex_lt_app. cbn [app lex_lt]. rewrite Z.ltb_irrefl, Z.eqb_refl. cbn [orb andb]. rewrite lex_lt_app. reflexivity.
  - apply lex_asym in H. eapply lex_trans_ge; [exact H|]. rewrite <- app_assoc, lex_lt_app. cbn [app lex_lt]. rewrite Z.ltb_irrefl, Z.eqb_refl. cbn [orb andb]. rewrite lex_lt_app. reflexivity.
  - apply negb_true_iff in H. rewrite <- app_assoc. exact H.
Qed.
Lemma hi_le tab tk hi b : below (key_hi tab tk hi) b = true -> lex_lt ((tab ++ 46 :: tk) ++ [62]) b = false.
Proof.
  destruct hi as [v|v|]; cbn [key_hi below]; unfold enc_inv, enc_inv_max; cbn [app]; intros H.
  - apply negb_true_iff in H. eapply lex_trans_ge; [|exact H]. rewrite <- app_assoc, lex_lt_app. cbn [app lex_lt]. rewrite Z.ltb_irrefl, Z.eqb_refl. cbn [orb andb]. rewrite lex_lt_app. reflexivity.
  - apply lex_asym in H. eapply lex_trans_ge; [|exact H]. rewrite <- app_assoc, lex_lt_app. cbn [app lex_lt]. rewrite Z.ltb_irrefl, Z.eqb_refl. cbn [orb andb]. rewrite lex_lt_app. reflexivity.
  - apply negb_true_iff in H. rewrite <- app_assoc. exact H.
Qed.
Lemma inv_order tab tk v w : lex_lt (enc_inv tab tk v) (enc_inv tab tk w) = lex_lt v w.
Proof. unfold enc_inv. rewrite lex_lt_app. cbn [app lex_lt]. rewrite Z.ltb_irrefl, Z.eqb_refl. cbn [orb andb]. rewrite lex_lt_app. cbn [app lex_lt]. rewrite Z.ltb_irrefl, Z.eqb_refl. reflexivity. Qed.
Lemma above_lo tab tk lo v : above (key_lo tab tk lo) (enc_inv tab tk v) = above lo v.
Proof.
  destruct lo as [w|w|]; cbn [key_lo above]; rewrite ?inv_order; auto. unfold enc_inv, enc_inv_min. rewrite lex_lt_app. cbn [app lex_lt]. rewrite Z.ltb_irrefl, Z.eqb_refl. cbn [orb andb]. rewrite lex_lt_app. reflexivity.
Qed.
Lemma below_hi tab tk hi v : below (key_hi tab tk hi) (enc_inv tab tk v) = below hi v.
Proof.
  destruct hi as [w|w|]; cbn [key_hi below]; rewrite ?inv_order; auto. unfold enc_inv, enc_inv_max. rewrite lex_lt_app. cbn [app lex_lt]. rewrite Z.ltb_irrefl, Z.eqb_refl. cbn [orb andb]. rewrite lex_lt_app. reflexivity.
Qed.
Lemma range_key st P J tab tk lo hi b v : stok st P J -> name_ok tab -> Forall digit tk -> In (b, v) st ->
  above (key_lo tab tk lo) b && below (key_hi tab tk hi) b = true ->
  exists tv s, t_ok (tab, tk, tv) /\ b = enc_inv tab tk tv /\ v = VSet s /\ above lo tv = true /\ below hi tv = true.
Proof.
  intros S N D HI H. apply andb_true_iff in H as [H1 H2]. pose proof (lo_ge _ _ _ _ H1) as L. pose proof (hi_le _ _ _ _ H2) as U.
  destruct (lex_between _ _ _ _ L U) as [c Ec]. rewrite Ec, !lex_lt_app in L, U. destruct c as [|x c]; [discriminate|].
  cbn [lex_lt] in L, U. apply orb_false_iff in L as [L _]. apply orb_false_iff in U as [U _]. apply Z.ltb_ge in L, U.
  destruct (key_of_table _ _ _ tab _ _ (tk ++ x :: c) S N HI) as (tk' & tv & s & T & E & E' & ->). { rewrite Ec, <- app_assoc. reflexivity. }
  symmetry in E'. apply digits_split in E' as (-> & _ & _); auto; [|apply T | unfold digit; lia].
  exists tv, s. split; auto. split; auto. split; auto. rewrite E, above_lo in H1. rewrite E, below_hi in H2. auto.
Qed.
Lemma range_scan st P tab tk lo hi : stok st P (J_of P) -> Forall pair_ok P -> name_ok tab -> Forall digit tk ->
  exists s, union_where (fun k => above (key_lo tab tk lo) k && below (key_hi tab tk hi) k) st = Some s /\
  forall i, In i s <-> exists tv, J_of P (tab, tk, tv) i /\ above lo tv = true /\ below hi tv = true.
Proof.
  intros S F N D. destruct (union_ok (fun k => above (key_lo tab tk lo) k && below (key_hi tab tk hi) k) st) as (s & E & Nd & M).
  - intros b v HI Hf. destruct (range_key _ _ _ _ _ _ _ _ _ S N D HI Hf) as (? & s & _ & _ & -> & _). eauto.
  - exists s. split; auto. intros i. rewrite M. split.
    + intros (b & s' & HI & Hf & Hi). destruct (range_key _ _ _ _ _ _ _ _ _ S N D HI Hf) as (tv & s2 & T & E2 & _ & A & B). exists tv. split; auto.
      rewrite <- (so_inv _ _ _ S) by auto. exists s'. split; auto. cbn [enc_t]. rewrite <- E2. apply st_get_nodup; auto. apply (so_nd _ _ _ S).
    + intros (tv & HJ & A & B). assert (T : t_ok (tab, tk, tv)).
      { destruct HJ as (k & Hk & Ht). rewrite Forall_forall in F. destruct (F _ Hk) as [_ K]. pose proof (triples_ok series_hash k K) as Q. rewrite Forall_forall in Q. auto. }
      rewrite <- (so_inv _ _ _ S) in HJ by auto. destruct HJ as (s' & E' & Hi). exists (enc_inv tab tk tv), s'. split; [apply st_get_in; auto|]. split; auto.
      rewrite above_lo, below_hi, A, B. reflexivity.
Qed.
Lemma by_range_ok st P tab tk lo hi : stok st P (J_of P) -> Forall pair_ok P -> name_ok tab -> Forall digit tk ->
  exists s, st_by_range st (key_lo tab tk lo) (key_hi tab tk hi) = Some s /\
  forall i, In i s <-> exists tv, J_of P (tab, tk, tv) i /\ above lo tv = true /\ below hi tv = true.
Proof.
  intros S F N D. pose proof (range_scan st P tab tk lo hi S F N D) as R. unfold st_by_range.
  destruct (key_lo tab tk lo) as [a|a|] eqn:EL; auto. destruct (key_hi tab tk hi) as [b|b|] eqn:EH; auto. destruct (beq a b) eqn:EB; auto. apply beq_eq in EB. subst b. clear R.
  assert (exists v, lo = BIn v /\ hi = BIn v /\ a = enc_inv tab tk v) as (v & -> & -> & ->).
  { destruct lo as [v|v|]; cbn in EL; try discriminate; injection EL as <-; destruct hi as [w|w|]; cbn in EH; try discriminate; injection EH as EH.
    - unfold enc_inv in EH. apply app_inv_head in EH. injection EH as EH. apply app_inv_head in EH. injection EH as ->. eauto.
    - unfold enc_inv, enc_inv_max in EH. apply app_inv_head in EH. injection EH as EH. apply app_inv_head in EH. discriminate.
    - unfold enc_inv, enc_inv_min in EH. apply app_inv_head in EH. injection EH as EH. apply app_inv_head in EH. discriminate.
    - unfold enc_inv_max, enc_inv_min in EH. apply app_inv_head in EH. injection EH as EH. apply app_inv_head in EH. discriminate. }
  destruct (rb_ok st P tab tk v S F N D) as (r & -> & _ & M). cbn [option_map]. exists (get_l r). split; auto. intros i. rewrite M. cbn [above below]. split.
  - intros H. exists v. rewrite lex_irr. auto.
  - intros (tv & HJ & A & B). apply negb_true_iff in A, B. rewrite (lex_total v tv) by auto. auto.
Qed.
(** ** The write cache *)
Lemma range_not_bad lo hi : range_ok (lo, hi) -> bad_range lo hi = false.
Proof. unfold range_ok, bad_range. cbn [fst snd]. destruct lo, hi; auto. intros ->. reflexivity. Qed.
Lemma wc_range_ok m J tab tk lo hi w : winv_ok m J -> w_inv w = m -> bad_range lo hi = false ->
  exists s, wc_by_range w tab tk lo hi = Some s /\ forall i, In i s <-> exists tv, J (tab, tk, tv) i /\ above lo tv = true /\ below hi tv = true.
Proof.
  intros W Ew G. unfold wc_by_range. rewrite Ew, G. match goal with |- context [filter ?g m] => set (l := filter g m) end. match goal with |- context [fold_right ?g [] l] => set (f := g) end.
  exists (fold_right f [] l). split; [destruct l; reflexivity|]. intros i.
  assert (A : In i (fold_right f [] l) <-> exists t s, In (t, s) l /\ In i s /\ above lo (snd t) = true /\ below hi (snd t) = true).
  { clearbody l. induction l as [|[[[a b] v] s] l IH]; cbn [fold_right].
    - split; [intros [] | intros (? & ? & [] & _)].
    - unfold f at 1. cbn [fst snd]. destruct (above lo v && below hi v) eqn:AB.
      + apply andb_true_iff in AB as [AB1 AB2]. rewrite set_or_in, IH. split.
        * intros [H | (t & s' & H1 & H2 & H3)]; [exists (a, b, v), s; cbn; auto | exists t, s'; cbn; auto].
        * intros (t & s' & [H1 | H1] & H2 & H3); [injection H1 as <- <-; auto | right; exists t, s'; auto].
      + rewrite IH. split.
        * intros (t & s' & H1 & H2 & H3). exists t, s'; cbn; auto.
        * intros (t & s' & [H1 | H1] & H2 & H3 & H4); [injection H1 as <- <-; cbn [snd] in *; rewrite H3, H4 in AB; discriminate | exists t, s'; auto]. }
  rewrite A. split.
  - intros ([[a b] v] & s & H1 & H2 & H3 & H4). apply filter_In in H1 as [H1 H5]. cbn [fst] in H5. apply andb_true_iff in H5 as [H5 H6]. apply beq_eq in H5, H6. subst. exists v. split; auto.
    apply (wo_mem _ _ W). apply (wmem_in _ _ _ _ W). eauto.
  - intros (tv & HJ & H3 & H4). apply (wo_mem _ _ W) in HJ. apply (wmem_in _ _ _ _ W) in HJ as (s & H1 & H2). exists (tab, tk, tv), s. split; auto. apply filter_In. split; auto. cbn. rewrite !beq_refl. reflexivity.
Qed.
Lemma wc_tag_ok w J tab tk v : winv_ok (w_inv w) J -> forall i, In i (wc_by_tags w tab [(tk, v)]) <-> J (tab, tk, v) i.
Proof.
  intros W i. rewrite <- (wo_mem _ _ W). cbn [wc_by_tags wc_and]. unfold wmem. destruct (inv_get (w_inv w) (tab, tk, v)) as [s|]; cbn.
  - split; [eauto|]. intros (s' & E & H). injection E as <-. auto.
  - split; [intros [] | intros (? & ? & _); discriminate].
Qed.
Lemma wc_all_ok w J tab : winv_ok (w_inv w) J -> forall i, In i (wc_by_tags w tab []) <-> exists tk tv, J (tab, tk, tv) i.
Proof.
  intros W i. cbn [wc_by_tags]. assert (A : forall m : list (tagkey * list Z), In i (fold_right (fun p acc => let '(t, _, _) := fst p in if beq t tab then set_or (snd p) acc else acc) [] m) <-> exists tk tv s, In (tab, tk, tv, s) m /\ In i s).
  { induction m as [|[[[a b] v] s] m IH]; cbn [fold_right fst snd].
    - split; [intros [] | intros (? & ? & ? & [] & _)].
    - destruct (beq a tab) eqn:E.
      + apply beq_eq in E. subst. rewrite set_or_in, IH. split.
        * intros [H | (x & y & s' & H1 & H2)]; [exists b, v, s; cbn; auto | exists x, y, s'; cbn; auto].
        * intros (x & y & s' & [H1 | H1] & H2); [injection H1 as <- <- <-; auto | right; exists x, y, s'; auto].
      + apply beq_neq in E. rewrite IH. split.
        * intros (x & y & s' & H1 & H2). exists x, y, s'; cbn; auto.
        * intros (x & y & s' & [H1 | H1] & H2); [injection H1 as E1 E2 E3 E4; congruence | exists x, y, s'; auto]. }
  rewrite A. split.
  - intros (x & y & s & H1 & H2). exists x, y. apply (wo_mem _ _ W), (wmem_in _ _ _ _ W). eauto.
  - intros (x & y & HJ). apply (wo_mem _ _ W), (wmem_in _ _ _ _ W) in HJ as (s & H1 & H2). eauto.
Qed.

(** ** Queries *)
Lemma nodup_tail {A} (a b : list A) : NoDup (a ++ b) -> NoDup b.
Proof. induction a; cbn; auto. intros H. inversion H; auto. Qed.
Section Hash.
Variable hash : series -> Z.
Notation inv := (inv hash).
Lemma J_app A B t i : J_of (A ++ B) t i <-> J_of A t i \/ J_of B t i.
Proof.
  unfold J_of. split.
  - intros (k & H & T). apply in_app_iff in H as [H | H]; [left | right]; eauto.
  - intros [(k & H & T) | (k & H & T)]; exists k; split; auto; apply in_app_iff; auto.
Qed.
Lemma J_tab L tab i : (exists tk tv, J_of L (tab, tk, tv) i) <-> exists k, In (i, k) L /\ sk_table k = tab.
Proof.
  split.
  - intros (tk & tv & k & H & T). exists k. split; auto. unfold triples in T. apply in_map_iff in T as (t & E & _). congruence.
  - intros (k & H & <-). unfold J_of, triples, filed. destruct (sk_tags k) as [|[a b] l] eqn:E.
    + exists [], [], k. rewrite E. cbn. auto.
    + exists a, b, k. rewrite E. cbn. auto.
Qed.
Lemma J_tag L tab tk tv i : tk <> [] -> (J_of L (tab, tk, tv) i <-> exists k, In (i, k) L /\ sk_table k = tab /\ In (tk, tv) (sk_tags k)).
Proof.
  intros N. unfold J_of, triples, filed. split.
  - intros (k & H & T). exists k. split; auto. apply in_map_iff in T as ([a b] & E & Hb). cbn [fst snd] in E. injection E as E1 E2 E3. subst. split; auto.
    destruct (sk_tags k) as [|x l]; auto. destruct Hb as [Hb | []]. congruence.
  - intros (k & H & <- & T). exists k. split; auto. apply in_map_iff. exists (tk, tv). split; auto. destruct (sk_tags k); [destruct T|auto].
Qed.
Lemma pok x P : inv x P -> Forall pair_ok P.
Proof. intros V. pose proof (v_ok _ _ _ V) as F. unfold all in F. apply Forall_app in F as [_ F]. eapply Forall_impl; [|exact F]. cbn. tauto. Qed.
Lemma list_ok x P tab : inv x P -> name_ok tab ->
  exists s, ix_list x tab [] = Some s /\ NoDup s /\ forall i, In i s <-> exists k, In (i, k) (all x P) /\ sk_table k = tab.
Proof.
  intros V N. unfold ix_list. cbn [st_by_tags]. destruct (prefix_scan _ _ tab (v_st _ _ _ V) (pok _ _ V) N) as (s & -> & Nd & M). cbn [option_map].
  eexists. split; [reflexivity|]. split; [apply set_or_nodup; auto|]. intros i. rewrite set_or_in, M, (wc_all_ok _ _ _ (v_inv _ _ _ V)), !J_tab. unfold all. split.
  - intros [(k & H & E) | (k & H & E)]; exists k; split; auto; apply in_app_iff; auto.
  - intros (k & H & E). apply in_app_iff in H as [H | H]; [left | right]; eauto.
Qed.
Lemma fold_or {A} (f : A -> option (list Z)) (Q : A -> Z -> Prop) l :
  (forall a, In a l -> exists s, f a = Some s /\ forall i, In i s <-> Q a i) ->
  exists s, fold_right (fun a acc => or_opt (f a) acc) (Some []) l = Some s /\ NoDup s /\ forall i, In i s <-> exists a, In a l /\ Q a i.
Proof.
  induction l as [|a l IH]; intros H; cbn [fold_right].
  - exists []. split; auto. split; [constructor|]. intros i. split; [intros [] | intros (? & [] & _)].
  - destruct IH as (s & -> & N & M). { intros; apply H; right; auto. } destruct (H a (or_introl eq_refl)) as (s' & -> & M'). cbn [or_opt]. eexists. split; [reflexivity|].
    split; [apply set_or_nodup; auto|]. intros i. rewrite set_or_in, M, M'. split.
    + intros [Q1 | (b & Hb & Q1)]; eexists; split; [left; reflexivity | auto | right; exact Hb | auto].
    + intros (b & [<- | Hb] & Q1); eauto.
Qed.
Lemma by_dom_ok x P tab tk d : inv x P -> name_ok tab -> tag_name tk -> dom_ok d ->
  exists s, ix_by_dom x tab tk d = Some s /\ NoDup s /\ forall i, In i s <-> exists k, In (i, k) (all x P) /\ sk_table k = tab /\ dom_holds k (tk, d).
Proof.
  intros V N [T0 T] G. destruct d as [l|l|l| |]; cbn [ix_by_dom].
  - destruct (fold_or (fun r => or_opt (wc_by_range (x_w x) tab tk (fst r) (snd r)) (st_by_range (x_st x) (key_lo tab tk (fst r)) (key_hi tab tk (snd r))))
      (fun r i => exists v, J_of (all x P) (tab, tk, v) i /\ above (fst r) v = true /\ below (snd r) v = true) l) as (s & E & Nd & M).
    + intros r Hr. cbn [dom_ok] in G. rewrite Forall_forall in G. destruct (wc_range_ok _ _ tab tk (fst r) (snd r) _ (v_inv _ _ _ V) eq_refl (range_not_bad (fst r) (snd r) ltac:(destruct r; apply (G _ Hr)))) as (s1 & -> & M1).
      destruct (by_range_ok _ _ tab tk (fst r) (snd r) (v_st _ _ _ V) (pok _ _ V) N T) as (s2 & -> & M2). cbn [or_opt]. eexists. split; [reflexivity|].
      intros i. rewrite set_or_in, M1, M2. unfold all. split.
      * intros [(v & H & R) | (v & H & R)]; exists v; split; auto; apply J_app; auto.
      * intros (v & H & R). apply J_app in H as [H | H]; [left | right]; eauto.
    + exists s. split; auto. split; auto. intros i. rewrite M. cbn [dom_holds fst snd]. split.
      * intros (r & Hr & v & HJ & A & B). apply J_tag in HJ as (k & H & E1 & H1); auto. exists k. split; auto. split; auto. exists v, r. auto.
      * intros (k & H & E1 & v & r & H1 & Hr & A & B). exists r. split; auto. exists v. split; auto. apply J_tag; eauto.
  - destruct (fold_or (fun v => or_opt (Some (wc_by_tags (x_w x) tab [(tk, v)])) (st_by_tags (x_st x) tab [(tk, v)])) (fun v i => J_of (all x P) (tab, tk, v) i) l) as (s & E & Nd & M).
    + intros v Hv. cbn [st_by_tags and_tags]. destruct (rb_ok _ _ tab tk v (v_st _ _ _ V) (pok _ _ V) N T) as (r & -> & _ & M). cbn [or_opt and_tags]. eexists. split; [reflexivity|].
      intros i. rewrite set_or_in. rewrite (wc_tag_ok _ _ _ _ _ (v_inv _ _ _ V)). fold (get_l r). rewrite M. unfold all. rewrite J_app. tauto.
    + exists s. split; auto. split; auto. intros i. rewrite M. cbn [dom_holds fst snd]. split.
      * intros (v & Hv & HJ). apply J_tag in HJ as (k & H & E1 & H1); auto. exists k. split; auto. split; eauto.
      * intros (k & H & E1 & v & H1 & Hv). exists v. split; auto. apply J_tag; eauto.
  - destruct (list_ok x P tab V N) as (s & E & Nd & M). exists s. split; auto. split; auto. intros i. rewrite M. split; intros (k & H & H1); exists k; [split; auto; split; auto; exact Logic.I | tauto].
  - exists []. split; auto. split; [constructor|]. intros i. split; [intros [] | intros (k & _ & _ & [])].
  - destruct (list_ok x P tab V N) as (s & E & Nd & M). exists s. split; auto. split; auto. intros i. rewrite M. split; intros (k & H & H1); exists k; [split; auto; split; auto; exact Logic.I | tauto].
Qed.
Definition doms_ok (doms : option (list (bytes * tdom))) : Prop :=
  match doms with Some l => Forall (fun p => tag_name (fst p) /\ dom_ok (snd p)) l | None => True end.
Lemma query_ok x P tab doms : inv x P -> name_ok tab -> doms_ok doms ->
  exists s, ix_query x tab doms = Some s /\ NoDup s /\ forall i, In i s <-> exists k, In (i, k) (all x P) /\ selected k tab doms.
Proof.
  intros V N F. destruct doms as [[|[tk d] l]|]; cbn [ix_query].
  - destruct (list_ok x P tab V N) as (s & E & Nd & M). exists s. split; auto. split; auto. intros i. rewrite M. unfold selected. split; intros (k & H & H1); exists k; [split; auto; split; auto; intros p [] | tauto].
  - cbn [doms_ok] in F. inversion F as [|? ? [T G] F']; subst. cbn [fst snd] in *.
    assert (A : forall l0 a, Forall (fun p => tag_name (fst p) /\ dom_ok (snd p)) l0 -> NoDup a ->
      exists s, fold_left (fun acc p => match acc, ix_by_dom x tab (fst p) (snd p) with Some a, Some b => Some (set_and a b) | _, _ => None end) l0 (Some a) = Some s /\ NoDup s /\
        forall i, In i s <-> In i a /\ forall p, In p l0 -> exists k, In (i, k) (all x P) /\ sk_table k = tab /\ dom_holds k p).
    { induction l0 as [|[tk' d'] l0 IH]; intros a Fl Na; cbn [fold_left].
      - exists a. split; auto. split; auto. intros i. split; [intros H; split; auto; intros p [] | tauto].
      - inversion Fl as [|? ? [T' G'] Fl']; subst. cbn [fst snd] in *. destruct (by_dom_ok x P tab tk' d' V N T' G') as (b & -> & Nb & Mb).
        destruct (IH (set_and a b) Fl') as (s & E & Ns & Ms). { unfold set_and. apply NoDup_filter; auto. }
        exists s. split; auto. split; auto. intros i. rewrite Ms, set_and_in, Mb. split.
        + intros [[Ha Hb] H]. split; auto. intros p [<- | Hp]; auto.
        + intros [Ha H]. split; [split; auto|]; intros; apply H; [left | right]; auto. }
    destruct (by_dom_ok x P tab tk d V N T G) as (a & -> & Na & Ma). destruct (A l a F' Na) as (s & E & Ns & Ms). exists s. split; auto. split; auto.
    intros i. rewrite Ms, Ma. unfold selected. split.
    + intros [(k & H & E1 & H1) H2]. exists k. split; auto. split; auto. intros p [<- | Hp]; auto. destruct (H2 p Hp) as (k' & H' & _ & H3).
      assert (k' = k) as -> by (eapply nd_fst; [apply (v_nd1 _ _ _ V)| |]; eauto). auto.
    + intros (k & H & E1 & H1). split; [exists k; split; auto; split; auto; apply H1; left; auto|]. intros p Hp. exists k. split; auto. split; auto. apply H1. right; auto.
  - exists []. split; auto. split; [constructor|]. intros i. split; [intros [] | intros (k & _ & _ & [])].
Qed.

(** ** The other operations *)
Lemma st_get_filter (g : bytes -> bool) st b : g b = true -> st_get (filter (fun p => g (fst p)) st) b = st_get st b.
Proof.
  intros H. unfold st_get. f_equal. induction st as [|[a v] st IH]; cbn [filter find fst]; auto.
  destruct (g a) eqn:E; cbn [find fst].
  - destruct (beq a b); auto.
  - rewrite IH. destruct (beq a b) eqn:F; auto. apply beq_eq in F. congruence.
Qed.
Definition not_tomb (b : bytes) : bool := negb (above (BIn P_TOMB) b && below (BIn (P_TOMB ++ [255])) b).
Lemma tomb_range a : kok a -> (forall k, a <> KTomb k) -> not_tomb (kenc a) = true.
Proof.
  intros K NT. unfold not_tomb. apply negb_true_iff. apply not_true_iff_false. intros H. apply andb_true_iff in H as [H1 H2]. cbn [above below] in *. apply negb_true_iff in H1, H2.
  rewrite <- (app_nil_r P_TOMB) in H1. destruct (lex_between _ _ _ _ H1 H2) as [c E]. destruct a as [|i|k|k|[[tab tk] tv]]; cbn [kenc] in E; try discriminate.
  - apply (NT k); auto.
  - unfold enc_t, enc_inv in E. cbn [app] in E. symmetry in E. eapply reserved in E; auto; [apply nodot_tomb | apply K].
Qed.
Lemma clear_ok x P : inv x P -> inv (ix_clear_tombs x) P /\ all (ix_clear_tombs x) P = all x P /\ x_incr (ix_clear_tombs x) = x_incr x.
Proof.
  intros V. split; [|split; reflexivity]. unfold ix_clear_tombs. change (fun p : bytes * sval => negb _) with (fun p : bytes * sval => not_tomb (fst p)).
  assert (G : forall a, kok a -> (forall k, a <> KTomb k) -> st_get (filter (fun p => not_tomb (fst p)) (x_st x)) (kenc a) = st_get (x_st x) (kenc a)).
  { intros a K NT. apply st_get_filter. apply tomb_range; auto. }
  pose proof (G KAuto Logic.I ltac:(discriminate)) as GA. cbn [kenc] in GA.
  destruct V as [V1 V2 V3 V4 V5 V6 V7 V8 V9 V10 V11]. split; auto; cbn [x_st x_incr x_w x_r].
  - destruct V3 as [S1 S2 S3 S4 S5 S6]. split.
    + apply map_filter_nodup; auto.
    + intros b v H. apply filter_In in H as [H _]. auto.
    + intros i k Hi. pose proof (G (KId i) Hi ltac:(discriminate)) as Q. cbn [kenc] in Q. rewrite Q. auto.
    + intros i k Hk. pose proof (G (KKey k) Hk ltac:(discriminate)) as Q. cbn [kenc] in Q. rewrite Q. auto.
    + intros t i Ht. rewrite <- S5 by auto. unfold smem. pose proof (G (KInv t) Ht ltac:(discriminate)) as Q. cbn [kenc] in Q. rewrite Q. reflexivity.
    + intros b s H. apply filter_In in H as [H _]. eauto.
  - intros p Hp. rewrite GA. auto.
  - intros n. rewrite GA. auto.
Qed.
Lemma evict_ok x P f g : inv x P -> inv (ix_evict x f g) P /\ all (ix_evict x f g) P = all x P /\ x_incr (ix_evict x f g) = x_incr x.
Proof.
  intros V. split; [|split; reflexivity]. unfold ix_evict. apply inv_rc; auto; cbn [r_ids r_hash].
  - intros p H. apply filter_In in H as [H _]. apply (v_rid _ _ _ V); auto.
  - intros h p H. apply filter_In in H as [H _]. apply (v_rh _ _ _ V); auto.
Qed.
Lemma crash_ok x P : inv x P -> exists x', ix_open (x_st x) = Some x' /\ inv x' P /\ all x' P = P /\ 0 <= x_incr x' <= x_incr x /\ (forall p, In p P -> fst p <= x_incr x').
Proof.
  intros V. unfold ix_open. pose proof (v_incr _ _ _ V) as I. pose proof (pok _ _ V) as PK.
  assert (K : exists n, (st_get (x_st x) K_AUTO = Some (VId n) \/ (st_get (x_st x) K_AUTO = None /\ n = 0)) /\ 0 <= n <= x_incr x /\ forall p, In p P -> fst p <= n).
  { destruct (st_get (x_st x) K_AUTO) as [v|] eqn:E.
    - pose proof (so_get _ _ _ KAuto _ (v_st _ _ _ V) Logic.I E) as Kv. destruct v as [n| |]; try contradiction. exists n. split; auto. split; [apply (v_auto2 _ _ _ V); auto|].
      intros p Hp. destruct (v_auto1 _ _ _ V p Hp) as (m & E' & L). congruence.
    - exists 0. split; auto. split; [lia|]. intros p Hp. destruct (v_auto1 _ _ _ V p Hp) as (m & E' & L). congruence. }
  destruct K as (n & E & R & B). exists (IX n 0 wc_new rc_new (x_st x)). split; [destruct E as [-> | [-> ->]]; reflexivity|]. split; [|split; [reflexivity | split; auto]].
  destruct V as [V1 V2 V3 V4 V5 V6 V7 V8 V9 V10 V11]. unfold all in V8, V9, V10. split; auto; cbn [x_w x_r x_st x_incr wc_new rc_new w_ids w_keys w_inv r_ids r_hash all app].
  - split; [constructor | constructor |]. intros t i. split; [intros (s & H & _); discriminate | intros (k & [] & _)].
  - intros m Em. destruct E as [E | [E _]]; rewrite E in Em; [injection Em as <-; lia | discriminate].
  - intros p [].
  - intros h p [].
  - unfold all. cbn. rewrite map_app in V8. apply nodup_tail in V8. auto.
  - unfold all. cbn. rewrite map_app in V9. apply nodup_tail in V9. auto.
  - unfold all. cbn. apply Forall_app in V10 as [_ V10]. rewrite Forall_forall in *. intros p Hp. destruct (V10 p Hp) as [A1 A2]. split; auto. specialize (B p Hp). lia.
  - lia.
Qed.
Lemma add_ok x P k : inv x P -> key_ok k -> x_incr x + 1 < 2 ^ 32 -> exists x' P' i, ix_add hash x k = (x', ROk i) /\ inv x' P' /\ incl P P' /\
  ((In (i, k) (all x P) /\ x_incr x' = x_incr x /\ all x' P' = all x P) \/
   ((forall j, ~ In (j, k) (all x P)) /\ i = x_incr x + 1 /\ x_incr x' = i /\ forall p, In p (all x' P') <-> p = (i, k) \/ In p (all x P))).
Proof.
  intros V K B. pose proof (v_incr _ _ _ V) as I. unfold ix_add. destruct (get_id_ok hash x P k V K) as (x1 & r & E & V1 & S1 & R). unfold ix_get_id in E.
  destruct (cache_id hash x k) as [id|] eqn:EC.
  - injection E as <- <-. destruct R as [(i & Ei & HI) | [Ei _]]; [|discriminate]. injection Ei as <-. exists x, P, id. split; auto. split; auto. split; [red; auto|]. left. auto.
  - destruct (st_get (x_st x) (enc_key k)) as [[id| |]|] eqn:ES.
    + injection E as <- <-. destruct R as [(i & Ei & HI) | [Ei _]]; [|discriminate]. injection Ei as <-. eexists _, P, id. split; [reflexivity|]. split; [auto|]. split; [red; auto|]. left. auto.
    + injection E as <- <-. destruct R as [(i & Ei & HI) | [Ei _]]; discriminate.
    + injection E as <- <-. destruct R as [(i & Ei & HI) | [Ei _]]; discriminate.
    + injection E as <- <-. destruct R as [(i & Ei & HI) | [_ HN]]; [discriminate|]. assert (W : wrap_u32 (x_incr x + 1) = x_incr x + 1) by (unfold wrap_u32; apply Z.mod_small; lia). rewrite W.
      destruct (wc_add_ok hash x P (x_incr x + 1) k (x_count x) (x_incr x + 1) V) as [V2 EA]; [split; cbn; [lia | auto] | lia | lia | |].
      { split; [|auto]. intros q Hq. apply (inv_all_ok hash) in Hq; auto. lia. }
      destruct (check_ok hash false _ _ V2) as (x3 & P3 & E3 & V3 & I3 & L3 & C3 & _). rewrite E3. cbn [fst]. exists x3, P3, (x_incr x + 1). split; auto. split; auto. split; auto. right.
      split; auto. split; auto. split; [rewrite I3; reflexivity|]. intros p. rewrite L3, EA. cbn [In]. intuition.
Qed.
End Hash.

(** ** Simulation by the dictionary *)
Section Hash.
Variable hash : series -> Z.
Notation inv := (inv hash).
Record rel (x : index) (P : pairs) (D : dict) : Prop := {
  rl_inv : inv x P;
  rl_maps : forall i k, In (i, k) (all x P) <-> maps D i k;
  rl_last : x_incr x = d_last D;
  rl_saved : forall e, In e (d_live D) -> n_saved e = true -> In (n_id e, n_key e) P }.
Lemma rel_same x x' P D : rel x P D -> inv x' P -> same x x' -> rel x' P D.
Proof. intros [A B C S] V E. pose proof (same_all _ _ P E) as EA. split; auto; [rewrite EA; auto|]. destruct E as (E & _). congruence. Qed.
Lemma rel_has x P D k : rel x P D -> ((exists i, In (i, k) (all x P)) <-> has_key D k).
Proof.
  intros R. split.
  - intros [i H]. apply (rl_maps _ _ _ R) in H as (e & He & _ & E). exists e. auto.
  - intros (e & He & E). exists (n_id e). apply (rl_maps _ _ _ R). exists e. auto.
Qed.
Lemma dup_split {A B} (f : A -> B) (p : A -> bool) (l : list A) : (forall x y : B, {x = y} + {x <> y}) ->
  ~ NoDup (map f (filter p l)) <-> exists a b c k k', l = a ++ k :: b ++ k' :: c /\ p k = true /\ p k' = true /\ f k = f k'.
Proof.
  intros dec. induction l as [|x l IH]; cbn [filter].
  - split; [intros H; destruct H; constructor|]. intros (a & b & c & k & k' & E & _). destruct a; discriminate.
  - split.
    + intros H. destruct (p x) eqn:Px.
      * cbn [map] in H. destruct (in_dec dec (f x) (map f (filter p l))) as [HI | HI].
        -- apply in_map_iff in HI as (y & Ey & Hy). apply filter_In in Hy as [Hy Py]. apply in_split in Hy as (b & c & ->). exists [], b, c, x, y. auto.
        -- assert (Q : ~ NoDup (map f (filter p l))) by (intros Q; apply H; constructor; auto). apply IH in Q as (a & b & c & k & k' & -> & Q). exists (x :: a), b, c, k, k'. auto.
      * apply IH in H as (a & b & c & k & k' & -> & Q). exists (x :: a), b, c, k, k'. auto.
    + intros (a & b & c & k & k' & E & Pk & Pk' & Ef) N. destruct a as [|y a]; cbn [app] in E; injection E as -> ->.
      * rewrite Pk in N. cbn [map] in N. inversion N; subst. apply H1. rewrite Ef. apply in_map, filter_In. split; auto. apply in_app_iff. right. left. auto.
      * assert (Q : NoDup (map f (filter p (a ++ k :: b ++ k' :: c)))) by (destruct (p y); [cbn [map] in N; inversion N; auto | auto]).
        revert Q. apply IH. exists a, b, c, k, k'. auto.
Qed.
Lemma renamed_in upd matched e k : In k matched -> n_key e = k -> renamed upd matched e = EN (n_id e) (retag upd k) false.
Proof.
  intros H <-. unfold renamed. assert (Q : existsb (seq_eq (n_key e)) matched = true) by (apply existsb_exists; exists (n_key e); split; auto; apply seq_eq_eq; auto). rewrite Q. reflexivity.
Qed.
Lemma renamed_out upd matched e : ~ In (n_key e) matched -> renamed upd matched e = e.
Proof.
  intros H. unfold renamed. assert (Q : existsb (seq_eq (n_key e)) matched = false); [|rewrite Q; reflexivity].
  apply not_true_iff_false. rewrite existsb_exists. intros (k & Hk & E). apply seq_eq_eq in E. subst. auto.
Qed.
Lemma step_ok x P D o : rel x P D -> iop_ok o -> x_incr x + 1 < 2 ^ 32 -> exists x' P' D' r, istep hash x o = (x', r) /\ rel x' P' D' /\ dstep D o r D' /\ x_incr x' <= x_incr x + 1.
Proof.
  intros R G B. pose proof (rl_inv _ _ _ R) as V. pose proof (rl_last _ _ _ R) as EL. pose proof (rl_maps _ _ _ R) as EM. pose proof (rl_saved _ _ _ R) as ES.
  destruct o as [k|k|id|id|upd matched| | |f g| |tab doms]; cbn [istep iop_ok] in *.
  - destruct (add_ok hash x P k V G B) as (x' & P' & i & -> & V' & C & [(HI & I & EA) | (HN & -> & I & EA)]).
    + exists x', P', D. eexists. split; [reflexivity|]. split; [|split; [constructor; apply EM; auto | lia]]. split; [auto | intros; rewrite EA; auto | congruence | intros; apply C; auto].
    + exists x', P'. eexists _, _. split; [reflexivity|]. rewrite EL. split; [|split; [apply d_add_new; rewrite <- (rel_has x P D k R); intros [i H]; apply (HN i); auto | lia]].
      split; auto.
      * intros i q. rewrite EA. unfold maps. cbn [d_live]. rewrite EM. unfold maps. split.
        -- intros [E | (e & He & E1 & E2)]; [injection E as -> ->; rewrite EL; eexists; split; [left; reflexivity|]; auto | exists e; cbn; auto].
        -- intros (e & [<- | He] & E1 & E2); [left; cbn in *; rewrite EL; congruence | right; eauto].
      * cbn [d_last]. lia.
      * cbn [d_live]. intros e [<- | He] Hs; [discriminate | apply C; auto].
  - destruct (get_id_ok hash x P k V G) as (x' & r & -> & V' & S & [(i & -> & HI) | [-> HN]]); exists x', P, D; eexists; (split; [reflexivity|]);
      (split; [eapply rel_same; eauto|]); (split; [|destruct S as (-> & _); lia]).
    + constructor. apply EM; auto.
    + apply d_get_id_no. rewrite <- (rel_has x P D k R). intros [i H]. apply (HN i); auto.
  - destruct (get_key_ok hash x P id V G) as (x' & r & -> & V' & S & M). exists x', P, D. eexists. split; [reflexivity|]. split; [eapply rel_same; eauto|]. split; [|destruct S as (-> & _); lia].
    destruct M as [(k & -> & HI) | [-> HN]].
    + constructor. apply EM. auto.
    + apply d_get_key_no. intros k H. apply EM in H. apply (HN k); auto.
  - destruct (del_ok hash x P id V G) as (x' & P' & -> & V' & I & L & C). exists x', P'. eexists _, _. split; [reflexivity|]. split; [|split; [constructor | lia]].
    split; auto.
    + intros i k. rewrite L, EM. unfold maps. cbn [d_live fst]. split.
      * intros [(e & He & <- & <-) N]. exists e. split; auto. apply filter_In. split; auto. apply negb_true_iff, Z.eqb_neq. auto.
      * intros (e & He & <- & <-). apply filter_In in He as [He N]. apply negb_true_iff, Z.eqb_neq in N. split; eauto.
    + cbn. congruence.
    + cbn [d_live]. intros e He Hs. apply filter_In in He as [He N]. apply negb_true_iff, Z.eqb_neq in N. apply C; auto.
  - destruct (update_ok hash x P upd matched V G) as (x' & P' & b & -> & V' & I & H). cbn zeta in H.
    assert (KB : forall k, keyb (all x P) k = true <-> has_key D k) by (intros; rewrite keyb_true; apply rel_has; auto).
    assert (RF : refused D upd matched <-> ~ (NoDup (map (retag upd) (filter (keyb (all x P)) matched)) /\
       (forall k, In k matched -> keyb (all x P) k = true -> keyb (all x P) (retag upd k) = false))).
    { assert (DP : (exists a b c k k', matched = a ++ k :: b ++ k' :: c /\ has_key D k /\ has_key D k' /\ retag upd k = retag upd k') <-> ~ NoDup (map (retag upd) (filter (keyb (all x P)) matched))).
      { rewrite (dup_split (retag upd) (keyb (all x P)) matched series_dec). split; intros (a & b0 & c & k & k' & E & K1 & K2 & E2); exists a, b0, c, k, k'; (split; [auto|]); (split; [apply KB; auto|]); (split; [apply KB; auto|]); auto. }
      unfold refused. rewrite DP. split.
      - intros [(k & Hk & K1 & K2) | N] [N1 N2]; [|auto]. apply KB in K1, K2. rewrite (N2 k Hk K1) in K2. discriminate.
      - intros N. destruct (ListDec.NoDup_dec series_dec (map (retag upd) (filter (keyb (all x P)) matched))) as [Nd | Nd]; [|auto]. left.
        destruct (existsb (fun k => keyb (all x P) k && keyb (all x P) (retag upd k)) matched) eqn:EX.
        + apply existsb_exists in EX as (k & Hk & EK). apply andb_true_iff in EK as [K1 K2]. exists k. split; auto. split; apply KB; auto.
        + exfalso. apply N. split; auto. intros k Hk K1. destruct (keyb (all x P) (retag upd k)) eqn:K2; auto.
          assert (Q : existsb (fun k => keyb (all x P) k && keyb (all x P) (retag upd k)) matched = true) by (apply existsb_exists; exists k; rewrite K1, K2; auto). congruence. }
    destruct b.
    + destruct H as (Gd & ST & C). exists x', P'. eexists _, _. split; [reflexivity|]. split; [|split; [apply d_update; rewrite RF; tauto | lia]]. split; auto.
      * intros i k'. rewrite (ST i k'). unfold maps. cbn [d_live]. split.
        -- intros [[HI N] | (k & HI & M & ->)]; apply EM in HI as (e & He & E1 & E2).
           ++ exists e. split; auto. rewrite <- (renamed_out upd matched e); [apply in_map; auto | congruence].
           ++ exists (EN i (retag upd k) false). split; auto. rewrite <- E1, <- (renamed_in upd matched e k); auto. apply in_map; auto.
        -- intros (e' & He & E1 & E2). apply in_map_iff in He as (e & <- & He). destruct (in_dec series_dec (n_key e) matched) as [M | N].
           ++ rewrite (renamed_in upd matched e (n_key e)) in E1, E2 by auto. cbn in E1, E2. right. exists (n_key e). split; [apply EM; exists e; auto | auto].
           ++ rewrite renamed_out in E1, E2 by auto. left. split; [apply EM; exists e; auto | congruence].
      * cbn. congruence.
      * cbn [d_live]. intros e' He Hs. apply in_map_iff in He as (e & <- & He). destruct (in_dec series_dec (n_key e) matched) as [M | N].
        -- rewrite (renamed_in upd matched e (n_key e)) in Hs by auto. discriminate.
        -- rewrite renamed_out in * by auto. apply C; auto.
    + destruct H as (Gd & EA & ->). exists x', P, D. eexists. split; [reflexivity|]. split; [|split; [apply d_update_refused; apply RF; auto | lia]]. split; [auto | intros; rewrite EA; auto | congruence | auto].
  - destruct (check_ok hash true x P V) as (x' & P' & -> & V' & I & L & C & F). exists x', P'. eexists _, _. split; [reflexivity|]. split; [|split; [constructor | lia]]. split; auto.
    + intros i k. rewrite L, EM. unfold maps. cbn [d_live]. split.
      * intros (e & He & <- & <-). eexists. split; [apply in_map; exact He|]. auto.
      * intros (e' & He & E1 & E2). apply in_map_iff in He as (e & <- & He). cbn in E1, E2. eauto.
    + cbn. congruence.
    + cbn [d_live]. intros e' He _. apply in_map_iff in He as (e & <- & He). cbn [n_id n_key]. apply F; auto. apply EM. exists e. auto.
  - destruct (clear_ok hash x P V) as (V' & EA & I). exists (ix_clear_tombs x), P, D. eexists. split; [reflexivity|]. split; [|split; [constructor | lia]]. split; [auto | intros; rewrite EA; auto | congruence | auto].
  - destruct (evict_ok hash x P f g V) as (V' & EA & I). exists (ix_evict x f g), P, D. eexists. split; [reflexivity|]. split; [|split; [constructor | lia]]. split; [auto | intros; rewrite EA; auto | congruence | auto].
  - destruct (crash_ok hash x P V) as (x' & -> & V' & EA & I & Bd).
    set (keep := fun e => existsb (fun p => (fst p =? n_id e) && seq_eq (snd p) (n_key e)) P).
    assert (KP : forall e, keep e = true <-> In (n_id e, n_key e) P).
    { intros e. unfold keep. rewrite existsb_exists. split.
      - intros ([i k] & H & E). apply andb_true_iff in E as [E1 E2]. apply Z.eqb_eq in E1. apply seq_eq_eq in E2. cbn in *. congruence.
      - intros H. exists (n_id e, n_key e). split; auto. cbn [fst snd]. rewrite Z.eqb_refl. apply seq_eq_eq. reflexivity. }
    exists x', P, (DI (filter keep (d_live D)) (x_incr x')). eexists. split; [reflexivity|]. split; [|split].
    + split; auto.
      * intros i k. rewrite EA. unfold maps. cbn [d_live]. split.
        -- intros HI. assert (HA : In (i, k) (all x P)) by (apply in_app_iff; auto). apply EM in HA as (e & He & <- & <-). exists e. split; auto. apply filter_In. split; auto. apply KP; auto.
        -- intros (e & He & <- & <-). apply filter_In in He as [He K]. apply KP in K. auto.
      * cbn [d_live]. intros e He _. apply filter_In in He as [He K]. apply KP in K. auto.
    + constructor.
      * intros e He Hs. apply KP, ES; auto.
      * intros e He K. apply KP in K. apply Bd in K. auto.
      * lia.
    + lia.
  - destruct G as [Nm Gd]. destruct (query_ok hash x P tab doms V Nm Gd) as (s & E & Nd & M). exists x, P, D. eexists. split; [reflexivity|]. split; auto. split; [|lia]. rewrite E. constructor; auto.
    intros i. rewrite M. split; intros (k & H & Q); exists k; (split; [apply EM; auto | auto]).
Qed.
Lemma runs_ok h : forall x P D n, rel x P D -> Forall iop_ok h -> x_incr x <= n -> n + Z.of_nat (length h) < 2 ^ 32 ->
  exists x' P' D', fst (iruns hash x h) = x' /\ rel x' P' D' /\ dsteps D h (snd (iruns hash x h)) D'.
Proof.
  induction h as [|o h IH]; intros x P D n R F B L; cbn [iruns].
  - exists x, P, D. split; auto. split; auto. constructor.
  - inversion F; subst. cbn [length] in L. rewrite Nat2Z.inj_succ in L. destruct (step_ok x P D o R H1 ltac:(lia)) as (x1 & P1 & D1 & r & -> & R1 & S1 & B1).
    destruct (IH x1 P1 D1 (n + 1) R1 H2 ltac:(lia) ltac:(lia)) as (x2 & P2 & D2 & E2 & R2 & S2). destruct (iruns hash x1 h) as [xx rs]. cbn [fst snd] in *.
    exists x2, P2, D2. split; auto. split; auto. econstructor; eauto.
Qed.
Lemma rel_new : rel ix_new [] d_new.
Proof.
  split; [|intros i k; split; [intros [] | intros (e & [] & _)] | reflexivity | intros e []].
  assert (NG : forall b v, st_get [] b = Some v -> False) by discriminate.
  split; cbn; auto; try (intros; contradiction); try (constructor; fail); try discriminate; try lia.
  - split; [constructor | constructor |]. intros t i. split; [intros (s & H & _); discriminate | intros (k & [] & _)].
  - split; [constructor | intros b v [] | | | |intros b s []].
    + intros i k _. split; [discriminate | intros []].
    + intros i k _. split; [discriminate | intros []].
    + intros t i _. split; [intros (s & H & _); discriminate | intros (k & [] & _)].
Qed.
End Hash.

(** ** The dictionary *)
Lemma nodup_map_on {A B} (f : A -> B) (l : list A) : NoDup l -> (forall x y, In x l -> In y l -> f x = f y -> x = y) -> NoDup (map f l).
Proof.
  induction 1 as [|x l N ND IH]; intros H; cbn [map]; constructor.
  - intros HI. apply in_map_iff in HI as (y & E & Hy). assert (y = x) by (apply H; [right | left |]; auto). subst. auto.
  - apply IH. intros; apply H; auto; right; auto.
Qed.
Lemma in_two {A} (l : list A) x y : In x l -> In y l -> x <> y -> (exists a b c, l = a ++ x :: b ++ y :: c) \/ (exists a b c, l = a ++ y :: b ++ x :: c).
Proof.
  intros Hx Hy N. apply in_split in Hx as (a & c & ->). apply in_app_iff in Hy as [Hy | [Hy | Hy]]; [| congruence |].
  - apply in_split in Hy as (a1 & b & ->). right. exists a1, b, c. rewrite <- app_assoc. reflexivity.
  - apply in_split in Hy as (b & c1 & ->). left. exists a, b, c1. reflexivity.
Qed.
Lemma dstep_keep D o r D' : dict_ok D -> dstep D o r D' -> 0 <= d_last D -> dict_ok D' /\ 0 <= d_last D'.
Proof.
  intros (N1 & N2 & F) S L. destruct S; cbn [d_live d_last]; auto; try (split; [split; [|split]; auto | auto]; fail); unfold dict_ok; cbn [d_live d_last].
  - split; [|lia]. split; [|split].
    + cbn [map n_id]. constructor; auto. intros H1. apply in_map_iff in H1 as (e & E & He). rewrite Forall_forall in F. specialize (F e He). lia.
    + cbn [map n_key]. constructor; auto. intros H1. apply H. apply in_map_iff in H1 as (e & E & He). exists e. auto.
    + constructor; [cbn; lia|]. eapply Forall_impl; [|exact F]. cbn. lia.
  - split; [|auto]. split; [apply map_filter_nodup; auto | split; [apply map_filter_nodup; auto|]]. rewrite Forall_forall in *. intros e He. apply filter_In in He as [He _]. auto.
  - split; [|auto]. assert (EI : map n_id (map (renamed upd matched) (d_live D)) = map n_id (d_live D)).
    { rewrite map_map. apply map_ext. intros e. unfold renamed. destruct (existsb _ _); reflexivity. }
    split; [rewrite EI; auto|]. split.
    + rewrite map_map. apply nodup_map_on; [apply (NoDup_map_inv n_key); auto|]. intros e e' He He' E.
      assert (INJ : forall a b, In a (d_live D) -> In b (d_live D) -> n_key a = n_key b -> a = b).
      { clear - N2. intros a b Ha Hb E. induction (d_live D) as [|x l IH]; [destruct Ha|]. cbn [map] in N2. inversion N2; subst. destruct Ha as [-> | Ha], Hb as [-> | Hb]; auto.
        - destruct H1. rewrite E. apply in_map; auto. - destruct H1. rewrite <- E. apply in_map; auto. }
      apply INJ; auto. destruct (series_dec (n_key e) (n_key e')) as [|NE]; auto. exfalso. apply H. unfold refused.
      destruct (in_dec series_dec (n_key e) matched) as [M | N], (in_dec series_dec (n_key e') matched) as [M' | N'].
      * rewrite (renamed_in upd matched e _ M eq_refl), (renamed_in upd matched e' _ M' eq_refl) in E. cbn [n_key] in E. right.
        destruct (in_two _ _ _ M M' NE) as [(a & b & c & Em) | (a & b & c & Em)]; [exists a, b, c, (n_key e), (n_key e') | exists a, b, c, (n_key e'), (n_key e)]; (split; [auto|]); (split; [eexists; split; [|reflexivity]; auto|]); (split; [eexists; split; [|reflexivity]; auto|]); auto.
      * rewrite (renamed_in upd matched e _ M eq_refl), (renamed_out upd matched e' N') in E. cbn [n_key] in E. left. exists (n_key e). split; auto. split; [exists e; auto | exists e'; auto].
      * rewrite (renamed_out upd matched e N), (renamed_in upd matched e' _ M' eq_refl) in E. cbn [n_key] in E. left. exists (n_key e'). split; auto. split; [exists e'; auto | exists e; auto].
      * rewrite (renamed_out upd matched e N), (renamed_out upd matched e' N') in E. contradiction.
    + rewrite Forall_forall in *. intros e' He. apply in_map_iff in He as (e & <- & He). specialize (F e He). unfold renamed. destruct (existsb _ _); exact F.
  - split; [|auto]. rewrite !map_map. cbn [n_id n_key]. split; [auto|]. split; [auto|]. rewrite Forall_forall in *. intros e' He. apply in_map_iff in He as (e & <- & He). exact (F e He).
  - split; [|lia]. split; [apply map_filter_nodup; auto | split; [apply map_filter_nodup; auto|]]. rewrite Forall_forall in *. intros e He. apply filter_In in He as [He K]. specialize (F e He). specialize (H0 e He K). lia.
Qed.
Lemma dsteps_keep D h rs D' : dsteps D h rs D' -> dict_ok D -> 0 <= d_last D -> dict_ok D' /\ 0 <= d_last D'.
Proof. induction 1; auto. intros H1 H2. destruct (dstep_keep _ _ _ _ H1 H H2). auto. Qed.

(** ** Consequences for histories *)
Lemma iruns_app hash a : forall x b, fst (iruns hash x (a ++ b)) = fst (iruns hash (fst (iruns hash x a)) b).
Proof.
  induction a as [|o a IH]; intros x b; cbn [app iruns fst]; auto. destruct (istep hash x o) as [x1 r]. specialize (IH x1 b).
  destruct (iruns hash x1 (a ++ b)) as [x2 r2]. destruct (iruns hash x1 a) as [x3 r3]. cbn [fst] in *. auto.
Qed.
Lemma dict_new : dict_ok d_new. Proof. repeat constructor. Qed.
Lemma irun_ok hash h : Forall iop_ok h -> Z.of_nat (length h) < 2 ^ 32 ->
  exists P D, rel hash (fst (irun hash h)) P D /\ dict_ok D /\ 0 <= d_last D /\ x_incr (fst (irun hash h)) <= Z.of_nat (length h) /\ dsteps d_new h (snd (irun hash h)) D.
Proof.
  intros F L. destruct (runs_ok hash h ix_new [] d_new 0 (rel_new hash) F) as (x' & P & D & E & R & S); [cbn; lia | lia |]. fold (irun hash h) in *. subst x'.
  exists P, D. destruct (dsteps_keep _ _ _ _ S dict_new) as [A B]; [cbn; lia|]. split; auto. split; auto. split; auto. split; auto.
  rewrite (rl_last _ _ _ _ R). clear - S. assert (G : forall D0 h rs D, dsteps D0 h rs D -> d_last D <= d_last D0 + Z.of_nat (length h)).
  { induction 1; [lia|]. cbn [length]. rewrite Nat2Z.inj_succ. assert (d_last D1 <= d_last D0 + 1) by (destruct H; cbn [d_last]; lia). lia. }
  specialize (G _ _ _ _ S). cbn in G. lia.
Qed.
Lemma dstep_fun_add D k i D' : dict_ok D -> dstep D (IAdd k) (OId (ROk i)) D' -> maps D' i k /\ (maps D i k \/ (~ has_key D k /\ i = d_last D + 1)).
Proof.
  intros K S. inversion S; subst.
  - auto.
  - split; [exists (EN (d_last D + 1) k false); cbn; auto | auto].
Qed.
Lemma maps_fun D i k k' : dict_ok D -> maps D i k -> maps D i k' -> k = k'.
Proof.
  intros (N & _) (e & He & E1 & E2) (e' & He' & E1' & E2'). assert (e = e'); [|congruence]. assert (E : n_id e = n_id e') by congruence. clear - N He He' E.
  induction (d_live D) as [|x l IH]; [destruct He|]. cbn [map] in N. inversion N; subst. destruct He as [-> | He], He' as [-> | He']; auto.
  - destruct H1. rewrite E. apply in_map; auto.
  - destruct H1. rewrite <- E. apply in_map; auto.
Qed.
Lemma maps_inj D i i' k : dict_ok D -> maps D i k -> maps D i' k -> i = i'.
Proof.
  intros (_ & N & _) (e & He & E1 & E2) (e' & He' & E1' & E2'). assert (e = e'); [|congruence]. assert (E : n_key e = n_key e') by congruence. clear - N He He' E.
  induction (d_live D) as [|x l IH]; [destruct He|]. cbn [map] in N. inversion N; subst. destruct He as [-> | He], He' as [-> | He']; auto.
  - destruct H1. rewrite E. apply in_map; auto.
  - destruct H1. rewrite <- E. apply in_map; auto.
Qed.
Lemma dstep_keeps D o r D' i k : dstep D o r D' -> keeps o -> maps D i k -> maps D' i k.
Proof.
  intros S K (e & He & E1 & E2). destruct S; cbn [keeps] in K; try contradiction; try (exists e; auto; fail).
  - exists e. cbn. auto.
  - exists (EN (n_id e) (n_key e) true). split; auto. cbn [d_live]. apply in_map_iff. eauto.
Qed.
Definition saved (D : dict) (i : Z) (k : series) : Prop := exists e, In e (d_live D) /\ n_id e = i /\ n_key e = k /\ n_saved e = true.
Lemma dstep_saved D o r D' i k : dstep D o r D' -> keeps_flushed o -> saved D i k -> saved D' i k.
Proof.
  intros S K (e & He & E1 & E2 & E3). destruct S; cbn [keeps_flushed] in K; try contradiction; try (exists e; auto; fail).
  - exists e. cbn. auto.
  - exists (EN (n_id e) (n_key e) true). split; auto. cbn [d_live]. apply in_map_iff. eauto.
  - exists e. split; auto. cbn [d_live]. apply filter_In. auto.
Qed.
Lemma dstep_dead D o r D' i k : dstep D o r D' -> no_reuse o -> i <= d_last D -> (forall q, maps D i q -> q = k) -> i <= d_last D' /\ (forall q, maps D' i q -> q = k).
Proof.
  intros S K L M. destruct S; cbn [no_reuse] in K; try contradiction; try (split; auto; fail); cbn [d_last].
  - split; [lia|]. intros q (e & [<- | He] & E1 & E2); [cbn in E1; lia|]. apply M. exists e. auto.
  - split; auto. intros q (e & He & E1 & E2). cbn [d_live] in He. apply filter_In in He as [He _]. apply M. exists e. auto.
  - split; auto. intros q (e & He & E1 & E2). cbn [d_live] in He. apply in_map_iff in He as (e' & <- & He). apply M. exists e'. auto.
Qed.
Lemma dsteps_ind_keep (Q : dict -> Prop) (ok : iop -> Prop) : (forall D o r D', dstep D o r D' -> ok o -> Q D -> Q D') ->
  forall D h rs D', dsteps D h rs D' -> Forall ok h -> Q D -> Q D'.
Proof. intros H D h rs D' S. induction S; auto. intros F HQ. inversion F; subst. eauto. Qed.
(** Two stretches of a history: one registration, then more operations, then one more. *)
Lemma two_stretches hash a k b : Forall iop_ok a -> key_ok k -> Forall iop_ok b -> Z.of_nat (length a + length b) + 2 < 2 ^ 32 ->
  exists P D x1 i P1 D1 x2 P2 D2 rs, rel hash (fst (irun hash a)) P D /\ dict_ok D /\ istep hash (fst (irun hash a)) (IAdd k) = (x1, OId (ROk i)) /\ rel hash x1 P1 D1 /\ dict_ok D1 /\
   maps D1 i k /\ 1 <= i <= d_last D1 /\
   x2 = fst (iruns hash x1 b) /\ rel hash x2 P2 D2 /\ dict_ok D2 /\ dsteps D1 b rs D2 /\ x_incr x2 + 1 < 2 ^ 32.
Proof.
  intros Fa K Fb L. destruct (irun_ok hash a Fa ltac:(lia)) as (P & D & R & Dk & D0 & B & _). destruct (step_ok hash _ P D (IAdd k) R K ltac:(lia)) as (x1 & P1 & D1 & r & E & R1 & S1 & B1).
  destruct (dstep_keep _ _ _ _ Dk S1 D0) as [Dk1 D01]. assert (exists i, r = OId (ROk i)) as [i ->] by (inversion S1; eauto).
  destruct (dstep_fun_add _ _ _ _ Dk S1) as [M1 _]. assert (I1 : 1 <= i <= d_last D1). { destruct Dk1 as (_ & _ & F). rewrite Forall_forall in F. destruct M1 as (e & He & <- & _). apply F; auto. }
  destruct (runs_ok hash b x1 P1 D1 (Z.of_nat (length a) + 1) R1 Fb ltac:(lia) ltac:(lia)) as (x2 & P2 & D2 & E2 & R2 & S2).
  destruct (dsteps_keep _ _ _ _ S2 Dk1 D01) as [Dk2 D02].
  exists P, D, x1, i, P1, D1, x2, P2, D2, (snd (iruns hash x1 b)). split; auto. split; auto. split; auto. split; auto. split; auto. split; auto. split; auto. split; auto. split; auto. split; auto. split; auto.
  rewrite (rl_last _ _ _ _ R2). assert (G : forall D0 h rs D, dsteps D0 h rs D -> d_last D <= d_last D0 + Z.of_nat (length h)).
  { clear. induction 1; [lia|]. cbn [length]. rewrite Nat2Z.inj_succ. assert (d_last D1 <= d_last D + 1) by (destruct H; cbn [d_last]; lia). lia. }
  specialize (G _ _ _ _ S2). rewrite <- (rl_last _ _ _ _ R1) in G. lia.
Qed.
Lemma probe hash x P D i k : rel hash x P D -> dict_ok D -> maps D i k -> x_incr x + 1 < 2 ^ 32 ->
  snd (istep hash x (IAdd k)) = OId (ROk i) /\ snd (istep hash x (IGetId k)) = OId (ROk i) /\ snd (istep hash x (IGetKey i)) = OKey (Some (Some k)).
Proof.
  intros R K M B. assert (HI : In (i, k) (all x P)) by (apply (rl_maps _ _ _ _ R); auto). destruct (inv_all_ok hash x P i k (rl_inv _ _ _ _ R) HI) as [[Hi Hk] _]. cbn in Hi, Hk.
  assert (NK : has_key D k) by (destruct M as (e & He & _ & E); exists e; auto).
  split; [|split].
  - destruct (step_ok hash x P D (IAdd k) R Hk B) as (x1 & P1 & D1 & r & -> & _ & S & _). cbn [snd]. inversion S; subst; [f_equal; f_equal; eapply maps_inj; eauto | contradiction].
  - destruct (step_ok hash x P D (IGetId k) R Hk B) as (x1 & P1 & D1 & r & -> & _ & S & _). cbn [snd]. inversion S; subst; [f_equal; f_equal; eapply maps_inj; eauto | contradiction].
  - destruct (step_ok hash x P D (IGetKey i) R Hi B) as (x1 & P1 & D1 & r & -> & _ & S & _). cbn [snd]. inversion S; subst; [do 3 f_equal; eapply maps_fun; eauto | exfalso; eapply H0; eauto].
Qed.
Lemma probe_key hash x P D i k : rel hash x P D -> dict_ok D -> 0 <= i < 2 ^ 32 -> x_incr x + 1 < 2 ^ 32 -> (snd (istep hash x (IGetKey i)) = OKey (Some (Some k)) <-> maps D i k).
Proof.
  intros R K Hi B. split; [|intros M; eapply probe; eauto]. destruct (step_ok hash x P D (IGetKey i) R Hi B) as (x1 & P1 & D1 & r & -> & _ & S & _). cbn [snd]. intros ->. inversion S; subst; auto.
Qed.
Lemma enc_key_stored a b : (length (enc_key a) <= MAX_KEY)%nat -> enc_key a = enc_key b -> a = b.
Proof.
  intros L E. assert (SH : forall k, (length (enc_key k) <= MAX_KEY)%nat -> short k).
  { intros k Lk. unfold enc_key, enc_with in Lk. rewrite !app_length, enc_str_length in Lk. fold (enc_tags (sk_tags k)) in Lk. pose proof (enc_tags_length (sk_tags k)) as F. unfold MAX_KEY in Lk. split; [lia|].
    eapply Forall_impl; [|exact F]. cbn. lia. }
  eapply enc_with_inj; [apply SH; auto | apply SH; rewrite <- E; auto | exact E].
Qed.
