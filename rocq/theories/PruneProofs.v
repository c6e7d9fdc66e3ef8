From Verif Require Import Prelude PruneModel PruneSpec.
Open Scope Z_scope.

Lemma key_total b : f_key b = total b.
Proof. unfold f_key, total, f_mag. change (2 ^ 63) with 0x8000000000000000.
  destruct (0x8000000000000000 <=? b) eqn:E, (b <? 0x8000000000000000) eqn:F; lia. Qed.
Lemma dtype_eqb_eq a b : dtype_eqb a b = true <-> a = b.
Proof. destruct a, b; cbn; split; congruence. Qed.
Lemma dtype_eqb_refl a : dtype_eqb a a = true. Proof. destruct a; reflexivity. Qed.

(** strings *)
Lemma lex_refl a : lex a a. Proof. induction a; [apply lex_nil | apply lex_eq; auto]. Qed.
Lemma lex_trans a b c : lex a b -> lex b c -> lex a c.
Proof.
  intros H. revert c. induction H; intros c K.
  - apply lex_nil.
  - inversion K; subst; [apply lex_lt; lia | apply lex_lt; auto].
  - inversion K; subst; [apply lex_lt; auto | apply lex_eq; auto].
Qed.
Lemma lex_antisym a b : lex a b -> lex b a -> a = b.
Proof.
  intros H. induction H; intros K.
  - inversion K; auto.
  - inversion K; subst; lia.
  - inversion K; subst; [lia|]. f_equal. auto.
Qed.
Lemma s_lt_lex a b : s_lt b a = false <-> lex a b.
Proof.
  revert b. induction a as [|x a IH]; intros b; split; intros H.
  - apply lex_nil.
  - destruct b; reflexivity.
  - destruct b as [|y b]; [cbn in H; discriminate|]. cbn in H.
    destruct (y <? x) eqn:E; [discriminate|]. destruct (x <? y) eqn:F; [apply lex_lt; lia|].
    replace y with x by lia. apply lex_eq, IH, H.
  - inversion H; subst; cbn.
    + replace (y <? x) with false by lia. replace (x <? y) with true by lia. reflexivity.
    + rewrite Z.ltb_irrefl. apply IH; auto.
Qed.

(** the order *)
Lemma leq_refl a : leq a a.
Proof. destruct a; constructor; auto; try lia. apply lex_refl. Qed.
Lemma leq_trans a b c : leq a b -> leq b c -> leq a c.
Proof. intros H K. inversion H; subst; inversion K; subst; constructor; auto; try lia. eapply lex_trans; eauto. Qed.
Lemma leq_type a b : leq a b -> type_of a = type_of b.
Proof. intros H. inversion H; reflexivity. Qed.
Lemma total_inj a b : 0 <= a < 2 ^ 64 -> 0 <= b < 2 ^ 64 -> total a = total b -> a = b.
Proof. unfold total. intros. destruct (a <? 2 ^ 63) eqn:E, (b <? 2 ^ 63) eqn:F; lia. Qed.
Lemma leq_antisym a b : in_range a -> in_range b -> leq a b -> leq b a -> a = b.
Proof.
  intros Ra Rb H K. inversion H; subst; inversion K; subst; f_equal; try lia.
  - destruct a0, b0; auto; intuition congruence.
  - apply total_inj; auto; lia.
  - apply lex_antisym; auto.
Qed.
Lemma leq_t a b : leq a b <-> type_of a = type_of b /\ t_lt b a = false.
Proof.
  split.
  - intros H. inversion H; subst; split; auto; cbn.
    + destruct a0, b0; auto. intuition congruence.
    + rewrite !key_total. lia.
    + lia.
    + lia.
    + apply s_lt_lex; auto.
  - intros [T H]. destruct a, b; cbn in T; try discriminate; cbn in H; constructor.
    + destruct b0, b; auto; discriminate.
    + rewrite !key_total in H. lia.
    + lia.
    + lia.
    + apply s_lt_lex; auto.
Qed.
Lemma less_t a b : in_range a -> in_range b -> less a b <-> type_of a = type_of b /\ t_lt a b = true.
Proof.
  intros Ra Rb. split.
  - intros [H N]. split; [apply leq_type; auto|]. destruct (t_lt a b) eqn:E; auto. exfalso. apply N.
    apply leq_antisym; auto. apply leq_t. split; auto. symmetry. apply leq_type; auto.
  - intros [T H]. split.
    + destruct (t_lt b a) eqn:E; [|apply leq_t; auto]. exfalso.
      destruct a, b; cbn in T; try discriminate; cbn in H, E; try lia.
      * destruct b0, b; discriminate.
      * clear - H E. revert s0 H E. induction s as [|x s IH]; intros [|y t]; cbn; try discriminate.
        destruct (x <? y) eqn:A; destruct (y <? x) eqn:B; try discriminate; try lia; apply IH.
    + intros ->. assert (K : leq b b) by apply leq_refl. apply leq_t in K as [_ K]. congruence.
Qed.

(** Rust's order on plain values *)
Lemma v_lt_leq a b : in_range a -> in_range b -> plain a -> plain b -> type_of a = type_of b -> v_lt b a = false -> leq a b.
Proof.
  intros Ra Rb Pa Pb T H. apply leq_t. split; auto. destruct a, b; cbn in T; try discriminate; cbn in H |- *; auto.
  cbn in Ra, Rb, Pa, Pb. unfold NAN_ABOVE in *. change (2 ^ 63) with 9223372036854775808 in *. change (2 ^ 64) with 18446744073709551616 in *.
  change (2047 * 2 ^ 52) with 9218868437227405312 in *.
  assert (M : forall x, 0 <= x < 18446744073709551616 -> x mod 9223372036854775808 = f_mag x).
  { intros x Hx. unfold f_mag. change 0x8000000000000000 with 9223372036854775808. destruct (9223372036854775808 <=? x) eqn:E.
    - symmetry. apply Z.mod_unique with 1; lia.
    - apply Z.mod_small. lia. }
  rewrite !M in *; auto. unfold f_lt, f_nan in H. change 0x7FF0000000000000 with 9218868437227405312 in H.
  replace (9218868437227405312 <? f_mag bits) with false in H by lia.
  replace (9218868437227405312 <? f_mag bits0) with false in H by lia. cbn in H.
  unfold f_key, f_num, f_mag in *. change 0x8000000000000000 with 9223372036854775808 in *.
  destruct (9223372036854775808 <=? bits) eqn:E, (9223372036854775808 <=? bits0) eqn:F; lia.
Qed.
Lemma v_lt_leq' a b : in_range a -> in_range b -> plain a -> plain b -> type_of a = type_of b -> v_lt a b = true -> leq a b.
Proof.
  intros Ra Rb Pa Pb T H. apply v_lt_leq; auto. destruct (v_lt b a) eqn:E; auto. exfalso.
  destruct a, b; cbn in T; try discriminate; cbn in H, E; try lia.
  - destruct b0, b; discriminate.
  - unfold f_lt in *. lia.
  - clear - H E. revert s0 H E. induction s as [|x s IH]; intros [|y t]; cbn; try discriminate.
    destruct (x <? y) eqn:A; destruct (y <? x) eqn:B; try discriminate; try lia; apply IH.
Qed.

Definition good (v : value) : Prop := in_range v /\ plain v.
Lemma step_min_spec m x : good m -> good x -> type_of m = type_of x ->
  good (step_min m x) /\ type_of (step_min m x) = type_of m /\ leq (step_min m x) m /\ leq (step_min m x) x /\ (step_min m x = m \/ step_min m x = x).
Proof.
  intros [R P] [R' P'] T. unfold step_min. destruct (v_lt x m) eqn:E.
  - split; [split; auto|]. split; auto. split; [apply v_lt_leq'; auto|]. split; [apply leq_refl | auto].
  - split; [split; auto|]. split; auto. split; [apply leq_refl|]. split; [apply v_lt_leq; auto | auto].
Qed.
Lemma step_max_spec m x : good m -> good x -> type_of m = type_of x ->
  good (step_max m x) /\ type_of (step_max m x) = type_of m /\ leq m (step_max m x) /\ leq x (step_max m x) /\ (step_max m x = m \/ step_max m x = x).
Proof.
  intros [R P] [R' P'] T. unfold step_max. destruct (v_lt m x) eqn:E.
  - split; [split; auto|]. split; auto. split; [apply v_lt_leq'; auto|]. split; [apply leq_refl | auto].
  - split; [split; auto|]. split; auto. split; [apply leq_refl|]. split; [apply v_lt_leq; auto | auto].
Qed.
Lemma fold_min l : forall m, good m -> (forall x, In x l -> good x /\ type_of x = type_of m) ->
  let r := fold_left step_min l m in good r /\ leq r m /\ (forall x, In x l -> leq r x) /\ (r = m \/ In r l).
Proof.
  induction l as [|x l IH]; intros m G H; cbn.
  - split; auto. split; [apply leq_refl|]. split; [contradiction|auto].
  - destruct (H x (or_introl eq_refl)) as [Gx Tx].
    destruct (step_min_spec m x G Gx (eq_sym Tx)) as (G' & T' & L1 & L2 & D).
    destruct (IH (step_min m x) G') as (A & B & C & K). { intros y Hy. rewrite T'. apply H. right; auto. }
    split; auto. split; [eapply leq_trans; eauto|]. split.
    + intros y [<-|Hy]; [eapply leq_trans; eauto | auto].
    + destruct K as [K|K]; [|auto]. rewrite K. destruct D as [->| ->]; auto.
Qed.
Lemma fold_max l : forall m, good m -> (forall x, In x l -> good x /\ type_of x = type_of m) ->
  let r := fold_left step_max l m in good r /\ leq m r /\ (forall x, In x l -> leq x r) /\ (r = m \/ In r l).
Proof.
  induction l as [|x l IH]; intros m G H; cbn.
  - split; auto. split; [apply leq_refl|]. split; [contradiction|auto].
  - destruct (H x (or_introl eq_refl)) as [Gx Tx].
    destruct (step_max_spec m x G Gx (eq_sym Tx)) as (G' & T' & L1 & L2 & D).
    destruct (IH (step_max m x) G') as (A & B & C & K). { intros y Hy. rewrite T'. apply H. right; auto. }
    split; auto. split; [eapply leq_trans; eauto|]. split.
    + intros y [<-|Hy]; [eapply leq_trans; eauto | auto].
    + destruct K as [K|K]; [|auto]. rewrite K. destruct D as [->| ->]; auto.
Qed.
(** Iterator::max takes the last of equal values *)
Definition step_max' (m y : value) : value := if v_lt y m then m else y.
Lemma fold_max' l : forall m, good m -> (forall x, In x l -> good x /\ type_of x = type_of m) ->
  let r := fold_left step_max' l m in good r /\ leq m r /\ (forall x, In x l -> leq x r) /\ (r = m \/ In r l).
Proof.
  induction l as [|x l IH]; intros m G H; cbn.
  - split; auto. split; [apply leq_refl|]. split; [contradiction|auto].
  - destruct (H x (or_introl eq_refl)) as [Gx Tx].
    assert (S' : good (step_max' m x) /\ type_of (step_max' m x) = type_of m /\ leq m (step_max' m x) /\ leq x (step_max' m x) /\ (step_max' m x = m \/ step_max' m x = x)).
    { destruct G as [R P], Gx as [R' P']. unfold step_max'. destruct (v_lt x m) eqn:E.
      - split; [split; auto|]. split; auto. split; [apply leq_refl|]. split; [apply v_lt_leq'; auto | auto].
      - split; [split; auto|]. split; auto. split; [apply v_lt_leq; auto|]. split; [apply leq_refl|auto]. }
    destruct S' as (G' & T' & L1 & L2 & D).
    destruct (IH (step_max' m x) G') as (A & B & C & K). { intros y Hy. rewrite T'. apply H. right; auto. }
    split; auto. split; [eapply leq_trans; eauto|]. split.
    + intros y [<-|Hy]; [eapply leq_trans; eauto | auto].
    + destruct K as [K|K]; [|auto]. rewrite K. destruct D as [->| ->]; auto.
Qed.

(** flush: the running minimum and maximum are the folds *)
Lemma push_some c x c' : push c (Some x) = Some c' -> type_of (c_min c) = c_ty c -> type_of (c_max c) = c_ty c ->
  c_ty c = type_of x /\ c_min c' = step_min (c_min c) x /\ c_max c' = step_max (c_max c) x /\ c_ty c' = c_ty c /\
  c_vals c' = c_vals c ++ [x] /\ c_valid c' = c_valid c ++ [true].
Proof.
  unfold push. destruct (dtype_eqb (c_ty c) (type_of x)) eqn:E; [|discriminate]. intros H A B. injection H as <-. cbn.
  apply dtype_eqb_eq in E. rewrite E in A, B. split; auto. repeat split.
  - unfold step_min. destruct (c_min c), x; cbn in A; try discriminate; cbn; auto. destruct b, b0; reflexivity.
  - unfold step_max. destruct (c_max c), x; cbn in B; try discriminate; cbn; auto. 
Qed.
Lemma step_type (f : value -> value -> value) m x : (f m x = m \/ f m x = x) -> type_of m = type_of x -> type_of (f m x) = type_of m.
Proof. intros [->| ->]; auto. Qed.
Lemma push_all_spec vs : forall c c', push_all c vs = Some c' -> type_of (c_min c) = c_ty c -> type_of (c_max c) = c_ty c ->
  (forall x, In x (flatten vs) -> type_of x = c_ty c) /\ c_ty c' = c_ty c /\
  c_vals c' = c_vals c ++ flatten vs /\ c_valid c' = c_valid c ++ PruneModel.bits vs /\
  c_min c' = fold_left step_min (flatten vs) (c_min c) /\ c_max c' = fold_left step_max (flatten vs) (c_max c).
Proof.
  induction vs as [|[x|] vs IH]; intros c c' H A B.
  - cbn in H. injection H as <-. cbn. rewrite !app_nil_r. repeat split; auto. contradiction.
  - cbn [push_all] in H. destruct (push c (Some x)) as [c1|] eqn:E; [|discriminate].
    apply push_some in E as (T & M1 & M2 & T1 & V & W); auto.
    assert (A1 : type_of (c_min c1) = c_ty c1). { rewrite M1, T1. unfold step_min. destruct (v_lt x (c_min c)); congruence. }
    assert (B1 : type_of (c_max c1) = c_ty c1). { rewrite M2, T1. unfold step_max. destruct (v_lt (c_max c) x); congruence. }
    destruct (IH c1 c' H A1 B1) as (P1 & P2 & P3 & P4 & P5 & P6).
    change (flatten (Some x :: vs)) with (x :: flatten vs). change (PruneModel.bits (Some x :: vs)) with (true :: PruneModel.bits vs).
    cbn [fold_left]. rewrite <- M1, <- M2. split.
    { intros y [<-|Hy]; auto. rewrite <- T1. auto. }
    split; [congruence|]. split; [rewrite P3, V, <- app_assoc; reflexivity|]. split; [rewrite P4, W, <- app_assoc; reflexivity|]. auto.
  - cbn [push_all push] in H. specialize (IH _ _ H A B). cbn [c_ty c_vals c_valid c_min c_max] in IH.
    destruct IH as (P1 & P2 & P3 & P4 & P5 & P6).
    change (flatten (None :: vs)) with (flatten vs). change (PruneModel.bits (None :: vs)) with (false :: PruneModel.bits vs).
    repeat split; auto. rewrite P4, <- app_assoc. reflexivity.
Qed.
Lemma spread_spec vs : spread (PruneModel.bits vs) (flatten vs) = vs.
Proof.
  induction vs as [|[x|] vs IH]; [reflexivity| |].
  - change (Some x :: spread (PruneModel.bits vs) (flatten vs) = Some x :: vs). f_equal; auto.
  - change (None :: spread (PruneModel.bits vs) (flatten vs) = None :: vs). f_equal; auto.
Qed.
Lemma in_flatten x vs : In x (flatten vs) <-> In (Some x) vs.
Proof.
  unfold flatten. induction vs as [|[y|] vs IH]; cbn; [tauto| |].
  - rewrite IH. split; intros [H|H]; auto; left; congruence.
  - rewrite IH. split; [auto|]. intros [H|H]; [discriminate|auto].
Qed.
Lemma new_types ty : type_of (c_min (new_column ty)) = c_ty (new_column ty) /\ type_of (c_max (new_column ty)) = c_ty (new_column ty) /\
  c_ty (new_column ty) = ty /\ c_vals (new_column ty) = [] /\ c_valid (new_column ty) = [].
Proof. destruct ty; repeat split. Qed.
Lemma good_lits : good (VFloat F_MAX) /\ good (VFloat F_MIN) /\ good (VInt I64_MAX) /\ good (VInt I64_MIN) /\ good (VUint U64_MAX) /\ good (VUint 0) /\
  good (VBool false) /\ good (VBool true) /\ good (VStr []).
Proof.
  assert (F : forall b, 0 <= b < 2 ^ 64 -> b mod 2 ^ 63 <= NAN_ABOVE -> b <> 2 ^ 63 -> good (VFloat b)) by (intros; split; cbn; auto).
  split; [apply F; vm_compute; intuition discriminate|]. split; [apply F; vm_compute; intuition discriminate|].
  repeat split; vm_compute; try discriminate; auto.
Qed.
Lemma good_new ty : good (c_min (new_column ty)) /\ good (c_max (new_column ty)).
Proof. destruct good_lits as (A & B & C & D & E & F & G & H & I0). destruct ty; cbn; auto. Qed.

(** what a written page is *)
Lemma written_cells p vs : written p vs -> cells p = vs /\ s_nulls (pg_stat p) = Z.of_nat (length vs) - Z.of_nat (length (flatten vs)) /\
  (forall x, In x (flatten vs) -> type_of x = pg_ty p) /\ s_ty (pg_stat p) = pg_ty p.
Proof.
  intros H. inversion H; subst.
  - unfold flush_page in H0. destruct (push_all (new_column ty) vs) as [c|] eqn:E; [|discriminate]. injection H0 as <-.
    destruct (new_types ty) as (A & B & T & V & W).
    apply push_all_spec in E as (P1 & P2 & P3 & P4 & P5 & P6); auto. rewrite V in P3. rewrite W in P4. cbn in P3, P4.
    unfold cells, colref_to_page; cbn. rewrite P3, P4. split; [apply spread_spec|]. unfold PruneModel.bits. rewrite map_length. split; auto.
    split; auto. intros. rewrite P2; auto.
  - unfold arrow_array_to_page in H0. destruct (forallb _ (flatten vs)) eqn:E; [|discriminate]. injection H0 as <-.
    rewrite forallb_forall in E. unfold cells; cbn. split; [apply spread_spec|]. split; [destruct ty; reflexivity|]. split; [|destruct ty; reflexivity].
    intros x Hx. specialize (E x Hx). apply dtype_eqb_eq in E. auto.
Qed.
Lemma written_bounds p vs : written p vs -> (forall v, In (Some v) vs -> good v) ->
  (forall m, s_min (pg_stat p) = Some m -> good m /\ forall v, In (Some v) vs -> leq m v) /\
  (forall m, s_max (pg_stat p) = Some m -> good m /\ forall v, In (Some v) vs -> leq v m).
Proof.
  intros H G. assert (G' : forall x, In x (flatten vs) -> good x) by (intros x Hx; apply G, in_flatten; auto).
  destruct (written_cells p vs H) as (_ & _ & T & _).
  inversion H; subst.
  - unfold flush_page in H0. destruct (push_all (new_column ty) vs) as [c|] eqn:E; [|discriminate]. injection H0 as <-.
    destruct (new_types ty) as (A & B & Ty & V & W). destruct (good_new ty) as [Gm Gx].
    apply push_all_spec in E as (P1 & P2 & P3 & P4 & P5 & P6); auto. cbn.
    split; intros m Hm; injection Hm as <-.
    + rewrite P5. destruct (fold_min (flatten vs) (c_min (new_column ty)) Gm) as (X1 & X2 & X3 & X4).
      { intros x Hx. split; auto. rewrite A. auto. }
      split; auto. intros v Hv. apply X3, in_flatten; auto.
    + rewrite P6. destruct (fold_max (flatten vs) (c_max (new_column ty)) Gx) as (X1 & X2 & X3 & X4).
      { intros x Hx. split; auto. rewrite B. auto. }
      split; auto. intros v Hv. apply X3, in_flatten; auto.
  - unfold arrow_array_to_page in H0. destruct (forallb _ (flatten vs)) eqn:E; [|discriminate]. injection H0 as <-. cbn in T |- *.
    destruct good_lits as (L1 & L2 & L3 & L4 & L5 & L6 & _).
    assert (Hmin : forall m0, good m0 -> type_of m0 = ty -> good (fold_left step_min (flatten vs) m0) /\ forall v, In (Some v) vs -> leq (fold_left step_min (flatten vs) m0) v).
    { intros m0 Gm0 T0. destruct (fold_min (flatten vs) m0 Gm0) as (X1 & X2 & X3 & X4). { intros x Hx. split; auto. rewrite T0; auto. }
      split; auto. intros v Hv. apply X3, in_flatten; auto. }
    assert (Hmax : forall m0, good m0 -> type_of m0 = ty -> good (fold_left step_max (flatten vs) m0) /\ forall v, In (Some v) vs -> leq v (fold_left step_max (flatten vs) m0)).
    { intros m0 Gm0 T0. destruct (fold_max (flatten vs) m0 Gm0) as (X1 & X2 & X3 & X4). { intros x Hx. split; auto. rewrite T0; auto. }
      split; auto. intros v Hv. apply X3, in_flatten; auto. }
    destruct ty; cbn; try (split; intros m Hm; injection Hm as <-; [apply Hmin | apply Hmax]; auto; fail).
    + split; discriminate.
    + destruct (flatten vs) as [|x l] eqn:F; cbn; [split; discriminate|].
      assert (Gx : good x) by (apply G'; left; auto).
      assert (Hl : forall y, In y l -> good y /\ type_of y = type_of x).
      { intros y Hy. split; [apply G'; right; auto|]. rewrite !T; auto; [left|right]; auto. }
      split; intros m Hm; injection Hm as <-.
      * destruct (fold_min l x Gx Hl) as (X1 & X2 & X3 & X4). split; auto. intros v Hv. apply in_flatten in Hv. rewrite F in Hv.
        destruct Hv as [<-|Hv]; auto.
      * destruct (fold_max' l x Gx Hl) as (X1 & X2 & X3 & X4). split; auto. intros v Hv. apply in_flatten in Hv. rewrite F in Hv.
        destruct Hv as [<-|Hv]; auto.
Qed.

(** exact statistics of numbers *)
Lemma written_exact p vs : written p vs -> (pg_ty p = TInt \/ pg_ty p = TUint) -> (forall v, In (Some v) vs -> in_range v) -> (exists v, In (Some v) vs) ->
  exists lo hi, s_min (pg_stat p) = Some lo /\ s_max (pg_stat p) = Some hi /\ In (Some lo) vs /\ In (Some hi) vs /\
    forall v, In (Some v) vs -> leq lo v /\ leq v hi.
Proof.
  intros H Ty R [v0 Hv0]. destruct (written_cells p vs H) as (_ & _ & T & _).
  assert (G : forall v, In (Some v) vs -> good v).
  { intros v Hv. split; auto. apply in_flatten in Hv. specialize (T v Hv). destruct v; cbn; auto. destruct Ty; cbn in T; congruence. }
  destruct (written_bounds p vs H G) as [Bl Bh].
  assert (M : exists m0 M0, s_min (pg_stat p) = Some (fold_left step_min (flatten vs) m0) /\ s_max (pg_stat p) = Some (fold_left step_max (flatten vs) M0) /\
    good m0 /\ good M0 /\ type_of m0 = pg_ty p /\ type_of M0 = pg_ty p /\ (forall v, In (Some v) vs -> leq v m0) /\ (forall v, In (Some v) vs -> leq M0 v)).
  { destruct good_lits as (L1 & L2 & L3 & L4 & L5 & L6 & _).
    assert (X : (pg_ty p = TInt -> (forall v, In (Some v) vs -> leq v (VInt I64_MAX)) /\ (forall v, In (Some v) vs -> leq (VInt I64_MIN) v)) /\
                (pg_ty p = TUint -> (forall v, In (Some v) vs -> leq v (VUint U64_MAX)) /\ (forall v, In (Some v) vs -> leq (VUint 0) v))).
    { split; intros E; split; intros v Hv; pose proof (R v Hv) as Rv; apply in_flatten in Hv; specialize (T v Hv); rewrite E in T;
        destruct v; try discriminate; cbn in Rv; constructor; unfold I64_MAX, I64_MIN, U64_MAX; lia. }
    destruct X as [X1 X2].
    inversion H; subst.
    - unfold flush_page in H0. destruct (push_all (new_column ty) vs) as [c|] eqn:E; [|discriminate]. injection H0 as <-.
      destruct (new_types ty) as (A & B & Tn & V & W).
      apply push_all_spec in E as (P1 & P2 & P3 & P4 & P5 & P6); auto. cbn in Ty, X1, X2 |- *. rewrite P2, Tn in Ty, X1, X2. rewrite P2, Tn.
      exists (c_min (new_column ty)), (c_max (new_column ty)). rewrite P5, P6.
      destruct Ty as [-> | ->]; cbn; [specialize (X1 eq_refl)|specialize (X2 eq_refl)]; intuition.
    - unfold arrow_array_to_page in H0. destruct (forallb _ (flatten vs)) eqn:E; [|discriminate]. injection H0 as <-. cbn in Ty, X1, X2 |- *.
      destruct Ty as [-> | ->]; cbn; [specialize (X1 eq_refl)|specialize (X2 eq_refl)]; do 2 eexists; intuition eauto. }
  destruct M as (m0 & M0 & E1 & E2 & G1 & G2 & T1 & T2 & A1 & A2).
  assert (HT : forall x, In x (flatten vs) -> good x /\ type_of x = pg_ty p) by (intros x Hx; split; auto; apply G, in_flatten; auto).
  destruct (fold_min (flatten vs) m0 G1) as (Y1 & Y2 & Y3 & Y4). { intros; rewrite T1; auto. }
  destruct (fold_max (flatten vs) M0 G2) as (Z1 & Z2 & Z3 & Z4). { intros; rewrite T2; auto. }
  exists (fold_left step_min (flatten vs) m0), (fold_left step_max (flatten vs) M0).
  split; auto. split; auto. split.
  { destruct Y4 as [Y4|Y4]; [|apply in_flatten; auto]. rewrite Y4. assert (v0 = m0) as <-; auto.
    apply leq_antisym; auto; [apply G1|]. rewrite <- Y4. apply Y3, in_flatten; auto. }
  split.
  { destruct Z4 as [Z4|Z4]; [|apply in_flatten; auto]. rewrite Z4. assert (v0 = M0) as <-; auto.
    apply leq_antisym; auto; [apply G2|]. rewrite <- Z4. apply Z3, in_flatten; auto. }
  intros v Hv. split; [apply Y3 | apply Z3]; apply in_flatten; auto.
Qed.

(** pruning *)
Section Prune.
Variable utf8 : list Z -> bool.
Lemma as_scalar_or v : as_scalar utf8 v = v \/ as_scalar utf8 v = None.
Proof. destruct v as [[]|]; cbn; auto. destruct (utf8 s); auto. Qed.
Lemma stat_at_spec sel n gs i g p : nth_error gs i = Some g -> find_page n g = Some p ->
  stat_at utf8 sel n gs i = sel (pg_stat p) \/ stat_at utf8 sel n gs i = None.
Proof.
  intros Hg Hp. unfold stat_at, stat_values. destruct gs as [|g0 gs']; [auto|]. destruct (find_page n g0) as [p0|]; [|auto].
  set (f := fun g : list page => match find_page n g with Some p => (s_ty (pg_stat p), as_scalar utf8 (sel (pg_stat p))) | None => (pg_ty p0, None) end). cbv zeta. destruct (forallb _ _); [|auto].
  rewrite map_map. rewrite (nth_error_nth _ _ _ (x := snd (f g))).
  - unfold f. rewrite Hp. cbn. destruct (as_scalar_or (sel (pg_stat p))); auto.
  - apply (map_nth_error (fun x => snd (f x))), Hg.
Qed.
Lemma compare_some op a b : type_of a = type_of b -> compare op (Some a) (Some b) =
  Some (match op with
        | Eq => negb (t_lt a b) && negb (t_lt b a) | Ne => t_lt a b || t_lt b a | Lt => t_lt a b
        | Le => negb (t_lt b a) | Gt => t_lt b a | Ge => negb (t_lt a b) end).
Proof. intros E. cbn. rewrite E, dtype_eqb_refl. reflexivity. Qed.
Lemma lt_le a b c : in_range a -> in_range b -> in_range c -> leq a b -> less b c -> less a c.
Proof. intros Ra Rb Rc H [K N]. split; [eapply leq_trans; eauto|]. intros ->. apply N. apply leq_antisym; auto. Qed.
Lemma le_lt a b c : in_range a -> in_range b -> in_range c -> less a b -> leq b c -> less a c.
Proof. intros Ra Rb Rc [K N] H. split; [eapply leq_trans; eauto|]. intros ->. apply N. apply leq_antisym; auto. Qed.
Lemma leq_not a b : leq a b -> negb (t_lt b a) = true.
Proof. intros H. apply leq_t in H as [_ ->]. reflexivity. Qed.
Definition not_false (x : option bool) : Prop := x <> Some false.
Lemma and3_nf a b : not_false a -> not_false b -> not_false (and3 a b).
Proof. unfold not_false. destruct a as [[]|], b as [[]|]; cbn; congruence. Qed.
Lemma or3_nf a b : not_false a \/ not_false b -> not_false (or3 a b).
Proof. unfold not_false. intros [H|H]; destruct a as [[]|], b as [[]|]; cbn; congruence. Qed.

Lemma cmp_keep op mn mx a b : in_range a -> in_range b -> holds op a b ->
  (mn = None \/ exists m, mn = Some m /\ good m /\ leq m a) -> (mx = None \/ exists m, mx = Some m /\ good m /\ leq a m) ->
  not_false (match op with
      | Eq => and3 (compare Le mn (Some b)) (compare Le (Some b) mx)
      | Ne => or3 (compare Ne mn (Some b)) (compare Ne (Some b) mx)
      | Lt => compare Lt mn (Some b)
      | Le => compare Le mn (Some b)
      | Gt => compare Gt mx (Some b)
      | Ge => compare Ge mx (Some b) end).
Proof.
  intros Ra Rb H Hn Hx.
  assert (Tab : type_of a = type_of b).
  { destruct op; cbn in H; [subst; auto| | | | |]; unfold less in H; intuition (eauto using leq_type, eq_sym, leq_type). }
  assert (Vn : forall m, mn = Some m -> good m /\ leq m a /\ type_of m = type_of b).
  { intros m E. destruct Hn as [Hn|(m' & Hn & G & L)]; [congruence|]. assert (m' = m) by congruence. subst m'. split; auto. split; auto. rewrite <- Tab. apply leq_type; auto. }
  assert (Vx : forall m, mx = Some m -> good m /\ leq a m /\ type_of b = type_of m).
  { intros m E. destruct Hx as [Hx|(m' & Hx & G & L)]; [congruence|]. assert (m' = m) by congruence. subst m'. split; auto. split; auto. rewrite <- Tab. apply leq_type; auto. }
  clear Hn Hx. destruct op; cbn [holds] in H.
  - subst b. apply and3_nf.
    + destruct mn as [m|]; [|discriminate]. destruct (Vn m eq_refl) as (G & L & T). rewrite compare_some; auto. rewrite leq_not; [discriminate|auto].
    + destruct mx as [m|]; [|discriminate]. destruct (Vx m eq_refl) as (G & L & T). rewrite compare_some; auto. rewrite leq_not; [discriminate|auto].
  - apply or3_nf. destruct H as [H|H].
    + left. destruct mn as [m|]; [|discriminate]. destruct (Vn m eq_refl) as (G & L & T). rewrite compare_some; auto.
      assert (less m b) by exact (lt_le m a b (proj1 G) Ra Rb L H). apply less_t in H0 as [_ H0]; [|try exact Rb; exact (proj1 G)|try exact Rb; exact (proj1 G)]. rewrite H0. discriminate.
    + right. destruct mx as [m|]; [|discriminate]. destruct (Vx m eq_refl) as (G & L & T). rewrite compare_some; auto.
      assert (less b m) by exact (le_lt b a m Rb Ra (proj1 G) H L). apply less_t in H0 as [_ H0]; [|try exact Rb; exact (proj1 G)|try exact Rb; exact (proj1 G)]. rewrite H0. discriminate.
  - destruct mn as [m|]; [|discriminate]. destruct (Vn m eq_refl) as (G & L & T). rewrite compare_some; auto.
    assert (less m b) by exact (lt_le m a b (proj1 G) Ra Rb L H). apply less_t in H0 as [_ H0]; [|try exact Rb; exact (proj1 G)|try exact Rb; exact (proj1 G)]. rewrite H0. discriminate.
  - destruct mn as [m|]; [|discriminate]. destruct (Vn m eq_refl) as (G & L & T). rewrite compare_some; auto.
    rewrite leq_not; [discriminate|]. eapply leq_trans; eauto.
  - destruct mx as [m|]; [|discriminate]. destruct (Vx m eq_refl) as (G & L & T). rewrite compare_some; auto.
    assert (less b m) by exact (le_lt b a m Rb Ra (proj1 G) H L). apply less_t in H0 as [_ H0]; [|try exact Rb; exact (proj1 G)|try exact Rb; exact (proj1 G)]. rewrite H0. discriminate.
  - destruct mx as [m|]; [|discriminate]. destruct (Vx m eq_refl) as (G & L & T). rewrite compare_some; auto.
    rewrite leq_not; [discriminate|]. eapply leq_trans; eauto.
Qed.

Variable other : nat -> nat -> Prop.
Lemma keep gs i g j e : nth_error gs i = Some g -> Forall (fun p => exists vs, written p vs) g -> plain_group g -> literals_ok e ->
  selects other g j e -> not_false (stat_eval utf8 gs i e).
Proof.
  intros Hg W P. 
  assert (B : forall n a, row_value g j n = Some a ->
     good a /\ (stat_at utf8 s_min n gs i = None \/ exists m, stat_at utf8 s_min n gs i = Some m /\ good m /\ leq m a) /\
     (stat_at utf8 s_max n gs i = None \/ exists m, stat_at utf8 s_max n gs i = Some m /\ good m /\ leq a m)).
  { intros n a Ha. unfold row_value in Ha. destruct (find _ g) as [p|] eqn:F; [|discriminate].
    assert (Hp : In p g) by (apply find_some in F; tauto).
    rewrite Forall_forall in W. destruct (W p Hp) as [vs Hw]. unfold plain_group in P. rewrite Forall_forall in P. specialize (P p Hp).
    rewrite Forall_forall in P. destruct (written_cells p vs Hw) as (C & _). rewrite C in *.
    assert (Ga : forall v, In (Some v) vs -> good v) by (intros v Hv; apply (P _ Hv v eq_refl)).
    assert (Ia : In (Some a) vs). { rewrite <- Ha. apply nth_In. destruct (Nat.lt_ge_cases j (length vs)); auto. rewrite nth_overflow in Ha; [discriminate|auto]. }
    destruct (written_bounds p vs Hw Ga) as [B1 B2]. split; auto. split.
    - destruct (stat_at_spec s_min n gs i g p Hg F) as [E|E]; rewrite E; auto.
      destruct (s_min (pg_stat p)) as [m|] eqn:M; auto. right. exists m. destruct (B1 m eq_refl). auto.
    - destruct (stat_at_spec s_max n gs i g p Hg F) as [E|E]; rewrite E; auto.
      destruct (s_max (pg_stat p)) as [m|] eqn:M; auto. right. exists m. destruct (B2 m eq_refl). auto. }
  induction e as [op n lit|n|n|l IHl r IHr|l IHl r IHr|k]; intros L S0; cbn [selects] in S0.
  - destruct S0 as (a & b & Ha & -> & Hh). destruct (B n a Ha) as (Ga & B1 & B2). cbn [stat_eval].
    pose proof (cmp_keep op _ _ a b (proj1 Ga) L Hh B1 B2) as K. destruct op; exact K.
  - destruct (B n _ S0) as (Ga & B1 & B2). cbn [stat_eval]. apply or3_nf. right. unfold not_false.
    destruct B2 as [->|(m & -> & _ & Lm)]; [discriminate|]. inversion Lm; subst. cbn. rewrite H0; [discriminate|auto].
  - destruct (B n _ S0) as (Ga & B1 & B2). cbn [stat_eval]. unfold not_false.
    destruct B1 as [->|(m & -> & _ & Lm)]; [destruct (as_bool (stat_at utf8 s_max n gs i)) as [[]|]; cbn; discriminate|]. inversion Lm; subst. cbn.
    destruct a; [exfalso; intuition congruence|]. discriminate.
  - cbn [stat_eval]. destruct L, S0. apply and3_nf; auto.
  - cbn [stat_eval]. destruct L. apply or3_nf. destruct S0; auto.
  - discriminate.
Qed.
Lemma prune_nth e gs i : (i < length gs)%nat -> nth i (prune utf8 e gs) false = match stat_eval utf8 gs i e with Some b => b | None => true end.
Proof.
  intros H. unfold prune. apply nth_error_nth. 
  apply (map_nth_error (fun i => match stat_eval utf8 gs i e with Some b => b | None => true end)).
  rewrite nth_error_nth' with (d := O); [|rewrite seq_length; auto]. rewrite seq_nth; auto.
Qed.
Lemma kept_combine {A} (bs : list bool) : forall (gs : list A) i g, nth_error gs i = Some g -> nth i bs false = true ->
  In g (map snd (filter (fun p => fst p) (combine bs gs))).
Proof.
  induction bs as [|b bs IH]; intros gs i g Hg Hb; [destruct i; discriminate|].
  destruct gs as [|g0 gs]; [destruct i; discriminate|]. destruct i as [|i]; cbn in Hg, Hb.
  - injection Hg as <-. subst b. left. reflexivity.
  - cbn. destruct b; [right|]; eapply IH; eauto.
Qed.
Lemma groups_kept gs i g j e : nth_error gs i = Some g -> Forall (fun p => exists vs, written p vs) g -> plain_group g -> literals_ok e ->
  selects other g j e -> In g (filter_column_groups utf8 e gs).
Proof.
  intros Hg W P L S0. unfold filter_column_groups. eapply kept_combine; eauto.
  rewrite prune_nth; [|apply nth_error_Some; congruence].
  pose proof (keep gs i g j e Hg W P L S0) as K. unfold not_false in K. destruct (stat_eval utf8 gs i e) as [[]|]; congruence.
Qed.
End Prune.

(** Groups that are not read *)
Lemma combine_back {A} (bs : list bool) : forall (gs : list A) g, In g (map snd (filter (fun p => fst p) (combine bs gs))) ->
  exists i, nth_error gs i = Some g /\ nth i bs false = true.
Proof.
  induction bs as [|b bs IH]; intros gs g H; [destruct H|]. destruct gs as [|g0 gs]; [destruct H|]. cbn [combine filter fst] in H.
  assert (R : In g (map snd (filter (fun p => fst p) (combine bs gs))) -> exists i, nth_error (g0 :: gs) i = Some g /\ nth i (b :: bs) false = true).
  { intros K. destruct (IH gs g K) as (i & A0 & B0). exists (S i). split; auto. }
  destruct b; [|auto]. destruct H as [H|H]; [|auto]. exists O. cbn in H. split; cbn; congruence.
Qed.
Lemma stat_type p vs : written p vs -> pg_ty p = TInt \/ pg_ty p = TUint -> (forall v, In (Some v) vs -> in_range v) ->
  exists lo hi, s_min (pg_stat p) = Some lo /\ s_max (pg_stat p) = Some hi /\ type_of lo = pg_ty p /\ type_of hi = pg_ty p.
Proof.
  intros W Ty R. assert (W' := W). inversion W; subst.
  - unfold flush_page in H. destruct (push_all (new_column ty) vs) as [c|] eqn:E; [|discriminate]. injection H as <-. cbn in Ty |- *.
    destruct (new_types ty) as (A & B & C & _). destruct (push_all_spec vs _ _ E A B) as (T & T' & _ & _ & M & X).
    exists (c_min c), (c_max c). split; auto. split; auto. rewrite C in *.
    destruct (good_new ty) as [G1 G2].
    assert (G : forall x, In x (flatten vs) -> good x).
    { intros x I. split; [apply R, in_flatten; auto|]. apply T in I. rewrite T' in Ty. destruct x; cbn; auto. destruct Ty as [Ty|Ty]; rewrite Ty in I; discriminate. }
    destruct (fold_min (flatten vs) (c_min (new_column ty)) G1) as (_ & L & _).
    { intros x I. split; auto. rewrite (T x I). congruence. }
    destruct (fold_max (flatten vs) (c_max (new_column ty)) G2) as (_ & L' & _).
    { intros x I. split; auto. rewrite (T x I). congruence. }
    rewrite M, X, T'. apply leq_type in L, L'. split; congruence.
  - unfold arrow_array_to_page in H. destruct (forallb _ (flatten vs)) eqn:F; [|discriminate]. rewrite forallb_forall in F.
    assert (T : forall x, In x (flatten vs) -> type_of x = ty) by (intros x I; symmetry; apply dtype_eqb_eq; auto).
    assert (TY : ty = TInt \/ ty = TUint) by (injection H as <-; cbn in Ty; exact Ty).
    assert (G : forall x, In x (flatten vs) -> good x).
    { intros x I. split; [apply R, in_flatten; auto|]. apply T in I. destruct x; cbn; auto. destruct TY as [Ty'|Ty']; rewrite Ty' in I; discriminate. }
    destruct good_lits as (_ & _ & G1 & G2 & G3 & G4 & _).
    destruct TY as [-> | ->]; injection H as <-; cbn [pg_stat s_min s_max pg_ty]; do 2 eexists; (split; [reflexivity|]); (split; [reflexivity|]).
    + destruct (fold_min (flatten vs) (VInt I64_MAX) G1) as (_ & L & _); [intros x I; split; auto|].
      destruct (fold_max (flatten vs) (VInt I64_MIN) G2) as (_ & L' & _); [intros x I; split; auto|].
      apply leq_type in L, L'. rewrite L, <- L'. split; reflexivity.
    + destruct (fold_min (flatten vs) (VUint U64_MAX) G3) as (_ & L & _); [intros x I; split; auto|].
      destruct (fold_max (flatten vs) (VUint 0) G4) as (_ & L' & _); [intros x I; split; auto|].
      apply leq_type in L, L'. rewrite L, <- L'. split; reflexivity.
Qed.
Lemma stat_at_int utf8 sel ty n gs i g p vs : ty = TInt \/ ty = TUint -> (sel = s_min \/ sel = s_max) ->
  (forall g', In g' gs -> exists p vs, int_column ty n g' p vs) -> nth_error gs i = Some g -> int_column ty n g p vs ->
  stat_at utf8 sel n gs i = sel (pg_stat p).
Proof.
  intros Ty Sel H Hg Hp.
  assert (V : exists v, sel (pg_stat p) = Some v /\ type_of v = ty).
  { destruct Hp as (_ & W & T & R). destruct (stat_type p vs W) as (lo & hi & A & B & C & D); [rewrite T; auto | auto|].
    destruct Sel as [-> | ->]; [exists lo | exists hi]; split; auto; congruence. }
  destruct V as (v & SV & TV).
  unfold stat_at, stat_values. destruct gs as [|g0 gs']; [destruct i; discriminate|].
  destruct (H g0 (or_introl eq_refl)) as (p0 & vs0 & P0). assert (P0' := P0). destruct P0' as (F0 & W0 & T0 & _). unfold find_page in *. rewrite F0.
  set (f := fun g : list page => match find (fun p => pg_name p =? n) g with Some p => (s_ty (pg_stat p), as_scalar utf8 (sel (pg_stat p))) | None => (pg_ty p0, None) end).
  cbv zeta.
  assert (FT : forall g', In g' (g0 :: gs') -> fst (f g') = ty).
  { intros g' I. destruct (H g' I) as (q & ws & Fq & Wq & Tq & _). unfold f. rewrite Fq. cbn. destruct (written_cells q ws Wq) as (_ & _ & _ & E). congruence. }
  replace (forallb _ (map f (g0 :: gs'))) with true.
  - rewrite map_map. assert (E : nth_error (map (fun x => snd (f x)) (g0 :: gs')) i = Some (snd (f g))) by (apply (map_nth_error (fun x => snd (f x))); auto).
    rewrite (nth_error_nth _ _ _ E). unfold f. destruct Hp as (Fp & _). rewrite Fp. cbn [snd]. rewrite SV. destruct v; cbn; auto.
    destruct Ty as [-> | ->]; discriminate.
  - symmetry. apply forallb_forall. intros x I. apply in_map_iff in I. destruct I as (g' & <- & I). rewrite (FT g' I). cbn [map].
    rewrite (FT g0 (or_introl eq_refl)). apply dtype_eqb_refl.
Qed.
Lemma row_in g n p vs v : find (fun p => pg_name p =? n) g = Some p -> written p vs ->
  ((exists j, row_value g j n = Some v) <-> In (Some v) vs).
Proof.
  intros F W. destruct (written_cells p vs W) as (C & _). unfold row_value. rewrite F, C. split.
  - intros (j & E). destruct (Nat.lt_ge_cases j (length vs)) as [L|L]; [rewrite <- E; apply nth_In; auto | rewrite nth_overflow in E; [discriminate | auto]].
  - intros I. apply In_nth_error in I as (j & E). exists j. apply nth_error_nth. auto.
Qed.
Lemma t_lt_int a b ty : ty = TInt \/ ty = TUint -> type_of a = ty -> type_of b = ty -> in_range a -> in_range b ->
  (t_lt a b = true <-> less a b) /\ (t_lt a b = false <-> leq b a).
Proof.
  intros Ty A B Ra Rb. split.
  - rewrite (less_t a b Ra Rb). rewrite A, B. tauto.
  - rewrite (leq_t b a). rewrite A, B. tauto.
Qed.
Lemma read_back utf8 e gs g : In g (filter_column_groups utf8 e gs) <->
  exists i, nth_error gs i = Some g /\ stat_eval utf8 gs i e <> Some false.
Proof.
  unfold filter_column_groups. split.
  - intros H. apply combine_back in H as (i & A & B). exists i. split; auto. rewrite prune_nth in B; [|apply nth_error_Some; congruence].
    destruct (stat_eval utf8 gs i e) as [[]|]; congruence.
  - intros (i & A & B). eapply kept_combine; eauto. rewrite prune_nth; [|apply nth_error_Some; congruence].
    destruct (stat_eval utf8 gs i e) as [[]|]; congruence.
Qed.
Lemma groups_read utf8 other ty n gs g lit op : ty = TInt \/ ty = TUint -> type_of lit = ty -> in_range lit ->
  op = Lt \/ op = Le \/ op = Gt \/ op = Ge ->
  (forall g', In g' gs -> exists p vs, int_column ty n g' p vs) -> In g gs -> (exists j v, row_value g j n = Some v) ->
  (In g (filter_column_groups utf8 (ECmp op n (Some lit)) gs) <-> exists j, selects other g j (ECmp op n (Some lit))).
Proof.
  intros Ty TL RL Op H Hg (j0 & v0 & R0). destruct (H g Hg) as (p & vs & IC). assert (IC' := IC). destruct IC' as (F & W & T & R).
  assert (I0 : In (Some v0) vs) by (apply (row_in g n p vs v0 F W); eauto).
  destruct (written_exact p vs W) as (lo & hi & Slo & Shi & Ilo & Ihi & B); [rewrite T; auto | auto | eauto |].
  destruct (written_cells p vs W) as (_ & _ & TV & _).
  assert (TY : forall v, In (Some v) vs -> type_of v = ty) by (intros v I; rewrite <- T; apply TV, in_flatten; auto).
  assert (SE : forall i, nth_error gs i = Some g -> stat_eval utf8 gs i (ECmp op n (Some lit)) =
    match op with Lt => Some (t_lt lo lit) | Le => Some (negb (t_lt lit lo)) | Gt => Some (t_lt lit hi) | _ => Some (negb (t_lt hi lit)) end).
  { intros i Hi. cbn [stat_eval]. rewrite (stat_at_int utf8 s_min ty n gs i g p vs), (stat_at_int utf8 s_max ty n gs i g p vs); auto. rewrite Slo, Shi.
    destruct Op as [-> |[-> |[-> | ->]]]; rewrite compare_some by (rewrite TL; apply TY; auto); reflexivity. }
  rewrite read_back.
  assert (X : (exists i, nth_error gs i = Some g /\ stat_eval utf8 gs i (ECmp op n (Some lit)) <> Some false) <->
    match op with Lt => Some (t_lt lo lit) | Le => Some (negb (t_lt lit lo)) | Gt => Some (t_lt lit hi) | _ => Some (negb (t_lt hi lit)) end <> Some false).
  { split.
    - intros (i & Hi & N). rewrite (SE i Hi) in N. exact N.
    - intros N. apply In_nth_error in Hg as (i & Hi). exists i. split; auto. rewrite (SE i Hi). exact N. }
  rewrite X. clear X SE.
  assert (SEL : (exists j, selects other g j (ECmp op n (Some lit))) <-> exists v, In (Some v) vs /\ holds op v lit).
  { cbn [selects]. split.
    - intros (j & a & b & E & E' & K). injection E' as <-. exists a. split; auto. apply (row_in g n p vs a F W). eauto.
    - intros (v & I & K). apply (row_in g n p vs v F W) in I as (j & E). exists j, v, lit. auto. }
  rewrite SEL. clear SEL.
  destruct (t_lt_int lo lit ty) as [L1 L2]; auto. destruct (t_lt_int lit lo ty) as [L3 L4]; auto.
  destruct (t_lt_int hi lit ty) as [H1 H2]; auto. destruct (t_lt_int lit hi ty) as [H3 H4]; auto.
  destruct Op as [-> |[-> |[-> | ->]]]; cbn [holds]; split.
  - intros N. exists lo. split; auto. apply L1. destruct (t_lt lo lit); congruence.
  - intros (v & I & K). destruct (B v I). replace (t_lt lo lit) with true; [discriminate|]. symmetry. apply L1. apply lt_le with v; auto.
  - intros N. exists lo. split; auto. apply L4. destruct (t_lt lit lo); auto. exfalso. apply N. reflexivity.
  - intros (v & I & K). destruct (B v I). replace (t_lt lit lo) with false; [discriminate|]. symmetry. apply L4. apply leq_trans with v; auto.
  - intros N. exists hi. split; auto. apply H3. destruct (t_lt lit hi); congruence.
  - intros (v & I & K). destruct (B v I). replace (t_lt lit hi) with true; [discriminate|]. symmetry. apply H3. apply le_lt with v; auto.
  - intros N. exists hi. split; auto. apply H2. destruct (t_lt hi lit); auto. exfalso. apply N. reflexivity.
  - intros (v & I & K). destruct (B v I). replace (t_lt hi lit) with false; [discriminate|]. symmetry. apply H2. apply leq_trans with v; auto.
Qed.
Lemma groups_read_eq utf8 other ty n gs g lit : ty = TInt \/ ty = TUint -> type_of lit = ty -> in_range lit ->
  (forall g', In g' gs -> exists p vs, int_column ty n g' p vs) -> In g gs -> (exists j v, row_value g j n = Some v) ->
  (In g (filter_column_groups utf8 (ECmp Eq n (Some lit)) gs) <->
   (exists j, selects other g j (ECmp Le n (Some lit))) /\ exists k, selects other g k (ECmp Ge n (Some lit))).
Proof.
  intros Ty TL RL H Hg R0.
  rewrite <- (groups_read utf8 other ty n gs g lit Le), <- (groups_read utf8 other ty n gs g lit Ge) by auto.
  rewrite !read_back. destruct (H g Hg) as (p & vs & IC). assert (IC' := IC). destruct IC' as (F & W & T & R). destruct R0 as (j0 & v0 & R0).
  assert (I0 : In (Some v0) vs) by (apply (row_in g n p vs v0 F W); eauto).
  destruct (written_exact p vs W) as (lo & hi & Slo & Shi & Ilo & Ihi & B); [rewrite T; auto | auto | eauto |].
  destruct (written_cells p vs W) as (_ & _ & TV & _).
  assert (TY : forall v, In (Some v) vs -> type_of v = ty) by (intros v I; rewrite <- T; apply TV, in_flatten; auto).
  assert (SE : forall i, nth_error gs i = Some g ->
    stat_eval utf8 gs i (ECmp Eq n (Some lit)) = and3 (Some (negb (t_lt lit lo))) (Some (negb (t_lt hi lit))) /\
    stat_eval utf8 gs i (ECmp Le n (Some lit)) = Some (negb (t_lt lit lo)) /\ stat_eval utf8 gs i (ECmp Ge n (Some lit)) = Some (negb (t_lt hi lit))).
  { intros i Hi. cbn [stat_eval]. rewrite (stat_at_int utf8 s_min ty n gs i g p vs), (stat_at_int utf8 s_max ty n gs i g p vs); auto. rewrite Slo, Shi.
    rewrite !compare_some by (rewrite TL, ?(TY lo Ilo), ?(TY hi Ihi); reflexivity). auto. }
  split.
  - intros (i & Hi & N). destruct (SE i Hi) as (E1 & E2 & E3). rewrite E1 in N. split; exists i; split; auto; [rewrite E2 | rewrite E3];
      destruct (t_lt lit lo), (t_lt hi lit); cbn in N |- *; congruence.
  - intros ((i & Hi & N) & (k & Hk & N')). exists i. split; auto. destruct (SE i Hi) as (E1 & E2 & _), (SE k Hk) as (_ & _ & E3).
    rewrite E1. rewrite E2 in N. rewrite E3 in N'. destruct (t_lt lit lo), (t_lt hi lit); cbn in N, N' |- *; congruence.
Qed.
