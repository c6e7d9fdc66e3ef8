(** Proofs about value_fill. *)
From Coq Require Import QArith.
From Verif Require Import Prelude RepairModel FillModel FillSpec.
Open Scope Z_scope.

(** ** Mean, previous, AR and MA *)
Lemma mean_keeps l : keeps l (fill_mean l).
Proof.
  split; [apply map_length|]. intros i q H. unfold fill_mean, known_at in *.
  apply (map_nth_error (fun x => match x with Some q => Num q | None => Num (mean_of l) end)) in H. exact H.
Qed.
Lemma previous_length : forall l x, length (fill_previous x l) = length l.
Proof. induction l as [|a l IH]; intros x; cbn; [reflexivity|]. rewrite IH. reflexivity. Qed.
Lemma previous_kept : forall l x i q, known_at l i q -> nth_error (fill_previous x l) i = Some (Num q).
Proof.
  unfold known_at. induction l as [|a l IH]; intros x i q H; [destruct i; discriminate|].
  destruct i; cbn in *; [injection H as ->; reflexivity|]. apply IH. exact H.
Qed.
Lemma previous_null : forall l x i, null_at l i ->
  (forall p u, before l i p u -> nth_error (fill_previous x l) i = Some (Num u))
  /\ (none_before l i -> nth_error (fill_previous x l) i = Some x).
Proof.
  unfold null_at. induction l as [|a l IH]; intros x i H; [destruct i; discriminate|].
  destruct i as [|i]; cbn in *.
  - injection H as ->. split; [|reflexivity]. intros p u (L & _). lia.
  - set (x' := match a with Some q => Num q | None => x end). split.
    + intros p u (L & Kn & Nu). destruct p as [|p].
      * unfold known_at in Kn. cbn in Kn. injection Kn as ->. apply (IH x' i H).
        intros k q Hk Hq. assert (N1 := Nu (S k) ltac:(lia)). unfold null_at, known_at in *. cbn in N1. congruence.
      * apply (proj1 (IH x' i H) p u). split; [lia|]. split; [exact Kn|]. intros k Hk. apply (Nu (S k)). lia.
    + intros Nb. assert (a = None) as ->.
      { destruct a as [q|]; [|reflexivity]. exfalso. apply (Nb O q); [lia|reflexivity]. }
      apply (IH x i H). intros k q Hk Hq. apply (Nb (S k) q); [lia|exact Hq].
Qed.

Lemma ar_length : forall l th ep me b, length (ar_fill l th ep me b) = length l.
Proof. induction l; intros; cbn; [reflexivity|]. rewrite IHl. reflexivity. Qed.
Lemma ar_kept : forall l th ep me b i q, known_at l i q -> nth_error (ar_fill l th ep me b) i = Some (Num q).
Proof.
  unfold known_at. induction l as [|a l IH]; intros th ep me b i q H; [destruct i; discriminate|].
  destruct i; cbn in *; [injection H as ->; reflexivity|]. apply IH. exact H.
Qed.
Lemma ar_numbers : forall l th ep me b v, In v (ar_fill l th ep me b) -> exists q, v = Num q.
Proof. induction l as [|a l IH]; intros th ep me b v H; cbn in H; [destruct H|]. destruct H as [<-|H]; eauto. Qed.
Lemma ma_length : forall l w i r s c, length (ma_loop w l i r s c) = length l.
Proof.
  induction l as [|a l IH]; intros; cbn; [reflexivity|]. destruct (_ || _)%bool; [rewrite IH; reflexivity|].
  destruct (nth r w None); rewrite IH; reflexivity.
Qed.
Lemma ma_kept : forall l w i r s c k q, known_at l k q -> nth_error (ma_loop w l i r s c) k = Some (Num q).
Proof.
  unfold known_at. induction l as [|a l IH]; intros w i r s c k q H; [destruct k; discriminate|].
  destruct k; cbn in *; [injection H as ->; reflexivity|]. destruct (_ || _)%bool; [apply IH; exact H|].
  destruct (nth r w None); apply IH; exact H.
Qed.

Lemma sum_q_right : forall l a, (fold_left Qplus l a == a + fold_right Qplus 0 l)%Q.
Proof. induction l as [|x l IH]; intros a; cbn; [ring|]. rewrite IH. ring. Qed.
Lemma mean_of_mean l : known l <> [] -> is_mean l (mean_of l).
Proof.
  intros H. split; [exact H|]. fold (known l). unfold mean_of, sum_q, of_nat_q. rewrite sum_q_right.
  field. unfold Qeq. cbn. destruct (known l); [congruence|]. cbn [length]. lia.
Qed.

(** ** Linear *)
Lemma put_length : forall i v out, length (put i v out) = length out.
Proof. induction i; intros v [|x r]; cbn; auto. Qed.
Lemma nth_put_same : forall i v out, (i < length out)%nat -> nth_error (put i v out) i = Some v.
Proof. induction i; intros v [|x r] H; cbn in *; try lia; [reflexivity|]. apply IHi. lia. Qed.
Lemma nth_put_other : forall i v out k, k <> i -> nth_error (put i v out) k = nth_error out k.
Proof. induction i; intros v [|x r] k H; cbn; try reflexivity; destruct k; cbn; try congruence. apply IHi. congruence. Qed.
Lemma put_line_length : forall n t i v k out, length (put_line n t i v k out) = length out.
Proof. induction n; intros; cbn; [reflexivity|]. rewrite IHn. apply put_length. Qed.
Lemma nth_line_other : forall n t i v k out x, ~ (t <= x < t + n)%nat -> nth_error (put_line n t i v k out) x = nth_error out x.
Proof.
  induction n; intros t i v k out x H; cbn; [reflexivity|]. rewrite IHn by lia. apply nth_put_other. lia.
Qed.
Lemma nth_line : forall n t i v k out x, (t <= x < t + n)%nat -> (x < length out)%nat ->
  nth_error (put_line n t i v k out) x = Some (Num (v + k * inject_Z (Z.of_nat x - Z.of_nat i))%Q).
Proof.
  induction n; intros t i v k out x H L; [lia|]. cbn. destruct (Nat.eq_dec x t) as [->|Ne].
  - rewrite nth_line_other by lia. apply nth_put_same. exact L.
  - apply IHn; [lia|]. rewrite put_length. exact L.
Qed.
Lemma same_length : forall n t v out, length (put_same n t v out) = length out.
Proof. induction n; intros; cbn; [reflexivity|]. rewrite IHn. apply put_length. Qed.
Lemma nth_same_other : forall n t v out x, ~ (t <= x < t + n)%nat -> nth_error (put_same n t v out) x = nth_error out x.
Proof. induction n; intros t v out x H; cbn; [reflexivity|]. rewrite IHn by lia. apply nth_put_other. lia. Qed.
Lemma nth_same : forall n t v out x, (t <= x < t + n)%nat -> (x < length out)%nat -> nth_error (put_same n t v out) x = Some v.
Proof.
  induction n; intros t v out x H L; [lia|]. cbn. destruct (Nat.eq_dec x t) as [->|Ne].
  - rewrite nth_same_other by lia. apply nth_put_same. exact L.
  - apply IHn; [lia|]. rewrite put_length. exact L.
Qed.

Lemma before_unique l i p u p' u' : before l i p u -> before l i p' u' -> p = p' /\ u = u'.
Proof.
  unfold before, known_at, null_at. intros (A & B & C) (A' & B' & C').
  assert (p = p'). { destruct (Nat.lt_trichotomy p p') as [H|[H|H]]; [|exact H|]; [assert (Q := C p' ltac:(lia))|assert (Q := C' p ltac:(lia))]; congruence. }
  subst. split; congruence.
Qed.
Lemma after_unique l i p u p' u' : after l i p u -> after l i p' u' -> p = p' /\ u = u'.
Proof.
  unfold after, known_at, null_at. intros (A & B & C) (A' & B' & C').
  assert (p = p'). { destruct (Nat.lt_trichotomy p p') as [H|[H|H]]; [|exact H|]; [assert (Q := C' p ltac:(lia))|assert (Q := C p' ltac:(lia))]; congruence. }
  subst. split; congruence.
Qed.

Section Linear.
Variable whole : list (option Q).
Definition right_at (o : option val) (k : nat) : Prop :=
  (forall q, known_at whole k q -> o = Some (Num q)) /\ (null_at whole k -> exists x, o = Some (Num x) /\ on_line whole k x).
Definition inv (i : nat) (prev : option (nat * Q)) (out : list val) : Prop :=
  length out = length whole /\
  match prev with
  | None => forall k, (k < i)%nat -> null_at whole k
  | Some (p, u) => (p < i)%nat /\ known_at whole p u /\ (forall k, (p < k < i)%nat -> null_at whole k)
                   /\ forall k, (k <= p)%nat -> right_at (nth_error out k) k
  end.

Lemma inv_step_none i prev out : inv i prev out -> null_at whole i -> inv (S i) prev out.
Proof.
  intros [L H] N. split; [exact L|]. destruct prev as [[p u]|].
  - destruct H as (A & B & C & D). repeat split; try (exact B || exact D || lia).
    intros k Hk. destruct (Nat.eq_dec k i) as [->|]; [exact N|]. apply C. lia.
    apply D; assumption. apply D; assumption.
  - intros k Hk. destruct (Nat.eq_dec k i) as [->|]; [exact N|]. apply H. lia.
Qed.

Lemma inv_step_some i prev out v : inv i prev out -> known_at whole i v ->
  let k := match prev with Some (p, u) => ((v - u) / of_nat_q (i - p))%Q | None => 0%Q end in
  let t := match prev with Some (p, _) => S p | None => O end in
  inv (S i) (Some (i, v)) (put i (Num v) (put_line (i - t) t i v k out)).
Proof.
  intros [L H] Kv k t.
  assert (Li : (i < length whole)%nat) by (apply nth_error_Some; unfold known_at in Kv; congruence).
  split; [rewrite put_length, put_line_length; exact L|].
  split; [lia|]. split; [exact Kv|]. split; [intros; lia|].
  intros x Hx. destruct (Nat.eq_dec x i) as [->|Ne].
  - rewrite nth_put_same by (rewrite put_line_length; lia). split.
    + intros q Hq. unfold known_at in *. congruence.
    + intros N. unfold known_at, null_at in *. congruence.
  - rewrite nth_put_other by exact Ne. destruct prev as [[p u]|]; cbv zeta in *; subst t k.
    + destruct H as (A & B & C & D). destruct (Nat.le_gt_cases x p) as [Le|Gt].
      * rewrite nth_line_other by lia. apply D. exact Le.
      * rewrite nth_line by lia. assert (N := C x ltac:(lia)). split.
        -- intros q Hq. unfold known_at, null_at in *. congruence.
        -- intros _. eexists. split; [reflexivity|].
           assert (Bf : before whole x p u) by (split; [lia|split; [exact B|intros; apply C; lia]]).
           assert (Af : after whole x i v) by (split; [lia|split; [exact Kv|intros; apply C; lia]]).
           split; [|split].
           ++ intros p' u' j' v' B' A'. destruct (before_unique _ _ _ _ _ _ Bf B') as [<- <-].
              destruct (after_unique _ _ _ _ _ _ Af A') as [<- <-].
              unfold of_nat_q. replace (Z.of_nat (i - p)) with (Z.of_nat i - Z.of_nat p) by lia.
              replace (Z.of_nat x - Z.of_nat i) with ((Z.of_nat x - Z.of_nat p) + - (Z.of_nat i - Z.of_nat p)) by lia.
              rewrite inject_Z_plus, inject_Z_opp.
              assert (Nz : ~ (inject_Z (Z.of_nat i - Z.of_nat p) == 0)%Q) by (unfold Qeq; cbn; lia).
              revert Nz. generalize (inject_Z (Z.of_nat i - Z.of_nat p)). generalize (inject_Z (Z.of_nat x - Z.of_nat p)).
              intros a b Nz. field. exact Nz.
           ++ intros j' v' Nb _. exfalso. apply (Nb p u); [lia|exact B].
           ++ intros p' u' _ Na. exfalso. apply (Na i v); [lia|exact Kv].
    + rewrite nth_line by lia. assert (N := H x ltac:(lia)). split.
      * intros q Hq. unfold known_at, null_at in *. congruence.
      * intros _. eexists. split; [reflexivity|].
        assert (Af : after whole x i v) by (split; [lia|split; [exact Kv|intros; apply H; lia]]).
        split; [|split].
        -- intros p' u' j' v' (B1 & B2 & _). assert (Q := H p' ltac:(lia)). unfold known_at, null_at in *. congruence.
        -- intros j' v' _ A'. destruct (after_unique _ _ _ _ _ _ Af A') as [<- <-]. ring.
        -- intros p' u' _ Na. exfalso. apply (Na i v); [lia|exact Kv].
Qed.

Lemma inv_loop : forall l i prev out, (forall k, nth_error l k = nth_error whole (i + k)) -> inv i prev out ->
  let r := linear_loop l i prev out in inv (i + length l) (fst r) (snd r).
Proof.
  induction l as [|a l IH]; intros i prev out E I; cbv zeta.
  - cbn. rewrite Nat.add_0_r. exact I.
  - assert (E' : forall k, nth_error l k = nth_error whole (S i + k)).
    { intros k. assert (H := E (S k)). cbn in H. rewrite H. f_equal. lia. }
    assert (E0 := E O). cbn in E0. rewrite Nat.add_0_r in E0.
    cbn [length]. replace (i + S (length l))%nat with (S i + length l)%nat by lia.
    destruct a as [v|]; cbn [linear_loop].
    + apply IH; [exact E'|]. apply (inv_step_some i prev out v I). unfold known_at. congruence.
    + apply IH; [exact E'|]. apply inv_step_none; [exact I|]. unfold null_at. congruence.
Qed.

Lemma linear_right : known whole <> [] -> length (fill_linear whole) = length whole
  /\ forall k, (forall q, known_at whole k q -> nth_error (fill_linear whole) k = Some (Num q))
     /\ (null_at whole k -> (S k < length whole)%nat -> exists x, nth_error (fill_linear whole) k = Some (Num x) /\ on_line whole k x).
Proof.
  intros Hk. unfold fill_linear.
  assert (I := inv_loop whole 0 None (repeat Uninit (length whole)) ltac:(reflexivity)).
  cbv zeta in I. assert (I0 : inv 0 None (repeat Uninit (length whole))).
  { split; [apply repeat_length|]. intros; lia. }
  specialize (I I0). cbn [Nat.add] in I.
  destruct (linear_loop whole 0 None (repeat Uninit (length whole))) as [prev out]. cbn [fst snd] in I.
  destruct I as [L I]. destruct prev as [[p u]|].
  - destruct I as (A & B & C & D).
    assert (Lf : forall o, o = (if (p <? length whole - 1)%nat then put_same (length whole - 1 - p) p (Num u) out else out) ->
      length o = length whole
      /\ forall k, (forall q, known_at whole k q -> nth_error o k = Some (Num q))
         /\ (null_at whole k -> (S k < length whole)%nat -> exists x, nth_error o k = Some (Num x) /\ on_line whole k x)).
    { intros o Eo. assert (Hlt : forall k q, known_at whole k q -> (k <= p)%nat).
      { intros k q Kq. destruct (Nat.le_gt_cases k p) as [|G]; [assumption|].
        assert (k < length whole)%nat by (apply nth_error_Some; unfold known_at in Kq; congruence).
        assert (N := C k ltac:(lia)). unfold known_at, null_at in *. congruence. }
      destruct (p <? length whole - 1)%nat eqn:E; subst o.
      - apply Nat.ltb_lt in E. split; [rewrite same_length; exact L|]. intros k.
        destruct (Nat.le_gt_cases p k) as [G|G].
        + split.
          * intros q Kq. assert (k = p) by (assert (H := Hlt k q Kq); lia). subst k.
            rewrite nth_same by lia. unfold known_at in *. congruence.
          * intros N Hs. rewrite nth_same by lia. eexists. split; [reflexivity|].
            assert (Gp : (p < k)%nat). { destruct (Nat.eq_dec p k) as [<-|]; [|lia]. unfold known_at, null_at in *. congruence. }
            assert (Bf : before whole k p u) by (split; [lia|split; [exact B|intros; apply C; lia]]).
            split; [|split].
            -- intros p' u' j' v' _ (A1 & A2 & _). assert (H := Hlt j' v' A2). lia.
            -- intros j' v' Nb _. exfalso. apply (Nb p u); [lia|exact B].
            -- intros p' u' B' _. destruct (before_unique _ _ _ _ _ _ Bf B') as [_ <-]. reflexivity.
        + rewrite nth_same_other by lia. destruct (D k ltac:(lia)) as [D1 D2]. split; [exact D1|]. intros N _. apply D2. exact N.
      - apply Nat.ltb_ge in E. split; [exact L|]. intros k. destruct (Nat.le_gt_cases k p) as [G|G].
        + destruct (D k G) as [D1 D2]. split; [exact D1|]. intros N _. apply D2. exact N.
        + split; [intros q Kq; assert (H := Hlt k q Kq); lia|]. intros _ Hs. lia. }
    apply Lf. reflexivity.
  - exfalso. apply Hk. clear - I. assert (H : forall x, In x whole -> x = None).
    { intros x Hx. apply In_nth_error in Hx. destruct Hx as [k E]. assert (k < length whole)%nat by (apply nth_error_Some; congruence).
      assert (N := I k ltac:(lia)). unfold null_at in N. congruence. }
    revert H. generalize whole. intros w. induction w as [|x w IH]; intros H; [reflexivity|]. cbn [known flat_map].
    rewrite (H x (or_introl eq_refl)). cbn. apply IH. intros y Hy. apply H. right. exact Hy.
Qed.
End Linear.

Lemma fill_keeps m l out : value_fill m l = Done out -> keeps l out.
Proof.
  unfold value_fill. destruct (known l) as [|q0 qs] eqn:Ek; [discriminate|].
  assert (Hk : known l <> []) by congruence. destruct m.
  - intros E. injection E as <-. apply mean_keeps.
  - intros E. injection E as <-. split; [apply previous_length|]. intros i q H. apply previous_kept. exact H.
  - intros E. injection E as <-. destruct (linear_right l Hk) as [H1 H2]. split; [exact H1|]. intros i q Kq. apply H2. exact Kq.
  - intros E. unfold fill_ar in E. destruct (ar_sums l 0%Q 0%Q) as [acf factor]. destruct (Qeq_bool factor 0); [discriminate|].
    destruct (ar_eps l (acf / factor)%Q 0%Q 0%nat) as [s c]. destruct (c =? 0)%nat; [discriminate|]. injection E as <-.
    split; [apply ar_length|]. intros i q H. apply ar_kept. exact H.
  - intros E. injection E as <-. split; [apply ma_length|]. intros i q H. apply ma_kept. exact H.
Qed.

Lemma fill_linear_value l out i : value_fill FLinear l = Done out -> null_at l i -> (S i < length l)%nat ->
  exists x, nth_error out i = Some (Num x) /\ on_line l i x.
Proof.
  unfold value_fill. destruct (known l) as [|q0 qs] eqn:Ek; [discriminate|].
  intros E N Hs. injection E as <-. destruct (linear_right l ltac:(congruence)) as [_ H]. apply H; assumption.
Qed.
Lemma fill_previous_value l out i : value_fill FPrevious l = Done out -> null_at l i ->
  (forall p u, before l i p u -> nth_error out i = Some (Num u)) /\ (none_before l i -> nth_error out i = Some NaN).
Proof.
  unfold value_fill. destruct (known l); [discriminate|]. intros E. injection E as <-. apply previous_null.
Qed.
Lemma fill_mean_value l out i : value_fill FMean l = Done out -> null_at l i -> exists x, nth_error out i = Some (Num x) /\ is_mean l x.
Proof.
  unfold value_fill. destruct (known l) as [|q0 qs] eqn:Ek; [discriminate|]. intros E N. injection E as <-.
  exists (mean_of l). split; [|apply mean_of_mean; congruence].
  unfold fill_mean. unfold null_at in N. apply (map_nth_error (fun x => match x with Some q => Num q | None => Num (mean_of l) end)) in N. exact N.
Qed.
Lemma fill_ar_numbers l out v : value_fill FAR l = Done out -> In v out -> exists q, v = Num q.
Proof.
  unfold value_fill. destruct (known l); [discriminate|]. intros E. unfold fill_ar in E. destruct (ar_sums l 0%Q 0%Q) as [acf factor].
  destruct (Qeq_bool factor 0); [discriminate|].
  destruct (ar_eps l (acf / factor)%Q 0%Q 0%nat) as [s c]. destruct (c =? 0)%nat; [discriminate|]. injection E as <-. apply ar_numbers.
Qed.

(** ar: the fitted model *)
Lemma ar_sums_spec l : forall acf factor, let '(a, f) := ar_sums l acf factor in
  (a == acf + FillSpec.total (map (fun p => or_zero (fst p) * or_zero (snd p)) (neighbours l)))%Q /\
  (f == factor + FillSpec.total (map (fun p => or_zero (fst p) * or_zero (fst p)) (neighbours l)))%Q.
Proof.
  unfold neighbours. induction l as [|x l IH]; intros acf factor; [cbn [ar_sums]; split; cbn [skipn combine map FillSpec.total fold_right]; ring|].
  destruct l as [|y l]; [cbn [ar_sums]; split; cbn [skipn combine map FillSpec.total fold_right]; ring|].
  change (ar_sums (x :: y :: l) acf factor) with (ar_sums (y :: l) (acf + zero_if_none x * zero_if_none y)%Q (factor + zero_if_none x * zero_if_none x)%Q).
  specialize (IH (acf + zero_if_none x * zero_if_none y)%Q (factor + zero_if_none x * zero_if_none x)%Q).
  destruct (ar_sums (y :: l) (acf + zero_if_none x * zero_if_none y)%Q (factor + zero_if_none x * zero_if_none x)%Q) as [a f].
  destruct IH as [H1 H2]. change (skipn 1 (x :: y :: l)) with (y :: l).
  change (combine (x :: y :: l) (y :: l)) with ((x, y) :: combine (y :: l) (skipn 1 (y :: l))).
  cbn [map FillSpec.total fold_right fst snd]. fold (FillSpec.total (map (fun p : option Q * option Q => (or_zero (fst p) * or_zero (snd p))%Q) (combine (y :: l) (skipn 1 (y :: l))))).
  fold (FillSpec.total (map (fun p : option Q * option Q => (or_zero (fst p) * or_zero (fst p))%Q) (combine (y :: l) (skipn 1 (y :: l))))).
  change zero_if_none with or_zero in *. split; [rewrite H1|rewrite H2]; ring.
Qed.
Lemma ar_eps_spec theta l : forall sum cnt, let '(s, c) := ar_eps l theta sum cnt in
  (s == sum + FillSpec.total (map (fun p => snd p - theta * fst p) (both l)))%Q /\ c = (cnt + length (both l))%nat.
Proof.
  unfold both, neighbours. induction l as [|x l IH]; intros sum cnt; [cbn [ar_eps]; split; [cbn [skipn combine flat_map map FillSpec.total fold_right]; ring|cbn; lia]|].
  destruct l as [|y l]; [cbn [ar_eps]; split; [cbn [skipn combine flat_map map FillSpec.total fold_right]; ring|cbn; lia]|].
  change (skipn 1 (x :: y :: l)) with (y :: l).
  change (combine (x :: y :: l) (y :: l)) with ((x, y) :: combine (y :: l) (skipn 1 (y :: l))). cbn [flat_map].
  destruct x as [x|]; [destruct y as [y|]|].
  - change (ar_eps (Some x :: Some y :: l) theta sum cnt) with (ar_eps (Some y :: l) theta (sum + (y - theta * x))%Q (S cnt)).
    specialize (IH (sum + (y - theta * x))%Q (S cnt)). destruct (ar_eps (Some y :: l) theta (sum + (y - theta * x))%Q (S cnt)) as [s c].
    destruct IH as [H1 H2]. split; [|rewrite H2; cbn [app length]; lia]. rewrite H1. cbn [app map FillSpec.total fold_right fst snd].
    match goal with |- context [fold_right Qplus 0%Q ?m] => fold (FillSpec.total m) end. ring.
  - change (ar_eps (Some x :: None :: l) theta sum cnt) with (ar_eps (None :: l) theta sum cnt). apply IH.
  - change (ar_eps (None :: y :: l) theta sum cnt) with (ar_eps (y :: l) theta sum cnt). apply IH.
Qed.
Lemma ar_fill_spec theta eps mean l : forall bf i, null_at l i ->
  nth_error (ar_fill l theta eps mean bf) i = Some (Num (match i with
    | O => match bf with Some b => (theta * b + eps)%Q | None => mean end
    | S j => match nth_error (ar_fill l theta eps mean bf) j with Some (Num u) => (theta * u + eps)%Q | _ => mean end end)).
Proof.
  induction l as [|x l IH]; intros bf i N; [destruct i; discriminate|]. destruct i as [|i].
  - cbn in N. injection N as ->. reflexivity.
  - cbn [ar_fill nth_error]. unfold null_at in N. cbn [nth_error] in N. rewrite IH; auto.
    destruct i as [|j]; cbn [nth_error]; reflexivity.
Qed.
Lemma fill_ar_value l out : value_fill FAR l = Done out -> exists theta eps, ar_model l theta eps /\
  (null_at l 0 -> exists x, nth_error out 0 = Some (Num x) /\ is_mean l x) /\
  forall i, null_at l (S i) -> exists u x, nth_error out i = Some (Num u) /\ nth_error out (S i) = Some (Num x) /\ (x == theta * u + eps)%Q.
Proof.
  intros H. pose proof (fill_ar_numbers l out) as NUM. specialize (fun v => NUM v H). revert H.
  unfold value_fill. destruct (known l) as [|q0 qs] eqn:Ek; [discriminate|]. intros E. unfold fill_ar in E.
  pose proof (ar_sums_spec l 0%Q 0%Q) as HS. destruct (ar_sums l 0%Q 0%Q) as [acf factor]. destruct HS as [HA HF].
  destruct (Qeq_bool factor 0) eqn:Q0; [discriminate|].
  pose proof (ar_eps_spec (acf / factor)%Q l 0%Q 0%nat) as HE.
  destruct (ar_eps l (acf / factor)%Q 0%Q 0%nat) as [s c]. destruct HE as [H1 H2]. destruct (c =? 0)%nat eqn:C0; [discriminate|]. injection E as <-.
  assert (Fz : ~ (factor == 0)%Q) by (intros X; apply Qeq_bool_iff in X; congruence).
  apply Nat.eqb_neq in C0. rewrite Qplus_0_l in HA, HF, H1. cbn [Nat.add] in H2.
  exists (acf / factor)%Q, (s / of_nat_q c)%Q. split; [|split].
  - unfold ar_model. cbv zeta. split; [rewrite <- HF; exact Fz|]. split; [rewrite <- HF, <- HA; field; exact Fz|].
    split; [intros X; rewrite X in H2; cbn in H2; congruence|]. rewrite <- H2, <- H1. unfold of_nat_q. field.
    intros X. unfold inject_Z, Qeq in X. cbn [Qnum Qden] in X. lia.
  - intros N. eexists. split; [apply ar_fill_spec; exact N|]. apply mean_of_mean. congruence.
  - intros i N. pose proof (ar_fill_spec (acf / factor) (s / of_nat_q c) (mean_of l) l None (S i) N) as X. cbv beta iota in X.
    destruct (nth_error (ar_fill l (acf / factor) (s / of_nat_q c) (mean_of l) None) i) as [v|] eqn:V.
    + destruct (NUM v (nth_error_In _ _ V)) as [u ->]. exists u. eexists. split; [reflexivity|]. split; [exact X|]. reflexivity.
    + exfalso. apply nth_error_None in V. assert (nth_error (ar_fill l (acf / factor) (s / of_nat_q c) (mean_of l) None) (S i) <> None) by congruence.
      apply nth_error_Some in H. lia.
Qed.

(** the whole statement for a DOUBLE column *)
Lemma select_fill m rows vs : value_fill m (map snd rows) = Done vs ->
  select_value_fill CFloat m rows = Done (combine (map fst rows) vs).
Proof.
  intros E. unfold select_value_fill. rewrite E. cbn [bind]. do 2 f_equal. rewrite <- (map_id vs) at 2. apply map_ext. reflexivity.
Qed.
Lemma select_fill_inv m rows out : select_value_fill CFloat m rows = Done out ->
  map fst out = map fst rows /\ value_fill m (map snd rows) = Done (map snd out).
Proof.
  unfold select_value_fill. destruct (value_fill m (map snd rows)) as [vs| | |] eqn:E; cbn [bind]; try discriminate.
  intros H. injection H as <-. assert (M : map (value_out CFloat) vs = vs) by (rewrite <- (map_id vs) at 2; apply map_ext; reflexivity).
  rewrite M. apply fill_keeps in E. destruct E as [L _].
  assert (G : forall (a : list Z) (b : list val), length a = length b -> map fst (combine a b) = a /\ map snd (combine a b) = b).
  { induction a as [|x a IH]; intros [|y b] Hl; try discriminate; [auto|]. cbn in *. destruct (IH b) as [-> ->]; [lia|]. auto. }
  rewrite map_length in L. destruct (G (map fst rows) vs) as [-> ->]; [rewrite map_length; lia|]. auto.
Qed.
