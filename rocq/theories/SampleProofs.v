(** Proofs about SAMPLE. *)
From Verif Require Import Prelude SampleModel SampleSpec.
From Coq Require Import Permutation Arith.

Lemma take_perm rows idx : NoDup idx -> Forall (fun i => (i < length rows)%nat) idx -> exists rest, Permutation rows (take_rows rows idx ++ rest).
Proof.
  intros N F. assert (X : exists r, Permutation (seq 0 (length rows)) (idx ++ r)).
  { assert (I : incl idx (seq 0 (length rows))) by (intros i J; rewrite Forall_forall in F; specialize (F i J); apply in_seq; lia). clear F.
    revert I. generalize (seq 0 (length rows)) as l. clear rows. induction N as [|i idx Ni N IH]; intros l I; [exists l; apply Permutation_refl|].
    assert (J : In i l) by (apply I; now left). destruct (in_split _ _ J) as (l1 & l2 & ->).
    destruct (IH (l1 ++ l2)) as (r & P).
    - intros x K. assert (L : In x (l1 ++ i :: l2)) by (apply I; now right). apply in_app_iff in L. cbn in L. apply in_app_iff. destruct L as [L|[->|L]]; [now left|contradiction|now right].
    - exists r. cbn [app]. apply Permutation_sym, Permutation_cons_app. now apply Permutation_sym. }
  destruct X as (r & P). exists (map (fun i => nth i rows 0) r). unfold take_rows. rewrite <- map_app.
  assert (E : map (fun i => nth i rows 0) (seq 0 (length rows)) = rows).
  { clear. induction rows as [|x rows IH]; [reflexivity|]. cbn [length seq map nth]. f_equal. rewrite <- seq_shift, map_map. exact IH. }
  rewrite <- E at 1. now apply Permutation_map.
Qed.
Lemma from_refl l : drawn_from l l. Proof. exists []. now rewrite app_nil_r. Qed.
Lemma from_nil l : drawn_from [] l. Proof. exists l. apply Permutation_refl. Qed.
Lemma from_trans a b c : drawn_from a b -> drawn_from b c -> drawn_from a c.
Proof. intros (r & P) (q & Q). exists (r ++ q). rewrite app_assoc. eapply Permutation_trans; [exact Q|]. now apply Permutation_app_tail. Qed.
Lemma from_app a b c d : drawn_from a b -> drawn_from c d -> drawn_from (a ++ c) (b ++ d).
Proof.
  intros (r & P) (q & Q). exists (r ++ q). eapply Permutation_trans; [apply Permutation_app; eassumption|]. rewrite <- !app_assoc. apply Permutation_app_head. rewrite !app_assoc. apply Permutation_app_tail, Permutation_app_comm.
Qed.
Lemma from_perm a b c : Permutation b c -> drawn_from a b -> drawn_from a c.
Proof. intros P (r & Q). exists r. eapply Permutation_trans; [apply Permutation_sym; exact P|exact Q]. Qed.
Lemma draw_from c rows idx : draw c (length rows) idx -> drawn_from (take_rows rows idx) rows.
Proof. intros (N & F & _). now apply take_perm. Qed.
Lemma take_len rows idx : length (take_rows rows idx) = length idx. Proof. apply map_length. Qed.

Lemma data_from rows n out : sample_data rows n out -> drawn_from out rows.
Proof. unfold sample_data. destruct (_ <=? _)%nat; [intros ->; apply from_refl|]. intros (idx & D & ->). now apply draw_from in D. Qed.
Lemma data_len rows n out : sample_data rows n out -> length out = Nat.min n (length rows).
Proof. unfold sample_data. destruct (Nat.leb_spec (length rows) n); [intros ->; lia|]. intros (idx & (_ & _ & L) & ->). rewrite take_len. exact L. Qed.
Lemma loop_from states : forall total n remain out, sample_loop states total n remain out -> drawn_from out (concat states).
Proof.
  induction states as [|s states IH]; intros total n remain out; cbn [sample_loop concat]; [intros ->; apply from_nil|].
  destruct (remain =? 0)%nat; [intros ->; apply from_nil|]. intros (idx & out' & D & L & ->). apply from_app; [eapply draw_from; exact D|eapply IH; exact L].
Qed.
Lemma update_from n states rows states' seen : drawn_from (concat states) seen -> update n states rows states' -> drawn_from (concat states') (seen ++ rows).
Proof.
  intros H U. destruct rows as [|r rows]; cbn [update] in U; [subst; now rewrite app_nil_r|]. destruct U as (sm & D & U).
  assert (S1 : drawn_from (concat (states ++ [sm])) (seen ++ r :: rows)) by (rewrite concat_app; cbn [concat]; rewrite app_nil_r; apply from_app; [exact H|eapply data_from; exact D]).
  cbv zeta in U. destruct (_ <? _)%nat; [|now subst]. destruct U as (out & O & ->). cbn [concat]. rewrite app_nil_r. eapply from_trans; [eapply loop_from; exact O|exact S1].
Qed.
Lemma updates_from n batches : forall states seen states', drawn_from (concat states) seen -> updates n states batches states' -> drawn_from (concat states') (seen ++ concat batches).
Proof.
  induction batches as [|b bs IH]; intros states seen states' H U; cbn [updates concat] in *; [subst; now rewrite app_nil_r|]. destruct U as (mid & U1 & U2). rewrite app_assoc. eapply IH; [|exact U2]. eapply update_from; eassumption.
Qed.
Lemma state_from n states out : state n states out -> drawn_from out (concat states).
Proof. unfold state. destruct states; [intros ->; apply from_nil|]. apply loop_from. Qed.
Lemma part_from n batches out : part_sample n batches out -> drawn_from out (concat batches).
Proof. intros (st & U & O). eapply from_trans; [eapply state_from; exact O|]. exact (updates_from n batches [] [] st (from_nil []) U). Qed.
Lemma concat_perm {A} (l l' : list (list A)) : Permutation l l' -> Permutation (concat l) (concat l').
Proof. induction 1 as [|x l l' P IH|x y l|l a b P1 IH1 P2 IH2]; cbn [concat]; [constructor|now apply Permutation_app_head|rewrite !app_assoc; apply Permutation_app_tail, Permutation_app_comm|eapply Permutation_trans; eassumption]. Qed.
Lemma parts_from n parts partial : Forall2 (part_sample n) parts partial -> drawn_from (concat partial) (rows_of parts).
Proof. unfold rows_of. induction 1 as [|p s parts partial P F IH]; cbn [map concat]; [apply from_nil|]. apply from_app; [eapply part_from; exact P|exact IH]. Qed.
Lemma plan_from n parts out : plan_sample n parts out -> drawn_from out (rows_of parts).
Proof.
  intros (partial & arr & F & P & O). eapply from_trans; [eapply part_from; exact O|]. apply parts_from in F. destruct F as (r & Q). exists r. eapply Permutation_trans; [exact Q|]. apply Permutation_app_tail, concat_perm, Permutation_sym, P.
Qed.

(** ** Sizes *)
Lemma ceil_bounds num n total : (0 < num)%nat -> (0 < n)%nat -> (num <= total)%nat -> (1 <= (num * n + total - 1) / total <= n)%nat.
Proof.
  intros A B C. assert (T : (total <> 0)%nat) by lia. split.
  - apply Nat.div_le_lower_bound; [exact T|]. nia.
  - assert ((num * n + total - 1) / total < S n)%nat; [|lia]. apply Nat.div_lt_upper_bound; [exact T|]. nia.
Qed.
Definition full (states : list (list Z)) : Prop := Forall (fun s => s <> []) states.
Lemma loop_size states : forall total n remain out, full states -> (0 < n)%nat -> (length (concat states) <= total)%nat ->
  sample_loop states total n remain out -> (remain = 0%nat -> out = []) /\ ((0 < remain)%nat -> states <> [] -> out <> []) /\ (length out <= remain + n - 1)%nat.
Proof.
  induction states as [|s states IH]; intros total n remain out F Hn Ht; cbn [sample_loop].
  - intros ->. split; [reflexivity|]. split; [congruence|cbn; lia].
  - inversion F as [|? ? Fs F']; subst. cbn [concat] in Ht. rewrite app_length in Ht. destruct (Nat.eqb_spec remain 0) as [->|R].
    + intros ->. split; [reflexivity|]. split; [lia|cbn; lia].
    + intros (idx & out' & (_ & _ & L) & Q & ->). destruct s as [|x s]; [congruence|]. assert (B : (1 <= (length (x :: s) * n + total - 1) / total <= n)%nat) by (apply ceil_bounds; [cbn; lia|exact Hn|lia]).
      remember ((length (x :: s) * n + total - 1) / total)%nat as sel. apply IH in Q; [|exact F'|exact Hn|lia]. destruct Q as (Q1 & _ & Q3).
      split; [lia|]. split.
      * intros _ _ E. apply app_eq_nil in E. destruct E as [E _]. apply (f_equal (@length Z)) in E. rewrite take_len, L in E. cbn [length] in E. lia.
      * rewrite app_length, take_len, L. destruct (Nat.le_gt_cases remain sel) as [G|G]; [|lia]. rewrite Q1 by lia. cbn [length]. lia.
Qed.
Lemma update_full n states rows states' : (0 < n)%nat -> full states -> update n states rows states' -> full states' /\ (rows <> [] -> states' <> []) /\ (states <> [] -> states' <> []).
Proof.
  intros Hn F U. destruct rows as [|r rows]; cbn [update] in U; [subst; repeat split; [exact F|congruence|auto]|]. destruct U as (sm & D & U). apply data_len in D. cbn [length] in D.
  assert (F1 : full (states ++ [sm])) by (apply Forall_app; split; [exact F|]; constructor; [|constructor]; intros ->; cbn in D; lia).
  cbv zeta in U. destruct (_ <? _)%nat; [|subst; repeat split; [exact F1|intros _; now destruct states|intros _; now destruct states]].
  destruct U as (out & O & ->). destruct (loop_size _ _ _ _ _ F1 Hn (Nat.le_refl _) O) as (_ & O2 & _). split; [constructor; [apply O2; [lia|now destruct states]|constructor]|]. split; discriminate.
Qed.
Lemma updates_full n batches : forall states states', (0 < n)%nat -> full states -> updates n states batches states' -> full states' /\ (concat batches <> [] -> states' <> []) /\ (states <> [] -> states' <> []).
Proof.
  induction batches as [|b bs IH]; intros states states' Hn F U; cbn [updates concat] in *; [subst; repeat split; [exact F|congruence|auto]|]. destruct U as (mid & U1 & U2).
  destruct (update_full _ _ _ _ Hn F U1) as (F1 & A1 & B1). destruct (IH _ _ Hn F1 U2) as (F2 & A2 & B2). split; [exact F2|]. split; [|auto].
  intro H. destruct b as [|x b]; [now apply A2|]. apply B2, A1. discriminate.
Qed.
Lemma part_size n batches out : (0 < n)%nat -> part_sample n batches out -> (concat batches <> [] -> out <> []) /\ (length out <= 2 * n - 1)%nat.
Proof.
  intros Hn (st & U & O). destruct (updates_full n batches [] st Hn ltac:(constructor) U) as (F & A & _). unfold state in O. destruct st as [|s st].
  - subst out. split; [intro H; now apply A in H|cbn; lia].
  - destruct (loop_size _ _ _ _ _ F Hn (Nat.le_refl _) O) as (_ & B & C). split; [intros _; apply B; [lia|discriminate]|lia].
Qed.
Lemma plan_size n parts out : (0 < n)%nat -> plan_sample n parts out -> (rows_of parts <> [] -> out <> []) /\ (length out <= 2 * n - 1)%nat.
Proof.
  intros Hn (partial & arr & F & P & O). destruct (part_size n arr out Hn O) as [A B]. split; [|exact B]. intro H. apply A. intro E.
  assert (X : concat partial <> []).
  { clear - Hn F H. induction F as [|p s parts partial Q F IH]; [unfold rows_of in H; cbn in H; congruence|]. unfold rows_of in *. cbn [map concat] in *. destruct (part_size n p s Hn Q) as [C _].
    destruct (concat p) as [|x l]; [|intro Y; apply app_eq_nil in Y; destruct Y as [Y _]; revert Y; apply C; discriminate]. intro Y. apply app_eq_nil in Y. destruct Y as [_ Y]. revert Y. now apply IH. }
  apply X. apply concat_perm in P. rewrite E in P. now apply Permutation_nil in P.
Qed.
(** a single batch *)
Lemma one_state n s out : (0 < length s <= n)%nat \/ length s = n -> (0 < n)%nat -> sample_state [s] n out -> length out = length s.
Proof.
  intros H Hn X. unfold sample_state in X. cbn [sample_loop] in X. destruct (Nat.eqb_spec n 0); [lia|]. destruct X as (idx & out' & (_ & _ & L) & Q & ->).
  rewrite app_length, take_len, L. cbn [sample_loop] in Q. subst out'. cbn [length]. unfold total_rows. cbn [concat]. rewrite app_nil_r.
  assert (B : ((length s * n + length s - 1) / length s = n)%nat) by (symmetry; apply (Nat.div_unique _ _ _ (length s - 1)); [destruct H; lia|destruct H; nia]). rewrite B. lia.
Qed.
Lemma one_part n b out : (0 < n)%nat -> part_sample n [b] out -> length out = Nat.min n (length b).
Proof.
  intros Hn (st & U & O). cbn [updates] in U. destruct U as (mid & U & ->). destruct b as [|x b]; cbn [update] in U.
  - subst mid. cbn in O. subst. cbn. lia.
  - destruct U as (sm & D & U). apply data_len in D. cbv zeta in U. cbn [app] in U. unfold total_rows in U. cbn [concat] in U. rewrite app_nil_r in U.
    destruct (Nat.ltb_spec (n * 10) (length sm)); [lia|]. subst mid. unfold state in O. rewrite <- D. apply (one_state n); [left; cbn [length] in D; lia|exact Hn|exact O].
Qed.
Lemma one_plan n b out : (0 < n)%nat -> plan_sample n [[b]] out -> length out = Nat.min n (length b).
Proof.
  intros Hn (partial & arr & F & P & O). inversion F as [|p s ps ss Q F' E1 E2]; subst. inversion F'; subst. apply Permutation_sym, Permutation_length_1_inv in P. subst arr. apply one_part in Q; [|exact Hn].
  apply one_part in O; [|exact Hn]. lia.
Qed.

(** ** n = 1 *)
Lemma one_loop s states out : s <> [] -> full states -> sample_state (s :: states) 1 out -> exists x, out = [x] /\ In x s.
Proof.
  intros Hs F O. unfold sample_state in O. cbn [sample_loop] in O. destruct O as (idx & out' & D & Q & ->).
  assert (E : ((length s * 1 + total_rows (s :: states) - 1) / total_rows (s :: states) = 1)%nat).
  { assert (B : (1 <= (length s * 1 + total_rows (s :: states) - 1) / total_rows (s :: states) <= 1)%nat); [|lia]. apply ceil_bounds; [destruct s; [congruence|cbn; lia]|lia|]. unfold total_rows. cbn [concat]. rewrite app_length. lia. }
  rewrite E in *. change (1 - 1)%nat with 0%nat in Q. assert (out' = []) as -> by (destruct states; exact Q).
  rewrite app_nil_r. destruct (draw_from _ _ _ D) as (rest & P). destruct D as (_ & _ & L). destruct s as [|y s]; [congruence|]. cbn [length Nat.min] in L. destruct idx as [|i [|? ?]]; cbn in L; try lia.
  exists (nth i (y :: s) 0). split; [reflexivity|]. apply (Permutation_in _ (Permutation_sym P)). now left.
Qed.
Definition led (b : list Z) (states : list (list Z)) : Prop := full states /\ exists s rest, states = s :: rest /\ incl s b /\ s <> [].
Lemma from_incl a b : drawn_from a b -> incl a b.
Proof. intros (r & P) x I. apply (Permutation_in _ (Permutation_sym P)), in_app_iff. now left. Qed.
Lemma led_update b states rows states' : led b states -> update 1 states rows states' -> led b states'.
Proof.
  intros (F & s & rest & -> & I & N) U. split; [exact (proj1 (update_full 1 _ _ _ Nat.lt_0_1 F U))|]. destruct rows as [|r rows]; cbn [update] in U; [subst; eauto|]. destruct U as (sm & D & U). cbv zeta in U.
  assert (F1 : full (rest ++ [sm])) by (inversion F; subst; apply Forall_app; split; [assumption|]; constructor; [|constructor]; intros ->; apply data_len in D; cbn in D; lia).
  destruct (_ <? _)%nat; [|exists s, (rest ++ [sm]); now subst]. destruct U as (out & O & ->). cbn [app] in O. destruct (one_loop s _ out N F1 O) as (x & -> & J). exists [x], []. split; [reflexivity|]. split; [|discriminate]. intros y [<-|[]]. now apply I.
Qed.
Lemma led_updates b bs : forall states states', led b states -> updates 1 states bs states' -> led b states'.
Proof. induction bs as [|c bs IH]; intros st st' L U; cbn [updates] in U; [now subst|]. destruct U as (mid & U1 & U2). eapply IH; [|exact U2]. eapply led_update; eassumption. Qed.
Lemma one_first b bs out : b <> [] -> part_sample 1 (b :: bs) out -> exists x, out = [x] /\ In x b.
Proof.
  intros Hb (st & (mid & U1 & U2) & O). assert (L : led b mid).
  { split; [exact (proj1 (update_full 1 _ _ _ Nat.lt_0_1 ltac:(constructor) U1))|]. destruct b as [|r b]; [congruence|]. cbn [update] in U1. destruct U1 as (sm & D & U). cbv zeta in U. cbn [app] in U.
    pose proof (data_len _ _ _ D) as Ln. apply data_from, from_incl in D. unfold total_rows in U. cbn [concat] in U. rewrite app_nil_r in U. destruct (Nat.ltb_spec (1 * 10) (length sm)); [cbn [length] in Ln; lia|]. subst mid.
    exists sm, []. split; [reflexivity|]. split; [exact D|]. intros ->. cbn in Ln. lia. }
  apply (led_updates b bs mid st) in L; [|exact U2]. destruct L as (F & s & rest & -> & I & N). cbn [state] in O. inversion F; subst. destruct (one_loop s rest out N ltac:(assumption) O) as (x & -> & J). exists x. split; [reflexivity|]. now apply I.
Qed.
