(** Proofs about the merge of sorted streams: the loser tree, then the emission order, then the
    builder. *)
From Verif Require Import Prelude MergeModel MergeSpec.
Local Open Scope nat_scope.

(** ** The heap-shaped index tree *)
Inductive desc (c : nat) : nat -> Prop :=
| desc_refl : desc c c
| desc_step q : 1 <= q / 2 -> desc c (q / 2) -> desc c q.

Lemma div2_bounds q : 2 * (q / 2) <= q < 2 * (q / 2) + 2.
Proof. pose proof (Nat.div_mod q 2 ltac:(lia)). pose proof (Nat.mod_upper_bound q 2 ltac:(lia)). lia. Qed.
Lemma div2_even j : 2 * j / 2 = j.
Proof. pose proof (div2_bounds (2 * j)). remember (2 * j / 2) as x. clear Heqx. lia. Qed.
Lemma div2_odd j : (2 * j + 1) / 2 = j.
Proof. pose proof (div2_bounds (2 * j + 1)). remember ((2 * j + 1) / 2) as x. clear Heqx. lia. Qed.

Lemma desc_le c q : desc c q -> c <= q.
Proof.
  induction 1 as [|q H _ IH]; [lia|].
  pose proof (div2_bounds q). remember (q / 2) as x. clear Heqx. lia.
Qed.
Lemma desc_trans a b q : desc a b -> desc b q -> desc a q.
Proof. intros Hab Hbq. induction Hbq; auto. apply desc_step; auto. Qed.
Lemma desc_inv c q : desc c q -> q = c \/ (1 <= q / 2 /\ desc c (q / 2)).
Proof. intros H; inversion H; auto. Qed.
Lemma desc_cmp a b q : desc a q -> desc b q -> desc a b \/ desc b a.
Proof.
  intros Ha. revert b. induction Ha as [|q H Ha IH]; intros b Hb; [auto|].
  apply desc_inv in Hb as [-> | [_ Hb]]; auto.
  left. apply desc_step; auto.
Qed.
Lemma desc_even j : 1 <= j -> desc j (2 * j).
Proof. intros. apply desc_step; rewrite div2_even; [lia|constructor]. Qed.
Lemma desc_odd j : 1 <= j -> desc j (2 * j + 1).
Proof. intros. apply desc_step; rewrite div2_odd; [lia|constructor]. Qed.
Lemma desc_not_up j c : 1 <= j -> c = 2 * j \/ c = 2 * j + 1 -> ~ desc c j.
Proof. intros ? ? H. apply desc_le in H. lia. Qed.
Lemma desc_disj j q : 1 <= j -> desc (2 * j) q -> desc (2 * j + 1) q -> False.
Proof.
  intros Hj H1 H2. destruct (desc_cmp _ _ _ H1 H2) as [H | H].
  - apply desc_inv in H as [H | [_ H]]; [lia|]. rewrite div2_odd in H. apply desc_le in H. lia.
  - apply desc_inv in H as [H | [_ H]]; [lia|]. rewrite div2_even in H. apply desc_le in H. lia.
Qed.
Lemma desc_split j q : 1 <= j -> desc j q -> q <> j -> desc (2 * j) q \/ desc (2 * j + 1) q.
Proof.
  intros Hj H. induction H as [|q Hq H IH]; intros Hne; [congruence|].
  destruct (Nat.eq_dec (q / 2) j) as [E | E].
  - pose proof (div2_bounds q) as Hb. rewrite E in Hb.
    assert (q = 2 * j \/ q = 2 * j + 1) as [-> | ->] by lia; [left | right]; constructor.
  - destruct (IH E); [left | right]; apply desc_step; auto.
Qed.
Lemma desc_root q : 1 <= q -> desc 1 q.
Proof.
  induction q as [q IH] using lt_wf_ind. intros Hq.
  destruct (Nat.eq_dec q 1) as [->|]; [constructor|].
  pose proof (div2_bounds q). assert (1 <= q / 2) by (remember (q / 2) as x; clear Heqx; lia).
  apply desc_step; auto. apply IH; auto. remember (q / 2) as x. clear Heqx. lia.
Qed.

(** ** A valid tournament *)
Section Tree.
Variable n : nat.

Inductive vt (le : nat -> nat -> Prop) (t : list (option nat)) : nat -> nat -> Prop :=
| vt_leaf p : n <= p < 2 * n -> vt le t p (p - n)
| vt_l j w1 w2 : 1 <= j < n -> vt le t (2 * j) w1 -> vt le t (2 * j + 1) w2 ->
    tget t j = Some w2 -> le w1 w2 -> vt le t j w1
| vt_r j w1 w2 : 1 <= j < n -> vt le t (2 * j) w1 -> vt le t (2 * j + 1) w2 ->
    tget t j = Some w1 -> le w2 w1 -> vt le t j w2.

Lemma vt_under (le : nat -> nat -> Prop) t j w : vt le t j w -> j < 2 * n /\ w < n /\ desc j (n + w).
Proof.
  induction 1 as [p Hp | j w1 w2 Hj H1 IH1 H2 IH2 Ht Hle | j w1 w2 Hj H1 IH1 H2 IH2 Ht Hle].
  - split; [lia | split; [lia|]]. replace (n + (p - n)) with p by lia. constructor.
  - split; [lia | split; [lia|]]. eapply desc_trans; [apply desc_even; lia | apply IH1].
  - split; [lia | split; [lia|]]. eapply desc_trans; [apply desc_odd; lia | apply IH2].
Qed.

Lemma vt_min (le : nat -> nat -> Prop) t j w :
  (forall a, le a a) -> (forall a b c, le a b -> le b c -> le a c) ->
  vt le t j w -> forall i, i < n -> 1 <= j -> desc j (n + i) -> le w i.
Proof.
  intros Hr Htr. induction 1 as [p Hp | j w1 w2 Hj H1 IH1 H2 IH2 Ht Hle | j w1 w2 Hj H1 IH1 H2 IH2 Ht Hle];
    intros i Hi H1j Hd.
  - assert (p = n + i) as ->.
    { apply desc_inv in Hd as [Hd | [H0 Hd]]; [lia|].
      apply desc_le in Hd. pose proof (div2_bounds (n + i)). remember ((n + i) / 2) as x. clear Heqx. lia. }
    replace (n + i - n) with i by lia. auto.
  - apply desc_split in Hd; [|lia|lia]. destruct Hd as [Hd | Hd].
    + apply IH1; auto; lia.
    + eapply Htr; [exact Hle|]. apply IH2; auto; lia.
  - apply desc_split in Hd; [|lia|lia]. destruct Hd as [Hd | Hd].
    + eapply Htr; [exact Hle|]. apply IH1; auto; lia.
    + apply IH2; auto; lia.
Qed.

Lemma vt_ext (le le' : nat -> nat -> Prop) t t' j w :
  vt le t j w ->
  (forall q, desc j q -> q < n -> tget t' q = tget t q) ->
  (forall a b, desc j (n + a) -> desc j (n + b) -> le a b -> le' a b) ->
  vt le' t' j w.
Proof.
  induction 1 as [p Hp | j w1 w2 Hj H1 IH1 H2 IH2 Ht Hle | j w1 w2 Hj H1 IH1 H2 IH2 Ht Hle]; intros HT HL.
  - constructor; auto.
  - pose proof (vt_under _ _ _ _ H1) as U1. pose proof (vt_under _ _ _ _ H2) as U2.
    assert (D1 : forall q, desc (2 * j) q -> desc j q) by (intros; eapply desc_trans; [apply desc_even; lia|auto]).
    assert (D2 : forall q, desc (2 * j + 1) q -> desc j q) by (intros; eapply desc_trans; [apply desc_odd; lia|auto]).
    apply vt_l with w2; auto.
    + rewrite HT; [auto | constructor | lia].
    + apply HL; auto; [apply D1 | apply D2]; tauto.
  - pose proof (vt_under _ _ _ _ H1) as U1. pose proof (vt_under _ _ _ _ H2) as U2.
    assert (D1 : forall q, desc (2 * j) q -> desc j q) by (intros; eapply desc_trans; [apply desc_even; lia|auto]).
    assert (D2 : forall q, desc (2 * j + 1) q -> desc j q) by (intros; eapply desc_trans; [apply desc_odd; lia|auto]).
    apply vt_r with w1; auto.
    + rewrite HT; [auto | constructor | lia].
    + apply HL; auto; [apply D2 | apply D1]; tauto.
Qed.

Lemma vt_sub (le : nat -> nat -> Prop) t j w : vt le t j w -> 1 <= j -> forall c, desc j c -> c < 2 * n -> exists w', vt le t c w'.
Proof.
  induction 1 as [p Hp | j w1 w2 Hj H1 IH1 H2 IH2 Ht Hle | j w1 w2 Hj H1 IH1 H2 IH2 Ht Hle]; intros H0 c Hd Hc.
  - assert (c = p) as ->.
    { apply desc_inv in Hd as [Hd | [Hz Hd]]; [lia|].
      apply desc_le in Hd. pose proof (div2_bounds c). remember (c / 2) as x. clear Heqx. lia. }
    eexists; constructor; auto.
  - destruct (Nat.eq_dec c j) as [->|Hne]; [exists w1; eapply vt_l; eauto|].
    apply desc_split in Hd; [|lia|auto]. destruct Hd; [apply IH1 | apply IH2]; auto; lia.
  - destruct (Nat.eq_dec c j) as [->|Hne]; [exists w2; eapply vt_r; eauto|].
    apply desc_split in Hd; [|lia|auto]. destruct Hd; [apply IH1 | apply IH2]; auto; lia.
Qed.

(** the sibling of a node *)
Definition sib (q : nat) : nat := if Nat.even q then q + 1 else q - 1.
Lemma sib_even j : sib (2 * j) = 2 * j + 1.
Proof. unfold sib. rewrite Nat.even_mul. reflexivity. Qed.
Lemma sib_odd j : sib (2 * j + 1) = 2 * j.
Proof. unfold sib. rewrite Nat.even_add, Nat.even_mul. change (Bool.eqb (Nat.even 2 || Nat.even j) (Nat.even 1)) with false. cbn iota. lia. Qed.
Lemma node_cases q : q = 2 * (q / 2) \/ q = 2 * (q / 2) + 1.
Proof. pose proof (div2_bounds q). remember (q / 2) as x. clear Heqx. lia. Qed.

(** the node above a position on the winner's path holds the winner of the sibling subtree *)
Lemma vt_sib (le : nat -> nat -> Prop) t j w :
  vt le t j w -> 1 <= j -> forall q, desc j q -> desc q (n + w) -> q <> j ->
  exists x, tget t (q / 2) = Some x /\ vt le t (sib q) x.
Proof.
  induction 1 as [p Hp | j w1 w2 Hj H1 IH1 H2 IH2 Ht Hle | j w1 w2 Hj H1 IH1 H2 IH2 Ht Hle]; intros H0 q Hd Hw Hne.
  - exfalso. replace (n + (p - n)) with p in Hw by lia. apply desc_le in Hw. apply desc_le in Hd. lia.
  - apply desc_split in Hd; [|lia|auto]. destruct Hd as [Hd | Hd].
    + destruct (Nat.eq_dec q (2 * j)) as [-> | Hq].
      * exists w2. rewrite div2_even, sib_even. auto.
      * apply IH1; auto; lia.
    + exfalso. apply (desc_disj j (n + w1)); [lia | apply (vt_under _ _ _ _ H1) | eapply desc_trans; eauto].
  - apply desc_split in Hd; [|lia|auto]. destruct Hd as [Hd | Hd].
    + exfalso. apply (desc_disj j (n + w2)); [lia | eapply desc_trans; eauto | apply (vt_under _ _ _ _ H2)].
    + destruct (Nat.eq_dec q (2 * j + 1)) as [-> | Hq].
      * exists w1. rewrite div2_odd, sib_odd. auto.
      * apply IH2; auto; lia.
Qed.
Lemma sib_desc q x : 2 <= q -> desc q x -> desc (sib q) x -> False.
Proof.
  intros Hq H1 H2. pose proof (div2_bounds q) as B. destruct (node_cases q) as [E | E];
    rewrite E in H1, H2; remember (q / 2) as j eqn:Ej; clear Ej E.
  - rewrite sib_even in H2. apply (desc_disj j x); auto; lia.
  - rewrite sib_odd in H2. apply (desc_disj j x); auto; lia.
Qed.
Lemma sib_up q x : 2 <= q -> desc (sib q) x -> desc (q / 2) x.
Proof.
  intros Hq H. pose proof (div2_bounds q) as B. destruct (node_cases q) as [E | E];
    rewrite E in H; remember (q / 2) as j eqn:Ej; clear Ej E.
  - rewrite sib_even in H. eapply desc_trans; [apply desc_odd; lia|auto].
  - rewrite sib_odd in H. eapply desc_trans; [apply desc_even; lia|auto].
Qed.
Lemma sib_bounds q : 2 <= q -> 2 <= sib q /\ sib q / 2 = q / 2 /\ (q < 2 * n -> q / 2 < n).
Proof.
  intros Hq. pose proof (div2_bounds q) as B. split; [|split].
  - destruct (node_cases q) as [E | E]; rewrite E; rewrite ?sib_even, ?sib_odd;
      remember (q / 2) as j eqn:Ej; clear Ej; lia.
  - destruct (node_cases q) as [E | E]; rewrite E at 1; rewrite ?sib_even, ?sib_odd, ?div2_even, ?div2_odd; auto.
  - remember (q / 2) as j eqn:Ej; clear Ej; lia.
Qed.
(** joining two sibling tournaments *)
Lemma vt_join (le : nat -> nat -> Prop) t q x y :
  2 <= q -> q / 2 < n -> vt le t q x -> vt le t (sib q) y ->
  tget t (q / 2) = Some y -> le x y -> vt le t (q / 2) x.
Proof.
  intros Hq Hn Hx Hy Ht Hle. pose proof (div2_bounds q) as B. destruct (node_cases q) as [E | E];
    rewrite E in Hx, Hy; remember (q / 2) as j eqn:Ej; clear Ej E.
  - rewrite sib_even in Hy. eapply vt_l; eauto; lia.
  - rewrite sib_odd in Hy. eapply vt_r; eauto; lia.
Qed.
End Tree.

Lemma set_nth_len {A} i (x : A) l : i < length l -> length (set_nth i x l) = length l.
Proof. intros H. unfold set_nth. rewrite app_length, firstn_length. cbn [length]. rewrite skipn_length. lia. Qed.
Lemma nth_set_same {A} i (x d : A) l : i < length l -> nth i (set_nth i x l) d = x.
Proof.
  intros H. unfold set_nth. rewrite app_nth2; rewrite firstn_length; [|lia].
  replace (i - Nat.min i (length l)) with 0 by lia. reflexivity.
Qed.
Lemma nth_set_other {A} i j (x d : A) l : i < length l -> j <> i -> nth j (set_nth i x l) d = nth j l d.
Proof.
  intros H Hne. unfold set_nth.
  destruct (Nat.lt_ge_cases j i).
  - rewrite app_nth1 by (rewrite firstn_length; lia). 
    rewrite <- (firstn_skipn i l) at 2. rewrite app_nth1 by (rewrite firstn_length; lia). reflexivity.
  - rewrite app_nth2 by (rewrite firstn_length; lia). rewrite firstn_length.
    replace (j - Nat.min i (length l)) with (S (j - S i)) by lia. cbn [nth].
    rewrite <- (firstn_skipn (S i) l) at 2. rewrite app_nth2 by (rewrite firstn_length; lia).
    rewrite firstn_length. f_equal. lia.
Qed.

(** ** Keys *)
Definition headts (cur : list (option (list mrow))) (i : nat) : option Z :=
  match cur_at cur i with Some (r :: _) => Some (r_ts r) | _ => None end.
Definition kle cur (a b : nat) : Prop :=
  match headts cur a, headts cur b with
  | _, None => True
  | None, Some _ => False
  | Some x, Some y => (x < y)%Z \/ (x = y /\ a <= b)
  end.
Definition wfcur (cur : list (option (list mrow))) : Prop := forall i, cur_at cur i <> Some [].

Lemma kle_refl cur a : kle cur a a.
Proof. unfold kle. destruct (headts cur a); auto. Qed.
Lemma kle_trans cur a b c : kle cur a b -> kle cur b c -> kle cur a c.
Proof. unfold kle. destruct (headts cur a), (headts cur b), (headts cur c); try tauto; lia. Qed.
Lemma is_gt_true cur a b : wfcur cur -> is_gt cur a b = true -> kle cur b a.
Proof.
  intros W H. unfold is_gt, kle, headts in *. pose proof (W a) as Wa. pose proof (W b) as Wb.
  destruct (cur_at cur a) as [[|ra la]|]; destruct (cur_at cur b) as [[|rb lb]|]; try congruence; auto.
  destruct (Z.compare_spec (r_ts ra) (r_ts rb)); try discriminate; [|lia].
  apply Nat.ltb_lt in H. right. split; [congruence | lia].
Qed.
Lemma is_gt_false cur a b : wfcur cur -> is_gt cur a b = false -> kle cur a b.
Proof.
  intros W H. unfold is_gt, kle, headts in *. pose proof (W a) as Wa. pose proof (W b) as Wb.
  destruct (cur_at cur a) as [[|ra la]|]; destruct (cur_at cur b) as [[|rb lb]|]; try congruence; auto.
  destruct (Z.compare_spec (r_ts ra) (r_ts rb)); try discriminate; [|lia].
  apply Nat.ltb_ge in H. right. split; [congruence | lia].
Qed.

Lemma tget_set_same i x t : i < length t -> tget (set_nth i x t) i = x.
Proof. apply nth_set_same. Qed.
Lemma tget_set_other i j x t : i < length t -> j <> i -> tget (set_nth i x t) j = tget t j.
Proof. apply nth_set_other. Qed.
Lemma vt_set n (le : nat -> nat -> Prop) t c w j x : length t = n -> j < n -> ~ desc c j -> vt n le t c w -> vt n le (set_nth j x t) c w.
Proof.
  intros Hl Hj Hd H. eapply vt_ext; [exact H | | auto].
  intros q Hq Hqn. apply tget_set_other; [lia|]. intros ->. auto.
Qed.

(** ** Replacing the winner *)
Lemma climb_ok n cur t0 w0 (le0 : nat -> nat -> Prop) :
  wfcur cur -> vt n le0 t0 1 w0 ->
  (forall a b, a <> w0 -> b <> w0 -> le0 a b -> kle cur a b) ->
  forall fuel q t1 x,
  desc q (n + w0) -> 1 <= q -> q < 2 * n -> q / 2 < fuel -> length t1 = n ->
  vt n (kle cur) t1 q x -> (forall m, m < n -> ~ desc q m -> tget t1 m = tget t0 m) ->
  let t2 := climb fuel cur t1 x (q / 2) in
  length t2 = n /\ exists w', tget t2 0 = Some w' /\ vt n (kle cur) t2 1 w'.
Proof.
  intros W Hv HL. induction fuel as [|fuel IH]; intros q t1 x Hd Hq1 Hq2 Hf Hl Hvq Hsame; [lia|].
  cbn zeta. cbn [climb].
  destruct (Nat.eq_dec q 1) as [-> | Hq].
  - change (1 / 2) with 0. cbn iota. assert (0 < length t1) by lia. split; [rewrite set_nth_len; auto|].
    exists x. split; [apply tget_set_same; auto|]. apply vt_set; auto; [lia|].
    intros D. apply desc_le in D. lia.
  - destruct (sib_bounds n q) as (S1 & S2 & S3); [lia|]. specialize (S3 Hq2).
    assert (Hj : 1 <= q / 2 < q) by (pose proof (div2_bounds q) as B; remember (q / 2) as j; clear - B Hq Hq1; lia).
    destruct (vt_sib n _ _ _ _ Hv (le_n 1) q (desc_root q Hq1) Hd Hq) as (y & Hy & Hvy).
    rewrite <- Hsame in Hy; [|auto | intros D; apply desc_le in D; lia].
    assert (Hvy1 : vt n (kle cur) t1 (sib q) y).
    { eapply vt_ext; [exact Hvy | |].
      - intros m Hm Hmn. apply Hsame; auto. intros D. eapply sib_desc with (q := q); eauto; lia.
      - intros a b Ha Hb. apply HL; intros ->; eapply sib_desc with (q := q) (x := n + w0); eauto; lia. }
    assert (Hdj : desc (q / 2) (n + w0)) by (eapply desc_trans; [|exact Hd]; apply desc_step; [lia | constructor]).
    assert (Hup : forall m, desc q m -> desc (q / 2) m)
      by (intros m Hm; eapply desc_trans; [|exact Hm]; apply desc_step; [lia|constructor]).
    rewrite Hy. destruct (q / 2) as [|j'] eqn:Ej; [lia|]. rewrite <- Ej in *.
    assert (Hjf : q / 2 / 2 < fuel).
    { pose proof (div2_bounds (q / 2)) as B. remember (q / 2 / 2) as k. remember (q / 2) as j. clear - B Hf Hj. lia. }
    destruct (is_gt cur x y) eqn:G.
    + assert (Hnq : ~ desc q (q / 2)) by (intros D; apply desc_le in D; lia).
      assert (Hns : ~ desc (sib q) (q / 2)).
      { intros D. apply desc_le in D. rewrite <- S2 in D. pose proof (div2_bounds (sib q)) as B.
        remember (sib q / 2) as k. clear - B D S1. lia. }
      apply IH; auto; try lia.
      * rewrite set_nth_len; lia.
      * replace (q / 2) with (sib q / 2) at 2 by auto.
        assert (Hs2 : sib (sib q) = q).
        { destruct (node_cases q) as [E | E]; rewrite E; [rewrite sib_even, sib_odd | rewrite sib_odd, sib_even]; auto. }
        apply vt_join with x; auto; try lia.
        -- apply vt_set; auto; try lia.
        -- rewrite Hs2. apply vt_set; auto; try lia.
        -- rewrite S2. apply tget_set_same. lia.
        -- apply is_gt_true; auto.
      * intros m Hm Hdm. rewrite tget_set_other; [|lia|intros ->; apply Hdm; constructor].
        apply Hsame; auto.
    + apply IH; auto; try lia.
      apply vt_join with y; auto; try lia. apply is_gt_false; auto.
Qed.

(** ** Building the tree *)
Lemma desc_dec c q : {desc c q} + {~ desc c q}.
Proof.
  induction q as [q IH] using (well_founded_induction_type lt_wf).
  destruct (Nat.eq_dec q c) as [-> | Hne]; [left; constructor|].
  destruct (Nat.eq_dec (q / 2) 0) as [E | E].
  - right. intros H. apply desc_inv in H as [H | [H _]]; lia.
  - assert (Hlt : q / 2 < q) by (pose proof (div2_bounds q) as B; remember (q / 2) as j; clear - B E; lia).
    destruct (IH _ Hlt) as [H | H].
    + left. apply desc_step; auto. lia.
    + right. intros D. apply desc_inv in D as [D | [_ D]]; auto.
Qed.
Definition full (n i c : nat) : Prop := forall p, n <= p < 2 * n -> desc c p -> p < n + i.
Lemma full_dec n i c : {full n i c} + {~ full n i c}.
Proof.
  assert (H : forall k, {forall p, n <= p < k -> desc c p -> p < n + i} + {~ forall p, n <= p < k -> desc c p -> p < n + i}).
  { induction k as [|k [IH | IH]].
    - left. intros; lia.
    - destruct (desc_dec c k) as [D | D].
      + destruct (lt_dec k (n + i)).
        * left. intros p Hp Hd. destruct (Nat.eq_dec p k); [lia|]. apply IH; auto; lia.
        * destruct (le_dec n k).
          -- right. intros HH. specialize (HH k ltac:(lia) D). lia.
          -- left. intros; lia.
      + left. intros p Hp Hd. destruct (Nat.eq_dec p k); [congruence|]. apply IH; auto; lia.
    - right. intros HH. apply IH. intros p Hp. apply HH. lia. }
  apply H.
Qed.
Lemma full_sub n i c d : full n i c -> desc c d -> full n i d.
Proof. intros F D p Hp Hd. apply F; auto. eapply desc_trans; eauto. Qed.
Lemma full_S n i c : full n i c -> full n (S i) c.
Proof. intros F p Hp Hd. specialize (F p Hp Hd). lia. Qed.

Definition tinv (n i : nat) cur (t : list (option nat)) : Prop :=
  length t = n /\
  (forall c, 1 <= c < 2 * n -> full n i c -> exists w, vt n (kle cur) t c w) /\
  (forall c, 2 <= c < 2 * n -> full n i c -> ~ full n i (sib c) ->
     exists w, tget t (c / 2) = Some w /\ vt n (kle cur) t c w) /\
  (forall j, 1 <= j < n -> ~ full n i (2 * j) -> ~ full n i (2 * j + 1) -> tget t j = None).

Lemma sib_sib q : sib (sib q) = q.
Proof. destruct (node_cases q) as [E | E]; rewrite E; [rewrite sib_even, sib_odd | rewrite sib_odd, sib_even]; auto. Qed.
Lemma half_desc q : 2 <= q -> desc (q / 2) q.
Proof.
  intros H. apply desc_step; [|constructor]. pose proof (div2_bounds q) as B. remember (q / 2) as j. clear - B H. lia.
Qed.
Lemma half_lt q : 2 <= q -> 1 <= q / 2 < q.
Proof. intros H. pose proof (div2_bounds q) as B. remember (q / 2) as j. clear - B H. lia. Qed.

Lemma climb_init_ok n i cur t0 :
  wfcur cur -> i < n -> tinv n i cur t0 ->
  forall fuel q t1 x,
  desc q (n + i) -> 1 <= q < 2 * n -> q / 2 < fuel -> length t1 = n ->
  vt n (kle cur) t1 q x -> full n (S i) q -> (forall m, m < n -> ~ desc q m -> tget t1 m = tget t0 m) ->
  let t2 := climb_init fuel cur t1 x (q / 2) in
  tinv n (S i) cur t2 /\ (full n (S i) 1 -> exists w, tget t2 0 = Some w /\ vt n (kle cur) t2 1 w).
Proof.
  intros W Hi (Hl0 & Ia & Ib & Ic).
  assert (NF : forall c, desc c (n + i) -> ~ full n i c).
  { intros c Hc F. specialize (F (n + i) ltac:(lia) Hc). lia. }
  induction fuel as [|fuel IH]; intros q t1 x Hd Hq Hf Hl Hvq HF Hsame; [lia|].
  cbn zeta. cbn [climb_init].
  destruct (Nat.eq_dec q 1) as [-> | Hq1].
  - change (1 / 2) with 0. cbn iota. assert (L0 : 0 < length t1) by lia.
    assert (Hv2 : vt n (kle cur) (set_nth 0 (Some x) t1) 1 x).
    { apply vt_set; auto; [lia|]. intros D. apply desc_le in D. lia. }
    split; [split; [rewrite set_nth_len; auto|split; [|split]]|].
    + intros c Hc _. eapply vt_sub; [exact Hv2 | lia | apply desc_root; lia | lia].
    + intros c Hc _ NS. exfalso. apply NS. eapply full_sub; [exact HF|]. apply desc_root.
      destruct (sib_bounds n c); lia.
    + intros j Hj NS _. exfalso. apply NS. eapply full_sub; [exact HF|]. apply desc_root. lia.
    + intros _. exists x. split; [apply tget_set_same; auto | exact Hv2].
  - destruct (sib_bounds n q) as (S1 & S2 & S3); [lia|]. specialize (S3 (proj2 Hq)).
    assert (Hj : 1 <= q / 2 < q) by (apply half_lt; lia).
    assert (Hnq : ~ desc q (q / 2)) by (intros D; apply desc_le in D; lia).
    assert (Hns : ~ desc (sib q) (q / 2)).
    { intros D. apply desc_le in D. rewrite <- S2 in D. pose proof (half_lt (sib q) S1). lia. }
    assert (Hsb : sib q < 2 * n).
    { pose proof (div2_bounds (sib q)) as B. rewrite S2 in B. remember (q / 2) as j. clear - B S3. lia. }
    assert (Hsnot : ~ desc (sib q) (n + i)) by (intros D; eapply sib_desc with (q := q); eauto; lia).
    assert (Hs_full : full n (S i) (sib q) -> full n i (sib q)).
    { intros F p Hp Hdp. specialize (F p Hp Hdp). destruct (Nat.eq_dec p (n + i)) as [-> |]; [tauto|lia]. }
    assert (Hgt : tget t1 (q / 2) = tget t0 (q / 2)) by (apply Hsame; auto).
    destruct (q / 2) as [|j'] eqn:Ej; [lia|]. rewrite <- Ej in *.
    destruct (full_dec n i (sib q)) as [Fs | Fs].
    + (* compare *)
      destruct (Ib (sib q) ltac:(lia) Fs) as (y & Hy & Hvy); [rewrite sib_sib; apply NF; auto|].
      rewrite S2 in Hy. rewrite Hgt, Hy.
      assert (Hvy1 : vt n (kle cur) t1 (sib q) y).
      { eapply vt_ext; [exact Hvy | | auto].
        intros m Hm Hmn. apply Hsame; auto. intros D. eapply sib_desc with (q := q); eauto; lia. }
      assert (Hdj : desc (q / 2) (n + i)) by (eapply desc_trans; [apply half_desc; lia | exact Hd]).
      assert (Hup : forall m, desc q m -> desc (q / 2) m)
        by (intros m Hm; eapply desc_trans; [apply half_desc; lia | exact Hm]).
      assert (Hjf : q / 2 / 2 < fuel).
      { pose proof (div2_bounds (q / 2)) as B. remember (q / 2 / 2) as k. remember (q / 2) as j. clear - B Hf Hj. lia. }
      assert (HFj : full n (S i) (q / 2)).
      { intros p Hp Hdp. destruct (Nat.eq_dec p (q / 2)) as [-> | Hne]; [lia|].
        destruct (desc_split (q / 2) p) as [D | D]; [lia | auto | auto | |];
          destruct (node_cases q) as [E | E].
        - rewrite <- E in D. apply HF; auto.
        - apply full_S in Fs. apply Fs; auto. rewrite E, sib_odd. auto.
        - apply full_S in Fs. apply Fs; auto. rewrite E, sib_even. auto.
        - rewrite <- E in D. apply HF; auto. }
      destruct (is_gt cur x y) eqn:G.
      * apply IH; auto; try lia.
        -- rewrite set_nth_len; lia.
        -- replace (q / 2) with (sib q / 2) at 2 by auto.
           apply vt_join with x; auto; try lia.
           ++ apply vt_set; auto; try lia.
           ++ rewrite sib_sib. apply vt_set; auto; try lia.
           ++ rewrite S2. apply tget_set_same. lia.
           ++ apply is_gt_true; auto.
        -- intros m Hm Hdm. rewrite tget_set_other; [|lia|intros ->; apply Hdm; constructor].
           apply Hsame; auto.
      * apply IH; auto; try lia.
        apply vt_join with y; auto; try lia; [congruence | apply is_gt_false; auto].
    + (* park *)
      assert (NoneJ : tget t1 (q / 2) = None).
      { rewrite Hgt. assert (Fq : ~ full n i q) by (apply NF; auto).
        destruct (node_cases q) as [E | E].
        - apply Ic; [lia | rewrite <- E; auto |]. rewrite E, sib_even in Fs. auto.
        - apply Ic; [lia | | rewrite <- E; auto]. rewrite E, sib_odd in Fs. auto. }
      rewrite NoneJ. set (t2 := set_nth (q / 2) (Some x) t1).
      assert (NFs : ~ full n (S i) (sib q)) by tauto.
      assert (NFj : forall c, desc c (q / 2) -> ~ full n (S i) c).
      { intros c Hc F. apply NFs. eapply full_sub; [exact F|]. eapply desc_trans; [exact Hc|].
        rewrite <- S2. apply half_desc. lia. }
      assert (Hv2 : vt n (kle cur) t2 q x) by (apply vt_set; auto; lia).
      assert (Hg2 : forall m, m < n -> m <> q / 2 -> ~ desc q m -> tget t2 m = tget t0 m).
      { intros m Hm Hne Hdm. unfold t2. rewrite tget_set_other by (auto; lia). apply Hsame; auto. }
      assert (Hout : forall c, 1 <= c < 2 * n -> ~ desc q c -> full n (S i) c ->
                full n i c /\ forall w, vt n (kle cur) t0 c w -> vt n (kle cur) t2 c w).
      { intros c Hc Hnc Fc.
        assert (Hni : ~ desc c (n + i)).
        { intros D. destruct (desc_cmp _ _ _ D Hd) as [D' | D']; [|auto].
          destruct (desc_inv _ _ D') as [-> | [_ D2]]; [apply Hnc; constructor|]. apply (NFj c); auto. }
        split.
        - intros p Hp Hdp. specialize (Fc p Hp Hdp). destruct (Nat.eq_dec p (n + i)) as [-> |]; [tauto|lia].
        - intros w Hw. eapply vt_ext; [exact Hw | | auto].
          intros m Hm Hmn. apply Hg2; auto.
          + intros ->. apply (NFj c); auto.
          + intros D. destruct (desc_cmp _ _ _ D Hm) as [D' | D']; [auto|].
            apply Hni. eapply desc_trans; eauto. }
      split; [split; [unfold t2; rewrite set_nth_len; lia|split; [|split]]|].
      * intros c Hc Fc. destruct (desc_dec q c) as [D | D].
        -- eapply vt_sub; [exact Hv2 | lia | auto | lia].
        -- destruct (Hout c Hc D Fc) as [F Hx]. destruct (Ia c Hc F) as [w Hw]. eauto.
      * intros c Hc Fc NFc. destruct (Nat.eq_dec c q) as [-> | Hcq].
        -- exists x. split; auto. apply tget_set_same. lia.
        -- assert (D : ~ desc q c).
           { intros D. apply NFc. apply desc_inv in D as [D | [D1 D2]]; [congruence|].
             eapply full_sub; [exact HF|]. eapply desc_trans; [exact D2|].
             destruct (sib_bounds n c) as (T1 & T2 & _); [lia|]. rewrite <- T2. apply half_desc. lia. }
           destruct (Hout c ltac:(lia) D Fc) as [F Hx].
           destruct (Ib c Hc F) as (w & Hw & Hvw); [intros Q; apply NFc, full_S; auto|].
           exists w. split; [|auto]. rewrite Hg2; auto.
           ++ destruct (sib_bounds n c) as (_ & _ & T); [lia | apply T; lia].
           ++ intros E. apply NFs. replace (sib q) with c; auto.
              destruct (node_cases c) as [E1 | E1]; destruct (node_cases q) as [E2 | E2]; rewrite E in E1;
                try congruence; rewrite E2, E1, ?sib_even, ?sib_odd; rewrite <- ?Ej; auto.
           ++ intros Q. apply D. apply desc_step; auto. pose proof (half_lt c). lia.
      * intros j Hjn N1 N2.
        assert (Fj : tget t0 j = None) by (apply Ic; auto; intros F; [apply N1 | apply N2]; apply full_S; auto).
        rewrite <- Fj. apply Hg2; [lia| |].
        -- intros ->. destruct (node_cases q) as [E | E]; rewrite <- E in *; tauto.
        -- intros D. apply N1. eapply full_sub; [exact HF|]. eapply desc_trans; [exact D | apply desc_even; lia].
      * intros F1. exfalso. apply (NFj 1); auto. apply desc_root. lia.
Qed.

Lemma tinv_0 n cur : 1 <= n -> tinv n 0 cur (repeat None n).
Proof.
  intros Hn.
  assert (Hleaf : forall c, 1 <= c < 2 * n -> exists p, n <= p < 2 * n /\ desc c p).
  { intros c. remember (2 * n - c) as k eqn:Ek. revert c Ek. induction k as [k IH] using lt_wf_ind. intros c Ek Hc.
    destruct (le_dec n c) as [|Hlt]; [exists c; split; [lia | constructor]|].
    destruct (IH (2 * n - 2 * c) ltac:(lia) (2 * c) eq_refl ltac:(lia)) as (p & Hp & D).
    exists p. split; auto. eapply desc_trans; [apply desc_even; lia | auto]. }
  assert (NF : forall c, 1 <= c < 2 * n -> ~ full n 0 c).
  { intros c Hc F. destruct (Hleaf c Hc) as (p & Hp & D). specialize (F p Hp D). lia. }
  split; [apply repeat_length|split; [|split]].
  - intros c Hc F. destruct (NF c); auto.
  - intros c Hc F. destruct (NF c); auto. lia.
  - intros j Hj _ _. unfold tget. destruct (nth_in_or_default j (repeat (@None nat) n) None) as [H | H]; auto.
    apply repeat_spec in H. auto.
Qed.

Lemma init_tree_ok cur : wfcur cur -> 1 <= length cur ->
  length (init_tree cur) = length cur /\
  exists w, tget (init_tree cur) 0 = Some w /\ vt (length cur) (kle cur) (init_tree cur) 1 w.
Proof.
  intros W Hn. unfold init_tree. set (n := length cur) in *.
  assert (Hk : forall k i t, i + k = n -> 1 <= k -> tinv n i cur t ->
    let t2 := fold_left (fun t i => climb_init (S (leaf_of n i)) cur t i (leaf_of n i)) (seq i k) t in
    length t2 = n /\ exists w, tget t2 0 = Some w /\ vt n (kle cur) t2 1 w).
  { induction k as [|k IH]; intros i t Ek Hk1 Ht; [lia|]. cbn [seq fold_left].
    assert (Hstep := climb_init_ok n i cur t W ltac:(lia) Ht (S (leaf_of n i)) (n + i) t i
                      (desc_refl _) ltac:(lia) ltac:(unfold leaf_of; lia) (proj1 Ht)).
    cbn zeta in Hstep. change ((n + i) / 2) with (leaf_of n i) in Hstep.
    destruct Hstep as [H1 H2].
    - replace i with ((n + i) - n) at 2 by lia. constructor. lia.
    - intros p Hp D. apply desc_inv in D as [D | [_ D]]; [lia|]. apply desc_le in D.
      pose proof (div2_bounds p) as B. remember (p / 2) as h. clear - B D Hp. lia.
    - auto.
    - destruct (Nat.eq_dec k 0) as [-> | Hk0].
      + cbn [seq fold_left]. split; [apply H1|]. apply H2. intros p Hp _. lia.
      + apply IH; auto; lia. }
  apply (Hk n 0); auto. apply tinv_0; auto.
Qed.

Lemma update_tree_ok cur t w (le0 : nat -> nat -> Prop) :
  wfcur cur -> length t = length cur -> tget t 0 = Some w ->
  vt (length cur) le0 t 1 w ->
  (forall a b, a <> w -> b <> w -> le0 a b -> kle cur a b) ->
  length (update_tree cur t) = length cur /\
  exists w', tget (update_tree cur t) 0 = Some w' /\ vt (length cur) (kle cur) (update_tree cur t) 1 w'.
Proof.
  intros W Hl Hw Hv HL. unfold update_tree. rewrite Hw.
  destruct (vt_under _ _ _ _ _ Hv) as (_ & Hwn & _).
  apply (climb_ok (length cur) cur t w le0 W Hv HL (S (leaf_of (length cur) w)) (length cur + w)); auto; try lia.
  - constructor.
  - replace w with ((length cur + w) - length cur) at 2 by lia. constructor. lia.
Qed.

(** ** The rows still to come *)
Definition rem_i (st : mstate) (i : nat) : list mrow :=
  match cur_at (m_cur st) i with Some l => l | None => [] end ++ concat (nth i (m_src st) []).
Definition rems (n : nat) (st : mstate) : list mrow := concat (map (rem_i st) (seq 0 n)).
Definition tsle (a b : mrow) : Prop := (r_ts a <= r_ts b)%Z.

Lemma next_batch_ok s : 
  match next_batch s with
  | (None, s') => concat s = [] /\ s' = []
  | (Some b, s') => b <> [] /\ concat s = b ++ concat s'
  end.
Proof.
  induction s as [|[|r b] s IH]; cbn [next_batch concat]; auto.
  split; [discriminate | reflexivity].
Qed.

(** the shape of the state: lengths, no empty cursor *)
Definition shape (n : nat) (st : mstate) : Prop :=
  length (m_cur st) = n /\ length (m_src st) = n /\ wfcur (m_cur st).

Lemma maybe_poll_ok n i st : shape n st -> i < n ->
  let st' := maybe_poll i st in
  shape n st' /\ m_tree st' = m_tree st /\ m_adj st' = m_adj st /\ m_bld st' = m_bld st /\
  (forall j, rem_i st' j = rem_i st j) /\
  (forall j, j <> i -> cur_at (m_cur st') j = cur_at (m_cur st) j) /\
  (cur_at (m_cur st') i = None -> rem_i st' i = []).
Proof.
  intros (Hc & Hs & W) Hi. unfold maybe_poll. cbn zeta.
  destruct (cur_at (m_cur st) i) as [l|] eqn:E.
  { sp; auto; [split; [|split]; auto|]. intros; congruence. }
  pose proof (next_batch_ok (nth i (m_src st) [])) as NB.
  destruct (next_batch (nth i (m_src st) [])) as [[b|] s'] eqn:EN; cbn [m_tree m_adj m_bld m_cur m_src].
  - destruct NB as [Hb Hcat]. sp; auto.
    + split; [|split]; cbn [m_cur m_src]; rewrite ?set_nth_len; auto; try lia.
      intros j. unfold cur_at. destruct (Nat.eq_dec j i) as [-> | Hne].
      * rewrite nth_set_same by lia. congruence.
      * rewrite nth_set_other by lia. apply W.
    + intros j. unfold rem_i, cur_at in *. cbn [m_cur m_src]. destruct (Nat.eq_dec j i) as [-> | Hne].
      * rewrite !nth_set_same by lia. rewrite E, Hcat. reflexivity.
      * rewrite !nth_set_other by lia. reflexivity.
    + intros j Hne. unfold cur_at. apply nth_set_other; lia.
    + unfold cur_at. rewrite nth_set_same by lia. discriminate.
  - destruct NB as [Hcat Hs']. subst s'. sp; auto.
    + split; [|split]; cbn [m_cur m_src]; rewrite ?set_nth_len; auto; lia.
    + intros j. unfold rem_i, cur_at in *. cbn [m_cur m_src]. destruct (Nat.eq_dec j i) as [-> | Hne].
      * rewrite !nth_set_same by lia. rewrite E, Hcat. reflexivity.
      * rewrite !nth_set_other by lia. reflexivity.
    + intros _. unfold rem_i, cur_at in *. cbn [m_cur m_src]. rewrite E, nth_set_same by lia. reflexivity.
Qed.

(** ** Start *)
Lemma rems_ext n st st' : (forall j, j < n -> rem_i st' j = rem_i st j) -> rems n st' = rems n st.
Proof. intros H. unfold rems. f_equal. apply map_ext_in. intros j Hj. apply in_seq in Hj. apply H. lia. Qed.
Lemma rems_split n st i : i < n ->
  rems n st = concat (map (rem_i st) (seq 0 i)) ++ rem_i st i ++ concat (map (rem_i st) (seq (S i) (n - S i))).
Proof.
  intros Hi. unfold rems. replace n with (i + S (n - S i)) at 1 by lia.
  rewrite seq_app, map_app, concat_app. cbn [seq map concat]. reflexivity.
Qed.

Lemma polls_ok n : forall k i st, shape n st -> i + k = n ->
  (forall j, j < i -> cur_at (m_cur st) j = None -> rem_i st j = []) ->
  let st' := fold_left (fun st i => maybe_poll i st) (seq i k) st in
  shape n st' /\ m_bld st' = m_bld st /\ (forall j, rem_i st' j = rem_i st j) /\
  (forall j, j < n -> cur_at (m_cur st') j = None -> rem_i st' j = []).
Proof.
  induction k as [|k IH]; intros i st Hsh Hn Hd; cbn [seq fold_left].
  - sp; auto. intros j Hj. apply Hd. lia.
  - destruct (maybe_poll_ok n i st Hsh ltac:(lia)) as (P1 & P2 & P3 & P4 & P5 & P6 & P7).
    destruct (IH (S i) (maybe_poll i st) P1 ltac:(lia)) as (Q1 & Q2 & Q3 & Q4).
    + intros j Hj HN. destruct (Nat.eq_dec j i) as [-> | Hne]; [auto|].
      rewrite P5. apply Hd; [lia|]. rewrite <- P6; auto.
    + sp; auto; [congruence|]. intros j. rewrite Q3, P5. reflexivity.
Qed.

(** ** One emission *)
Definition tree_ok (n : nat) (st : mstate) : Prop :=
  length (m_tree st) = n /\ exists w, tget (m_tree st) 0 = Some w /\ w < n /\
  exists le0, vt n le0 (m_tree st) 1 w /\
  (forall a b, a <> w -> b <> w -> le0 a b -> kle (m_cur st) a b) /\
  (forall i, i < n -> i <> w -> cur_at (m_cur st) i = None -> rem_i st i = []) /\
  (m_adj st = true -> vt n (kle (m_cur st)) (m_tree st) 1 w /\ (cur_at (m_cur st) w = None -> rem_i st w = [])).

(** After the adjustment the winner holds the smallest head. *)
Definition adjusted (st : mstate) : mstate :=
  match tget (m_tree st) 0 with
  | None => st
  | Some w => if m_adj st then st
              else let s := maybe_poll w st in
                   MS (update_tree (m_cur s) (m_tree s)) true (m_cur s) (m_src s) (m_bld s)
  end.
Lemma adjusted_ok n st : 1 <= n -> shape n st -> tree_ok n st ->
  let s := adjusted st in
  shape n s /\ m_adj s = true /\ m_bld s = m_bld st /\ (forall j, rem_i s j = rem_i st j) /\
  length (m_tree s) = n /\
  exists w, tget (m_tree s) 0 = Some w /\ w < n /\ vt n (kle (m_cur s)) (m_tree s) 1 w /\
  (forall i, i < n -> cur_at (m_cur s) i = None -> rem_i s i = []).
Proof.
  intros Hn Hsh (Hl & w & Hw & Hwn & le0 & Hv & HL & Hex & Hadj). unfold adjusted. rewrite Hw. cbn zeta.
  destruct (m_adj st) eqn:EA.
  - destruct (Hadj eq_refl) as [Hv2 Hw2]. sp; auto. exists w. sp; auto.
    intros i Hi. destruct (Nat.eq_dec i w) as [-> | Hne]; auto.
  - destruct (maybe_poll_ok n w st Hsh Hwn) as (P1 & P2 & P3 & P4 & P5 & P6 & P7).
    remember (maybe_poll w st) as s eqn:Es. clear Es. cbn [m_tree m_adj m_bld m_cur m_src].
    assert (HL' : forall a b, a <> w -> b <> w -> le0 a b -> kle (m_cur s) a b).
    { intros a b Ha Hb HH. specialize (HL a b Ha Hb HH). unfold kle, headts in *. rewrite !P6; auto. }
    destruct P1 as (Q1 & Q2 & Q3).
    rewrite P2. assert (U := update_tree_ok (m_cur s) (m_tree st) w le0 Q3). rewrite Q1 in U.
    destruct (U Hl Hw Hv HL') as (U1 & w' & U2 & U3). sp; auto.
    + split; [|split]; auto.
    + exists w'. sp; auto; [apply (vt_under _ _ _ _ _ U3)|].
      intros i Hi HN. change (rem_i s i = []). destruct (Nat.eq_dec i w) as [-> | Hne]; [auto|].
      rewrite P5. apply Hex; auto. rewrite <- P6; auto.
Qed.

(** The winner's first row precedes every other remaining row. *)
Lemma winner_first n st w r rest :
  shape n st -> vt n (kle (m_cur st)) (m_tree st) 1 w ->
  (forall i, i < n -> cur_at (m_cur st) i = None -> rem_i st i = []) ->
  (forall i, i < n -> StronglySorted tsle (rem_i st i)) ->
  cur_at (m_cur st) w = Some (r :: rest) ->
  (forall i x, i < n -> In x (rem_i st i) -> (r_ts r <= r_ts x)%Z) /\
  (forall i x, i < w -> In x (rem_i st i) -> (r_ts r < r_ts x)%Z).
Proof.
  intros (Hc & Hs & W) Hv Hex Hso Hw.
  destruct (vt_under _ _ _ _ _ Hv) as (_ & Hwn & _).
  assert (Hmin : forall i, i < n -> kle (m_cur st) w i).
  { intros i Hi. eapply vt_min; [apply kle_refl | apply kle_trans | exact Hv | auto | lia | apply desc_root; lia]. }
  assert (Hgen : forall i x, i < n -> In x (rem_i st i) ->
            exists h, headts (m_cur st) i = Some h /\ (h <= r_ts x)%Z).
  { intros i x Hi Hx. destruct (cur_at (m_cur st) i) as [l|] eqn:E.
    - destruct l as [|h l]; [destruct (W i E)|]. exists (r_ts h). unfold headts. rewrite E. split; auto.
      specialize (Hso i Hi). unfold rem_i in Hso, Hx. rewrite E in Hso, Hx. cbn [app] in Hso, Hx.
      apply StronglySorted_inv in Hso as [_ Hf]. destruct Hx as [-> | Hx]; [lia|].
      rewrite Forall_forall in Hf. apply Hf; auto.
    - rewrite (Hex i Hi E) in Hx. destruct Hx. }
  assert (Hh : headts (m_cur st) w = Some (r_ts r)) by (unfold headts; rewrite Hw; auto).
  split; intros i x Hi Hx; (destruct (Hgen i x) as (h & E & Hle); [lia | auto |]); 
    specialize (Hmin i ltac:(lia)); unfold kle in Hmin; rewrite Hh, E in Hmin; lia.
Qed.
Lemma winner_none n st w :
  shape n st -> vt n (kle (m_cur st)) (m_tree st) 1 w ->
  (forall i, i < n -> cur_at (m_cur st) i = None -> rem_i st i = []) ->
  cur_at (m_cur st) w = None -> rems n st = [].
Proof.
  intros (Hc & Hs & W) Hv Hex Hw.
  destruct (vt_under _ _ _ _ _ Hv) as (_ & Hwn & _).
  unfold rems. assert (H : forall i, In i (seq 0 n) -> rem_i st i = []).
  { intros i Hi. apply in_seq in Hi. apply Hex; [lia|].
    assert (K : kle (m_cur st) w i)
      by (eapply vt_min; [apply kle_refl | apply kle_trans | exact Hv | lia | lia | apply desc_root; lia]).
    unfold kle, headts in K. rewrite Hw in K. pose proof (W i) as Wi.
    destruct (cur_at (m_cur st) i) as [[|h l]|]; congruence || tauto. }
  induction (seq 0 n) as [|a l IH]; cbn [map concat]; auto.
  rewrite H by (left; auto). apply IH. intros i Hi. apply H. right. auto.
Qed.

(** ** The builder *)
Lemma last_value_snoc l o :
  last_value (l ++ [o]) = match o with Some v => Some v | None => last_value l end.
Proof. unfold last_value. rewrite fold_left_app. reflexivity. Qed.
Lemma pick_rev_ok c l : l <> [] -> pick_rev c l = last_value (map (col c) (rev l)).
Proof.
  induction l as [|r l IH]; intros H; [congruence|].
  cbn [rev]. rewrite map_app. cbn [map]. rewrite last_value_snoc. cbn [pick_rev].
  destruct l as [|r' l].
  - cbn [rev map]. destruct (col c r); reflexivity.
  - destruct (col c r); auto. apply IH. discriminate.
Qed.
Lemma merge_same_ok width l t : l <> [] -> (forall r, In r l -> r_ts r = t) ->
  Forall (fun r => length (r_cols r) = width) l ->
  exists m, merge_same width l = [m] /\ r_ts m = t /\ length (r_cols m) = width /\
    forall c, c < width -> col c m = last_value (map (col c) l).
Proof.
  intros Hne Hts Hw. destruct l as [|r [|r' l]]; [congruence| |].
  - exists r. inversion Hw; subst. sp; auto; [apply Hts; left; auto|].
    intros c _. cbn [map]. unfold last_value. cbn [fold_left]. destruct (col c r); auto.
  - cbn [merge_same]. eexists. split; [reflexivity|]. cbn [r_ts r_cols]. split; [apply Hts; left; auto|].
    split; [rewrite map_length, seq_length; auto|].
    intros c Hc. unfold col at 1. cbn [r_cols].
    rewrite nth_indep with (d' := pick_rev width (rev (r :: r' :: l))) by (rewrite map_length, seq_length; auto).
    rewrite (map_nth (fun c => pick_rev c (rev (r :: r' :: l)))), seq_nth by auto.
    rewrite pick_rev_ok by (intros E; apply (f_equal (@length _)) in E; rewrite rev_length in E; discriminate).
    rewrite rev_involutive. reflexivity.
Qed.

Lemma rows_at_app t a b : rows_at t (a ++ b) = rows_at t a ++ rows_at t b.
Proof. apply filter_app. Qed.
Lemma rows_at_in t l r : In r (rows_at t l) <-> In r l /\ r_ts r = t.
Proof. unfold rows_at. rewrite filter_In, Z.eqb_eq. tauto. Qed.
Lemma rows_at_nil t l : (forall r, In r l -> r_ts r <> t) -> rows_at t l = [].
Proof.
  induction l as [|r l IH]; intros H; auto. unfold rows_at in *. cbn [filter].
  destruct (Z.eqb_spec (r_ts r) t) as [E | E]; [destruct (H r); cbn; auto|]. apply IH. intros. apply H. right; auto.
Qed.

(** the rows of [E] before the time stamp [t] *)
Definition before (t : Z) (E : list mrow) : list mrow := filter (fun r => (r_ts r <? t)%Z) E.
Lemma before_in t E r : In r (before t E) <-> In r E /\ (r_ts r < t)%Z.
Proof. unfold before. rewrite filter_In, Z.ltb_lt. tauto. Qed.
Lemma before_rows_at t u E : (u < t)%Z -> rows_at u (before t E) = rows_at u E.
Proof.
  intros H. unfold rows_at, before. induction E as [|r E IH]; auto. cbn [filter].
  destruct (Z.ltb_spec (r_ts r) t) as [L | L]; cbn [filter]; destruct (Z.eqb_spec (r_ts r) u); try lia; rewrite IH; auto.
Qed.

Lemma ss_snoc {A} (R : A -> A -> Prop) l x : StronglySorted R l -> Forall (fun y => R y x) l -> StronglySorted R (l ++ [x]).
Proof.
  induction l as [|y l IH]; intros HS HF; cbn [app]; [repeat constructor|].
  apply StronglySorted_inv in HS as [H1 H2]. inversion HF; subst. constructor; auto.
  apply Forall_app. auto.
Qed.

Lemma merged_close width t E D :
  merged width (before t E) D -> rows_at t E <> [] -> (forall r, In r E -> (r_ts r <= t)%Z) ->
  Forall (fun r => length (r_cols r) = width) E ->
  merged width E (D ++ merge_same width (rows_at t E)).
Proof.
  intros (M1 & M2 & M3) Hne Hle Hw.
  destruct (merge_same_ok width (rows_at t E) t Hne) as (m & Em & T & L & C).
  - intros r Hr. apply rows_at_in in Hr. tauto.
  - apply Forall_forall. intros r Hr. apply rows_at_in in Hr. rewrite Forall_forall in Hw. apply Hw. tauto.
  - rewrite Em.
    assert (HD : forall r, In r D -> (r_ts r < t)%Z).
    { intros r Hr. assert (In (r_ts r) (map r_ts (before t E))) as HH by (apply M2; apply in_map; auto).
      apply in_map_iff in HH as (e & He & He2). apply before_in in He2. lia. }
    split; [|split].
    + apply ss_snoc; auto. apply Forall_forall. intros r Hr. rewrite T. auto.
    + intros u. rewrite map_app, in_app_iff, M2. cbn [map In]. split.
      * intros [H | [H | []]].
        -- apply in_map_iff in H as (e & He & He2). apply before_in in He2. apply in_map_iff. exists e. tauto.
        -- destruct (rows_at t E) as [|e l] eqn:Er; [congruence|].
           assert (In e (rows_at t E)) as HH by (rewrite Er; left; auto). apply rows_at_in in HH.
           apply in_map_iff. exists e. split; [lia|tauto].
      * intros H. apply in_map_iff in H as (e & He & He2). pose proof (Hle e He2).
        destruct (Z.eq_dec u t); [right; left; lia|left].
        apply in_map_iff. exists e. split; auto. apply before_in. split; auto. lia.
    + intros r Hr. apply in_app_iff in Hr as [Hr | [<- | []]].
      * destruct (M3 r Hr) as [L1 C1]. split; auto. intros c Hc. rewrite C1 by auto.
        rewrite before_rows_at; auto.
      * rewrite T. auto.
Qed.

(** the builder's state after the rows [E] have been pushed and [D] has been handed out *)
Definition bld_ok (width : nat) (E D : list mrow) (b : builder) : Prop :=
  match b_last b with
  | None => E = [] /\ b_same b = [] /\ D ++ b_out b = []
  | Some t => b_same b = rows_at t E /\ rows_at t E <> [] /\ (forall r, In r E -> (r_ts r <= t)%Z) /\
              merged width (before t E) (D ++ b_out b)
  end.
Lemma before_all t E : (forall r, In r E -> (r_ts r < t)%Z) -> before t E = E.
Proof.
  induction E as [|r E IH]; intros H; auto. unfold before in *. cbn [filter].
  destruct (Z.ltb_spec (r_ts r) t) as [L | L]; [rewrite IH; auto; intros; apply H; right; auto|].
  specialize (H r (or_introl eq_refl)). lia.
Qed.
Lemma merged_nil width : merged width [] [].
Proof. split; [constructor|split]; [cbn; tauto|]. intros r []. Qed.

Lemma push_row_ok width E D b r :
  bld_ok width E D b -> Forall (fun r => length (r_cols r) = width) (E ++ [r]) ->
  (forall e, In e E -> (r_ts e <= r_ts r)%Z) ->
  exists b', push_row width b r = Some b' /\ bld_ok width (E ++ [r]) D b' /\
             length (b_out b') <= S (length (b_out b)).
Proof.
  intros Hb Hw Hle. unfold push_row, bld_ok in *. destruct b as [last same out]. cbn [b_last b_same b_out] in *.
  apply Forall_app in Hw as [Hw _].
  assert (Hself : rows_at (r_ts r) [r] = [r]).
  { unfold rows_at. cbn [filter]. rewrite Z.eqb_refl. reflexivity. }
  assert (Hle' : forall e, In e (E ++ [r]) -> (r_ts e <= r_ts r)%Z).
  { intros e He. apply in_app_iff in He as [He | [<- | []]]; [auto|lia]. }
  assert (Hb1 : before (r_ts r) [r] = []).
  { unfold before. cbn [filter]. rewrite Z.ltb_irrefl. reflexivity. }
  assert (Hba : before (r_ts r) (E ++ [r]) = before (r_ts r) E).
  { unfold before in *. rewrite filter_app, Hb1, app_nil_r. reflexivity. }
  destruct last as [t|].
  - destruct Hb as (B1 & B2 & B3 & B4).
    assert (Ht : (t <= r_ts r)%Z).
    { destruct (rows_at t E) as [|e l] eqn:Er; [congruence|].
      assert (In e (rows_at t E)) as HH by (rewrite Er; left; auto). apply rows_at_in in HH as [H1 H2].
      rewrite <- H2. auto. }
    destruct (Z.compare_spec t (r_ts r)) as [Et | Lt | Gt]; [| |lia].
    + eexists. split; [reflexivity|]. cbn [b_last b_same b_out]. rewrite <- Et in *.
      sp; auto.
      * rewrite rows_at_app, Hself, B1. reflexivity.
      * rewrite rows_at_app, Hself. intros H. destruct (rows_at t E); discriminate.
      * rewrite Hba. auto.
    + eexists. split; [reflexivity|]. unfold take_last. cbn [b_last b_same b_out].
      assert (Hall : forall e, In e E -> (r_ts e < r_ts r)%Z) by (intros e He; specialize (B3 e He); lia).
      sp; auto.
      * rewrite rows_at_app, Hself, rows_at_nil; auto. intros e He. specialize (Hall e He). lia.
      * rewrite rows_at_app, Hself. intros H. destruct (rows_at (r_ts r) E); discriminate.
      * rewrite Hba, before_all by auto. rewrite app_assoc, B1. apply merged_close; auto.
      * rewrite app_length. assert (length (merge_same width same) <= 1); [|lia].
        destruct same as [|? [|? ?]]; cbn; lia.
  - destruct Hb as (-> & -> & B3). eexists. split; [reflexivity|]. cbn [b_last b_same b_out app].
    sp; auto.
    + rewrite Hself. discriminate.
    + cbn [app] in Hba. rewrite Hb1. rewrite B3. apply merged_nil.
Qed.

(** ** The whole run *)
Definition inv (width n : nat) (L E D : list mrow) (st : mstate) : Prop :=
  shape n st /\ tree_ok n st /\ (forall i, i < n -> StronglySorted tsle (rem_i st i)) /\
  Forall (fun r => length (r_cols r) = width) (E ++ rems n st) /\
  (forall t, rows_at t E ++ rows_at t (rems n st) = rows_at t L) /\
  (forall e r, In e E -> In r (rems n st) -> (r_ts e <= r_ts r)%Z) /\
  bld_ok width E D (m_bld st).

Lemma in_rems n st i x : i < n -> In x (rem_i st i) -> In x (rems n st).
Proof. intros Hi Hx. unfold rems. apply in_concat. exists (rem_i st i). split; auto. apply in_map, in_seq. lia. Qed.
Lemma rems_in n st x : In x (rems n st) -> exists i, i < n /\ In x (rem_i st i).
Proof.
  intros H. unfold rems in H. apply in_concat in H as (l & Hl & Hx). apply in_map_iff in Hl as (i & <- & Hi).
  apply in_seq in Hi. exists i. split; [lia|auto].
Qed.

Definition taken (i : nat) (rest : list mrow) (s : mstate) (b : builder) : mstate :=
  MS (m_tree s) false (set_nth i (match rest with [] => None | _ => Some rest end) (m_cur s)) (m_src s) b.
Lemma merged_rows width E L out : (forall t, rows_at t E = rows_at t L) -> merged width E out -> merged width L out.
Proof.
  intros HR (M1 & M2 & M3). split; [auto|split].
  - intros t. rewrite M2. rewrite !in_map_iff. 
    assert (forall l, (exists x, r_ts x = t /\ In x l) <-> rows_at t l <> []) as HH.
    { intros l. split.
      - intros (x & E1 & E2) E3. assert (In x (rows_at t l)) by (apply rows_at_in; auto). rewrite E3 in H. destruct H.
      - destruct (rows_at t l) as [|x l'] eqn:El; [congruence|]. intros _. exists x.
        assert (In x (rows_at t l)) as HI by (rewrite El; left; auto). apply rows_at_in in HI. tauto. }
    rewrite !HH, HR. tauto.
  - intros r Hr. destruct (M3 r Hr) as [A B]. split; auto. intros c Hc. rewrite B, HR by auto. reflexivity.
Qed.

(** taking the winner's first row keeps the invariant *)
Lemma take_inv width n L E D s w r rest b :
  1 <= n -> shape n s -> length (m_tree s) = n -> tget (m_tree s) 0 = Some w -> w < n ->
  vt n (kle (m_cur s)) (m_tree s) 1 w ->
  (forall i, i < n -> cur_at (m_cur s) i = None -> rem_i s i = []) ->
  (forall i, i < n -> StronglySorted tsle (rem_i s i)) ->
  Forall (fun r => length (r_cols r) = width) (E ++ rems n s) ->
  (forall t, rows_at t E ++ rows_at t (rems n s) = rows_at t L) ->
  (forall e r, In e E -> In r (rems n s) -> (r_ts e <= r_ts r)%Z) ->
  cur_at (m_cur s) w = Some (r :: rest) ->
  bld_ok width (E ++ [r]) D b ->
  inv width n L (E ++ [r]) D (taken w rest s b) /\ length (rems n s) = S (length (rems n (taken w rest s b))).
Proof.
  intros Hn Hsh Hl Hw Hwn Hv Hex Hso Hwid Hrows Hord Hcur Hb.
  pose proof (winner_first n s w r rest Hsh Hv Hex Hso Hcur) as [F1 F2].
  destruct Hsh as (Hc & Hs & W).
  set (s' := taken w rest s b).
  assert (R1 : forall j, j <> w -> rem_i s' j = rem_i s j).
  { intros j Hj. unfold rem_i, s', taken, cur_at. cbn [m_cur m_src]. rewrite nth_set_other by lia. reflexivity. }
  assert (R2 : rem_i s w = r :: rem_i s' w).
  { unfold rem_i, s', taken, cur_at in *. cbn [m_cur m_src]. rewrite nth_set_same by lia. rewrite Hcur. destruct rest; reflexivity. }
  assert (Rs : rems n s = concat (map (rem_i s) (seq 0 w)) ++ r :: rem_i s' w ++ concat (map (rem_i s) (seq (S w) (n - S w)))).
  { rewrite (rems_split n s w Hwn), R2. reflexivity. }
  assert (Rs' : rems n s' = concat (map (rem_i s) (seq 0 w)) ++ rem_i s' w ++ concat (map (rem_i s) (seq (S w) (n - S w)))).
  { rewrite (rems_split n s' w Hwn). f_equal; [|f_equal]; f_equal; apply map_ext_in; intros j Hj; apply in_seq in Hj; apply R1; lia. }
  assert (Hin : forall x, In x (rems n s') -> In x (rems n s)).
  { intros x. rewrite Rs, Rs', !in_app_iff. cbn [In]. rewrite in_app_iff. tauto. }
  assert (Hlen : length (rems n s) = S (length (rems n s'))).
  { rewrite Rs, Rs', !app_length. cbn [length]. rewrite !app_length. lia. }
  split; [|exact Hlen].
  split; [|split; [|split; [|split; [|split; [|split]]]]].
  - split; [|split]; unfold s', taken; cbn [m_cur m_src]; auto.
    + rewrite set_nth_len; lia.
    + intros j. unfold cur_at. destruct (Nat.eq_dec j w) as [-> | Hne].
      * rewrite nth_set_same by lia. destruct rest; congruence.
      * rewrite nth_set_other by lia. apply W.
  - split; [exact Hl|]. exists w. sp; auto. exists (kle (m_cur s)). sp; auto.
    + intros a b' Ha Hb' K. unfold kle, headts, cur_at, s', taken in *. cbn [m_cur].
      rewrite !nth_set_other by lia. exact K.
    + intros i Hi Hne HN. rewrite R1 by auto. apply Hex; auto.
      unfold s', taken, cur_at in HN. cbn [m_cur] in HN. rewrite nth_set_other in HN by lia. exact HN.
    + unfold s', taken. cbn [m_adj]. discriminate.
  - intros i Hi. destruct (Nat.eq_dec i w) as [-> | Hne].
    + specialize (Hso w Hi). rewrite R2 in Hso. apply StronglySorted_inv in Hso. tauto.
    + rewrite R1; auto.
  - rewrite Forall_forall in *. intros x Hx. apply Hwid. rewrite <- app_assoc in Hx. cbn [app] in Hx.
    apply in_app_iff in Hx as [Hx | [<- | Hx]]; apply in_app_iff; [left; auto | right | right; auto].
    rewrite Rs. apply in_app_iff. right. left. auto.
  - intros t. rewrite <- Hrows, rows_at_app, <- app_assoc. f_equal.
    rewrite Rs, Rs'.
    assert (Hcons : forall l, rows_at t (r :: l) = rows_at t [r] ++ rows_at t l) by (intros l; apply (rows_at_app t [r] l)).
    rewrite !rows_at_app, (Hcons (rem_i s' w ++ _)), ?rows_at_app.
    destruct (Z.eq_dec (r_ts r) t) as [Et | Nt].
    + rewrite (rows_at_nil t (concat (map (rem_i s) (seq 0 w)))); [reflexivity|].
      intros x Hx. apply in_concat in Hx as (l & Hl1 & Hx). apply in_map_iff in Hl1 as (i & <- & Hi).
      apply in_seq in Hi. specialize (F2 i x ltac:(lia) Hx). lia.
    + rewrite (rows_at_nil t [r]); [reflexivity|]. intros x [<- | []]. auto.
  - intros e x He Hx. apply Hin in Hx. apply in_app_iff in He as [He | [<- | []]]; auto.
    apply rems_in in Hx as (i & Hi & Hx). apply (F1 i x Hi Hx).
  - exact Hb.
Qed.

Lemma build_some b : b_out b <> [] -> build b = (Some (b_out b), BB (b_last b) (b_same b) []).
Proof. unfold build. destruct (b_out b); congruence. Qed.

Lemma drain_ok width n bs L : 1 <= n -> 1 <= bs ->
  forall k st E D, inv width n L E D st -> length (rems n st) = k -> length (b_out (m_bld st)) < bs ->
  exists batches,
    (forall fuel, k + 2 <= fuel -> drain fuel width bs st = Some batches) /\
    merged width L (D ++ concat batches) /\
    Forall (fun b => 1 <= length b <= bs) batches.
Proof.
  intros Hn Hbs. induction k as [|k IH]; intros st E D (I1 & I2 & I3 & I4 & I5 & I6 & I7) Hk Hout.
  all: destruct (adjusted_ok n st Hn I1 I2) as (A1 & A2 & A3 & A4 & A5 & w & A6 & A7 & A8 & A9).
  all: assert (Er : rems n (adjusted st) = rems n st) by (apply rems_ext; auto).
  all: assert (Hw0 : exists w0, tget (m_tree st) 0 = Some w0) by (destruct I2 as (_ & w0 & ? & _); eauto).
  all: destruct Hw0 as [w0 Hw0].
  all: assert (Hpass : pass width bs st =
      match cur_at (m_cur (adjusted st)) w with
      | Some (r :: rest) =>
          match push_row width (m_bld st) r with
          | None => Fail
          | Some b => if Nat.ltb (length (b_out b)) bs then Cont (taken w rest (adjusted st) b)
                      else let '(o, b') := build b in Ret o (taken w rest (adjusted st) b')
          end
      | _ => let '(o, b') := build (take_last width (m_bld st)) in
             Ret o (MS (m_tree (adjusted st)) true (m_cur (adjusted st)) (m_src (adjusted st)) b')
      end).
  1, 3: unfold pass; unfold adjusted at 1 2 3 4 5 6 7; rewrite Hw0;
        unfold adjusted in A2, A3, A6; rewrite Hw0 in A2, A3, A6; cbn zeta in *;
        rewrite A6; unfold adjusted; rewrite Hw0; cbn zeta; rewrite A2, A3; reflexivity.
  - (* nothing left *)
    assert (Hnil : rems n st = []) by (destruct (rems n st); [auto | discriminate]).
    assert (HwN : cur_at (m_cur (adjusted st)) w = None).
    { destruct (cur_at (m_cur (adjusted st)) w) as [l|] eqn:Ew; auto.
      destruct A1 as (_ & _ & W). destruct l as [|r l]; [destruct (W w Ew)|].
      assert (In r (rems n (adjusted st))) as HH.
      { apply in_rems with w; auto. unfold rem_i. rewrite Ew. left. auto. }
      rewrite Er, Hnil in HH. destruct HH. }
    rewrite HwN in Hpass.
    assert (HL : forall t, rows_at t E = rows_at t L).
    { intros t. rewrite <- I5, Hnil. cbn [rows_at filter]. symmetry. apply app_nil_r. }
    set (out := b_out (take_last width (m_bld st))) in *.
    assert (Hm : merged width L (D ++ out)).
    { apply merged_rows with E; auto. unfold bld_ok in I7. unfold out, take_last. cbn [b_out].
      destruct (b_last (m_bld st)) as [t|].
      - destruct I7 as (B1 & B2 & B3 & B4). rewrite app_assoc, B1. apply merged_close; auto.
        apply Forall_app in I4. tauto.
      - destruct I7 as (-> & -> & B3). cbn [merge_same]. rewrite app_nil_r, B3. apply merged_nil. }
    assert (Hlo : length out <= bs).
    { unfold out, take_last. cbn [b_out]. rewrite app_length.
      assert (length (merge_same width (b_same (m_bld st))) <= 1); [|lia].
      destruct (b_same (m_bld st)) as [|? [|? ?]]; cbn; lia. }
    destruct out as [|o1 out'] eqn:Eo.
    + exists []. split; [|split; [exact Hm | constructor]].
      intros fuel Hf. destruct fuel as [|fuel]; [lia|]. cbn [drain]. rewrite Hpass.
      unfold build. fold out. rewrite Eo. reflexivity.
    + exists [o1 :: out']. split; [|split].
      * intros fuel Hf. destruct fuel as [|[|fuel]]; [lia|lia|]. cbn [drain]. rewrite Hpass.
        rewrite build_some by (fold out; rewrite Eo; discriminate). fold out. rewrite Eo.
        set (st2 := MS _ _ _ _ _).
        assert (Hp2 : pass width bs st2 = Ret None st2).
        { unfold pass, st2. cbn [m_tree m_adj m_cur m_src m_bld]. rewrite A6. cbn iota. cbn zeta.
          cbn [m_tree m_adj m_cur m_src m_bld]. rewrite HwN.
          unfold build, take_last. cbn [b_last b_same b_out merge_same app]. reflexivity. }
        rewrite Hp2. reflexivity.
      * cbn [concat]. rewrite app_nil_r. auto.
      * constructor; [|constructor]. cbn [length] in *. lia.
  - (* one row *)
    destruct (cur_at (m_cur (adjusted st)) w) as [[|r rest]|] eqn:Ew.
    { destruct A1 as (_ & _ & W). destruct (W w Ew). }
    2: { pose proof (winner_none n _ w A1 A8 A9 Ew) as HH. rewrite Er in HH. rewrite HH in Hk. discriminate. }
    assert (Hrin : In r (rems n st)).
    { rewrite <- Er. apply in_rems with w; auto. unfold rem_i. rewrite Ew. left. auto. }
    destruct (push_row_ok width E D (m_bld st) r) as (b & Hpush & Hb & Hlb); auto.
    { rewrite Forall_forall in *. intros x Hx. apply I4. apply in_app_iff in Hx as [Hx | [<- | []]]; apply in_app_iff; auto. }
    rewrite Hpush in Hpass.
    assert (Hso : forall i, i < n -> StronglySorted tsle (rem_i (adjusted st) i)) by (intros i Hi; rewrite A4; auto).
    rewrite <- Er in I4, I5, I6, Hk.
    destruct (Nat.ltb_spec (length (b_out b)) bs) as [Hlt | Hge].
    + destruct (take_inv width n L E D (adjusted st) w r rest b) as [T1 T2]; auto.
      destruct (IH _ _ _ T1) as (bats & B1 & B2 & B3); [lia | exact Hlt |].
      exists bats. sp; auto. intros fuel Hf. destruct fuel as [|fuel]; [lia|]. cbn [drain].
      rewrite Hpass. apply B1. lia.
    + assert (Hne : b_out b <> []) by (intros HH; rewrite HH in Hge; cbn [length] in Hge; lia).
      rewrite build_some in Hpass by auto.
      assert (Hb' : bld_ok width (E ++ [r]) (D ++ b_out b) (BB (b_last b) (b_same b) [])).
      { unfold bld_ok in *. cbn [b_last b_same b_out]. rewrite app_nil_r. exact Hb. }
      destruct (take_inv width n L E (D ++ b_out b) (adjusted st) w r rest _ Hn A1 A5 A6 A7 A8 A9 Hso I4 I5 I6 Ew Hb') as [T1 T2].
      destruct (IH _ _ _ T1) as (bats & B1 & B2 & B3); [lia | cbn [taken m_bld b_out length]; lia |].
      exists (b_out b :: bats). sp.
      * intros fuel Hf. destruct fuel as [|fuel]; [lia|]. cbn [drain]. rewrite Hpass, B1 by lia. reflexivity.
      * cbn [concat]. rewrite app_assoc. auto.
      * constructor; [lia|auto].
Qed.

Lemma start_rem streams n i : length streams = n -> i < n ->
  rem_i (MS [] false (repeat None n) streams (BB None [] [])) i = rows_of (nth i streams []).
Proof.
  intros Hl Hi. unfold rem_i, cur_at. cbn [m_cur m_src].
  destruct (nth_in_or_default i (repeat (@None (list mrow)) n) None) as [H | H].
  - apply repeat_spec in H. rewrite H. reflexivity.
  - rewrite H. reflexivity.
Qed.
Lemma map_nth_seq {A B} (f : A -> B) (l : list A) d : map (fun i => f (nth i l d)) (seq 0 (length l)) = map f l.
Proof.
  induction l as [|x l IH]; cbn [length seq map nth]; auto. f_equal.
  rewrite <- seq_shift, map_map. exact IH.
Qed.

Lemma sort_merge_ok width bs streams :
  streams <> [] -> 1 <= bs -> Forall (stream_ok width) streams ->
  exists batches,
    (forall fuel, length (all_rows streams) + 2 <= fuel -> sort_merge fuel width bs streams = Some batches) /\
    merged width (all_rows streams) (concat batches) /\
    Forall (fun b => 1 <= length b <= bs) batches.
Proof.
  intros Hne Hbs Hok. set (n := length streams).
  assert (Hn : 1 <= n) by (unfold n; destruct streams; [congruence | cbn; lia]).
  set (s0 := MS [] false (repeat None n) streams (BB None [] [])).
  assert (Hsh0 : shape n s0).
  { split; [|split]; cbn [s0 m_cur m_src]; auto; [apply repeat_length|].
    intros i. unfold cur_at. destruct (nth_in_or_default i (repeat (@None (list mrow)) n) None) as [H | H].
    - apply repeat_spec in H. rewrite H. discriminate.
    - rewrite H. discriminate. }
  destruct (polls_ok n n 0 s0 Hsh0 ltac:(lia) ltac:(intros; lia)) as (P1 & P2 & P3 & P4).
  set (s := fold_left (fun st i => maybe_poll i st) (seq 0 n) s0) in *.
  assert (Hrem : forall i, i < n -> rem_i s i = rows_of (nth i streams [])).
  { intros i Hi. rewrite P3. apply start_rem; auto. }
  assert (Hrems : rems n s = all_rows streams).
  { unfold rems, all_rows. f_equal. rewrite <- (map_nth_seq rows_of streams []). fold n.
    apply map_ext_in. intros i Hi. apply in_seq in Hi. apply Hrem. lia. }
  destruct (init_tree_ok (m_cur s)) as (T1 & w & T2 & T3); [apply P1 | destruct P1 as (-> & _); auto |].
  assert (Hlc : length (m_cur s) = n) by apply P1. rewrite Hlc in T1, T3.
  rewrite Forall_forall in Hok.
  assert (Hst : forall i, i < n -> stream_ok width (nth i streams [])) by (intros i Hi; apply Hok; apply nth_In; auto).
  destruct (drain_ok width n bs (all_rows streams) Hn Hbs (length (all_rows streams)) (start streams) [] []) as (bats & B1 & B2 & B3).
  - unfold start. fold n. fold s0. fold s. cbn zeta.
    split; [|split; [|split; [|split; [|split; [|split]]]]].
    + exact P1.
    + split; [exact T1|]. exists w. cbn [m_tree m_adj m_cur]. sp; auto; [apply (vt_under _ _ _ _ _ T3)|].
      exists (kle (m_cur s)). split; [exact T3 | split; [auto | split]].
      * intros i Hi _ HN. apply (P4 i); auto.
      * intros _. split; [exact T3|]. intros HN. apply (P4 w); auto. apply (vt_under _ _ _ _ _ T3).
    + intros i Hi. change (StronglySorted tsle (rem_i s i)). rewrite Hrem by auto. apply (Hst i Hi).
    + cbn [app]. change (rems n (MS _ _ _ _ _)) with (rems n s). rewrite Hrems. unfold all_rows.
      apply Forall_forall. intros x Hx. apply in_concat in Hx as (l & Hl & Hx). apply in_map_iff in Hl as (st & <- & Hs).
      destruct (Hok st Hs) as [_ Hf]. rewrite Forall_forall in Hf. auto.
    + intros t. change (rems n (MS _ _ _ _ _)) with (rems n s). rewrite Hrems. reflexivity.
    + intros e r [].
    + cbn [m_bld]. rewrite P2. cbn [s0 m_bld]. unfold bld_ok. cbn [b_last b_same b_out]. auto.
  - change (length (rems n s) = length (all_rows streams)). rewrite Hrems. reflexivity.
  - unfold start. fold n. fold s0. fold s. cbn zeta. cbn [m_bld]. rewrite P2. cbn. lia.
  - exists bats. sp; auto.
Qed.

(** ** The merge is unique *)
Lemma merged_unique width L o1 o2 : merged width L o1 -> merged width L o2 -> o1 = o2.
Proof.
  intros (S1 & T1 & C1) (S2 & T2 & C2).
  assert (HT : forall t, In t (map r_ts o1) <-> In t (map r_ts o2)) by (intros t; rewrite T1, T2; tauto).
  clear T1 T2. revert o2 S2 C2 HT. induction o1 as [|a o1 IH]; intros [|b o2] S2 C2 HT; auto.
  - destruct (proj2 (HT (r_ts b)) (or_introl eq_refl)).
  - destruct (proj1 (HT (r_ts a)) (or_introl eq_refl)).
  - apply StronglySorted_inv in S1 as [S1 F1]. apply StronglySorted_inv in S2 as [S2 F2].
    rewrite Forall_forall in F1, F2. cbn [map] in HT.
    assert (Et : r_ts a = r_ts b).
    { destruct (proj1 (HT (r_ts a)) (or_introl eq_refl)) as [H | H]; [auto|].
      destruct (proj2 (HT (r_ts b)) (or_introl eq_refl)) as [H' | H']; [auto|].
      apply in_map_iff in H as (x & Ex & Hx). apply in_map_iff in H' as (y & Ey & Hy).
      specialize (F1 y Hy). specialize (F2 x Hx). lia. }
    assert (Eab : a = b).
    { destruct (C1 a (or_introl eq_refl)) as [La Ca]. destruct (C2 b (or_introl eq_refl)) as [Lb Cb].
      destruct a as [ta ca], b as [tb cb]. cbn [r_ts r_cols] in *. subst tb. f_equal.
      apply nth_ext with None None; [congruence|]. intros c Hc. rewrite La in Hc.
      specialize (Ca c Hc). specialize (Cb c Hc). unfold col at 1 in Ca. unfold col at 1 in Cb. cbn [r_cols] in Ca, Cb. congruence. }
    subst b. f_equal. apply IH; auto.
    + intros r Hr. apply C1. right. auto.
    + intros r Hr. apply C2. right. auto.
    + intros t. split; intros H.
      * destruct (proj1 (HT t) (or_intror H)) as [<- | H']; auto.
        apply in_map_iff in H as (x & Ex & Hx). specialize (F1 x Hx). lia.
      * destruct (proj2 (HT t) (or_intror H)) as [<- | H']; auto.
        apply in_map_iff in H as (x & Ex & Hx). specialize (F2 x Hx). lia.
Qed.
