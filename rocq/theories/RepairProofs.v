(** Proofs about timestamp_repair: the table holds the cheapest costs, the walk back reads off a cheapest repair. *)
From Coq Require Import QArith Qround.
From Verif Require Import Prelude RepairModel RepairSpec.
Open Scope Z_scope.

Notation K := 100000000000 (only parsing).

(** ** The table as a function of the two indices *)
Fixpoint tc (start d : Z) (ts : list Z) (i : nat) : nat -> Z * op :=
  match i with
  | O => fun j => (addcost * Z.of_nat j, Remove)
  | S i' => fix h (j : nat) : Z * op :=
      match j with
      | O => (addcost * Z.of_nat (S i'), Insert)
      | S j' => cell (start + d * Z.of_nat i') (nth j' ts 0) (tc start d ts i' j') (tc start d ts i' (S j')) (h j')
      end
  end.

Lemma fill_row_tc start d ts i' : forall k r,
  length r = k -> (k <= length ts)%nat -> r = skipn (length ts - k) ts ->
  fill_row (start + d * Z.of_nat i') r (map (tc start d ts i') (seq (length ts - k) (S k)))
    (tc start d ts (S i') (length ts - k))
  = map (tc start d ts (S i')) (seq (S (length ts - k)) k).
Proof.
  induction k as [|k IH]; intros r L Hk E.
  - destruct r; [reflexivity|discriminate].
  - destruct r as [|t r]; [discriminate|].
    assert (Et : nth (length ts - S k) ts 0 = t).
    { rewrite <- (firstn_skipn (length ts - S k) ts) at 2. rewrite <- E.
      rewrite app_nth2; rewrite firstn_length_le; try lia. rewrite Nat.sub_diag. reflexivity. }
    cbn [seq map fill_row].
    change (cell (start + d * Z.of_nat i') t (tc start d ts i' (length ts - S k)) (tc start d ts i' (S (length ts - S k)))
              (tc start d ts (S i') (length ts - S k)))
      with (cell (start + d * Z.of_nat i') t (tc start d ts i' (length ts - S k)) (tc start d ts i' (S (length ts - S k)))
              (tc start d ts (S i') (length ts - S k))).
    assert (C : cell (start + d * Z.of_nat i') t (tc start d ts i' (length ts - S k)) (tc start d ts i' (S (length ts - S k)))
              (tc start d ts (S i') (length ts - S k)) = tc start d ts (S i') (S (length ts - S k))).
    { cbn [tc]. rewrite Et. reflexivity. }
    rewrite C. replace (S (length ts - S k)) with (length ts - k)%nat by lia.
    f_equal.
    assert (E2 : r = skipn (length ts - k) ts).
    { replace (length ts - k)%nat with (S (length ts - S k)) by lia.
      assert (Q1 : forall (l : list Z) a, skipn (S a) l = tl (skipn a l)).
      { intros l. induction l as [|x l IHl]; intros [|a]; cbn; auto. rewrite <- (IHl a). destruct l; reflexivity. }
      rewrite Q1, <- E. reflexivity. }
    apply (IH r ltac:(cbn in L; lia) ltac:(lia) E2).
Qed.

Lemma fill_row_whole start d ts i' :
  fill_row (start + d * Z.of_nat i') ts (map (tc start d ts i') (seq 0 (S (length ts)))) (tc start d ts (S i') 0)
  = map (tc start d ts (S i')) (seq 1 (length ts)).
Proof.
  assert (H := fill_row_tc start d ts i' (length ts) ts eq_refl (Nat.le_refl _)).
  rewrite Nat.sub_diag in H. apply H. reflexivity.
Qed.

Lemma table_tc start d ts : forall n i row,
  row = map (tc start d ts i) (seq 0 (S (length ts))) ->
  table start d ts row (S i) n = map (fun k => map (tc start d ts k) (seq 0 (S (length ts)))) (seq (S i) n).
Proof.
  induction n as [|n IH]; intros i row E; [reflexivity|].
  cbn [table seq map]. subst row.
  replace (S i - 1)%nat with i by lia.
  change (addcost * Z.of_nat (S i), Insert) with (tc start d ts (S i) 0).
  rewrite fill_row_whole.
  assert (R : tc start d ts (S i) 0 :: map (tc start d ts (S i)) (seq 1 (length ts))
              = map (tc start d ts (S i)) (seq 0 (S (length ts)))) by reflexivity.
  rewrite R. f_equal. apply IH. reflexivity.
Qed.

Lemma whole_table_tc start d ts n :
  whole_table start d ts n = map (fun k => map (tc start d ts k) (seq 0 (S (length ts)))) (seq 0 (S n)).
Proof.
  unfold whole_table.
  assert (H := table_tc start d ts n 0%nat (map (fun j : nat => (addcost * Z.of_nat j, Remove)) (seq 0 (S (length ts)))) eq_refl).
  cbv zeta. rewrite H. reflexivity.
Qed.

Lemma nth_map_seq {A} (f : nat -> A) (dflt : A) : forall n s k, (k < n)%nat -> nth k (map f (seq s n)) dflt = f (s + k)%nat.
Proof.
  induction n as [|n IH]; intros s k H; [lia|].
  destruct k; cbn [seq map nth]; [f_equal; lia|]. rewrite IH by lia. f_equal. lia.
Qed.

Lemma step_at_tc start d ts n i j : (i <= n)%nat -> (j <= length ts)%nat ->
  step_at (whole_table start d ts n) i j = snd (tc start d ts i j).
Proof.
  intros Hi Hj. unfold step_at. rewrite whole_table_tc, nth_map_seq by lia. cbn [Nat.add].
  rewrite nth_map_seq by lia. reflexivity.
Qed.

(** ** Costs *)
Section Costs.
Variables (start d : Z) (ts : list Z).
Let f i j := fst (tc start d ts i j).
Let p i := start + d * Z.of_nat i.
Let t j := nth j ts 0.

Lemma f0 j : f 0 j = K * Z.of_nat j. Proof. reflexivity. Qed.
Lemma fi0 i : f i 0 = K * Z.of_nat i. Proof. destruct i; reflexivity. Qed.
Lemma fS i j : f (S i) (S j) =
  if t j =? p i then f i j
  else let c := if f i (S j) <? f (S i) j then f i (S j) + K else f (S i) j + K in
       let m := f i j + Z.abs (t j - p i) in if m <? c then m else c.
Proof.
  unfold f at 1. cbn [tc]. unfold cell. fold (t j) (p i). destruct (t j =? p i); [reflexivity|].
  fold (f i (S j)). change ((fix h (j0 : nat) : Z * op := _) j) with (tc start d ts (S i) j). fold (f (S i) j) (f i j).
  cbv zeta. unfold addcost. destruct (f i (S j) <? f (S i) j); cbn [fst];
    match goal with |- context [if ?a then _ else _] => destruct a end; reflexivity.
Qed.

Lemma lipschitz : forall s i j, (i + j <= s)%nat ->
  f i j <= f i (S j) + K /\ f i j <= f (S i) j + K /\ f (S i) j <= f i j + K /\ f i (S j) <= f i j + K.
Proof.
  induction s as [|s IH]; intros i j Hs.
  - assert (i = O) by lia. assert (j = O) by lia. subst. rewrite !f0, !fi0. lia.
  - assert (HC : f (S i) j <= f i j + K).
    { destruct j as [|j]; [rewrite !fi0; lia|]. rewrite fS. destruct (t j =? p i) eqn:E.
      - assert (H := IH i j ltac:(lia)). lia.
      - cbv zeta. destruct (f i (S j) <? f (S i) j) eqn:E1;
          match goal with |- (if ?a then _ else _) <= _ => destruct a eqn:E2 end; lia. }
    assert (HD : f i (S j) <= f i j + K).
    { destruct i as [|i]; [rewrite !f0; lia|]. rewrite fS. destruct (t j =? p i) eqn:E.
      - assert (H := IH i j ltac:(lia)). lia.
      - cbv zeta. destruct (f i (S j) <? f (S i) j) eqn:E1;
          match goal with |- (if ?a then _ else _) <= _ => destruct a eqn:E2 end; lia. }
    assert (HA : f i j <= f i (S j) + K).
    { destruct i as [|i]; [rewrite !f0; lia|]. assert (H := IH i j ltac:(lia)). rewrite fS. destruct (t j =? p i) eqn:E; [lia|].
      cbv zeta. destruct (f i (S j) <? f (S i) j) eqn:E1;
          match goal with |- _ <= (if ?a then _ else _) + _ => destruct a eqn:E2 end; lia. }
    assert (HB : f i j <= f (S i) j + K).
    { destruct j as [|j]; [rewrite !fi0; lia|]. assert (H := IH i j ltac:(lia)). rewrite fS. destruct (t j =? p i) eqn:E; [lia|].
      cbv zeta. destruct (f i (S j) <? f (S i) j) eqn:E1;
          match goal with |- _ <= (if ?a then _ else _) + _ => destruct a eqn:E2 end; lia. }
    auto.
Qed.

Lemma f_move i j : f (S i) (S j) <= f i j + Z.abs (t j - p i).
Proof.
  rewrite fS. destruct (t j =? p i); [lia|]. cbv zeta.
  match goal with |- (if ?a then _ else _) <= _ => destruct a eqn:E2 end; lia.
Qed.
Lemma f_add i j : f (S i) j <= f i j + K. Proof. apply (lipschitz (i + j) i j). lia. Qed.
Lemma f_leave i j : f i (S j) <= f i j + K. Proof. apply (lipschitz (i + j) i j). lia. Qed.
End Costs.

(** ** Repairs, taken apart at their end *)
Lemma snoc_move g rs out c p t v : repair g rs out c -> repair (g ++ [p]) (rs ++ [(t, v)]) (out ++ [(p, v)]) (c + Z.abs (t - p)).
Proof.
  induction 1; cbn [app].
  - replace (0 + Z.abs (t - p)) with (Z.abs (t - p) + 0) by lia. constructor. constructor.
  - rewrite <- Z.add_assoc. constructor. assumption.
  - rewrite <- Z.add_assoc. constructor. assumption.
  - rewrite <- Z.add_assoc. constructor. assumption.
Qed.
Lemma snoc_add g rs out c p : repair g rs out c -> repair (g ++ [p]) rs (out ++ [(p, NaN)]) (c + K).
Proof.
  induction 1; cbn [app].
  - apply (r_add p [] [] [] 0). constructor.
  - rewrite <- Z.add_assoc. constructor. assumption.
  - rewrite <- Z.add_assoc. constructor. assumption.
  - rewrite <- Z.add_assoc. constructor. assumption.
Qed.
Lemma snoc_leave g rs out c r : repair g rs out c -> repair g (rs ++ [r]) out (c + K).
Proof.
  induction 1; cbn [app].
  - apply (r_leave r [] [] [] 0). constructor.
  - rewrite <- Z.add_assoc. constructor. assumption.
  - rewrite <- Z.add_assoc. constructor. assumption.
  - rewrite <- Z.add_assoc. constructor. assumption.
Qed.

Lemma repair_end g rs out c : repair g rs out c ->
  (g = [] /\ rs = [] /\ c = 0)
  \/ (exists g' p rs' t v out' c', g = g' ++ [p] /\ rs = rs' ++ [(t, v)] /\ c = c' + Z.abs (t - p) /\ repair g' rs' out' c')
  \/ (exists g' p out' c', g = g' ++ [p] /\ c = c' + K /\ repair g' rs out' c')
  \/ (exists rs' r out' c', rs = rs' ++ [r] /\ c = c' + K /\ repair g rs' out' c').
Proof.
  induction 1 as [|p t v g rs out c H IH|p g rs out c H IH|r g rs out c H IH].
  - auto.
  - right. destruct IH as [(-> & -> & ->)|[(g' & p' & rs' & t' & v' & out' & c' & -> & -> & -> & R)
      |[(g' & p' & out' & c' & -> & -> & R)|(rs' & r' & out' & c' & -> & -> & R)]]].
    + left. exists [], p, [], t, v, [], 0. repeat split; try reflexivity. lia. constructor.
    + left. exists (p :: g'), p', ((t, v) :: rs'), t', v', ((p, v) :: out'), (Z.abs (t - p) + c').
      repeat split; try reflexivity. lia. constructor. exact R.
    + right. left. exists (p :: g'), p', ((p, v) :: out'), (Z.abs (t - p) + c'). repeat split; try reflexivity. lia. constructor. exact R.
    + right. right. exists ((t, v) :: rs'), r', ((p, v) :: out'), (Z.abs (t - p) + c'). repeat split; try reflexivity. lia. constructor. exact R.
  - right. destruct IH as [(-> & -> & ->)|[(g' & p' & rs' & t' & v' & out' & c' & -> & -> & -> & R)
      |[(g' & p' & out' & c' & -> & -> & R)|(rs' & r' & out' & c' & -> & -> & R)]]].
    + right. left. exists [], p, [], 0. repeat split; try reflexivity. constructor.
    + left. exists (p :: g'), p', rs', t', v', ((p, NaN) :: out'), (K + c').
      repeat split; try reflexivity. lia. constructor. exact R.
    + right. left. exists (p :: g'), p', ((p, NaN) :: out'), (K + c'). repeat split; try reflexivity. lia. constructor. exact R.
    + right. right. exists rs', r', ((p, NaN) :: out'), (K + c'). repeat split; try reflexivity. lia. constructor. exact R.
  - right. destruct IH as [(-> & -> & ->)|[(g' & p' & rs' & t' & v' & out' & c' & -> & -> & -> & R)
      |[(g' & p' & out' & c' & -> & -> & R)|(rs' & r' & out' & c' & -> & -> & R)]]].
    + right. right. exists [], r, [], 0. repeat split; try reflexivity. constructor.
    + left. exists g', p', (r :: rs'), t', v', out', (K + c').
      repeat split; try reflexivity. lia. constructor. exact R.
    + right. left. exists g', p', out', (K + c'). repeat split; try reflexivity. lia. constructor. exact R.
    + right. right. exists (r :: rs'), r', out', (K + c'). repeat split; try reflexivity. lia. constructor. exact R.
Qed.

Lemma grid_S start d n : grid start d (S n) = grid start d n ++ [start + d * Z.of_nat n].
Proof. unfold grid. rewrite seq_S, map_app. reflexivity. Qed.
Lemma grid_length start d n : length (grid start d n) = n.
Proof. unfold grid. rewrite map_length, seq_length. reflexivity. Qed.

Lemma firstn_S_nth {A} (dflt : A) : forall l j, (j < length l)%nat -> firstn (S j) l = firstn j l ++ [nth j l dflt].
Proof.
  induction l as [|x l IH]; intros j H; [cbn in H; lia|]. destruct j; [reflexivity|].
  cbn [firstn app nth]. cbn in H. rewrite (IH j) at 1 by lia. reflexivity.
Qed.

Section Walk.
Variables (start d : Z) (rows : list (Z * val)).
Let ts := map fst rows.
Let vals := map snd rows.
Let f i j := fst (tc start d ts i j).

Lemma nth_row j : (j < length rows)%nat -> nth j rows (0, NaN) = (nth j ts 0, nth j vals NaN).
Proof.
  intros H. unfold ts, vals.
  assert (E1 := map_nth fst rows (0, NaN) j). assert (E2 := map_nth snd rows (0, NaN) j). cbn [fst snd] in E1, E2.
  rewrite E1, E2. destruct (nth j rows (0, NaN)); reflexivity.
Qed.

Lemma lower : forall s i j out c, (i + j <= s)%nat -> (j <= length rows)%nat ->
  repair (grid start d i) (firstn j rows) out c -> f i j <= c.
Proof.
  induction s as [|s IH]; intros i j out c Hs Hj R.
  - assert (i = O) by lia. assert (j = O) by lia. subst. inversion R; subst. unfold f. cbn. lia.
  - destruct (repair_end _ _ _ _ R) as [(G & E & ->)|[(g' & p' & rs' & t' & v' & out' & c' & G & E & -> & R')
      |[(g' & p' & out' & c' & G & -> & R')|(rs' & r' & out' & c' & E & -> & R')]]].
    + apply (f_equal (@length _)) in G. rewrite grid_length in G. cbn in G. subst i.
      apply (f_equal (@length _)) in E. rewrite firstn_length_le in E by lia. cbn in E. subst j. unfold f. cbn. lia.
    + destruct i as [|i]; [destruct g'; discriminate|]. rewrite grid_S in G. apply app_inj_tail in G. destruct G as [<- <-].
      destruct j as [|j]; [destruct rs'; discriminate|].
      rewrite (firstn_S_nth (0, NaN)) in E by lia. apply app_inj_tail in E. destruct E as [<- E].
      rewrite nth_row in E by lia. injection E as <- _.
      assert (H := IH i j out' c' ltac:(lia) ltac:(lia) R').
      assert (H2 := f_move start d ts i j). cbv beta zeta in H2. fold (f (S i) (S j)) in H2. fold (f i j) in H2. lia.
    + destruct i as [|i]; [destruct g'; discriminate|]. rewrite grid_S in G. apply app_inj_tail in G. destruct G as [<- <-].
      assert (H := IH i j out' c' ltac:(lia) ltac:(lia) R').
      assert (H2 := f_add start d ts i j). cbv beta zeta in H2. fold (f (S i) j) in H2. fold (f i j) in H2. lia.
    + destruct j as [|j]; [destruct rs'; discriminate|].
      rewrite (firstn_S_nth (0, NaN)) in E by lia. apply app_inj_tail in E. destruct E as [<- _].
      assert (H := IH i j out' c' ltac:(lia) ltac:(lia) R').
      assert (H2 := f_leave start d ts i j). cbv beta zeta in H2. fold (f i (S j)) in H2. fold (f i j) in H2. lia.
Qed.

Lemma all_added : forall i, repair (grid start d i) [] (map (fun p => (p, NaN)) (grid start d i)) (K * Z.of_nat i).
Proof.
  induction i as [|i IH]; [constructor|].
  rewrite grid_S, map_app. cbn [map]. replace (K * Z.of_nat (S i)) with (K * Z.of_nat i + K) by lia. apply snoc_add. exact IH.
Qed.
Lemma all_left : forall rs : list (Z * val), repair [] rs [] (K * Z.of_nat (length rs)).
Proof.
  induction rs as [|r rs IH]; [constructor|].
  cbn [length]. replace (K * Z.of_nat (S (length rs))) with (K + K * Z.of_nat (length rs)) by lia. constructor. exact IH.
Qed.

(** the first time is next to the first instant *)
Definition near_start : Prop := d > 0 /\ Z.abs (nth 0 ts 0 - start) < 200000000000 /\ 2 * (nth 0 ts 0 - start) <= d.

Lemma first_column : near_start -> forall i,
  tc start d ts (S i) 1 = (Z.abs (nth 0 ts 0 - start) + K * Z.of_nat i, match i with O => Nothing | _ => Insert end).
Proof.
  intros (Hd & Ha & Hn). set (t0 := nth 0 ts 0) in *. induction i as [|i IH].
  - cbn [tc]. unfold cell. fold t0. replace (start + d * Z.of_nat 0) with start by lia.
    destruct (t0 =? start) eqn:E.
    + cbn [fst]. unfold addcost. f_equal. lia.
    + cbn [fst snd]. unfold addcost. change (Z.of_nat 1) with 1. change (Z.of_nat 0) with 0.
      rewrite Z.ltb_irrefl. cbn [fst]. destruct (_ <? _) eqn:E2; [f_equal; lia|exfalso; lia].
  - change (tc start d ts (S (S i)) 1) with
      (cell (start + d * Z.of_nat (S i)) t0 (tc start d ts (S i) 0) (tc start d ts (S i) 1) (tc start d ts (S (S i)) 0)).
    rewrite IH. cbn [tc]. unfold cell, addcost. cbn [fst].
    destruct (t0 =? start + d * Z.of_nat (S i)) eqn:E.
    + exfalso. assert (d * Z.of_nat (S i) >= d) by nia. lia.
    + assert (E1 : Z.abs (t0 - start) + K * Z.of_nat i <? K * Z.of_nat (S (S i)) = true) by (apply Z.ltb_lt; lia).
      rewrite E1. cbn [fst].
      match goal with |- (if ?a then _ else _) = _ => destruct a eqn:E2 end.
      * exfalso. assert (d * Z.of_nat (S i) >= d) by nia.
        assert (Z.abs (t0 - (start + d * Z.of_nat (S i))) >= Z.abs (t0 - start)) by lia. lia.
      * f_equal. lia.
Qed.

Lemma walk_back_repair n : forall fuel i j, (i + j < fuel)%nat -> (i <= n)%nat -> (j <= length rows)%nat ->
  exists out k, repair (grid start d i) (firstn j rows) out (f i j)
    /\ walk_back fuel (whole_table start d ts n) start d vals i j = repeat (0, Num 0) k ++ skipn k out
    /\ firstn k out = map (fun p => (p, NaN)) (grid start d k)
    /\ (near_start -> (1 <= j)%nat \/ i = O -> k = O).
Proof.
  assert (LT : length ts = length rows) by (unfold ts; apply map_length).
  induction fuel as [|fuel IH]; intros i j Hf Hi Hj; [lia|].
  cbn [walk_back]. destruct i as [|i].
  - exists [], O. repeat split; auto. unfold f. cbn [tc fst]. unfold addcost.
    assert (H := all_left (firstn j rows)). rewrite firstn_length_le in H by lia. exact H.
  - destruct j as [|j].
    + exists (map (fun p => (p, NaN)) (grid start d (S i))), (S i). repeat split.
      * unfold f. cbn [tc fst firstn]. unfold addcost. apply all_added.
      * rewrite skipn_all2; [symmetry; apply app_nil_r|]. rewrite map_length, grid_length. lia.
      * apply firstn_all2. rewrite map_length, grid_length. lia.
      * intros _ [H|H]; [lia|discriminate].
    + rewrite step_at_tc by lia.
      destruct (tc start d ts (S i) (S j)) as [c o] eqn:T. cbn [snd].
      assert (Fc : f (S i) (S j) = c) by (unfold f; rewrite T; reflexivity).
      assert (Cell : (c, o) = cell (start + d * Z.of_nat i) (nth j ts 0) (tc start d ts i j) (tc start d ts i (S j)) (tc start d ts (S i) j))
        by (rewrite <- T; reflexivity).
      unfold cell in Cell. fold (f i j) (f i (S j)) (f (S i) j) in Cell. unfold addcost in Cell.
      destruct o.
      * assert (Ec : c = f i j + Z.abs (nth j ts 0 - (start + d * Z.of_nat i))).
        { destruct (nth j ts 0 =? start + d * Z.of_nat i) eqn:E1.
          - injection Cell as ->. lia.
          - destruct (f i (S j) <? f (S i) j); cbn [fst] in Cell;
              match type of Cell with _ = (if ?a then _ else _) => destruct a end; congruence. }
        destruct (IH i j ltac:(lia) ltac:(lia) ltac:(lia)) as (out & k & R & W & F & N).
        assert (Lk : (k <= length out)%nat).
        { apply (f_equal (@length _)) in F. rewrite map_length, grid_length, firstn_length in F. lia. }
        exists (out ++ [(start + d * Z.of_nat i, nth j vals NaN)]), k. rewrite Fc, Ec. repeat split.
        -- rewrite grid_S, (firstn_S_nth (0, NaN)) by lia. rewrite nth_row by lia. apply snoc_move. exact R.
        -- rewrite W, skipn_app, <- app_assoc. replace (k - length out)%nat with O by lia. reflexivity.
        -- rewrite firstn_app. replace (k - length out)%nat with O by lia. cbn [firstn]. rewrite app_nil_r. exact F.
        -- intros H1 _. apply (N H1).
           destruct j as [|j']; [|lia]. right. destruct i as [|i']; [reflexivity|].
           exfalso. assert (Q := first_column H1 (S i')). rewrite T in Q. discriminate Q.
      * assert (Ec : c = f i (S j) + K).
        { destruct (nth j ts 0 =? start + d * Z.of_nat i) eqn:E1; [discriminate|].
          destruct (f i (S j) <? f (S i) j); cbn [fst] in Cell;
              match type of Cell with _ = (if ?a then _ else _) => destruct a end; congruence. }
        destruct (IH i (S j) ltac:(lia) ltac:(lia) ltac:(lia)) as (out & k & R & W & F & N).
        assert (Lk : (k <= length out)%nat).
        { apply (f_equal (@length _)) in F. rewrite map_length, grid_length, firstn_length in F. lia. }
        exists (out ++ [(start + d * Z.of_nat i, NaN)]), k. rewrite Fc, Ec. repeat split.
        -- rewrite grid_S. apply snoc_add. exact R.
        -- rewrite W, skipn_app, <- app_assoc. replace (k - length out)%nat with O by lia. reflexivity.
        -- rewrite firstn_app. replace (k - length out)%nat with O by lia. cbn [firstn]. rewrite app_nil_r. exact F.
        -- intros H1 _. apply (N H1). left. lia.
      * assert (Ec : c = f (S i) j + K).
        { destruct (nth j ts 0 =? start + d * Z.of_nat i) eqn:E1; [discriminate|].
          destruct (f i (S j) <? f (S i) j); cbn [fst] in Cell;
              match type of Cell with _ = (if ?a then _ else _) => destruct a end; congruence. }
        destruct (IH (S i) j ltac:(lia) ltac:(lia) ltac:(lia)) as (out & k & R & W & F & N).
        exists out, k. rewrite Fc, Ec. repeat split.
        -- rewrite (firstn_S_nth (0, NaN)) by lia. apply snoc_leave. exact R.
        -- exact W.
        -- exact F.
        -- intros H1 _. apply (N H1). left. destruct j as [|j']; [|lia].
           exfalso. assert (Q := first_column H1 i). rewrite T in Q. destruct i; discriminate Q.
Qed.

Lemma dp_cheapest fl : (3 <= length rows)%nat -> d <> 0 ->
  exists n out k, cheapest (grid start d n) rows out
    /\ n = grid_len fl (last ts 0) start d
    /\ dp_repair fl start d ts vals = Done (repeat (0, Num 0) k ++ skipn k out)
    /\ firstn k out = map (fun p => (p, NaN)) (grid start d k)
    /\ (near_start -> k = O).
Proof.
  intros L Hd. assert (LT : length ts = length rows) by (unfold ts; apply map_length).
  unfold dp_repair. replace (length ts <=? 2)%nat with false by (symmetry; apply Nat.leb_gt; lia).
  replace (d =? 0) with false by (symmetry; apply Z.eqb_neq; exact Hd).
  set (n := grid_len fl (last ts 0) start d).
  destruct (walk_back_repair n (S (n + length ts)) n (length rows)) as (out & k & R & W & F & N); try lia.
  rewrite firstn_all in R.
  exists n, out, k. split; [|split; [reflexivity|split; [|split; [exact F|]]]].
  - exists (f n (length rows)). split; [exact R|]. intros out' c' R'.
    apply (lower (n + length rows) n (length rows) out' c'); [lia|lia|]. rewrite firstn_all. exact R'.
  - cbv zeta. rewrite LT in W |- *. rewrite W. reflexivity.
  - intros H. apply (N H). left. lia.
Qed.
End Walk.

Lemma repair_cost_pos g rs out c : repair g rs out c -> 0 <= c.
Proof. induction 1; lia. Qed.
Lemma repair_free g rs out c : repair g rs out c -> c = 0 -> out = rs /\ map fst rs = g.
Proof.
  induction 1 as [|p t v g rs out c H IH|p g rs out c H IH|r g rs out c H IH]; intros E.
  - auto.
  - apply repair_cost_pos in H as P. assert (t = p) by lia. subst p. destruct IH as [-> M]; [lia|].
    split; [reflexivity|]. cbn [map fst]. rewrite M. reflexivity.
  - apply repair_cost_pos in H. lia.
  - apply repair_cost_pos in H. lia.
Qed.
Lemma repair_same : forall rs : list (Z * val), repair (map fst rs) rs rs 0.
Proof.
  induction rs as [|[t v] rs IH]; [constructor|]. cbn [map fst].
  assert (H := r_move t t v _ _ _ _ IH). replace (Z.abs (t - t) + 0) with 0 in H by lia. exact H.
Qed.
