(** A request that uses a name of a table with two types is refused. *)
From Verif Require Import Prelude PrecisionModel WriteModel WriteSpec WriteProofs.

Definition typ (n : str) (cs : list column) : option vtype :=
  option_map (fun c => dtype (c_kind c)) (find (fun c => str_eqb (c_name c) n) cs).

Lemma put_col_typ i n k v cs cs' : put_col i n k v cs = Ok cs' ->
  typ n cs' = Some (dtype k) /\ (forall m t, typ m cs = Some t -> typ m cs' = Some t).
Proof.
  revert cs'. induction cs as [|c cs IH]; intros cs' H; cbn [put_col] in H.
  - injection H as <-. unfold typ. cbn [find put_cell c_name c_kind]. rewrite str_eqb_refl. split; [reflexivity|]. intros m t X. discriminate X.
  - destruct (str_eqb (c_name c) n) eqn:E.
    + destruct (vtype_eqb (dtype (c_kind c)) (dtype k)) eqn:V; [|discriminate]. injection H as <-. apply vtype_eqb_eq in V.
      unfold typ. cbn [find put_cell c_name c_kind]. rewrite E. split; [cbn; congruence|].
      intros m t. destruct (str_eqb (c_name c) m) eqn:E2; cbn; auto.
    + destruct (put_col i n k v cs) as [r| |] eqn:P; try discriminate. cbn [bind] in H. injection H as <-.
      destruct (IH r eq_refl) as (A & B). unfold typ in *. cbn [find]. rewrite E. split; [auto|].
      intros m t. destruct (str_eqb (c_name c) m) eqn:E2; auto.
Qed.

Lemma put_cols_typ i vs : forall cs cs', put_cols i vs cs = Ok cs' ->
  (forall n k v, In (n, k, v) vs -> typ n cs' = Some (dtype k)) /\ (forall m t, typ m cs = Some t -> typ m cs' = Some t).
Proof.
  induction vs as [|[[n k] v] vs IH]; intros cs cs' H; cbn [put_cols] in H.
  - injection H as <-. split; [intros ? ? ? []|auto].
  - destruct (put_col i n k v cs) as [r| |] eqn:P; try discriminate. cbn [bind] in H.
    apply put_col_typ in P as [P1 P2]. destruct (IH _ _ H) as (A & B). split; [|auto].
    intros n0 k0 v0 [Q|I]; [injection Q as <- <- <-; auto|eauto].
Qed.

(** the type a table's batch has for a name *)
Definition ttyp (t n : str) (bs : list (str * batch)) : option vtype :=
  match find (fun tb => str_eqb (fst tb) t) bs with Some tb => typ n (b_cols (snd tb)) | None => None end.

Lemma add_to_typ l bs bs' : add_to l bs = Ok bs' ->
  (forall n k, uses l n k -> ttyp (l_table l) n bs' = Some (dtype k)) /\ (forall t n x, ttyp t n bs = Some x -> ttyp t n bs' = Some x).
Proof.
  assert (L : forall b b', add_line b l = Ok b' ->
            (forall n k, uses l n k -> typ n (b_cols b') = Some (dtype k)) /\ (forall n x, typ n (b_cols b) = Some x -> typ n (b_cols b') = Some x)).
  { intros b b' H. unfold add_line in H. destruct (put_cols _ _ _) as [cs| |] eqn:P; try discriminate. cbn [bind] in H. injection H as <-.
    apply put_cols_typ in P as [A B]. cbn [b_cols]. split; [|auto]. intros n k U. apply uses_cells in U as [v U]. eauto. }
  revert bs'. induction bs as [|[t b] bs IH]; intros bs' H; cbn [add_to] in H.
  - destruct (add_line (MB [] 0) l) as [b'| |] eqn:P; try discriminate. cbn [bind] in H. injection H as <-. apply L in P as [A B].
    unfold ttyp. cbn [find fst snd]. rewrite str_eqb_refl. split; [auto|]. intros t n x X. discriminate X.
  - destruct (str_eqb t (l_table l)) eqn:E.
    + destruct (add_line b l) as [b'| |] eqn:P; try discriminate. cbn [bind] in H. injection H as <-. apply L in P as [A B].
      unfold ttyp. cbn [find fst snd]. rewrite E. cbn [snd]. split; [auto|]. intros t0 n x. destruct (str_eqb t t0); cbn [snd]; auto.
    + destruct (add_to l bs) as [r| |] eqn:P; try discriminate. cbn [bind] in H. injection H as <-. destruct (IH r eq_refl) as (A & B).
      unfold ttyp in *. cbn [find fst snd]. rewrite E. split; [auto|]. intros t0 n x. destruct (str_eqb t t0); cbn [snd]; auto.
Qed.

Lemma add_lines_typ ls : forall bs bs', add_lines ls bs = Ok bs' ->
  (forall l n k, In l ls -> uses l n k -> ttyp (l_table l) n bs' = Some (dtype k)) /\ (forall t n x, ttyp t n bs = Some x -> ttyp t n bs' = Some x).
Proof.
  induction ls as [|l ls IH]; intros bs bs' H; cbn [add_lines] in H.
  - injection H as <-. split; [intros ? ? ? []|auto].
  - destruct (add_to l bs) as [r| |] eqn:P; try discriminate. cbn [bind] in H. apply add_to_typ in P as [A B].
    destruct (IH _ _ H) as (C & D). split; [|auto]. intros l0 n k [<-|I] U; eauto.
Qed.

Theorem one_type from prec sid sch ls gs : write from prec sid sch ls = Ok gs ->
  forall l1 l2 n k1 k2, In l1 ls -> In l2 ls -> l_table l1 = l_table l2 -> uses l1 n k1 -> uses l2 n k2 -> dtype k1 = dtype k2.
Proof.
  unfold write, line_to_batches. intros H l1 l2 n k1 k2 I1 I2 T U1 U2.
  destruct (add_lines ls []) as [bs| |] eqn:P; try discriminate. apply add_lines_typ in P as [A _].
  pose proof (A l1 n k1 I1 U1) as Q1. pose proof (A l2 n k2 I2 U2) as Q2. rewrite T in Q1. congruence.
Qed.
