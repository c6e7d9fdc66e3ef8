(** What a column is, independently of any codec: one slot per row, [None] for a null.  The writer hands
    the codec the values of the non-null slots, the reader hands it the bytes and the validity bits. *)
From Verif Require Import Prelude.

Definition valid_bits {A} (col : list (option A)) : list bool :=
  map (fun v => match v with Some _ => true | None => false end) col.
Fixpoint non_nulls {A} (col : list (option A)) : list A :=
  match col with
  | [] => []
  | Some v :: c => v :: non_nulls c
  | None :: c => non_nulls c
  end.
(** Every value present in the column satisfies [P]. *)
Definition column_of {A} (P : A -> Prop) (col : list (option A)) : Prop :=
  forall v, In (Some v) col -> P v.

Lemma column_of_non_nulls {A} (P : A -> Prop) col : column_of P col -> Forall P (non_nulls col).
Proof.
  induction col as [|[v|] col IH]; intros H; cbn [non_nulls]; auto.
  - constructor; [apply H; left; auto|apply IH]. intros w Hw. apply H. right; auto.
  - apply IH. intros w Hw. apply H. right; auto.
Qed.
Lemma non_nulls_all {A} (l : list A) : non_nulls (map Some l) = l.
Proof. induction l; cbn; congruence. Qed.
Lemma no_values {A} (col : list (option A)) : non_nulls col = [] -> col = repeat None (length (valid_bits col)).
Proof. induction col as [|[v|] col IH]; cbn; intros H; try discriminate; auto. f_equal. auto. Qed.
