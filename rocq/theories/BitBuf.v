(** Byte buffers addressed by bit, most significant bit of each byte first, as the boolean and float
    codecs use them. *)
From Verif Require Import Prelude Bytes.

(** Vec index assignment [l[i] = x]; the caller has checked [i < len]. *)
Fixpoint upd {A} (l : list A) (i : nat) (x : A) : list A :=
  match l, i with
  | [], _ => []
  | _ :: l', O => x :: l'
  | y :: l', S i' => y :: upd l' i' x
  end.
(** Bit [i] of a byte string. *)
Definition getbit (l : list Z) (i : nat) : bool := Z.testbit (nth (i / 8) l 0) (7 - Z.of_nat (i mod 8)).

Lemma upd_length {A} (l : list A) i x : length (upd l i x) = length l.
Proof. revert i. induction l; intros [|i]; cbn; auto. Qed.
Lemma nth_upd_eq {A} (l : list A) i x d : (i < length l)%nat -> nth i (upd l i x) d = x.
Proof. revert i. induction l; intros [|i] H; cbn in *; auto; try lia. apply IHl; lia. Qed.
Lemma nth_upd_ne {A} (l : list A) i j x d : i <> j -> nth j (upd l i x) d = nth j l d.
Proof. revert i j. induction l; intros [|i] [|j] H; cbn; auto; try congruence. Qed.
Lemma nth_error_nth_some {A} (l : list A) i d : (i < length l)%nat -> nth_error l i = Some (nth i l d).
Proof. revert i. induction l; intros [|i] H; cbn in *; auto; try lia. apply IHl; lia. Qed.
Lemma nth_error_none_ge {A} (l : list A) i : (length l <= i)%nat -> nth_error l i = None.
Proof. apply nth_error_None. Qed.
Lemma shr128 k : (k < 8)%nat -> Z.shiftr 128 (Z.of_nat k) = 2 ^ (7 - Z.of_nat k).
Proof.
  intros H. rewrite Z.shiftr_div_pow2 by lia. change 128 with (2 ^ 7). rewrite <- Z.pow_sub_r by lia. reflexivity.
Qed.
Lemma getbit_firstn l n i : (i < 8 * n)%nat -> getbit (firstn n l) i = getbit l i.
Proof.
  intros H. unfold getbit. assert (Hd : (i / 8 < n)%nat) by (apply Nat.div_lt_upper_bound; lia).
  f_equal. clear H. revert l Hd. generalize (i / 8)%nat as k. induction n; intros k l Hd; [lia|].
  destruct l; [rewrite firstn_nil; reflexivity|]. destruct k; cbn; auto. apply IHn. lia.
Qed.
Lemma getbit_skip p l i : getbit (p ++ l) (8 * length p + i) = getbit l i.
Proof.
  unfold getbit. rewrite (Nat.mul_comm 8). rewrite Nat.div_add_l by lia. rewrite Nat.add_comm with (n := (length p * 8)%nat).
  rewrite Nat.mod_add by lia. f_equal. rewrite app_nth2 by lia. f_equal. lia.
Qed.
Lemma bit_test b k : 0 <= k -> (Z.land (Z.shiftr b k) 1 =? 1) = Z.testbit b k.
Proof.
  intros Hk. change 1 with (2 ^ 1 - 1) at 1. rewrite land_mask by lia. change (2 ^ 1) with 2.
  rewrite Z.shiftr_div_pow2 by lia. rewrite Z.testbit_eqb by lia. reflexivity.
Qed.
