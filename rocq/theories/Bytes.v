(** Byte-level helpers shared by the codec models: results with explicit errors,
    big-endian integers and LEB128 varints (crate integer-encoding). *)
From Verif Require Import Prelude.

(** Outcome of a Rust function: a value, an [Err], a panic, or (never in the code, only in the
    model) exhausted fuel. *)
Inductive result (A : Type) := Ok (a : A) | Err | Panic | OutOfFuel.
Arguments Ok {A} _. Arguments Err {A}. Arguments Panic {A}. Arguments OutOfFuel {A}.
Definition rbind {A B} (r : result A) (f : A -> result B) : result B :=
  match r with Ok a => f a | Err => Err | Panic => Panic | OutOfFuel => OutOfFuel end.
Definition rmap {A B} (f : A -> B) (r : result A) : result B := rbind r (fun a => Ok (f a)).

(** u8/u32/u64 [to_be_bytes]: [n] bytes, most significant first. *)
Fixpoint be_bytes (n : nat) (z : Z) : list Z :=
  match n with
  | O => []
  | S n' => (z / 256 ^ Z.of_nat n') mod 256 :: be_bytes n' z
  end.
(** [from_be_bytes] *)
Definition of_be (l : list Z) : Z := fold_left (fun acc b => acc * 256 + b) l 0.

Definition is_byte (b : Z) : Prop := 0 <= b < 256.

(** integer-encoding [u64::encode_var]: seven bits per byte, least significant first, high bit set on
    all but the last byte.  A u64 needs at most ten bytes; [fuel] counts them. *)
Fixpoint varint_enc_fuel (fuel : nat) (n : Z) : list Z :=
  match fuel with
  | O => []
  | S f => if n >=? 128 then (128 + n mod 128) :: varint_enc_fuel f (n / 128) else [n]
  end.
Definition varint_enc (n : Z) : list Z := varint_enc_fuel 10 n.
(** integer-encoding [u64::decode_var]: stops after a byte without the high bit, or fails after the
    tenth byte; the accumulation [result |= b << shift] is on u64. Returns the value and the number of
    bytes read. *)
Fixpoint varint_dec_fuel (fuel : nat) (shift acc : Z) (cnt : nat) (l : list Z) : option (Z * nat) :=
  match fuel, l with
  | O, _ => None
  | S _, [] => None
  | S f, b :: l' =>
      let acc' := Z.lor acc (wrap_u64 (Z.shiftl (b mod 128) shift)) in
      if b <? 128 then Some (acc', S cnt)
      else varint_dec_fuel f (shift + 7) acc' (S cnt) l'
  end.
Definition varint_dec (l : list Z) : option (Z * nat) := varint_dec_fuel 10 0 0 0 l.

(** ** Lemmas *)
Lemma be_bytes_length n z : length (be_bytes n z) = n.
Proof. induction n; cbn [be_bytes length]; auto. Qed.
Lemma be_bytes_bytes n z : Forall is_byte (be_bytes n z).
Proof. induction n; cbn [be_bytes]; constructor; auto. unfold is_byte. apply Z.mod_pos_bound; lia. Qed.
Lemma of_be_app l1 l2 : of_be (l1 ++ l2) = of_be l1 * 256 ^ Z.of_nat (length l2) + of_be l2.
Proof.
  unfold of_be. rewrite fold_left_app. generalize (fold_left (fun acc b => acc * 256 + b) l1 0) as x.
  induction l2 as [|b l2 IH] using rev_ind; intros x.
  - cbn. lia.
  - rewrite !fold_left_app. cbn [fold_left]. rewrite IH, app_length. cbn [length].
    rewrite Nat2Z.inj_add. change (Z.of_nat 1) with 1. rewrite Z.pow_add_r by lia. change (256 ^ 1) with 256. ring.
Qed.
Lemma of_be_be_bytes n z : of_be (be_bytes n z) = z mod 256 ^ Z.of_nat n.
Proof.
  induction n as [|n IH].
  - cbn. symmetry. apply Z.mod_1_r.
  - cbn [be_bytes]. change (?x :: ?l) with ([x] ++ l). rewrite of_be_app, be_bytes_length, IH.
    unfold of_be. cbn [fold_left]. rewrite Nat2Z.inj_succ, Z.pow_succ_r by lia.
    set (P := 256 ^ Z.of_nat n). assert (0 < P) by (apply Z.pow_pos_nonneg; lia).
    rewrite (Z.mul_comm 256 P). rewrite Z.rem_mul_r by lia. ring.
Qed.
Lemma of_be_u64 z : is_u64 z -> of_be (be_bytes 8 z) = z.
Proof. intros H. rewrite of_be_be_bytes. change (256 ^ Z.of_nat 8) with (2^64). i64. apply Z.mod_small. lia. Qed.
Lemma be_bytes_cons8 z : exists a b c d e f g h, be_bytes 8 z = [a;b;c;d;e;f;g;h].
Proof. unfold be_bytes. repeat eexists. Qed.

(** [lor] of disjoint bit ranges is addition. *)
Lemma lor_add a b n : 0 <= n -> 0 <= a < 2 ^ n -> Z.lor a (Z.shiftl b n) = a + b * 2 ^ n.
Proof.
  intros Hn Ha. rewrite Z.shiftl_mul_pow2 by lia. symmetry.
  rewrite <- Z.lxor_lor, Z.add_nocarry_lxor; auto.
  all: apply Z.bits_inj'; intros i Hi; rewrite Z.land_spec, Z.bits_0; apply Bool.andb_false_iff.
  all: destruct (Z.ltb_spec i n); [right; apply Z.mul_pow2_bits_low; lia|left].
  all: destruct (Z.eq_dec a 0); [subst; apply Z.bits_0|apply Z.bits_above_log2; [lia|]].
  all: apply Z.log2_lt_pow2; try lia; apply Z.lt_le_trans with (2 ^ n); [lia|apply Z.pow_le_mono_r; lia].
Qed.
Lemma land_mask a n : 0 <= n -> Z.land a (2 ^ n - 1) = a mod 2 ^ n.
Proof. intros. rewrite <- Z.land_ones by lia. rewrite Z.ones_equiv. f_equal. Qed.

Lemma varint_dec_enc_fuel f n shift acc cnt rest :
  0 <= n < 2 ^ (7 * Z.of_nat f) -> (1 <= f)%nat -> 0 <= shift -> 0 <= acc < 2 ^ shift ->
  n * 2 ^ shift < 2 ^ 64 ->
  varint_dec_fuel f shift acc cnt (varint_enc_fuel f n ++ rest) =
    Some (acc + n * 2 ^ shift, (cnt + length (varint_enc_fuel f n))%nat).
Proof.
  revert n shift acc cnt. induction f as [|f IH]; intros n shift acc cnt Hn Hf Hs Ha Hb; [lia|].
  cbn [varint_enc_fuel].
  assert (Hp : 0 < 2 ^ shift) by (apply Z.pow_pos_nonneg; lia).
  destruct (n >=? 128) eqn:E.
  - cbn [app varint_dec_fuel length].
    destruct (128 + n mod 128 <? 128) eqn:E2; [lia|].
    replace ((128 + n mod 128) mod 128) with (n mod 128) by lia.
    assert (Hw : wrap_u64 (Z.shiftl (n mod 128) shift) = Z.shiftl (n mod 128) shift).
    { apply wrap_u64_id. rewrite Z.shiftl_mul_pow2 by lia. unfold is_u64, U64_MAX.
      assert (n mod 128 <= n) by lia. assert (0 <= n mod 128) by lia. nia. }
    rewrite Hw, lor_add by lia.
    assert (H7 : 2 ^ (7 * Z.of_nat (S f)) = 128 * 2 ^ (7 * Z.of_nat f)).
    { rewrite Nat2Z.inj_succ. replace (7 * Z.succ (Z.of_nat f)) with (7 + 7 * Z.of_nat f) by lia.
      rewrite Z.pow_add_r by lia. reflexivity. }
    assert (Hsh : 2 ^ (shift + 7) = 128 * 2 ^ shift) by (rewrite Z.pow_add_r by lia; change (2^7) with 128; lia).
    rewrite IH.
    + f_equal. f_equal; [|cbn [length]; lia]. rewrite Hsh. assert (n = 128 * (n / 128) + n mod 128) by lia. nia.
    + lia.
    + destruct f; [|lia]. cbn in Hn. lia.
    + lia.
    + rewrite Hsh. assert (0 <= n mod 128 <= 127) by lia. nia.
    + rewrite Hsh. assert (n / 128 * 128 <= n) by lia. nia.
  - cbn [app varint_dec_fuel length].
    destruct (n <? 128) eqn:E2; [|lia]. f_equal. f_equal; [|lia].
    replace (n mod 128) with n by lia.
    rewrite wrap_u64_id. apply lor_add; lia.
    rewrite Z.shiftl_mul_pow2 by lia. unfold is_u64, U64_MAX. nia.
Qed.
Lemma varint_roundtrip n rest : is_u64 n ->
  varint_dec (varint_enc n ++ rest) = Some (n, length (varint_enc n)).
Proof.
  intros H. unfold varint_dec, varint_enc. rewrite varint_dec_enc_fuel.
  - f_equal. f_equal. change (2 ^ 0) with 1. lia.
  - change (2 ^ (7 * Z.of_nat 10)) with (2 ^ 70). unfold is_u64, U64_MAX in H.
    assert (2 ^ 64 < 2 ^ 70) by reflexivity. lia.
  - lia.
  - lia.
  - change (2 ^ 0) with 1. lia.
  - change (2 ^ 0) with 1. unfold is_u64, U64_MAX in H. lia.
Qed.
