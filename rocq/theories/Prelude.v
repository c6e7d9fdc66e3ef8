(** Shared imports and the machine integers used by every model file. *)
From Coq Require Export List Arith ZArith NArith Lia Bool Sorted Permutation.
From Coq Require Export ZifyBool ZifyNat ZifyN.
Export ListNotations.
Open Scope Z_scope.
Ltac Zify.zify_post_hook ::= Z.div_mod_to_equations.

#[global] Arguments Z.add : simpl never.
#[global] Arguments Z.sub : simpl never.
#[global] Arguments Z.mul : simpl never.
#[global] Arguments Z.div : simpl never.
#[global] Arguments Z.modulo : simpl never.
#[global] Arguments Z.pow : simpl never.
#[global] Arguments Z.opp : simpl never.
#[global] Arguments Z.shiftl : simpl never.
#[global] Arguments Z.shiftr : simpl never.
#[global] Arguments Z.of_nat : simpl never.
#[global] Arguments Z.to_nat : simpl never.
#[global] Arguments N.add : simpl never.
#[global] Arguments N.sub : simpl never.
#[global] Arguments N.mul : simpl never.
#[global] Arguments N.div : simpl never.
#[global] Arguments N.modulo : simpl never.
#[global] Arguments N.pow : simpl never.
#[global] Arguments N.shiftl : simpl never.
#[global] Arguments N.shiftr : simpl never.
#[global] Arguments N.lor : simpl never.
#[global] Arguments N.land : simpl never.

(** Rust [i64::MIN], [i64::MAX], [u64::MAX] and the ranges of the types. *)
Definition I64_MIN : Z := - 2 ^ 63.
Definition I64_MAX : Z := 2 ^ 63 - 1.
Definition U64_MAX : Z := 2 ^ 64 - 1.
Definition is_i64 (z : Z) : Prop := I64_MIN <= z <= I64_MAX.
Definition is_u64 (z : Z) : Prop := 0 <= z <= U64_MAX.

(** Two's complement wrap of an unbounded result, as Rust's [wrapping_*]
    operations and as plain [+ - *] in the release profile
    (Cargo.toml: [profile.release] overflow-checks = false). *)
Definition wrap_u64 (z : Z) : Z := z mod 2 ^ 64.
Definition wrap_i64 (z : Z) : Z :=
  let m := z mod 2 ^ 64 in if m <? 2 ^ 63 then m else m - 2 ^ 64.

Lemma I64_MIN_eq : I64_MIN = -9223372036854775808. Proof. reflexivity. Qed.
Lemma I64_MAX_eq : I64_MAX = 9223372036854775807. Proof. reflexivity. Qed.
Lemma U64_MAX_eq : U64_MAX = 18446744073709551615. Proof. reflexivity. Qed.
Lemma two64 : 2 ^ 64 = 18446744073709551616. Proof. reflexivity. Qed.
Lemma two63 : 2 ^ 63 = 9223372036854775808. Proof. reflexivity. Qed.
Ltac i64 := unfold is_i64, is_u64, wrap_i64, wrap_u64 in *;
  rewrite ?I64_MIN_eq, ?I64_MAX_eq, ?U64_MAX_eq, ?two64, ?two63 in *.

Lemma wrap_i64_is_i64 z : is_i64 (wrap_i64 z).
Proof. i64. destruct (_ <? _) eqn:E; lia. Qed.
Lemma wrap_i64_id z : is_i64 z -> wrap_i64 z = z.
Proof. i64. intros H. destruct (_ <? _) eqn:E; lia. Qed.
Lemma wrap_u64_is_u64 z : is_u64 (wrap_u64 z).
Proof. i64. lia. Qed.
Lemma wrap_u64_id z : is_u64 z -> wrap_u64 z = z.
Proof. i64. intros H. lia. Qed.

(** Split visible conjunctions only (does not unfold definitions). *)
Ltac sp := repeat match goal with |- _ /\ _ => split end.
