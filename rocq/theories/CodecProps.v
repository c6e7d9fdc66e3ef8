(** C06-C10: column codecs are lossless.  A column is a list of optional values, one per row
    (CodecSpec.v); the encoder sees the non-null values, the decoder the bytes and the validity bits. *)
From Verif Require Import Prelude Bytes Simple8bModel Simple8bProofs IntegerModel IntegerProofs
  TimestampModel TimestampProofs BooleanModel BooleanProofs FloatModel FloatProofs CodecSpec.

(** ** C06 *)
Theorem C06_i64_roundtrip : forall col : list (option Z), column_of is_i64 col ->
  exists bytes, i64_encode (non_nulls col) = Ok bytes /\ i64_decode bytes (valid_bits col) = Ok col.
Proof. exact i64_roundtrip. Qed.
Print Assumptions C06_i64_roundtrip.
Theorem C06_u64_roundtrip : forall col : list (option Z), column_of is_u64 col ->
  exists bytes, u64_encode (non_nulls col) = Ok bytes /\ u64_decode bytes (valid_bits col) = Ok col.
Proof. exact u64_roundtrip. Qed.
Print Assumptions C06_u64_roundtrip.
(** A column whose differences overflow i64, with nulls in the first, an inner and the last row, and a
    constant-step one (run-length form): both meet the hypothesis and are not degenerate. *)
Example C06_nonvacuous :
  let c1 := [None; Some I64_MIN; Some I64_MAX; None; Some (-7); None] in
  let c2 := [Some 5; None; Some 10; Some 15; Some 20] in
  column_of is_i64 c1 /\ column_of is_i64 c2 /\
  (exists b, i64_encode (non_nulls c1) = Ok (ENC_DELTA :: 0 :: b)) /\
  i64_encode (non_nulls c2) = Ok [ENC_DELTA; 32; 0; 0; 0; 0; 0; 0; 0; 10; 10; 3].
Proof.
  cbn zeta. split; [|split; [|split]].
  - intros v [H|[H|[H|[H|[H|[H|[]]]]]]]; inversion H; subst; vm_compute; split; discriminate.
  - intros v [H|[H|[H|[H|[H|[]]]]]]; inversion H; subst; vm_compute; split; discriminate.
  - eexists. vm_compute. reflexivity.
  - vm_compute. reflexivity.
Qed.

(** ** C07 *)
(** Partial: the first row must not be null (see the refutation below).  Every time column satisfies that;
    a BIGINT column declared CODEC(DELTATS) need not. *)
Theorem C07_timestamp_roundtrip_partial : forall col : list (option Z), column_of is_i64 col ->
  (forall rest, col <> None :: rest) ->
  exists bytes, ts_encode (non_nulls col) = Ok bytes /\ ts_decode bytes (valid_bits col) = Ok col.
Proof. exact ts_roundtrip. Qed.
Print Assumptions C07_timestamp_roundtrip_partial.
(** The uncompressed form (CODEC(NULL)) has no such restriction. *)
Theorem C07_uncompressed_roundtrip : forall col : list (option Z), column_of is_i64 col ->
  ts_null_decode (ts_null_encode (non_nulls col)) (valid_bits col) = Ok col.
Proof. exact ts_null_roundtrip. Qed.
Print Assumptions C07_uncompressed_roundtrip.
(** FINDING.  With a null in the first row of the block the packed form loses the first value
    (timestamp.rs:266-318 pushes the first value only when slot 0 is valid): the written column
    [null, 1, 2, 4] is read back as [null, 2, 4] shifted, one row short. *)
Theorem C07_null_first_refuted : exists col, column_of is_i64 col /\
  exists bytes, ts_encode (non_nulls col) = Ok bytes /\ ts_decode bytes (valid_bits col) <> Ok col.
Proof.
  exists [None; Some 1; Some 2; Some 4]. split.
  - intros v [H|[H|[H|[H|[]]]]]; inversion H; subst; vm_compute; split; discriminate.
  - eexists. split; [vm_compute; reflexivity|]. vm_compute. discriminate.
Qed.
Print Assumptions C07_null_first_refuted.
Example C07_nonvacuous :
  let c := [Some 1000; Some 3000; None; Some 4000; Some 9000] in
  column_of is_i64 c /\ (forall rest, c <> None :: rest) /\
  exists b, ts_encode (non_nulls c) = Ok (ENC_DELTATS :: 19 :: b).
Proof.
  cbn zeta. split; [|split].
  - intros v [H|[H|[H|[H|[H|[]]]]]]; inversion H; subst; vm_compute; split; discriminate.
  - discriminate.
  - eexists. vm_compute. reflexivity.
Qed.

(** ** C08.  The length bound is what the fixed 8-byte allowance for the varint imposes; a block never
    comes near it. *)
Theorem C08_boolean_roundtrip : forall col : list (option bool), Z.of_nat (length col) < 2 ^ 56 ->
  exists bytes, bool_encode (non_nulls col) = Ok bytes /\ bool_decode bytes (valid_bits col) = Ok col.
Proof. exact bool_roundtrip. Qed.
Print Assumptions C08_boolean_roundtrip.
Theorem C08_uncompressed_roundtrip : forall col : list (option bool),
  bool_null_decode (bool_null_encode (non_nulls col)) (valid_bits col) = col.
Proof. exact bool_null_roundtrip. Qed.
Print Assumptions C08_uncompressed_roundtrip.
Example C08_nonvacuous :
  bool_encode (non_nulls [Some true; None; Some false; Some true]) = Ok [ENC_BITPACK; 16; 3; 160].
Proof. vm_compute. reflexivity. Qed.

(** ** C09.  Values are the 64-bit patterns of the floats. *)
(** What the encoder accepts ... *)
Theorem C09_accepts : forall src, (exists bytes, f64_encode src = Ok bytes) <-> ~ In SENTINEL (tl src).
Proof. exact f64_encode_ok. Qed.
Print Assumptions C09_accepts.
(** ... is read back bit for bit, except the one-value block made of the end marker itself. *)
Theorem C09_float_roundtrip_partial : forall (col : list (option Z)) bytes, column_of is_u64 col ->
  non_nulls col <> [SENTINEL] -> f64_encode (non_nulls col) = Ok bytes -> f64_decode bytes (valid_bits col) = Ok col.
Proof. exact f64_roundtrip. Qed.
Print Assumptions C09_float_roundtrip_partial.
Theorem C09_uncompressed_roundtrip : forall col : list (option Z), column_of is_u64 col ->
  f64_null_decode (f64_null_encode (non_nulls col)) (valid_bits col) = Ok col.
Proof. exact f64_null_roundtrip. Qed.
Print Assumptions C09_uncompressed_roundtrip.
(** FINDING.  The check for the end marker (float.rs:96-99) is only made from the second value on: a block
    whose only value is the NaN 0x7ff80000000000ff is accepted and cannot be read back. *)
Theorem C09_single_sentinel_refuted : exists col bytes, column_of is_u64 col /\
  f64_encode (non_nulls col) = Ok bytes /\ f64_decode bytes (valid_bits col) <> Ok col.
Proof.
  exists [Some SENTINEL]. eexists. split; [|split; [vm_compute; reflexivity|vm_compute; discriminate]].
  intros v [H|[]]; inversion H; subst; vm_compute; split; discriminate.
Qed.
Print Assumptions C09_single_sentinel_refuted.
(** 1.5, 1.5, null, -0.0, NaN, 1e300 *)
Example C09_nonvacuous :
  let c := [Some 0x3FF8000000000000; Some 0x3FF8000000000000; None; Some 0x8000000000000000; Some 0x7FF8000000000000; Some 0x7E37E43C8800759C] in
  column_of is_u64 c /\ non_nulls c <> [SENTINEL] /\
  exists b, f64_encode (non_nulls c) = Ok b /\ f64_decode b (valid_bits c) = Ok c.
Proof.
  cbn zeta. split; [|split; [discriminate|]].
  - intros v [H|[H|[H|[H|[H|[H|[]]]]]]]; inversion H; subst; vm_compute; split; discriminate.
  - eexists. split; [vm_compute; reflexivity|]. vm_compute; reflexivity.
Qed.

(** ** C10 *)
Theorem C10_pack_unpack : forall src, Forall (fun v => 0 <= v < 2 ^ 60) src ->
  exists bytes, s8b_encode src = Ok bytes /\ s8b_decode bytes = Ok src.
Proof.
  intros src H. apply s8b_roundtrip. eapply Forall_impl; [|exact H]. intros v Hv.
  unfold S8B_MAX_VALUE. cbn beta in Hv. lia.
Qed.
Print Assumptions C10_pack_unpack.
Theorem C10_reject : forall src, Forall is_u64 src -> Exists (fun v => 2 ^ 60 <= v) src -> s8b_encode src = Err.
Proof.
  intros src H1 H2. apply encode_fuel_reject; auto. eapply Exists_impl; [|exact H2]. intros v Hv. cbn beta in Hv.
  unfold S8B_MAX_VALUE. lia.
Qed.
Print Assumptions C10_reject.
(** 130 ones (a 120-run word), mixed magnitudes up to the limit *)
Example C10_nonvacuous :
  let src := repeat 1 130 ++ [0; 7; 2 ^ 60 - 1; 12345] in
  Forall (fun v => 0 <= v < 2 ^ 60) src /\ exists b, s8b_encode src = Ok b /\ length b = 32%nat.
Proof.
  cbn zeta. split.
  - apply Forall_app. split; [apply Forall_forall; intros x Hx; apply repeat_spec in Hx; subst; lia|]. repeat constructor; lia.
  - eexists. split; [vm_compute; reflexivity|]. vm_compute; reflexivity.
Qed.
Example C10_reject_nonvacuous : Exists (fun v => 2 ^ 60 <= v) [3; 2 ^ 60] /\ s8b_encode [3; 2 ^ 60] = Err.
Proof. split; [constructor 2; constructor; lia|vm_compute; reflexivity]. Qed.
