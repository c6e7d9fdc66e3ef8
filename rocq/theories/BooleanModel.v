(** Model of the boolean column codec (/repo/tskv/src/tsm/codec/boolean.rs). *)
From Verif Require Import Prelude Bytes BitBuf TimestampModel.

(** common/models/src/codec.rs:38-52 Encoding::BitPack *)
Definition ENC_BITPACK : Z := 10.

(** boolean.rs:46-55: the bit loop. [dst[index + 1]] with [index = n >> 3] panics out of range. *)
Fixpoint bool_loop (src : list bool) (dst : list Z) (n : nat) : result (list Z * nat) :=
  match src with
  | [] => Ok (dst, n)
  | v :: src' =>
      let index := (n / 8)%nat in
      match nth_error dst (index + 1) with
      | None => Panic
      | Some b =>
          let mask := Z.shiftr 128 (Z.of_nat (n mod 8)) in
          let b' := if v then Z.lor b mask else Z.ldiff b mask in
          bool_loop src' (upd dst (index + 1) b') (n + 1)
      end
  end.

(** boolean.rs:25-66 bool_bitpack_encode.  [encode_var(&mut dst[2..])] writes the varint over the zeroed
    buffer (it panics if the buffer is too short). *)
Definition bool_encode (src : list bool) : result (list Z) :=
  match src with
  | [] => Ok []
  | _ =>
      let size := (1 + 8 + (length src + 7) / 8)%nat in
      let vlen := varint_enc (Z.of_nat (length src)) in
      if (size - 1 <? length vlen)%nat then Panic
      else
        let dst := ENC_BITPACK :: 16 :: vlen ++ repeat 0 (size - 1 - length vlen) in
        rbind (bool_loop src dst (8 + length vlen * 8)) (fun '(dst, n) =>
          let len := if (0 <? n mod 8)%nat then (n / 8 + 1)%nat else (n / 8)%nat in
          Ok (firstn (len + 1) dst))
  end.

(** boolean.rs:93-107: decode loop over the validity bits *)
Fixpoint bool_decode_loop (bit_set : list bool) (src : list Z) (count bit_index : nat) : result (list (option bool)) :=
  match bit_set with
  | [] => Ok []
  | false :: bs => rbind (bool_decode_loop bs src count bit_index) (fun r => Ok (None :: r))
  | true :: bs =>
      if (count <=? bit_index)%nat then Err
      else match nth_error src (bit_index / 8) with
           | None => Panic
           | Some byte =>
               let bit := Z.land (Z.shiftr byte (7 - Z.of_nat (bit_index mod 8))) 1 in
               rbind (bool_decode_loop bs src count (bit_index + 1)) (fun r => Ok (Some (bit =? 1) :: r))
           end
  end.
(** boolean.rs:81-110 bool_bitpack_decode; the [assert_eq!] on the type byte panics *)
Definition bool_decode (src : list Z) (bit_set : list bool) : result (list (option bool)) :=
  match src with
  | [] => Ok (repeat None (length bit_set))
  | _ :: [] => Panic
  | _ :: h :: body =>
      if negb (h =? 16) then Panic
      else match varint_dec body with
           | None => Err
           | Some (count, read) => bool_decode_loop bit_set (skipn read body) (Z.to_nat count) 0
           end
  end.

(** boolean.rs:68-78 bool_without_compress_encode (writes its header even for no values) *)
Definition bool_null_encode (src : list bool) : list Z :=
  ENC_NULL :: map (fun b : bool => if b then 1 else 0) src.
(** boolean.rs:111-135 bool_without_compress_decode *)
Fixpoint bool_null_loop (bit_set : list bool) (src : list Z) : list (option bool) :=
  match bit_set with
  | [] => []
  | false :: bs => None :: bool_null_loop bs src
  | true :: bs => match src with [] => bool_null_loop bs [] | v :: src' => Some (v =? 1) :: bool_null_loop bs src' end
  end.
Definition bool_null_decode (src : list Z) (bit_set : list bool) : list (option bool) :=
  match src with [] => [] | _ :: src' => bool_null_loop bit_set src' end.
