(** Model of the gorilla float codec (/repo/tskv/src/tsm/codec/float.rs) at the level of its bit
    stream.  A float is its 64-bit pattern ([to_bits]).  Simplification: the code writes the stream
    into a byte vector at bit offset [n] and reads it back through a 64-bit cache; here the stream is a
    list of bits, packed into bytes most significant bit first with zero padding. *)
From Verif Require Import Prelude Bytes TimestampModel.

(** float.rs:17 SENTINEL *)
Definition SENTINEL : Z := 0x7ff80000000000ff.
(** common/models/src/codec.rs:38-52 Encoding::Gorilla *)
Definition ENC_GORILLA : Z := 6.

(** [n] low bits of [v], most significant first *)
Fixpoint bits_of (n : nat) (v : Z) : list bool :=
  match n with O => [] | S n' => Z.testbit v (Z.of_nat n') :: bits_of n' v end.
Definition of_bits (l : list bool) : Z := fold_left (fun acc (b : bool) => 2 * acc + Z.b2z b) l 0.

(** u64::leading_zeros / trailing_zeros of a non-zero word *)
Definition leading_zeros (v : Z) : Z := 63 - Z.log2 v.
Fixpoint ctz (fuel : nat) (v : Z) : nat :=
  match fuel with O => O | S f => if Z.odd v then O else S (ctz f (v / 2)) end.
Definition trailing_zeros (v : Z) : Z := Z.of_nat (ctz 64 v).

(** float.rs:52-240: the loop over src[1..] followed by the sentinel.  [win] is
    (prev_leading, prev_trailing), [None] standing for prev_leading = !0. *)
Fixpoint gorilla_bits (prev : Z) (win : option (Z * Z)) (l : list Z) : list bool :=
  match l with
  | [] => []
  | cur :: l' =>
      let v_delta := Z.lxor cur prev in
      if v_delta =? 0 then false :: gorilla_bits cur win l'
      else
        let leading := Z.land (leading_zeros v_delta) 31 in
        let trailing := trailing_zeros v_delta in
        let fresh :=
          let sig_bits := 64 - leading - trailing in
          true :: true :: bits_of 5 leading ++ bits_of 6 sig_bits
            ++ bits_of (Z.to_nat sig_bits) (Z.shiftr v_delta trailing)
            ++ gorilla_bits cur (Some (leading, trailing)) l' in
        match win with
        | Some (pl, pt) =>
            if ((leading >=? pl) && (trailing >=? pt))%bool then
              true :: false :: bits_of (Z.to_nat (64 - pl - pt)) (Z.shiftr v_delta pt) ++ gorilla_bits cur win l'
            else fresh
        | None => fresh
        end
  end.
(** eight bits per byte, the last byte filled up with zero bits *)
Fixpoint pack_bits (fuel : nat) (l : list bool) : list Z :=
  match fuel with
  | O => []
  | S f => match l with
           | [] => []
           | _ => of_bits (firstn 8 (l ++ repeat false 8)) :: pack_bits f (skipn 8 l)
           end
  end.
(** float.rs:33-248 f64_gorilla_encode: only src[1..] is checked against the sentinel (line 57) *)
Definition f64_encode (src : list Z) : result (list Z) :=
  match src with
  | [] => Ok []
  | x0 :: rest =>
      if existsb (fun x => x =? SENTINEL) rest then Err
      else
        let bits := gorilla_bits x0 None (rest ++ [SENTINEL]) in
        Ok (ENC_GORILLA :: 16 :: be_bytes 8 x0 ++ pack_bits (length bits) bits)
  end.

Definition unpack_bits (l : list Z) : list bool := flat_map (bits_of 8) l.
(** reading [n] bits; the stream ending is "unexpected end of block" *)
Definition read_bits (n : nat) (l : list bool) : option (Z * list bool) :=
  if (length l <? n)%nat then None else Some (of_bits (firstn n l), skipn n l).
(** float.rs:486-592: the decode loop. [tn], [mn] are trailing_n and meaningful_n (u8 arithmetic wraps
    at 64 - leading - meaningful). *)
Fixpoint gorilla_read (fuel : nat) (bits : list bool) (val tn mn : Z) : result (list Z) :=
  match fuel with
  | O => OutOfFuel
  | S f =>
      match bits with
      | [] => Err
      | false :: bits1 => rbind (gorilla_read f bits1 val tn mn) (fun r => Ok (val :: r))
      | true :: bits1 =>
          match bits1 with
          | [] => Err
          | c :: bits2 =>
              let header :=
                if c then
                  match read_bits 11 bits2 with
                  | None => None
                  | Some (lm, bits3) =>
                      let leading_n := Z.land (Z.shiftr lm 6) 31 in
                      let mn' := Z.land lm 63 in
                      Some (if mn' >? 0 then ((64 - leading_n - mn') mod 256, mn', bits3) else (0, 64, bits3))
                  end
                else Some (tn, mn, bits2) in
              match header with
              | None => Err
              | Some (tn', mn', bits4) =>
                  match read_bits (Z.to_nat mn') bits4 with
                  | None => Err
                  | Some (s, bits5) =>
                      let val' := Z.lxor val (wrap_u64 (Z.shiftl s (Z.land tn' 63))) in
                      if val' =? SENTINEL then Ok []
                      else rbind (gorilla_read f bits5 val' tn' mn') (fun r => Ok (val' :: r))
                  end
              end
          end
      end
  end.
(** float.rs:594-605: hand the values out to the valid slots; too few values is an error *)
Fixpoint fill_slots {A} (bit_set : list bool) (vals : list A) : result (list (option A)) :=
  match bit_set with
  | [] => Ok []
  | false :: bs => rbind (fill_slots bs vals) (fun r => Ok (None :: r))
  | true :: bs => match vals with
                  | [] => Err
                  | v :: vals' => rbind (fill_slots bs vals') (fun r => Ok (Some v :: r))
                  end
  end.
(** float.rs:347-356 f64_gorilla_decode, 415-607 decode_with_sentinel; [src[1..9]] panics when
    shorter *)
Definition f64_decode (src : list Z) (bit_set : list bool) : result (list (option Z)) :=
  match src with
  | [] => Ok (repeat None (length bit_set))
  | _ :: [] => Ok []
  | _ :: _ :: body =>
      match IntegerModel.take_u64 body with
      | None => Panic
      | Some (first, rest) =>
          let bits := unpack_bits rest in
          rbind (gorilla_read (S (length bits)) bits first 0 64) (fun vals => fill_slots bit_set (first :: vals))
      end
  end.

(** float.rs:262-275 f64_without_compress_encode, 381-411 f64_without_compress_decode.  The decoder
    rejects a page with too few values. *)
Definition f64_null_encode (src : list Z) : list Z :=
  match src with [] => [] | _ => ENC_NULL :: flat_map (be_bytes 8) src end.
Fixpoint f64_null_loop (bit_set : list bool) (src : list Z) : result (list (option Z)) :=
  match bit_set with
  | [] => Ok []
  | false :: bs => rbind (f64_null_loop bs src) (fun r => Ok (None :: r))
  | true :: bs =>
      match src with
      | [] => Err
      | _ => match IntegerModel.take_u64 src with
             | None => Panic
             | Some (w, src') => rbind (f64_null_loop bs src') (fun r => Ok (Some w :: r))
             end
      end
  end.
Definition f64_null_decode (src : list Z) (bit_set : list bool) : result (list (option Z)) :=
  match src with
  | [] => Ok (repeat None (length bit_set))
  | _ :: src1 => f64_null_loop bit_set src1
  end.
