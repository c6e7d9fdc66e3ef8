(** Model of the timestamp column codec (/repo/tskv/src/tsm/codec/timestamp.rs).  It is the codec of
    the time column and also the one selected by CODEC(DELTATS) on a BIGINT field
    (instance.rs:376-384 get_i64_codec). *)
From Verif Require Import Prelude Bytes Simple8bModel IntegerModel.

(** timestamp.rs:57-66: raw deltas, original neighbours (the loop runs backwards in place) *)
Fixpoint raw_deltas (prev : Z) (l : list Z) : list Z :=
  match l with
  | [] => []
  | x :: l' => wrap_u64 (wrap_u64 x - wrap_u64 prev) :: raw_deltas x l'
  end.

(** timestamp.rs:101-110 and 145-148: [while div > 1 && delta % div != 0 { div /= 10 }].  The divisor
    is always a power of ten, so it is carried as its exponent (at most 12), which is also what
    [(div as f64).log10() as u8] yields: f64 log10 is exact on 10^0..10^12 (assumed). *)
Fixpoint div_exp (e : nat) (delta : Z) : nat :=
  match e with
  | O => O
  | S e' => if delta mod 10 ^ Z.of_nat e =? 0 then e else div_exp e' delta
  end.
(** timestamp.rs:101-110: the divisor common to all deltas; the early [break] at [div <= 1] changes
    nothing. *)
Definition common_exp (deltas : list Z) : nat := fold_left div_exp deltas 12%nat.

(** common/models/src/codec.rs:38-52 Encoding::DeltaTs *)
Definition ENC_DELTATS : Z := 11.

(** timestamp.rs:50-124 ts_zigzag_simple8b_encode with encode_rle (134-180) inlined. [32|16 + exponent]
    is the type nibble or-ed with the scaler nibble. *)
Definition ts_encode (src : list Z) : result (list Z) :=
  match src with
  | [] => Ok []
  | x0 :: rest =>
      let ds := raw_deltas x0 rest in
      let d0 := wrap_u64 x0 in
      match ds with
      | d1 :: _ =>
          if all_equal ds then
            let e := div_exp 12 d1 in
            Ok (ENC_DELTATS :: (32 + Z.of_nat e) :: be_bytes 8 d0
                  ++ varint_enc (d1 / 10 ^ Z.of_nat e) ++ varint_enc (Z.of_nat (length src)))
          else if max_of ds >? S8B_MAX_VALUE then
            Ok (ENC_DELTATS :: 0 :: flat_map (be_bytes 8) (d0 :: ds))
          else
            let e := common_exp ds in
            rbind (s8b_encode (map (fun d => d / 10 ^ Z.of_nat e) ds)) (fun packed =>
              Ok (ENC_DELTATS :: (16 + Z.of_nat e) :: be_bytes 8 d0 ++ packed))
      | [] => (* a single value: no deltas, divisor stays 10^12 *)
          rbind (s8b_encode []) (fun packed => Ok (ENC_DELTATS :: 28 :: be_bytes 8 d0 ++ packed))
      end
  end.

(** timestamp.rs:204-229 decode_uncompressed_to_array: appends nothing once the data is used up;
    [prev +=] wraps in release. *)
Fixpoint ts_uncompressed_loop (bit_set : list bool) (src : list Z) (prev : Z) : list (option Z) :=
  match bit_set with
  | [] => []
  | false :: bs => None :: ts_uncompressed_loop bs src prev
  | true :: bs =>
      match take_u64 src with
      | None => ts_uncompressed_loop bs src prev
      | Some (w, src') => let prev' := wrap_i64 (prev + wrap_i64 w) in Some prev' :: ts_uncompressed_loop bs src' prev'
      end
  end.
Definition ts_decode_uncompressed (src : list Z) (bit_set : list bool) : result (list (option Z)) :=
  if ((length src =? 0)%nat || negb (length src mod 8 =? 0)%nat)%bool then Err
  else Ok (ts_uncompressed_loop bit_set src 0).

(** timestamp.rs:231-264 decode_rle_to_array; [h] is the header byte, [src] what follows it *)
Definition ts_decode_rle (h : Z) (src : list Z) (bit_set : list bool) : result (list (option Z)) :=
  match take_u64 src with
  | None => Err
  | Some (w, rest) =>
      match varint_dec rest with
      | None => Err
      | Some (delta, _) =>
          let delta := wrap_u64 (delta * 10 ^ (Z.land h 15)) in
          Ok (i64_rle_loop bit_set true (wrap_i64 w) (wrap_i64 delta))
      end
  end.

(** timestamp.rs:285-303: slots after the first *)
Fixpoint ts_simple8b_loop (bit_set : list bool) (scaler next : Z) (iter : list Z) : list (option Z) :=
  match bit_set with
  | [] => []
  | false :: bs => None :: ts_simple8b_loop bs scaler next iter
  | true :: bs =>
      match iter with
      | v :: iter' =>
          let next' := wrap_i64 (next + wrap_i64 (if scaler >? 1 then wrap_u64 (v * scaler) else v)) in
          Some next' :: ts_simple8b_loop bs scaler next' iter'
      | [] => ts_simple8b_loop bs scaler next []
      end
  end.
(** timestamp.rs:266-305 decode_simple8b_to_array: slot 0 gets the first value if it is valid and a
    null otherwise (the first value is then not given to any slot); [is_valid(0)] panics on an empty
    null buffer. *)
Definition ts_decode_simple8b (h : Z) (src : list Z) (bit_set : list bool) : result (list (option Z)) :=
  match take_u64 src with
  | None => Err
  | Some (w, packed) =>
      let next := wrap_i64 w in
      match bit_set with
      | [] => Panic
      | b :: bs =>
          rbind (s8b_decode packed) (fun res =>
            Ok ((if b then Some next else None) :: ts_simple8b_loop bs (10 ^ (Z.land h 15)) next res))
      end
  end.

(** timestamp.rs:182-202 ts_zigzag_simple8b_decode_to_array *)
Definition ts_decode (src : list Z) (bit_set : list bool) : result (list (option Z)) :=
  match src with
  | [] => Ok (repeat None (length bit_set))
  | _ :: src1 =>
      match src1 with
      | [] => Panic
      | h :: body =>
          let encoding := Z.shiftr h 4 in
          if encoding =? 0 then ts_decode_uncompressed body bit_set
          else if encoding =? 2 then ts_decode_rle h body bit_set
          else if encoding =? 1 then ts_decode_simple8b h body bit_set
          else Err
      end
  end.

(** common/models/src/codec.rs:38-52 Encoding::Null *)
Definition ENC_NULL : Z := 1.
(** timestamp.rs:21-31 ts_without_compress_encode (also i64/u64 without compression,
    integer.rs:30-32) *)
Definition ts_null_encode (src : list Z) : list Z :=
  match src with [] => [] | _ => ENC_NULL :: flat_map (fun x => be_bytes 8 (wrap_u64 x)) src end.
(** timestamp.rs:307-331 ts_without_compress_decode_to_array; [chunks(8)] yields a shorter last chunk
    on which decode_be_i64 panics *)
Fixpoint ts_null_loop (bit_set : list bool) (src : list Z) : result (list (option Z)) :=
  match bit_set with
  | [] => Ok []
  | false :: bs => rbind (ts_null_loop bs src) (fun r => Ok (None :: r))
  | true :: bs =>
      match src with
      | [] => ts_null_loop bs []
      | _ => match take_u64 src with
             | None => Panic
             | Some (w, src') => rbind (ts_null_loop bs src') (fun r => Ok (Some (wrap_i64 w) :: r))
             end
      end
  end.
Definition ts_null_decode (src : list Z) (bit_set : list bool) : result (list (option Z)) :=
  match src with
  | [] => Ok (repeat None (length bit_set))
  | _ :: src1 => ts_null_loop bit_set src1
  end.
