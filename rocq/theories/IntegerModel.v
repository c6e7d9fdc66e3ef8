(** Model of the integer and unsigned column codecs
    (/repo/tskv/src/tsm/codec/integer.rs, unsigned.rs).  i64 and u64 values are [Z]; the arrow null
    buffer is a [list bool] and the decoded arrow array a [list (option Z)]. *)
From Verif Require Import Prelude Bytes Simple8bModel.

(** integer.rs:102-104 zig_zag_encode.  [v << 1] drops the top bit of the i64, [v >> 63] is the
    arithmetic shift. *)
Definition zig_zag_encode (v : Z) : Z :=
  wrap_u64 (Z.lxor (wrap_i64 (Z.shiftl v 1)) (Z.shiftr v 63)).
(** integer.rs:108-110 zig_zag_decode *)
Definition zig_zag_decode (v : Z) : Z :=
  wrap_i64 (Z.lxor (Z.shiftr v 1) (wrap_u64 (Z.shiftr (wrap_i64 (Z.shiftl (Z.land v 1) 63)) 63))).

(** integer.rs:47-53: the delta loop.  It runs backwards in place so every delta is taken between
    original neighbours; here it is written forwards with the original neighbour as [prev].
    integer.rs:115-117 i64_to_u64_vector is the [as u64] cast. *)
Fixpoint zz_deltas (prev : Z) (l : list Z) : list Z :=
  match l with
  | [] => []
  | x :: l' => zig_zag_encode (wrap_i64 (wrap_u64 (wrap_u64 x - wrap_u64 prev))) :: zz_deltas x l'
  end.
(** integer.rs:46,50-52 [max] *)
Definition max_of (l : list Z) : Z := fold_right (fun d m => if d >? m then d else m) 0 l.
(** integer.rs:60-65 / timestamp.rs: all deltas equal to the first *)
Definition all_equal (l : list Z) : bool :=
  match l with [] => true | d :: l' => forallb (fun e => d =? e) l' end.

(** common/models/src/codec.rs:38-52 Encoding::Delta *)
Definition ENC_DELTA : Z := 2.

(** integer.rs:40-96 i64_zigzag_simple8b_encode, with encode_rle (124-140) inlined: [n = 10] is the
    position after the two header bytes and the first value, the buffer is resized with zeros and
    truncated to the bytes written. *)
Definition i64_encode (src : list Z) : result (list Z) :=
  match src with
  | [] => Ok []
  | x0 :: rest =>
      let ds := zz_deltas x0 rest in
      let d0 := zig_zag_encode x0 in
      if ((2 <? length src)%nat && all_equal ds)%bool then
        match ds with
        | d1 :: _ =>
            Ok (ENC_DELTA :: 32 :: be_bytes 8 d0 ++ varint_enc d1 ++ varint_enc (Z.of_nat (length src) - 1))
        | [] => Panic
        end
      else if max_of ds >? S8B_MAX_VALUE then
        Ok (ENC_DELTA :: 0 :: flat_map (be_bytes 8) (d0 :: ds))
      else rbind (s8b_encode ds) (fun packed => Ok (ENC_DELTA :: 16 :: be_bytes 8 d0 ++ packed))
  end.

(** [src[i..i+8]] as a big-endian u64; the slice panics when fewer than 8 bytes remain *)
Definition take_u64 (src : list Z) : option (Z * list Z) :=
  match src with
  | a :: b :: c :: d :: e :: f :: g :: h :: rest => Some (of_be [a;b;c;d;e;f;g;h], rest)
  | _ => None
  end.

(** integer.rs:165-184 decode_uncompressed_to_array *)
Fixpoint i64_uncompressed_loop (bit_set : list bool) (src : list Z) (prev : Z) : result (list (option Z)) :=
  match bit_set with
  | [] => Ok []
  | false :: bs => rbind (i64_uncompressed_loop bs src prev) (fun r => Ok (None :: r))
  | true :: bs =>
      match take_u64 src with
      | None => Panic
      | Some (w, src') =>
          let prev' := wrap_i64 (prev + zig_zag_decode w) in
          rbind (i64_uncompressed_loop bs src' prev') (fun r => Ok (Some prev' :: r))
      end
  end.
Definition i64_decode_uncompressed (src : list Z) (bit_set : list bool) : result (list (option Z)) :=
  if ((length src =? 0)%nat || negb (length src mod 8 =? 0)%nat)%bool then Err
  else i64_uncompressed_loop bit_set src 0.

(** integer.rs:186-214 decode_rle_to_array; the stored count is not read *)
Fixpoint i64_rle_loop (bit_set : list bool) (is_first : bool) (first delta : Z) : list (option Z) :=
  match bit_set with
  | [] => []
  | false :: bs => None :: i64_rle_loop bs is_first first delta
  | true :: bs =>
      if is_first then Some first :: i64_rle_loop bs false first delta
      else let first' := wrap_i64 (first + delta) in Some first' :: i64_rle_loop bs false first' delta
  end.
Definition i64_decode_rle (src : list Z) (bit_set : list bool) : result (list (option Z)) :=
  match take_u64 src with
  | None => Err
  | Some (w, rest) =>
      match varint_dec rest with
      | None => Err
      | Some (delta, _) => Ok (i64_rle_loop bit_set true (zig_zag_decode w) (zig_zag_decode delta))
      end
  end.

(** integer.rs:216-248 decode_simple8b_to_array: the packed words are decoded when the first valid
    slot is met; when the words run out nothing is appended for the slot.  [next +=] wraps in the
    release profile (/repo/Cargo.toml overflow-checks = false). *)
Fixpoint i64_simple8b_loop (bit_set : list bool) (next : Z) (iter : list Z) : list (option Z) :=
  match bit_set with
  | [] => []
  | false :: bs => None :: i64_simple8b_loop bs next iter
  | true :: bs =>
      match iter with
      | v :: iter' => let next' := wrap_i64 (next + zig_zag_decode v) in Some next' :: i64_simple8b_loop bs next' iter'
      | [] => i64_simple8b_loop bs next []
      end
  end.
Fixpoint i64_simple8b_first (bit_set : list bool) (first : Z) (packed : list Z) : result (list (option Z)) :=
  match bit_set with
  | [] => Ok []
  | false :: bs => rbind (i64_simple8b_first bs first packed) (fun r => Ok (None :: r))
  | true :: bs => rbind (s8b_decode packed) (fun res => Ok (Some first :: i64_simple8b_loop bs first res))
  end.
Definition i64_decode_simple8b (src : list Z) (bit_set : list bool) : result (list (option Z)) :=
  match take_u64 src with
  | None => Err
  | Some (w, packed) => i64_simple8b_first bit_set (zig_zag_decode w) packed
  end.

(** integer.rs:142-163 i64_zigzag_simple8b_decode_to_array *)
Definition i64_decode (src : list Z) (bit_set : list bool) : result (list (option Z)) :=
  match src with
  | [] => Ok (repeat None (length bit_set))
  | _ :: src1 =>
      match src1 with
      | [] => Panic
      | h :: body =>
          let encoding := Z.shiftr h 4 in
          if encoding =? 0 then i64_decode_uncompressed body bit_set
          else if encoding =? 2 then i64_decode_rle body bit_set
          else if encoding =? 1 then i64_decode_simple8b body bit_set
          else Err
      end
  end.

(** unsigned.rs:15-30 u64_zigzag_simple8b_encode: reinterpret as i64 *)
Definition u64_encode (src : list Z) : result (list Z) := i64_encode (map wrap_i64 src).
(** unsigned.rs:45-82 u64_zigzag_simple8b_decode_to_array: decode as i64, reinterpret as u64 *)
Definition u64_decode (src : list Z) (bit_set : list bool) : result (list (option Z)) :=
  match src with
  | [] => Ok (repeat None (length bit_set))
  | _ => rmap (map (option_map wrap_u64)) (i64_decode src bit_set)
  end.
