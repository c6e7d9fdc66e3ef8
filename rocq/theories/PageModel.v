(** Model of string columns (/repo/tskv/src/tsm/codec/string.rs), of the choice of codec
    (codec/instance.rs) and of data pages (tsm/page.rs, tsm/reader.rs).

    Outside the model, and taken as parameters: the byte compressors (zstd, gzip, bzip2, zlib, snappy),
    the pco numeric compressor, crc32 and the UTF-8 check. *)
From Verif Require Import Prelude Bytes IntegerModel TimestampModel BooleanModel FloatModel.

Definition bytestr := list Z.

(** common/models/src/codec.rs:38-52 *)
Definition ENC_UNKNOWN : Z := 15.
Definition ENC_QUANTILE : Z := 3.
Definition ENC_GZIP : Z := 4.
Definition ENC_BZIP : Z := 5.
Definition ENC_SNAPPY : Z := 7.
Definition ENC_ZSTD : Z := 8.
Definition ENC_ZLIB : Z := 9.

(** string.rs:90-167: the common frame of zstd/gzip/bzip/zlib/without-compress: 8-byte length then
    the bytes of each string *)
Definition str_frame (src : list bytestr) : list Z :=
  flat_map (fun s => be_bytes 8 (Z.of_nat (length s)) ++ s) src.
(** string.rs:63-69 (snappy): varint length then the bytes *)
Definition str_frame_var (src : list bytestr) : list Z :=
  flat_map (fun s => varint_enc (Z.of_nat (length s)) ++ s) src.

Section WithExternals.
Variable compress : Z -> list Z -> list Z.
Variable decompress : Z -> list Z -> result (list Z).
Variable pco_compress : list Z -> list Z.
Variable pco_decompress : list Z -> result (list Z).
Variable crc32 : list Z -> Z.
Variable utf8 : bytestr -> bool.

(** string.rs:290-312 split_stream_to_array: slice indexing panics when the data is short *)
Fixpoint split_stream (bit_set : list bool) (data : list Z) : result (list (option bytestr)) :=
  match bit_set with
  | [] => Ok []
  | false :: bs => rbind (split_stream bs data) (fun r => Ok (None :: r))
  | true :: bs =>
      match take_u64 data with
      | None => Panic
      | Some (n, data1) =>
          if Z.of_nat (length data1) <? n then Panic
          else let s := firstn (Z.to_nat n) data1 in
               if utf8 s then rbind (split_stream bs (skipn (Z.to_nat n) data1)) (fun r => Ok (Some s :: r))
               else Err
      end
  end.
(** string.rs:226-276 str_snappy_decode_to_array after decompression; nothing is appended once the
    data is used up *)
Fixpoint split_stream_var (bit_set : list bool) (data : list Z) : result (list (option bytestr)) :=
  match bit_set with
  | [] => Ok []
  | false :: bs => rbind (split_stream_var bs data) (fun r => Ok (None :: r))
  | true :: bs =>
      match data with
      | [] => split_stream_var bs []
      | _ =>
          match varint_dec data with
          | None => Err
          | Some (n, read) =>
              let data1 := skipn read data in
              if Z.of_nat (length data1) <? n then Err
              else let s := firstn (Z.to_nat n) data1 in
                   if utf8 s then rbind (split_stream_var bs (skipn (Z.to_nat n) data1)) (fun r => Ok (Some s :: r))
                   else Err
          end
      end
  end.

(** string.rs:32-184 with instance.rs:408-418 get_str_codec: unknown encodings fall back to snappy *)
Definition str_encode (enc : Z) (src : list bytestr) : list Z :=
  match src with
  | [] => []
  | _ =>
      if enc =? ENC_NULL then ENC_NULL :: str_frame src
      else if ((enc =? ENC_GZIP) || (enc =? ENC_BZIP) || (enc =? ENC_ZSTD) || (enc =? ENC_ZLIB))%bool
           then enc :: compress enc (str_frame src)
      else ENC_SNAPPY :: 16 :: compress ENC_SNAPPY (str_frame_var src)
  end.
Definition str_decode (enc : Z) (src : list Z) (bit_set : list bool) : result (list (option bytestr)) :=
  match src with
  | [] => Ok (repeat None (length bit_set))
  | _ :: src1 =>
      if enc =? ENC_NULL then split_stream bit_set src1
      else if ((enc =? ENC_GZIP) || (enc =? ENC_BZIP) || (enc =? ENC_ZSTD) || (enc =? ENC_ZLIB))%bool
           then rbind (decompress enc src1) (split_stream bit_set)
      else match src1 with
           | [] => Panic
           | _ :: src2 => rbind (decompress ENC_SNAPPY src2) (split_stream_var bit_set)
           end
  end.

(** timestamp.rs:33-42 ts_pco_encode, 333-353 ts_pco_decode_to_array (missing values append nothing) *)
Definition pco_encode (src : list Z) : list Z :=
  match src with [] => [] | _ => ENC_QUANTILE :: pco_compress src end.
Fixpoint fill_lenient (bit_set : list bool) (vals : list Z) : list (option Z) :=
  match bit_set with
  | [] => []
  | false :: bs => None :: fill_lenient bs vals
  | true :: bs => match vals with [] => fill_lenient bs [] | v :: vals' => Some v :: fill_lenient bs vals' end
  end.
Definition pco_decode_i64 (src : list Z) (bit_set : list bool) : result (list (option Z)) :=
  match src with
  | [] => Ok (repeat None (length bit_set))
  | _ :: src1 => rbind (pco_decompress src1) (fun v => Ok (fill_lenient bit_set v))
  end.
(** float.rs:358-380 f64_pco_decode: also treats a lone header byte as all null *)
Definition pco_decode_f64 (src : list Z) (bit_set : list bool) : result (list (option Z)) :=
  match src with
  | [] => Ok (repeat None (length bit_set))
  | _ :: src1 =>
      match src1 with
      | [] => Ok (repeat None (length bit_set))
      | _ => rbind (pco_decompress src1) (fill_slots bit_set)
      end
  end.

(** A column chunk handed to the page writer, by physical type. *)
Inductive column :=
| ColTime (c : list (option Z))
| ColI64 (c : list (option Z))
| ColU64 (c : list (option Z))
| ColF64 (c : list (option Z))
| ColBool (c : list (option bool))
| ColStr (c : list (option bytestr)).
Inductive ptype := TTime | TI64 | TU64 | TF64 | TBool | TStr.

(** instance.rs:366-384: the integer codecs differ from the time codecs only in the fallback *)
Definition enc_int (default_ts : bool) (enc : Z) (src : list Z) : result (list Z) :=
  if enc =? ENC_NULL then Ok (ts_null_encode src)
  else if enc =? ENC_DELTA then i64_encode src
  else if enc =? ENC_DELTATS then ts_encode src
  else if enc =? ENC_QUANTILE then Ok (pco_encode src)
  else if default_ts then ts_encode src else i64_encode src.
Definition dec_int (default_ts : bool) (enc : Z) (src : list Z) (bs : list bool) : result (list (option Z)) :=
  if enc =? ENC_NULL then ts_null_decode src bs
  else if enc =? ENC_DELTA then i64_decode src bs
  else if enc =? ENC_DELTATS then ts_decode src bs
  else if enc =? ENC_QUANTILE then pco_decode_i64 src bs
  else if default_ts then ts_decode src bs else i64_decode src bs.
(** instance.rs:386-393 get_u64_codec; unsigned.rs casts to i64 and back *)
Definition enc_u64 (enc : Z) (src : list Z) : result (list Z) :=
  if enc =? ENC_NULL then Ok (ts_null_encode (map wrap_i64 src))
  else if enc =? ENC_QUANTILE then Ok (pco_encode (map wrap_i64 src))
  else u64_encode src.
Definition dec_u64 (enc : Z) (src : list Z) (bs : list bool) : result (list (option Z)) :=
  if enc =? ENC_NULL then rmap (map (option_map wrap_u64)) (ts_null_decode src bs)
  else if enc =? ENC_QUANTILE then rmap (map (option_map wrap_u64)) (pco_decode_i64 src bs)
  else u64_decode src bs.
(** instance.rs:395-402 get_f64_codec *)
Definition enc_f64 (enc : Z) (src : list Z) : result (list Z) :=
  if enc =? ENC_NULL then Ok (f64_null_encode src)
  else if enc =? ENC_QUANTILE then Ok (pco_encode src)
  else f64_encode src.
Definition dec_f64 (enc : Z) (src : list Z) (bs : list bool) : result (list (option Z)) :=
  if enc =? ENC_NULL then f64_null_decode src bs
  else if enc =? ENC_QUANTILE then pco_decode_f64 src bs
  else f64_decode src bs.
(** instance.rs:420-426 get_bool_codec *)
Definition enc_bool (enc : Z) (src : list bool) : result (list Z) :=
  if enc =? ENC_NULL then Ok (bool_null_encode src) else bool_encode src.
Definition dec_bool (enc : Z) (src : list Z) (bs : list bool) : result (list (option bool)) :=
  if enc =? ENC_NULL then Ok (bool_null_decode src bs) else bool_decode src bs.

(** arrow BooleanBufferBuilder: bit [i] of the bitmap is bit [i mod 8] (least significant first) of
    byte [i / 8]; unused bits of the last byte are zero. *)
Fixpoint lsb_byte (l : list bool) : Z := match l with [] => 0 | b :: l' => Z.b2z b + 2 * lsb_byte l' end.
Fixpoint pack_lsb (fuel : nat) (l : list bool) : list Z :=
  match fuel with
  | O => []
  | S f => match l with [] => [] | _ => lsb_byte (firstn 8 l) :: pack_lsb f (skipn 8 l) end
  end.
Definition lsb_bits (b : Z) : list bool := map (fun i => Z.testbit b (Z.of_nat i)) (seq 0 8).
Definition unpack_lsb (n : nat) (l : list Z) : list bool := firstn n (flat_map lsb_bits l).

Definition validity (c : column) : list bool :=
  let bits {A} (c : list (option A)) := map (fun v => match v with Some _ => true | None => false end) c in
  match c with
  | ColTime c | ColI64 c | ColU64 c | ColF64 c => bits c
  | ColBool c => bits c
  | ColStr c => bits c
  end.
(** page.rs:352-505 col_to_page and 507-590 colref_to_page: the values of the set bits are encoded with
    the codec of the column (filter over [valid]) *)
Fixpoint present {A} (c : list (option A)) : list A :=
  match c with [] => [] | Some v :: c' => v :: present c' | None :: c' => present c' end.
Definition encode_column (enc : Z) (c : column) : result (list Z) :=
  match c with
  | ColTime c => enc_int true enc (present c)
  | ColI64 c => enc_int false enc (present c)
  | ColU64 c => enc_u64 enc (present c)
  | ColF64 c => enc_f64 enc (present c)
  | ColBool c => enc_bool enc (present c)
  | ColStr c => Ok (str_encode enc (present c))
  end.
Definition write_page (enc : Z) (c : column) : result (list Z) :=
  rbind (encode_column enc c) (fun buf =>
    let valid := validity c in
    let bitmap := pack_lsb (length valid) valid in
    Ok (be_bytes 4 (Z.of_nat (length bitmap)) ++ be_bytes 8 (Z.of_nat (length valid))
         ++ be_bytes 4 (crc32 buf) ++ bitmap ++ buf)).

(** page.rs:57-76 crc_validation, 78-97 accessors; slices panic when out of range *)
Definition page_parts (bytes : list Z) : option (Z * list bool * list Z) :=
  if (length bytes <? 16)%nat then None
  else
    let bitset_len := Z.to_nat (of_be (firstn 4 bytes)) in
    let data_len := Z.to_nat (of_be (firstn 8 (skipn 4 bytes))) in
    let crc := of_be (firstn 4 (skipn 12 bytes)) in
    let rest := skipn 16 bytes in
    if (length rest <? bitset_len)%nat then None
    else Some (crc, unpack_lsb data_len (firstn bitset_len rest), skipn bitset_len rest).
(** instance.rs:358-363 get_encoding *)
Definition get_encoding (src : list Z) : Z := match src with [] => ENC_UNKNOWN | b :: _ => b end.
(** reader.rs:658-731 data_buf_to_arrow_array, after the crc check *)
Definition read_page (t : ptype) (bytes : list Z) : result column :=
  match page_parts bytes with
  | None => Panic
  | Some (crc, bs, data) =>
      if negb (crc =? crc32 data) then Err
      else
        let enc := get_encoding data in
        match t with
        | TTime => rmap ColTime (dec_int true enc data bs)
        | TI64 => rmap ColI64 (dec_int false enc data bs)
        | TU64 => rmap ColU64 (dec_u64 enc data bs)
        | TF64 => rmap ColF64 (dec_f64 enc data bs)
        | TBool => rmap ColBool (dec_bool enc data bs)
        | TStr => rmap ColStr (str_decode enc data bs)
        end
  end.
End WithExternals.
