(** Model of the simple8b packer (/repo/tskv/src/tsm/codec/simple8b.rs). Values are u64 as [Z],
    the byte vector is a list of bytes as [Z]. *)
From Verif Require Import Prelude Bytes.

(** simple8b.rs:5 MAX_VALUE *)
Definition S8B_MAX_VALUE : Z := 2 ^ 60 - 1.
(** simple8b.rs:7-22 NUM_BITS: (number of integers, bits per integer) *)
Definition NUM_BITS : list (nat * Z) :=
  [(60%nat, 1); (30%nat, 2); (20%nat, 3); (15%nat, 4); (12%nat, 5); (10%nat, 6); (8%nat, 7);
   (7%nat, 8); (6%nat, 10); (5%nat, 12); (4%nat, 15); (3%nat, 20); (2%nat, 30); (1%nat, 60)].

(** simple8b.rs:39 take_while(== 1).count() *)
Fixpoint count_ones (l : list Z) : nat :=
  match l with x :: l' => if x =? 1 then S (count_ones l') else O | [] => O end.

(** simple8b.rs:57-68: the inner loop for one selector: [None] is [continue 'codes] (a value does not
    fit), otherwise the accumulated word. [in_v << sh] is a u64 shift (wraps). *)
Fixpoint pack_loop (bits k : Z) (vs : list Z) (val : Z) : option Z :=
  match vs with
  | [] => Some val
  | v :: vs' =>
      if v >=? 2 ^ bits then None
      else pack_loop bits (k + 1) vs' (Z.lor val (wrap_u64 (Z.shiftl v (k * bits))))
  end.

(** simple8b.rs:51-72: try the selectors in order; [idx] is the position in the table. Returns the
    word and the number of integers packed. *)
Fixpoint try_codes (idx : Z) (codes : list (nat * Z)) (src : list Z) : option (Z * nat) :=
  match codes with
  | [] => None
  | (n, bits) :: codes' =>
      if (length src <? n)%nat then try_codes (idx + 1) codes' src
      else match pack_loop bits 0 (firstn n src) (Z.shiftl (idx + 2) 60) with
           | Some w => Some (w, n)
           | None => try_codes (idx + 1) codes' src
           end
  end.

(** simple8b.rs:26-76 encode: [fuel] bounds the iterations of the while loop. *)
Fixpoint s8b_encode_fuel (fuel : nat) (src : list Z) : result (list Z) :=
  match src with
  | [] => Ok []
  | _ =>
    match fuel with
    | O => OutOfFuel
    | S f =>
      let remain := length src in
      let k := if (remain <? 120)%nat then O
               else count_ones (firstn (if (remain <? 240)%nat then 120 else 240) src) in
      if (k =? 240)%nat then
        rbind (s8b_encode_fuel f (skipn 240 src)) (fun r => Ok (repeat 0 8 ++ r))
      else if (120 <=? k)%nat then
        rbind (s8b_encode_fuel f (skipn 120 src)) (fun r => Ok (be_bytes 8 (Z.shiftl 1 60) ++ r))
      else match try_codes 0 NUM_BITS src with
           | Some (w, n) => rbind (s8b_encode_fuel f (skipn n src)) (fun r => Ok (be_bytes 8 w ++ r))
           | None => Err
           end
    end
  end.
Definition s8b_encode (src : list Z) : result (list Z) := s8b_encode_fuel (length src) src.

(** simple8b.rs:111-205: the unpacking loops [*i = v & mask; v >>= bits] *)
Fixpoint unpack (n : nat) (bits v : Z) : list Z :=
  match n with
  | O => []
  | S n' => Z.land v (2 ^ bits - 1) :: unpack n' bits (Z.shiftr v bits)
  end.
(** simple8b.rs:95-208 decode_value.  Selector 12 is written out with explicit shifts in the code;
    it reads the same four fields. *)
Definition decode_value (v : Z) : list Z :=
  let sel := Z.shiftr v 60 in
  if sel =? 0 then repeat 1 240
  else if sel =? 1 then repeat 1 120
  else match nth_error NUM_BITS (Z.to_nat (sel - 2)) with
       | Some (n, bits) => unpack n bits v
       | None => []
       end.
(** simple8b.rs:80-93 decode: eight bytes at a time; [copy_from_slice(&src[i..i+8])] panics on a
    shorter tail. *)
Fixpoint s8b_decode (src : list Z) : result (list Z) :=
  match src with
  | [] => Ok []
  | a :: b :: c :: d :: e :: f :: g :: h :: rest =>
      rbind (s8b_decode rest) (fun r => Ok (decode_value (of_be [a;b;c;d;e;f;g;h]) ++ r))
  | _ => Panic
  end.
