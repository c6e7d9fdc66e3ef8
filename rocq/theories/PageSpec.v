(** What is written to and read from a data page, independently of the page format. *)
From Verif Require Import Prelude TimestampModel IntegerModel FloatModel PageModel CodecSpec.

Section Spec.
Variable utf8 : bytestr -> bool.
(** A stored string is valid UTF-8 and its length fits u64. *)
Definition good_str (s : bytestr) : Prop := utf8 s = true /\ Z.of_nat (length s) <= U64_MAX.

(** Values in range for the column type. *)
Definition wf_column (c : column) : Prop :=
  match c with
  | ColTime c | ColI64 c => column_of is_i64 c
  | ColU64 c | ColF64 c => column_of is_u64 c
  | ColBool c => True
  | ColStr c => column_of good_str c
  end.
End Spec.
Definition ptype_of (c : column) : ptype :=
  match c with ColTime _ => TTime | ColI64 _ => TI64 | ColU64 _ => TU64 | ColF64 _ => TF64 | ColBool _ => TBool | ColStr _ => TStr end.
(** DELTATS is the codec in effect. *)
Definition uses_deltats (default_ts : bool) (enc : Z) : bool :=
  ((enc =? ENC_DELTATS) || (default_ts && negb ((enc =? ENC_NULL) || (enc =? ENC_DELTA) || (enc =? ENC_QUANTILE))))%bool.

(** The two kinds of page that do not survive: a null first slot under DELTATS, and a gorilla page whose
    only value is the NaN used as end marker. *)
Definition page_safe (enc : Z) (c : column) : Prop :=
  match c with
  | ColTime c => uses_deltats true enc = true -> forall c', c <> None :: c'
  | ColI64 c => uses_deltats false enc = true -> forall c', c <> None :: c'
  | ColF64 c => enc <> ENC_NULL -> enc <> ENC_QUANTILE -> non_nulls c <> [SENTINEL]
  | _ => True
  end.

