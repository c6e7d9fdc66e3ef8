(** Model of timestamp precision conversion (/repo/common/utils/src/precision.rs, duration.rs), of its use on the
    DELETE path (/repo/query_server/query/src/execution/dml/delete_from_table.rs) and of packed field ids
    (/repo/common/models/src/utils.rs). *)
From Verif Require Import Prelude TimeRangeModel.

(** precision.rs:10-14 Precision *)
Inductive precision := MS | US | NS.

(** i64::checked_mul *)
Definition checked_mul (a b : Z) : option Z :=
  if ((I64_MIN <=? a * b) && (a * b <=? I64_MAX))%bool then Some (a * b) else None.

(** precision.rs:65-73 timestamp_convert; Rust's [/] on i64 truncates towards zero *)
Definition timestamp_convert (from to : precision) (ts : Z) : option Z :=
  match from, to with
  | NS, US | US, MS => Some (Z.quot ts 1000)
  | MS, US | US, NS => checked_mul ts 1000
  | NS, MS => Some (Z.quot ts 1000000)
  | MS, NS => checked_mul ts 1000000
  | _, _ => Some ts
  end.

(** duration.rs:13-16 CnosDuration: a std Duration (kept here as its number of nanoseconds) or infinite *)
Record cnos_duration := CD { dur_ns : Z; is_inf : bool }.
(** duration.rs:75-106 to_precision, to_nanoseconds, to_microseconds, to_millisecond *)
Definition to_precision (d : cnos_duration) (p : precision) : Z :=
  if is_inf d then I64_MAX
  else match p with
       | NS => Z.min (dur_ns d) I64_MAX
       | US => Z.min (dur_ns d / 1000) I64_MAX
       | MS => Z.min (dur_ns d / 1000000) I64_MAX
       end.

(** delete_from_table.rs:60-77: both ends of every range are converted from nanoseconds; a failing
    conversion aborts the statement. *)
Fixpoint convert_ranges (p : precision) (l : list trange) : option (list trange) :=
  match l with
  | [] => Some []
  | r :: l' =>
      match timestamp_convert NS p (tmin r), timestamp_convert NS p (tmax r), convert_ranges p l' with
      | Some lo, Some hi, Some rest => Some (TR lo hi :: rest)
      | _, _, _ => None
      end
  end.
(** delete_from_table.rs:78: the set of stored timestamps the DELETE applies to *)
Definition delete_times (p : precision) (l : list trange) : option tranges := option_map trs_new (convert_ranges p l).

(** utils.rs:4-5 masks *)
Definition LOW_32BIT_MASK : Z := Z.shiftl 1 32 - 1.
Definition HIGH_32BIT_MASK : Z := Z.shiftl (Z.shiftl 1 32 - 1) 32.
(** utils.rs:22-27 split_id; [as u32] keeps the low 32 bits *)
Definition split_id (id : Z) : Z * Z :=
  (Z.shiftr (Z.land id HIGH_32BIT_MASK) 32 mod 2 ^ 32, Z.land id LOW_32BIT_MASK mod 2 ^ 32).
(** utils.rs:29-34 unite_id *)
Definition unite_id (hash_id incr_id : Z) : Z :=
  let high := wrap_u64 (Z.shiftl hash_id 32) in
  let low := Z.land incr_id (LOW_32BIT_MASK mod 2 ^ 32) in
  Z.lor high low.
