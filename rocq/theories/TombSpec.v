(** Specification of tombstones: which instants of which column are deleted. *)
From Verif Require Import Prelude Bytes TimeRangeModel TimeRangeSpec TombModel.
Open Scope Z_scope.

(** What happens to the tombstones of one data file: rows are deleted, a compaction moves the rows of a
    time range to another file (it writes the temporary file, and installs it when it is done), the
    process restarts. *)
Inductive tact := ADelete (cols : list ckey) (r : trange) | APrepare (r : trange) | AInstall | AReopen.
Definition tact_run (order : list (ckey * tranges) -> list (ckey * tranges)) (bloom : Z -> bool) (s : tstone) (a : tact) : tstone :=
  match a with
  | ADelete cols r => t_add_range bloom s cols r
  | APrepare r => fst (t_prepare order s r)
  | AInstall => t_install s
  | AReopen => t_reopen s
  end.
Definition tacts_run order bloom (h : list tact) : tstone := fold_left (tact_run order bloom) h t_new.

(** Histories in which a compaction is not disturbed. *)
Inductive tblock := BDelete (cols : list ckey) (r : trange) | BMove (r : trange) | BReopen.
Definition acts (b : tblock) : list tact :=
  match b with BDelete cols r => [ADelete cols r] | BMove r => [APrepare r; AInstall] | BReopen => [AReopen] end.
Definition key_eq_dec (a b : ckey) : {a = b} + {a <> b}.
Proof. decide equality; apply Z.eq_dec. Defined.
(** The ranges deleted from a column, and the ranges moved away. *)
Definition deleted (k : ckey) (h : list tblock) : list trange :=
  flat_map (fun b => match b with BDelete cols r => if in_dec key_eq_dec k cols then [r] else [] | _ => [] end) h.
Definition moved (h : list tblock) : list trange := flat_map (fun b => match b with BMove r => [r] | _ => [] end) h.
(** Whether the tombstones hide the instant [t] of column [k] when a page with time range [tr] is read. *)
Definition hidden (s : tstone) (k : ckey) (tr : trange) (t : Z) : Prop :=
  exists r, In r (c_col_ranges (t_cache s) k tr ++ c_all_ranges (t_cache s) tr) /\ instants r t.

Definition key_okk (k : ckey) : Prop := 0 <= fst k < 2 ^ 32 /\ 0 <= snd k < 2 ^ 32.
Definition block_ok (b : tblock) : Prop :=
  match b with
  | BDelete cols r => Forall key_okk cols /\ i64_range r /\ nonempty r
  | BMove r => i64_range r /\ nonempty r
  | BReopen => True
  end.
(** Not one range without start and another without end, unless one of them is without both. *)
Definition no_gap (l : list trange) : Prop :=
  forall a b, In a l -> In b l -> tmin a = I64_MIN -> tmax b = I64_MAX -> a = tr_all \/ b = tr_all.

(** A tombstone that fits one piece of a record. *)
Definition tomb_ok (t : tomb) : Prop :=
  (length (b_ranges t) <= 1000)%nat /\ Forall i64_range (b_ranges t) /\
  match b_field t with FOne k => key_okk k | FAll => True end.

(** A record of the first file format: series id and column id in four bytes each, the first and the last
    deleted instant in eight bytes each, all most significant byte first. *)
Definition old_record (series column from til : Z) : list Z :=
  be_bytes 4 series ++ be_bytes 4 column ++ be_bytes 8 (from mod 2 ^ 64) ++ be_bytes 8 (til mod 2 ^ 64).
