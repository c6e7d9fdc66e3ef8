(** The tombstones of a data file: tskv/src/tsm/tombstone.rs.
    The tombstone file is a record file; here it is the list of its records (payload bytes with the
    record type), what C13 shows to be read back.  Writes that fail are not modelled. *)
From Verif Require Import Prelude Bytes TimeRangeModel.
Open Scope Z_scope.

Definition ckey := (Z * Z)%type.   (* series id, column id *)
Definition ckeqb (a b : ckey) : bool := (fst a =? fst b) && (snd a =? snd b).
(** Models tombstone.rs:61-71 (TombstoneField, Tombstone). *)
Inductive tfield := FOne (k : ckey) | FAll.
Record tomb := TB { b_field : tfield; b_ranges : list trange }.

(** Models tombstone.rs:48-49. *)
Definition MAX_RECORD_LEN : Z := 1024 * 128.
Definition MAX_RANGES : nat := 1000.

(** * Bytes *)
Definition enc_i64 (z : Z) : list Z := be_bytes 8 (wrap_u64 z).
Definition dec_i64 (l : list Z) : Z := wrap_i64 (of_be (firstn 8 l)).
Definition enc_range (r : trange) : list Z := enc_i64 (tmin r) ++ enc_i64 (tmax r).
(** Models tombstone.rs:193-213 (encode_field_time_ranges): at most 1000 ranges; the number encoded is
    returned by the code and is [Nat.min (length rs) MAX_RANGES]. *)
Definition enc_field (f : tfield) (rs : list trange) : list Z :=
  let rs := firstn MAX_RANGES rs in
  (match f with FOne (s, c) => 0 :: be_bytes 4 s ++ be_bytes 4 c | FAll => [1] end) ++
  be_bytes 4 (Z.of_nat (length rs)) ++ concat (map enc_range rs).
(** Models tombstone.rs:171-191 (decode_time_ranges). *)
Fixpoint dec_ranges (n : nat) (l : list Z) : list trange :=
  match n with
  | O => []
  | S n => TR (dec_i64 l) (dec_i64 (skipn 8 l)) :: dec_ranges n (skipn 16 l)
  end.
(** Models tombstone.rs:126-169 (decode_v2); [None] is the error.  [decode_be_u32] reads the first four
    bytes of its slice.  Each round consumes at least five bytes, so the length is enough fuel. *)
Fixpoint dec_v2 (fuel : nat) (l : list Z) : option (list tomb) :=
  match l with
  | [] => Some []
  | b :: _ =>
      match fuel with
      | O => None
      | S fuel =>
          let '(f, h) := if b =? 1 then (FAll, 5%nat) else (FOne (of_be (firstn 4 (skipn 1 l)), of_be (firstn 4 (skipn 5 l))), 13%nat) in
          if (length l <? h)%nat then None
          else
            let n := of_be (firstn 4 (skipn (h - 4) l)) in
            if Z.of_nat (length (skipn h l)) <? 16 * n then None
            else match dec_v2 fuel (skipn (h + 16 * Z.to_nat n) l) with
                 | Some ts => Some (TB f (dec_ranges (Z.to_nat n) (skipn h l)) :: ts)
                 | None => None
                 end
      end
  end.
(** Models tombstone.rs:118-124 (decode_v1). *)
Definition dec_v1 (l : list Z) : tomb :=
  TB (FOne (of_be (firstn 4 l), of_be (firstn 4 (skipn 4 l)))) [TR (dec_i64 (skipn 8 l)) (dec_i64 (skipn 16 l))].

(** * The cache *)
(** Models tombstone.rs:403-414 (TsmTombstoneCache).  The hash map is a list without repeated keys; the
    count of ranges (column_excluded_size) is only reported and is left out. *)
Record tcache := TC { c_cols : list (ckey * tranges); c_all : tranges }.
Definition c_new : tcache := TC [] trs_empty.
Definition col_get (m : list (ckey * tranges)) (k : ckey) : tranges :=
  match find (fun p => ckeqb (fst p) k) m with Some p => snd p | None => trs_empty end.
(** Models .entry(k).or_insert_with(TimeRanges::empty) followed by an update. *)
Fixpoint col_upd (f : tranges -> tranges) (k : ckey) (m : list (ckey * tranges)) : list (ckey * tranges) :=
  match m with
  | [] => [(k, f trs_empty)]
  | p :: m => if ckeqb (fst p) k then (fst p, f (snd p)) :: m else p :: col_upd f k m
  end.
(** Models tombstone.rs:437-459 (insert). *)
Definition c_insert (c : tcache) (f : tfield) (r : trange) : tcache :=
  if tr_is_none r then c
  else match f with
       | FOne k => if trs_includes (c_all c) r then c else TC (col_upd (fun s => trs_push s r) k (c_cols c)) (c_all c)
       | FAll => TC (c_cols c) (trs_push (c_all c) r)
       end.
(** Models tombstone.rs:461-470 (insert_batch). *)
Definition c_insert_batch (c : tcache) (batch : list (ckey * list trange)) : tcache :=
  TC (fold_left (fun m p => col_upd (fun s => trs_extend s (snd p)) (fst p) m) batch (c_cols c)) (c_all c).
(** Models tombstone.rs:472-501 (compact). *)
Definition c_compact (c : tcache) : tcache :=
  let cols := map (fun p => (fst p, trs_extend (snd p) (trs_ranges (c_all c)))) (c_cols c) in
  if forallb (fun p => forallb (fun r => trs_includes (c_all c) r) (trs_ranges (snd p))) cols
  then TC [] (c_all c) else TC cols (c_all c).
(** Models tombstone.rs:518-536 and 542-550: what reading a page uses. *)
Definition c_col_ranges (c : tcache) (k : ckey) (tr : trange) : list trange :=
  filter (fun r => tr_overlaps r tr) (trs_ranges (col_get (c_cols c) k)).
Definition c_all_ranges (c : tcache) (tr : trange) : list trange :=
  filter (fun r => tr_overlaps r tr) (trs_ranges (c_all c)).

(** * The file *)
Record trec := REC { r_v1 : bool; r_data : list Z }.
(** Models tombstone.rs:589-622, the body of the loop of load_from; a record that does not decode is
    skipped.  (The push of a v1 record is an extension by one range.) *)
Definition apply_tomb (c : tcache) (t : tomb) : tcache :=
  match b_field t with
  | FOne k => TC (col_upd (fun s => trs_extend s (b_ranges t)) k (c_cols c)) (c_all c)
  | FAll => TC (c_cols c) (trs_extend (c_all c) (b_ranges t))
  end.
Definition load_rec (c : tcache) (r : trec) : tcache :=
  if r_v1 r then apply_tomb c (dec_v1 (r_data r))
  else match dec_v2 (length (r_data r)) (r_data r) with Some ts => fold_left apply_tomb ts c | None => c end.
Definition c_load (file : list trec) : tcache := fold_left load_rec file c_new.

(** The write buffer of add_range and save_to: a piece is appended, and the buffer is written as one
    record when it has at least MAX_RECORD_LEN bytes, and at the end (tombstone.rs:230-255, 638-676). *)
Fixpoint pack (buf : list Z) (pieces : list (list Z)) : list trec :=
  match pieces with
  | [] => match buf with [] => [] | _ => [REC false buf] end
  | p :: pieces =>
      let buf := buf ++ p in
      if MAX_RECORD_LEN <=? Z.of_nat (length buf) then REC false buf :: pack [] pieces else pack buf pieces
  end.
(** Models the inner loop of save_to (tombstone.rs:641-653): pieces of at most 1000 ranges. *)
Fixpoint pieces_of (fuel : nat) (f : tfield) (rs : list trange) : list (list Z) :=
  match fuel, rs with
  | S fuel, _ :: _ => enc_field f rs :: pieces_of fuel f (skipn MAX_RANGES rs)
  | _, _ => []
  end.

Section Order.
(** The order in which the hash map is walked. *)
Variable order : list (ckey * tranges) -> list (ckey * tranges).
(** Models tombstone.rs:637-680 (save_to). *)
Definition c_save (c : tcache) : list trec :=
  pack [] (flat_map (fun p => let rs := trs_ranges (snd p) in pieces_of (length rs) (FOne (fst p)) rs) (order (c_cols c)) ++
           (let rs := trs_ranges (c_all c) in pieces_of (length rs) FAll rs)).

(** * The tombstone object *)
(** [t_tmp] is the file *.compact.tmp. *)
Record tstone := TS { t_cache : tcache; t_file : list trec; t_tmp : option (list trec) }.
Definition t_new : tstone := TS c_new [] None.
(** Groups the columns of one call like the hash map tomb_tmp. *)
Fixpoint group_add (k : ckey) (r : trange) (m : list (ckey * list trange)) : list (ckey * list trange) :=
  match m with
  | [] => [(k, [r])]
  | p :: m => if ckeqb (fst p) k then (fst p, snd p ++ [r]) :: m else p :: group_add k r m
  end.
(** Models tombstone.rs:219-258 (add_range), [bloom] being the filter of the data file. *)
Definition t_add_range (bloom : Z -> bool) (s : tstone) (cols : list ckey) (r : trange) : tstone :=
  let cols := filter (fun k => bloom (fst k)) cols in
  TS (c_insert_batch (t_cache s) (fold_left (fun m k => group_add k r m) cols []))
     (t_file s ++ pack [] (map (fun k => enc_field (FOne k) [r]) cols)) (t_tmp s).
(** Models tombstone.rs:280-301 (add_range_and_compact_to_tmp): the writer is opened on the temporary
    file without removing it first, so records are appended to what is there (record_file/writer.rs:25-70). *)
Definition t_prepare (s : tstone) (r : trange) : tstone * tranges :=
  let c := c_compact (c_insert (t_cache s) FAll r) in
  (TS (t_cache s) (t_file s) (Some (match t_tmp s with Some f => f | None => [] end ++ c_save c)), c_all c).
(** Models tombstone.rs:304-327 (replace_with_compact_tmp). *)
Definition t_install (s : tstone) : tstone :=
  match t_tmp s with Some f => TS (c_load f) f None | None => s end.
(** Models tombstone.rs:85-109 (open), after a restart. *)
Definition t_reopen (s : tstone) : tstone := TS (c_load (t_file s)) (t_file s) (t_tmp s).
End Order.
