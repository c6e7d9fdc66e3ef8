(** The line protocol parser: common/protocol_parser/src/line_protocol/parser.rs and the normalisation of a line in
    common/protocol_parser/src/lib.rs.  Text is a list of bytes.  External: [ff], the float parser (fast_float::parse).
    atoi_simd is modelled as: an optional '-', then at least one digit, value in the range of the type. *)
From Verif Require Import Prelude Bytes.
From Verif Require MetaModel BloomModel.
Open Scope Z_scope.

Notation str := MetaModel.str (only parsing).
(** Byte codes *)
Definition c_tab := 9. Definition c_nl := 10. Definition c_cr := 13. Definition c_sp := 32. Definition c_quote := 34.
Definition c_hash := 35. Definition c_apos := 39. Definition c_plus := 43. Definition c_comma := 44. Definition c_minus := 45.
Definition c_eq := 61. Definition c_bs := 92.
(** u8::is_ascii_whitespace *)
Definition is_ws (c : Z) : bool := (c =? 32) || (c =? 9) || (c =? 10) || (c =? 12) || (c =? 13).
Definition is_digit (c : Z) : bool := (48 <=? c) && (c <=? 57).

Section Parser.
  Context {F : Type}.
  Variable ff : str -> option F.

  (** protos::FieldValue *)
  Inductive fval := FU64 (z : Z) | FI64 (z : Z) | FStr (s : str) | FF64 (x : F) | FBool (b : bool).
  (** lib.rs:35-42 Line *)
  Record line := LN { l_hash : Z; l_table : str; l_tags : list (str * str); l_fields : list (str * fval); l_time : Z }.

  (** parser.rs:304-322 escape *)
  Definition sep (c : Z) : bool := (c =? c_comma) || (c =? c_sp) || (c =? c_eq).
  Fixpoint unescape (s : str) : option str :=
    match s with
    | [] => None
    | [x] => Some [x]
    | x :: ((y :: _) as r) =>
        if sep y then if negb (x =? c_bs) then None else unescape r
        else match unescape r with Some t => Some (x :: t) | None => None end
    end.
  Definition escape (s : str) (need : bool) : result str :=
    if negb need then Ok s
    else match s with [] => Panic | _ => match unescape s with Some t => Ok t | None => Err end end.

  (** Decimal digits *)
  Fixpoint digits (acc : Z) (s : str) : option Z :=
    match s with
    | [] => Some acc
    | c :: s => if is_digit c then digits (acc * 10 + (c - 48)) s else None
    end.
  Definition nat_of (s : str) : option Z := match s with [] => None | _ => digits 0 s end.
  Definition in_range (lo hi : Z) (z : option Z) : option Z :=
    match z with Some v => if (lo <=? v) && (v <=? hi) then Some v else None | None => None end.
  Definition atoi_i64 (s : str) : option Z :=
    in_range I64_MIN I64_MAX
      match s with
      | c :: r => if c =? c_minus then match nat_of r with Some v => Some (- v) | None => None end else nat_of s
      | [] => None
      end.
  Definition atoi_pos (s : str) : option Z := in_range 0 U64_MAX (nat_of s).
  Fixpoint digit_prefix (s : str) : str := match s with c :: s => if is_digit c then c :: digit_prefix s else [] | [] => [] end.
  Definition atoi_until_invalid (s : str) : option Z :=
    match s with
    | c :: r => if c =? c_minus then atoi_i64 (c :: digit_prefix r) else atoi_i64 (digit_prefix s)
    | [] => None
    end.

  (** parser.rs:337-361 parse_numeric_field (the buffer is not empty) *)
  Definition ok_or {A} (o : option A) : result A := match o with Some a => Ok a | None => Err end.
  Definition numeric (b : str) : result fval :=
    let body := removelast b in
    let z := last b 0 in
    if z =? 105 then match atoi_i64 body with Some v => Ok (FI64 v) | None => Err end
    else if z =? 117 then match atoi_pos body with Some v => Ok (FU64 v) | None => Err end
    else match ff b with Some v => Ok (FF64 v) | None => Err end.
  (** parser.rs:363-375 parse_boolean_field *)
  Definition w_true : list str := [[116; 114; 117; 101]; [84; 114; 117; 101]; [84; 82; 85; 69]].
  Definition w_false : list str := [[102; 97; 108; 115; 101]; [70; 97; 108; 115; 101]; [70; 65; 76; 83; 69]].
  Definition boolean (b : str) (v : bool) : result fval :=
    if (length b =? 1)%nat then Ok (FBool v)
    else if existsb (MetaModel.seqb b) (w_true ++ w_false) then Ok (FBool v) else Err.
  (** parser.rs:394-418 escaped_field_value *)
  Fixpoint unescape_str (inun : bool) (s : str) : option str :=
    match s with
    | [] => None
    | [x] => Some [x]
    | x :: ((y :: _) as r) =>
        if (x =? c_bs) && ((y =? c_quote) || (y =? c_bs)) then
          if inun && (y =? c_quote) then None
          else if negb inun then unescape_str true r
          else match unescape_str false r with Some t => Some (x :: t) | None => None end
        else match unescape_str false r with Some t => Some (x :: t) | None => None end
    end.
  Definition escaped_field_value (s : str) (need : bool) : result str :=
    if negb need then Ok s
    else match s with [] => Panic | _ => match unescape_str false s with Some t => Ok t | None => Err end end.
  (** parser.rs:377-392 parse_string_field *)
  Definition string_field (b : str) (need : bool) : result fval :=
    if (length b <? 2)%nat then Err
    else if (hd 0 b =? c_quote) && (last b 0 =? c_quote)
    then rmap FStr (escaped_field_value (removelast (tl b)) need)
    else Err.
  (** parser.rs:324-335 parse_field_value: the first byte of an empty slice is a panic *)
  Definition parse_field_value (b : str) (need : bool) : result fval :=
    match b with
    | [] => Panic
    | c :: _ =>
        if (c =? 116) || (c =? 84) then boolean b true
        else if (c =? 102) || (c =? 70) then boolean b false
        else if c =? c_quote then string_field b need
        else if (c =? c_plus) || (c =? c_minus) || is_digit c then numeric b
        else Err
    end.

  (** lib.rs:112-118 sort_dedup_and_hash: stable sorts by key, then only the first of equal keys is kept *)
  Fixpoint insert_key {A} (x : str * A) (l : list (str * A)) : list (str * A) :=
    match l with
    | [] => [x]
    | y :: l' => match MetaModel.scmp (fst x) (fst y) with Gt => y :: insert_key x l' | _ => x :: l end
    end.
  Definition sort_keys {A} (l : list (str * A)) : list (str * A) := fold_right insert_key [] l.
  Fixpoint dedup_keys {A} (l : list (str * A)) : list (str * A) :=
    match l with
    | [] => []
    | x :: l' => match dedup_keys l' with
                 | [] => [x]
                 | y :: r => if MetaModel.seqb (fst x) (fst y) then x :: r else x :: y :: r
                 end
    end.
  (** lib.rs:84-96 init_ordered_hash_id: one hash over table, keys and values *)
  Definition hash_line (table : str) (tags : list (str * str)) : Z :=
    BloomModel.bkdr (table ++ flat_map (fun kv => fst kv ++ snd kv) tags).
  Definition finish_line (table : str) (tags : list (str * str)) (fields : list (str * fval)) (time : Z) : line :=
    let tags := dedup_keys (sort_keys tags) in
    LN (hash_line table tags) table tags (dedup_keys (sort_keys fields)) time.

  (** parser.rs:29-38 ParseStatus, 51-61 the local variables; tags and fields in the order they were read *)
  Inductive status := LineBegin | Table | TagKey | TagValue | FieldKey | FieldValue | Timestamp.
  Record pst := PS { p_lines : list line; p_table : str; p_tags : list (str * str); p_fields : list (str * fval);
                     p_comment : bool; p_skip : bool; p_esc : bool; p_key : nat * nat * bool; p_val : nat * nat * bool;
                     p_status : status; p_quotes : bool }.
  Definition ps0 : pst := PS [] [] [] [] false false false (0, 0, false)%nat (0, 0, false)%nat LineBegin false.

  Definition set_status s x := PS (p_lines s) (p_table s) (p_tags s) (p_fields s) (p_comment s) (p_skip s) (p_esc s) (p_key s) (p_val s) x (p_quotes s).
  Definition set_key s k := PS (p_lines s) (p_table s) (p_tags s) (p_fields s) (p_comment s) (p_skip s) (p_esc s) k (p_val s) (p_status s) (p_quotes s).
  Definition set_val s v := PS (p_lines s) (p_table s) (p_tags s) (p_fields s) (p_comment s) (p_skip s) (p_esc s) (p_key s) v (p_status s) (p_quotes s).
  Definition set_esc s b := PS (p_lines s) (p_table s) (p_tags s) (p_fields s) (p_comment s) (p_skip s) b (p_key s) (p_val s) (p_status s) (p_quotes s).
  Definition set_skip s b := PS (p_lines s) (p_table s) (p_tags s) (p_fields s) (p_comment s) b (p_esc s) (p_key s) (p_val s) (p_status s) (p_quotes s).
  Definition set_comment s b := PS (p_lines s) (p_table s) (p_tags s) (p_fields s) b (p_skip s) (p_esc s) (p_key s) (p_val s) (p_status s) (p_quotes s).
  Definition set_quotes s b := PS (p_lines s) (p_table s) (p_tags s) (p_fields s) (p_comment s) (p_skip s) (p_esc s) (p_key s) (p_val s) (p_status s) b.
  Definition set_table s t := PS (p_lines s) t (p_tags s) (p_fields s) (p_comment s) (p_skip s) (p_esc s) (p_key s) (p_val s) (p_status s) (p_quotes s).
  Definition push_tag s t := PS (p_lines s) (p_table s) (p_tags s ++ [t]) (p_fields s) (p_comment s) (p_skip s) (p_esc s) (p_key s) (p_val s) (p_status s) (p_quotes s).
  Definition push_field s f := PS (p_lines s) (p_table s) (p_tags s) (p_fields s ++ [f]) (p_comment s) (p_skip s) (p_esc s) (p_key s) (p_val s) (p_status s) (p_quotes s).
  (** line.timestamp = t; sort_dedup_and_hash; lines.push(line); line = Line::default() *)
  Definition push_line s (t : Z) :=
    PS (p_lines s ++ [finish_line (p_table s) (p_tags s) (p_fields s) t]) [] [] [] (p_comment s) (p_skip s) (p_esc s) (p_key s) (p_val s) (p_status s) (p_quotes s).
  Definition k0 (k : nat * nat * bool) : nat := fst (fst k).
  Definition k1 (k : nat * nat * bool) : nat := snd (fst k).
  Definition k2 (k : nat * nat * bool) : bool := snd k.
  Definition slice (d : str) (a b : nat) : str := firstn (b - a) (skipn a d).

  (** Which bytes may follow a backslash: parser.rs:94, 119, 150, 189, 219 *)
  Definition esc_table (c : Z) : bool := (c =? c_comma) || (c =? c_sp) || (c =? c_bs) || (c =? c_quote) || (c =? c_apos).
  Definition esc_name (c : Z) : bool := (c =? c_comma) || (c =? c_sp) || (c =? c_eq) || (c =? c_bs) || (c =? c_quote) || (c =? c_apos).
  Definition esc_value (c : Z) : bool := (c =? c_apos) || (c =? c_quote) || (c =? c_bs).

  Section Data.
    Variable default_time : Z.
    Variable data : str.
    (** The tag that ends at [i], the field that ends at [i]. *)
    Definition end_tag (s : pst) (i : nat) : result pst :=
      rbind (escape (slice data (k0 (p_key s)) (k1 (p_key s))) (k2 (p_key s))) (fun k =>
      rbind (escape (slice data (k0 (p_val s)) i) (k2 (p_val s))) (fun v => Ok (push_tag s (k, v)))).
    Definition end_field (s : pst) (i : nat) : result pst :=
      rbind (escape (slice data (k0 (p_key s)) (k1 (p_key s))) (k2 (p_key s))) (fun k =>
      rbind (parse_field_value (slice data (k0 (p_val s)) i) (k2 (p_val s))) (fun v => Ok (push_field s (k, v)))).
    (** The body of the loop, parser.rs:65-271 *)
    Definition step_char (s : pst) (i : nat) (c : Z) : result pst :=
      match p_status s with
      | LineBegin =>
          if p_comment s && ((c =? c_cr) || (c =? c_nl)) then Ok (set_comment s false)
          else if p_comment s || is_ws c then Ok s
          else if c =? c_hash then Ok (set_comment s true)
          else Ok (set_status (set_key s (i, 0, false)%nat) Table)
      | Table =>
          if p_skip s then
            if negb (c =? c_sp) then Ok (set_status (set_key (set_skip s false) (i, 0, false)%nat) FieldKey) else Ok s
          else if p_esc s then if negb (esc_table c) then Err else Ok (set_esc s false)
          else if c =? c_bs then Ok (set_key (set_esc s true) (k0 (p_key s), k1 (p_key s), true))
          else if c =? c_comma then
            rbind (escape (slice data (k0 (p_key s)) i) (k2 (p_key s))) (fun t =>
            Ok (set_status (set_key (set_table s t) (S i, 0, false)%nat) TagKey))
          else if c =? c_sp then
            rbind (escape (slice data (k0 (p_key s)) i) (k2 (p_key s))) (fun t => Ok (set_skip (set_table s t) true))
          else Ok s
      | TagKey =>
          if p_esc s then if negb (esc_name c) then Err else Ok (set_esc s false)
          else if c =? c_bs then Ok (set_key (set_esc s true) (k0 (p_key s), k1 (p_key s), true))
          else if c =? c_eq then
            Ok (set_status (set_val (set_key s (k0 (p_key s), i, k2 (p_key s))) (S i, 0, false)%nat) TagValue)
          else Ok s
      | TagValue =>
          if p_skip s then
            if negb (c =? c_sp) then Ok (set_status (set_key (set_skip s false) (i, 0, false)%nat) FieldKey) else Ok s
          else if p_esc s then if negb (esc_name c) then Err else Ok (set_esc s false)
          else if c =? c_bs then Ok (set_val (set_esc s true) (k0 (p_val s), k1 (p_val s), true))
          else if c =? c_comma then rbind (end_tag s i) (fun s => Ok (set_status (set_key s (S i, 0, false)%nat) TagKey))
          else if c =? c_sp then rbind (end_tag s i) (fun s => Ok (set_skip s true))
          else Ok s
      | FieldKey =>
          if p_esc s then if negb (esc_name c) then Err else Ok (set_esc s false)
          else if c =? c_bs then Ok (set_key (set_esc s true) (k0 (p_key s), k1 (p_key s), true))
          else if c =? c_eq then
            Ok (set_status (set_val (set_key s (k0 (p_key s), i, k2 (p_key s))) (S i, 0, false)%nat) FieldValue)
          else Ok s
      | FieldValue =>
          if p_skip s then
            if negb (c =? c_sp) then Ok (set_status (set_key (set_skip s false) (i, 0, false)%nat) Timestamp) else Ok s
          else if p_esc s then if negb (esc_value c) then Err else Ok (set_esc s false)
          else if c =? c_quote then Ok (set_quotes s (negb (p_quotes s)))
          else if c =? c_bs then Ok (set_val (set_esc s true) (k0 (p_val s), k1 (p_val s), true))
          else if (c =? c_comma) && negb (p_quotes s) then
            rbind (end_field s i) (fun s => Ok (set_status (set_key s (S i, 0, false)%nat) FieldKey))
          else if (c =? c_sp) && negb (p_quotes s) then
            rbind (end_field s i) (fun s => Ok (set_skip (set_key s (i, 0, false)%nat) true))
          else if ((c =? c_cr) || (c =? c_nl)) && negb (p_quotes s) then
            rbind (end_field s i) (fun s => Ok (set_status (set_key (push_line s default_time) (0, 0, false)%nat) LineBegin))
          else Ok s
      | Timestamp =>
          if is_ws c then
            rbind (if (k0 (p_key s) =? i)%nat then Ok default_time else ok_or (atoi_i64 (slice data (k0 (p_key s)) i))) (fun t =>
            Ok (set_status (set_key (push_line s t) (S i, 0, false)%nat) LineBegin))
          else Ok s
      end.
    Fixpoint loop (s : pst) (i : nat) (rest : str) : result pst :=
      match rest with [] => Ok s | c :: rest => rbind (step_char s i c) (fun s => loop s (S i) rest) end.
    (** parser.rs:273-301 *)
    Definition finish (s : pst) : result (list line) :=
      match p_status s with
      | Timestamp =>
          rbind (if (k0 (p_key s) =? 0)%nat then Ok default_time else ok_or (atoi_until_invalid (skipn (k0 (p_key s)) data))) (fun t =>
          Ok (p_lines (push_line s t)))
      | FieldValue =>
          if p_quotes s then Err
          else
            rbind (if (k0 (p_key s) <? k1 (p_key s))%nat && (k0 (p_val s) <? length data)%nat then end_field s (length data) else Ok s) (fun s =>
            Ok (p_lines (push_line s default_time)))
      | LineBegin => Ok (p_lines s)
      | _ => Err
      end.
    Definition parse_data : result (list line) := rbind (loop ps0 0 data) finish.
  End Data.
  (** parser.rs:49-302 Parser::parse *)
  Definition parse (default_time : Z) (data : str) : result (list line) := parse_data default_time data.
End Parser.
