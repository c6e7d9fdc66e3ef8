(** Log records: the JSON documents of the bulk, ndjson and Loki requests and the protobuf Loki request, turned into lines
    (common/protocol_parser/src/json_protocol/parser.rs, main/src/http/http_service.rs:2797-2876).  The dependencies serde_json, prost,
    Snappy and chrono are left out: a document is given as the value it denotes, a request as its decoded form, and the reading of
    RFC 3339 times is a parameter.  Text is a list of character codes. *)
From Coq Require Import Ascii String.
From Coq Require Import List.
From Verif Require Import Prelude.

Definition str := list Z.
Definition txt (s : String.string) : str := map (fun a => Z.of_N (Ascii.N_of_ascii a)) (String.list_ascii_of_string s).
Arguments txt s%string.
Open Scope list_scope.
Open Scope Z_scope.
Definition str_eqb (a b : str) : bool := if list_eq_dec Z.eq_dec a b then true else false.
(** the byte order of [String] *)
Fixpoint str_cmp (a b : str) : comparison :=
  match a, b with
  | [], [] => Eq | [], _ => Lt | _, [] => Gt
  | x :: a, y :: b => match Z.compare x y with Eq => str_cmp a b | c => c end
  end.
(** Display of an unsigned number *)
Fixpoint digits (k : nat) (z : Z) : str :=
  match k with O => [] | S k => if z <? 10 then [48 + z] else digits k (z / 10) ++ [48 + z mod 10] end.
Definition dec (z : Z) : str := if z <? 0 then 45 :: digits 20 (- z) else digits 20 z.

(** serde_json::Value.  A number is an integer or a float; a float is given by the text serde_json prints for it and its 64 bits.  The
    keys of an object come in their order and are distinct (serde_json::Map is a BTreeMap here: Cargo.lock:5760-5769). *)
Inductive num := NInt (z : Z) | NFloat (text : str) (bits : Z).
Inductive json := JNull | JBool (b : bool) | JNum (n : num) | JStr (s : str) | JArr (l : list json) | JObj (m : list (str * json)).

(** BTreeMap<String, Value> *)
Definition fields := list (str * json).
Fixpoint put (k : str) (v : json) (m : fields) : fields :=
  match m with
  | [] => [(k, v)]
  | (k', v') :: r => match str_cmp k k' with Lt => (k, v) :: m | Eq => (k, v) :: r | Gt => (k', v') :: put k v r end
  end.
Definition puts (l : fields) (m : fields) : fields := fold_left (fun m e => put (fst e) (snd e) m) l m.
(** format!("{}.{}", name, key), or the key alone *)
Definition under (name k : str) : str := match name with [] => k | _ => name ++ 46 :: k end.
(** parser.rs:71-103 flatten_json *)
Fixpoint flatten (name : str) (j : json) : fields :=
  match j with
  | JObj m => (fix go (l : list (str * json)) (out : fields) :=
      match l with
      | [] => out
      | e :: r => go r (puts (map (fun kv => (under name (fst kv), snd kv)) (flatten (fst e) (snd e))) out)
      end) m []
  | JArr l => (fix go (i : Z) (l : list json) (out : fields) :=
      match l with
      | [] => out
      | v :: r => go (i + 1) r (puts (map (fun kv => (under name (fst kv), snd kv)) (flatten (dec i) v)) out)
      end) 0 l []
  | x => [(name, x)]
  end.

(** * Texts and numbers *)
(** serde_json's Display of a scalar: the string is escaped *)
Definition hex_digit (d : Z) : Z := if d <? 10 then 48 + d else 87 + d.
Definition esc_char (c : Z) : str :=
  if c =? 34 then [92; 34] else if c =? 92 then [92; 92]
  else if c =? 8 then [92; 98] else if c =? 12 then [92; 102] else if c =? 10 then [92; 110] else if c =? 13 then [92; 114]
  else if c =? 9 then [92; 116]
  else if c <? 32 then [92; 117; 48; 48; hex_digit (c / 16); hex_digit (c mod 16)] else [c].
Definition to_text (j : json) : str :=
  match j with
  | JNull => txt "null" | JBool true => txt "true" | JBool false => txt "false"
  | JNum (NInt z) => dec z | JNum (NFloat t _) => t
  | JStr s => 34 :: flat_map esc_char s ++ [34]
  | JArr _ => txt "[]" | JObj _ => txt "{}"   (* do not occur: flatten has only scalars *)
  end.
(** str::trim_matches, of one character *)
Fixpoint trim_left (c : Z) (s : str) : str := match s with x :: r => if x =? c then trim_left c r else s | [] => [] end.
Definition trim (c : Z) (s : str) : str := rev (trim_left c (rev (trim_left c s))).
(** [n as f64]: the nearest float, ties to the even one; the result is the integer the float denotes *)
Definition f64_of_int (z : Z) : Z :=
  let a := Z.abs z in
  if a <? 2 ^ 53 then z else
  let u := 2 ^ (Z.log2 a - 52) in
  let q := a / u in let r := a mod u in
  Z.sgn z * (u * (if 2 * r <? u then q else if u <? 2 * r then q + 1 else if Z.even q then q else q + 1)).

(** * Lines *)
(** FieldValue: a float is an integer or its 64 bits *)
Inductive f64 := FInt (z : Z) | FBits (b : Z).
Inductive fval := VBool (b : bool) | VF64 (f : f64) | VStr (s : str).
(** lib.rs:37-43 Line; the hash is the subject of C62 *)
Record line := Line { l_table : str; l_tags : list (str * str); l_fields : list (str * fval); l_time : Z }.
(** [s.split(',').map(trim)]; only the blank is trimmed *)
Fixpoint split_comma (cur : str) (s : str) : list str :=
  match s with [] => [rev cur] | c :: r => if c =? 44 then rev cur :: split_comma [] r else split_comma (c :: cur) r end.
Definition tag_list (s : str) : list str := map (trim 32) (split_comma [] s).
Definition mem (k : str) (l : list str) : bool := existsb (str_eqb k) l.

(** parser.rs:495-561 parse_to_line: the time of a text (None: not a time, Some None: beyond the range), the clock *)
Definition num_i64 (n : num) : option Z := match n with NInt z => if (I64_MIN <=? z) && (z <=? I64_MAX) then Some z else None | NFloat _ _ => None end.
Definition num_f64 (n : num) : f64 := match n with NInt z => FInt (f64_of_int z) | NFloat _ b => FBits b end.
Definition time_of (rfc3339 : str -> option (option Z)) (j : json) : option Z :=
  match j with
  | JStr s => match rfc3339 s with Some (Some t) => Some t | _ => None end
  | JNum n => num_i64 n
  | _ => None
  end.
Definition field_of (j : json) : option fval :=
  match j with JBool b => Some (VBool b) | JNum n => Some (VF64 (num_f64 n)) | JStr s => Some (VStr s) | _ => None end.
Definition tag_text (j : json) : str := trim 34 (to_text j).
Fixpoint to_line_loop (rfc3339 : str -> option (option Z)) (tc : str) (tags : list str) (m : fields) (ln : line) : option line :=
  match m with
  | [] => Some ln
  | (k, v) :: r =>
      if mem k tags then to_line_loop rfc3339 tc tags r (Line (l_table ln) (l_tags ln ++ [(k, tag_text v)]) (l_fields ln) (l_time ln))
      else if str_eqb tc k then
        match time_of rfc3339 v with
        | Some t => to_line_loop rfc3339 tc tags r (Line (l_table ln) (l_tags ln) (l_fields ln) t)
        | None => None
        end
      else match field_of v with
        | Some f => to_line_loop rfc3339 tc tags r (Line (l_table ln) (l_tags ln) (l_fields ln ++ [(k, f)]) (l_time ln))
        | None => None
        end
  end.
Definition to_line rfc3339 (now : Z) (table tc tag_columns : str) (m : fields) : option line :=
  to_line_loop rfc3339 tc (tag_list tag_columns) m (Line table [] [] now).
(** http_service.rs:2851-2863 coord_write_log: every record or none; the clock is read for each record *)
Fixpoint to_lines rfc3339 (clock : nat -> Z) (table tc tag_columns : str) (logs : list fields) : option (list line) :=
  match logs with
  | [] => Some []
  | m :: r => match to_line rfc3339 (clock 0%nat) table tc tag_columns m with
              | Some l => match to_lines rfc3339 (fun i => clock (S i)) table tc tag_columns r with Some ls => Some (l :: ls) | None => None end
              | None => None
              end
  end.

(** * Requests *)
(** A document of a request: the value it denotes, or None if it is not JSON.
    parser.rs:145-161 parse_json_to_ndjsonlog; 163-179 parse_json_to_lokilog is the same *)
Fixpoint ndjson (docs : list (option json)) : option (list fields) :=
  match docs with
  | [] => Some []
  | Some j :: r => match ndjson r with Some ls => Some (flatten [] j :: ls) | None => None end
  | None :: _ => None
  end.
(** parser.rs:17-29 Command, 105-143 parse_json_to_eslog: pairs of a command and a document; the blank documents are dropped before.
    The command only has to be well formed: its _id and _index are not used. *)
Record command := Command { c_create : bool; c_id : option str; c_index : option str }.
Fixpoint bulk (docs : list (option command * option json)) : option (list fields) :=
  match docs with
  | [] => Some []
  | (Some _, Some j) :: r => match bulk r with Some ls => Some (flatten [] j :: ls) | None => None end
  | _ :: _ => None
  end.
(** parser.rs:181-218 parse_protobuf_to_lokilog *)
Record entry := Entry { e_time : option (Z * Z); e_line : str }.
Record stream := Stream { s_labels : str; s_entries : list entry }.
Definition entry_time (e : entry) : Z := match e_time e with Some (s, n) => wrap_i64 (wrap_i64 (s * 1000000000) + n) | None => 0 end.
Fixpoint entries (fs : fields) (es : list entry) : list fields :=
  match es with
  | [] => []
  | e :: r => let fs := put (txt "msg") (JStr (e_line e)) (put (txt "time") (JNum (NInt (entry_time e))) fs) in fs :: entries fs r
  end.
Definition loki (streams : list stream) : list fields :=
  flat_map (fun s => entries [(txt "lables", JStr (s_labels s))] (s_entries s)) streams.
