(** Prometheus remote write and remote read: the lines made of a write request, the SQL text made of a read request and the time
    series made of its rows (query_server/query/src/prom/remote_server.rs, query_server/query/src/prom/time_series/writer.rs).
    The SQL text is read back by a model of the dependency sqlparser restricted to the queries of this shape.  Protobuf and Snappy
    are left out.  Text is a list of character codes. *)
From Verif Require Import Prelude PrecisionModel.

Definition str := list Z.
Definition str_eqb (a b : str) : bool := if list_eq_dec Z.eq_dec a b then true else false.

(** prompb: Label, Sample, TimeSeries, LabelMatcher, Query.  A sample's value is the 64 bits of the float. *)
Record label := Label { l_name : str; l_value : str }.
Record sample := Sample { s_value : Z; s_ms : Z }.
Record tseries := TSer { ts_labels : list label; ts_samples : list sample }.
Inductive mtype := MEq | MNeq | MRe | MNre.
Record matcher := Matcher { m_type : mtype; m_name : str; m_value : str }.
Record query := Query { q_start : Z; q_end : Z; q_matchers : list matcher }.

(** prom/mod.rs: METRIC_NAME_LABEL "__name__", METRIC_SAMPLE_COLUMN_NAME "value", DEFAULT_PROM_TABLE_NAME "prom_metric_not_specified";
    the time column "time" *)
Definition NAME : str := [95; 95; 110; 97; 109; 101; 95; 95].
Definition VALUE : str := [118; 97; 108; 117; 101].
Definition TIME : str := [116; 105; 109; 101].
Definition NOT_SPECIFIED : str :=
  [112; 114; 111; 109; 95; 109; 101; 116; 114; 105; 99; 95; 110; 111; 116; 95; 115; 112; 101; 99; 105; 102; 105; 101; 100].

(** * Writing *)
(** A line: table, tags, value, time in nanoseconds. *)
Record line := Line { ln_table : str; ln_tags : list label; ln_value : Z; ln_time : Z }.
(** remote_server.rs:79-113 prom_write_request_to_lines; the name is the last label called __name__ *)
Definition table_of (ls : list label) : str :=
  fold_left (fun t l => if str_eqb (l_name l) NAME then l_value l else t) ls NOT_SPECIFIED.
Definition lines_of (ts : tseries) : list line :=
  map (fun s => Line (table_of (ts_labels ts)) (ts_labels ts) (s_value s) (wrap_i64 (s_ms s * 1000000))) (ts_samples ts).
Definition lines (req : list tseries) : list line := flat_map lines_of req.

(** The tables of a database with precision [p] (write_lines, coordinator/src/service.rs:565-650, and the engine below it, of which C22,
    C56, C57 and C62 speak): a row has a table, tags and a time; a later row with the same three replaces the values it has.  A row
    written by other means may have no value.  A table has the tag columns of all its rows, in the order in which they came. *)
Record row := Row { r_table : str; r_tags : list label; r_time : Z; r_value : option Z }.
Record db := Db { d_tables : list (str * list str); d_rows : list row }.
Definition tag_of (ls : list label) (n : str) : option str :=
  match find (fun l => str_eqb (l_name l) n) ls with Some l => Some (l_value l) | None => None end.
Definition opt_eqb (a b : option str) : bool :=
  match a, b with Some a, Some b => str_eqb a b | None, None => true | _, _ => false end.
Definition same_tags (a b : list label) : bool :=
  forallb (fun n => opt_eqb (tag_of a n) (tag_of b n)) (map l_name a ++ map l_name b).
Definition same_row (a b : row) : bool := str_eqb (r_table a) (r_table b) && same_tags (r_tags a) (r_tags b) && (r_time a =? r_time b).
Definition add_cols (ns cols : list str) : list str :=
  fold_left (fun cols n => if existsb (str_eqb n) cols then cols else cols ++ [n]) ns cols.
Fixpoint add_table (t : str) (ns : list str) (ts : list (str * list str)) : list (str * list str) :=
  match ts with
  | [] => [(t, add_cols ns [])]
  | (t', cols) :: ts => if str_eqb t t' then (t', add_cols ns cols) :: ts else (t', cols) :: add_table t ns ts
  end.
Definition put (r : row) (d : db) : db :=
  Db (add_table (r_table r) (map l_name (r_tags r)) (d_tables d))
     (match find (same_row r) (d_rows d), r_value r with
      | Some old, None => Row (r_table r) (r_tags r) (r_time r) (r_value old)
      | _, _ => r
      end :: filter (fun x => negb (same_row r x)) (d_rows d)).
(** One line; [None] is a refused write. *)
Definition put_line (p : precision) (l : line) (d : db) : option db :=
  match timestamp_convert NS p (ln_time l) with
  | Some t => Some (put (Row (ln_table l) (ln_tags l) t (Some (ln_value l))) d)
  | None => None
  end.
Fixpoint put_lines (p : precision) (ls : list line) (d : db) : option db :=
  match ls with [] => Some d | l :: ls => match put_line p l d with Some d => put_lines p ls d | None => None end end.
Definition remote_write (p : precision) (req : list tseries) (d : db) : option db := put_lines p (lines req) d.
Fixpoint writes (p : precision) (reqs : list (list tseries)) (d : db) : option db :=
  match reqs with [] => Some d | r :: reqs => match remote_write p r d with Some d => writes p reqs d | None => None end end.
Definition db0 : db := Db [] [].

(** * The SQL text *)
(** format!("{}", i64) *)
Fixpoint digits (k : nat) (z : Z) : str :=
  match k with O => [] | S k => if z <? 10 then [48 + z] else digits k (z / 10) ++ [48 + z mod 10] end.
Definition dec (z : Z) : str := if z <? 0 then 45 :: digits 20 (- z) else digits 20 z.
(** " = '", " != '", " ~ '", " !~ '" *)
Definition op_text (t : mtype) : str :=
  match t with MEq => [32; 61; 32] | MNeq => [32; 33; 61; 32] | MRe => [32; 126; 32] | MNre => [32; 33; 126; 32] end.
(** remote_server.rs:319-333 *)
Definition filter_text (m : matcher) : str := m_name m ++ op_text (m_type m) ++ 39 :: m_value m ++ [39].
(** "time >= ", "time <= ", 335-337: milliseconds become nanoseconds *)
Definition time_texts (q : query) : list str :=
  [TIME ++ [32; 62; 61; 32] ++ dec (wrap_i64 (q_start q * 1000000)); TIME ++ [32; 60; 61; 32] ++ dec (wrap_i64 (q_end q * 1000000))].
(** filters.join(" AND ") *)
Fixpoint join (sep : str) (l : list str) : str :=
  match l with [] => [] | [x] => x | x :: l => x ++ sep ++ join sep l end.
Definition and_text : str := [32; 65; 78; 68; 32].
(** SELECT * FROM "{}" WHERE {} order by time, 339-350 *)
Definition select_text : str := [83; 69; 76; 69; 67; 84; 32; 42; 32; 70; 82; 79; 77; 32; 34].
Definition where_text : str := [34; 32; 87; 72; 69; 82; 69; 32].
Definition order_text : str := [32; 111; 114; 100; 101; 114; 32; 98; 121; 32; 116; 105; 109; 101].
Definition is_name (m : matcher) : bool := str_eqb NAME (m_name m).
Definition sql_text (table : str) (q : query) : str :=
  select_text ++ table ++ where_text ++
  join and_text (map filter_text (filter (fun m => negb (is_name m)) (q_matchers q)) ++ time_texts q) ++ order_text.

(** The tables a request names, 268-317: the last matcher on __name__ decides; [find_re pattern text]: the pattern occurs in the text
    (Regex::is_match).  [None]: the request is refused. *)
Definition pick_tables (find_re : str -> str -> bool) (names : list str) (m : matcher) : option (list str) :=
  match m_type m with
  | MEq => if existsb (str_eqb (m_value m)) names then Some [m_value m] else None
  | MRe => Some (filter (find_re (m_value m)) names)
  | _ => None
  end.
Definition tables_of (find_re : str -> str -> bool) (names : list str) (q : query) : option (list str) :=
  fold_left (fun acc m => if is_name m then match acc with Some _ => pick_tables find_re names m | None => None end else acc)
    (q_matchers q) (Some []).

(** * Reading the text: sqlparser's tokenizer and parser, as far as these texts need them.  Anything else is an error here
    (comments, other operators, parentheses and characters outside ASCII outside quotes among them). *)
Inductive cop := CEq | CNe | CRe | CNre | CGe | CLe.
Inductive token := TWord (w : str) | TQuoted (w : str) | TStr (s : str) | TNum (z : Z) | TOp (o : cop) | TStar.
Inductive mode :=
| MSpace | MWord (w : str) | MStr (s : str) | MStrEnd (s : str) | MId (s : str) | MIdEnd (s : str)
| MNum (neg : bool) (z : Z) | MMinus | MBang | MGt | MLt | MDone (t : token).
Definition is_digit (c : Z) : bool := (48 <=? c) && (c <=? 57).
Definition is_letter (c : Z) : bool := ((65 <=? c) && (c <=? 90)) || ((97 <=? c) && (c <=? 122)).
(** sql/dialect.rs:6-19, ASCII *)
Definition ident_start (c : Z) : bool := is_letter c || (c =? 95) || (c =? 35) || (c =? 64).
Definition ident_part (c : Z) : bool := ident_start c || is_digit c || (c =? 36).
(** The character goes on with the token. *)
Definition extend (m : mode) (c : Z) : option mode :=
  match m with
  | MSpace | MDone _ => None
  | MWord w => if ident_part c then Some (MWord (w ++ [c])) else None
  | MStr s => if c =? 39 then Some (MStrEnd s) else Some (MStr (s ++ [c]))
  | MStrEnd s => if c =? 39 then Some (MStr (s ++ [c])) else None
  | MId s => if c =? 34 then Some (MIdEnd s) else Some (MId (s ++ [c]))
  | MIdEnd s => if c =? 34 then Some (MId (s ++ [c])) else None
  | MNum n z => if is_digit c then Some (MNum n (10 * z + (c - 48))) else None
  | MMinus => if is_digit c then Some (MNum true (c - 48)) else None
  | MBang => if c =? 61 then Some (MDone (TOp CNe)) else if c =? 126 then Some (MDone (TOp CNre)) else None
  | MGt => if c =? 61 then Some (MDone (TOp CGe)) else None
  | MLt => if c =? 61 then Some (MDone (TOp CLe)) else None
  end.
(** The token is complete. *)
Definition flush (m : mode) : option (list token) :=
  match m with
  | MSpace => Some []
  | MWord w => Some [TWord w]
  | MStrEnd s => Some [TStr s]
  | MIdEnd s => Some [TQuoted s]
  | MNum n z => Some [TNum (if n then - z else z)]
  | MDone t => Some [t]
  | MStr _ | MId _ | MMinus | MBang | MGt | MLt => None
  end.
(** The character starts a token. *)
Definition start (c : Z) : option mode :=
  if (c =? 32) || (c =? 9) || (c =? 10) || (c =? 13) then Some MSpace
  else if ident_start c then Some (MWord [c])
  else if is_digit c then Some (MNum false (c - 48))
  else if c =? 39 then Some (MStr [])
  else if c =? 34 then Some (MId [])
  else if c =? 45 then Some MMinus
  else if c =? 33 then Some MBang
  else if c =? 62 then Some MGt
  else if c =? 60 then Some MLt
  else if c =? 61 then Some (MDone (TOp CEq))
  else if c =? 126 then Some (MDone (TOp CRe))
  else if c =? 42 then Some (MDone TStar)
  else None.
Fixpoint lex (m : mode) (l : str) : option (list token) :=
  match l with
  | [] => flush m
  | c :: l =>
      match extend m c with
      | Some m => lex m l
      | None =>
          match flush m, start c with
          | Some ts, Some m => match lex m l with Some r => Some (ts ++ r) | None => None end
          | _, _ => None
          end
      end
  end.

Definition lower (w : str) : str := map (fun c => if (65 <=? c) && (c <=? 90) then c + 32 else c) w.
(** Words that do not begin a column at the start of an expression (Parser::parse_prefix of sqlparser and the operators between
    conditions): and, or, not, case, cast, true, false, null, exists, interval, array, extract, position, substring, trim, user ... *)
Definition kw_and : str := [97; 110; 100].
Definition kw_or : str := [111; 114].
Definition reserved (find_kw : str -> bool) (w : str) : bool := str_eqb (lower w) kw_and || str_eqb (lower w) kw_or || find_kw (lower w).

Inductive literal := LStr (s : str) | LNum (z : Z).
Inductive cond := CCmp (col : str) (o : cop) (v : literal) | CAnd (a b : cond) | COr (a b : cond).
Definition lit_of (t : token) : option literal := match t with TStr s => Some (LStr s) | TNum z => Some (LNum z) | _ => None end.
Definition or_with (a : option cond) (b : cond) : cond := match a with Some a => COr a b | None => b end.
Definition and_with (a : option cond) (b : cond) : cond := match a with Some a => CAnd a b | None => b end.
(** Conditions column op literal joined by AND and OR; AND binds closer.  Unquoted names are lower-cased (normalize_ident), quoted
    ones are taken as they are. *)
Definition column_of (kw : str -> bool) (t : token) : option str :=
  match t with TWord w => if reserved kw w then None else Some (lower w) | TQuoted w => Some w | _ => None end.
Fixpoint conds (kw : str -> bool) (ors ands : option cond) (l : list token) : option (cond * list token) :=
  match l with
  | c :: TOp o :: v :: l =>
      match column_of kw c, lit_of v with
      | Some c, Some v =>
          let this := and_with ands (CCmp c o v) in
          match l with
          | TWord w :: l' =>
              if str_eqb (lower w) kw_and then conds kw ors (Some this) l'
              else if str_eqb (lower w) kw_or then conds kw (Some (or_with ors this)) None l'
              else Some (or_with ors this, l)
          | _ => Some (or_with ors this, l)
          end
      | _, _ => None
      end
  | _ => None
  end.
(** The statement: the table, the condition; ORDER BY time follows. *)
Definition kw_is (t : token) (k : str) : bool := match t with TWord w => str_eqb (lower w) k | _ => false end.
Definition K_SELECT : str := [115; 101; 108; 101; 99; 116].
Definition K_FROM : str := [102; 114; 111; 109].
Definition K_WHERE : str := [119; 104; 101; 114; 101].
Definition K_ORDER : str := [111; 114; 100; 101; 114].
Definition K_BY : str := [98; 121].
Definition parse (kw : str -> bool) (l : list token) : option (str * cond) :=
  match l with
  | a :: TStar :: b :: TQuoted t :: c :: l =>
      if kw_is a K_SELECT && kw_is b K_FROM && kw_is c K_WHERE then
        match conds kw None None l with
        | Some (e, [x; y; z]) => if kw_is x K_ORDER && kw_is y K_BY && kw_is z TIME then Some (t, e) else None
        | _ => None
        end
      else None
  | _ => None
  end.
Definition read_sql (kw : str -> bool) (text : str) : option (str * cond) :=
  match lex MSpace text with Some l => parse kw l | None => None end.

(** * Running it *)
(** A comparison over a row; the outer [None] is a query the planner refuses (no such column, or types this model leaves out), the
    inner one NULL.  A number compared with the time column is taken in the unit of the column. *)
Definition compare_str (find_re : str -> str -> bool) (o : cop) (v : option str) (s : str) : option (option bool) :=
  match o with
  | CEq => Some (option_map (fun v => str_eqb v s) v)
  | CNe => Some (option_map (fun v => negb (str_eqb v s)) v)
  | CRe => Some (option_map (find_re s) v)
  | CNre => Some (option_map (fun v => negb (find_re s v)) v)
  | _ => None
  end.
Definition compare (find_re : str -> str -> bool) (cols : list str) (c : str) (o : cop) (v : literal) (r : row) : option (option bool) :=
  match v with
  | LNum z => if str_eqb c TIME then match o with CGe => Some (Some (z <=? r_time r)) | CLe => Some (Some (r_time r <=? z)) | _ => None end else None
  | LStr s => if existsb (str_eqb c) cols then compare_str find_re o (tag_of (r_tags r) c) s else None
  end.
Definition and3 (a b : option bool) : option bool :=
  match a, b with Some false, _ | _, Some false => Some false | Some true, Some true => Some true | _, _ => None end.
Definition or3 (a b : option bool) : option bool :=
  match a, b with Some true, _ | _, Some true => Some true | Some false, Some false => Some false | _, _ => None end.
Fixpoint eval (find_re : str -> str -> bool) (cols : list str) (e : cond) (r : row) : option (option bool) :=
  match e with
  | CCmp c o v => compare find_re cols c o v r
  | CAnd a b => match eval find_re cols a r, eval find_re cols b r with Some x, Some y => Some (and3 x y) | _, _ => None end
  | COr a b => match eval find_re cols a r, eval find_re cols b r with Some x, Some y => Some (or3 x y) | _, _ => None end
  end.
(** Whether the planner accepts does not depend on the row. *)
Definition accepted (find_re : str -> str -> bool) (cols : list str) (e : cond) : bool :=
  match eval find_re cols e (Row [] [] 0 None) with Some _ => true | None => false end.
(** ORDER BY time *)
Fixpoint insert_by_time (r : row) (l : list row) : list row :=
  match l with [] => [r] | x :: l' => if r_time r <=? r_time x then r :: l else x :: insert_by_time r l' end.
Definition sort_by_time (l : list row) : list row := fold_right insert_by_time [] l.
Definition select (find_re : str -> str -> bool) (d : db) (t : str) (e : cond) : option (list row) :=
  match find (fun x => str_eqb (fst x) t) (d_tables d) with
  | Some (_, cols) =>
      if accepted find_re cols e then
        Some (sort_by_time (filter (fun r => str_eqb (r_table r) t && match eval find_re cols e r with Some (Some true) => true | _ => false end) (d_rows d)))
      else None
  | None => None
  end.

(** * Making time series of the rows: writer.rs:32-131, 203-213 *)
(** concat_labels: the names and values with the character 1 between them *)
Fixpoint concat_labels (ls : list label) : str :=
  match ls with
  | [] => []
  | [l] => l_name l ++ 1 :: l_value l
  | l :: ls => l_name l ++ 1 :: l_value l ++ 1 :: concat_labels ls
  end.
(** Columns that are null have the empty text, or 0, in their place. *)
Definition labels_of (cols : list str) (r : row) : list label :=
  map (fun c => Label c (match tag_of (r_tags r) c with Some v => v | None => [] end)) cols.
Definition millis (p : precision) (t : Z) : Z := match p with MS => t | US => Z.quot t 1000 | NS => Z.quot t 1000000 end.
Definition sample_of (p : precision) (r : row) : sample :=
  Sample (match r_value r with Some v => v | None => 0 end) (millis p (r_time r)).
(** labels_to_series, a HashMap from the labels' text: entries in the order of first use here, any order there. *)
Fixpoint add_sample (k : str) (ls : list label) (s : sample) (m : list (str * tseries)) : list (str * tseries) :=
  match m with
  | [] => [(k, TSer ls [s])]
  | (k', ts) :: m => if str_eqb k k' then (k', TSer (ts_labels ts) (ts_samples ts ++ [s])) :: m else (k', ts) :: add_sample k ls s m
  end.
Definition to_series (p : precision) (cols : list str) (rows : list row) : list tseries :=
  map snd (fold_left (fun m r => let ls := labels_of cols r in add_sample (concat_labels ls) ls (sample_of p r) m) rows []).

(** process_single_sql, 226-252: the columns are those of the table named in the request *)
Definition run_one (find_re : str -> str -> bool) (kw : str -> bool) (p : precision) (d : db) (q : query) (t : str) : option (list tseries) :=
  match find (fun x => str_eqb (fst x) t) (d_tables d), read_sql kw (sql_text t q) with
  | Some (_, cols), Some (t', e) => match select find_re d t' e with Some rows => Some (to_series p cols rows) | None => None end
  | _, _ => None
  end.
Fixpoint run_all (find_re : str -> str -> bool) (kw : str -> bool) (p : precision) (d : db) (q : query) (ts : list str) : option (list tseries) :=
  match ts with
  | [] => Some []
  | t :: ts => match run_one find_re kw p d q t, run_all find_re kw p d q ts with Some a, Some b => Some (a ++ b) | _, _ => None end
  end.
(** process_read_request, 187-224, for one query of the request *)
Definition remote_read (find_re : str -> str -> bool) (kw : str -> bool) (p : precision) (d : db) (q : query) : option (list tseries) :=
  match tables_of find_re (map fst (d_tables d)) q with Some ts => run_all find_re kw p d q ts | None => None end.
