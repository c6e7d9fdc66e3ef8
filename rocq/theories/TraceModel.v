(** Traces: the spans of an OpenTelemetry export request turned into log records (common/protocol_parser/src/json_protocol/parser.rs:220-493),
    written as lines (main/src/http/http_service.rs:1747-1783), and read back as Jaeger traces (main/src/opentelemetry/otlp_to_jaeger.rs,
    main/src/http/http_service.rs:1879-1946, 2007-2058, 2092-2099).  Protobuf, the storage below the lines (C56, C57, C62) and the scan
    (C22, C23, C64) are left out.  The columns are taken to have the types the export gives them. *)
From Coq Require Import Ascii String.
From Coq Require Import List.
From Verif Require Import Prelude LogModel.
Open Scope list_scope.
Open Scope Z_scope.

(** opentelemetry.proto.common.rs AnyValue: a string, a truth value, an integer, or another value given by the text that Rust prints
    for it (Display of a double, the lower-cased Debug text of arrays, maps and bytes); or no value *)
Inductive aval := AStr (s : str) | ABool (b : bool) | AInt (z : Z) | AText (s : str) | ANone.
Record attr := Attr { a_key : str; a_value : option aval }.
(** opentelemetry.proto.trace.rs; ids are bytes, a status is its code and its message *)
Record event := Event { ev_time : Z; ev_name : str; ev_attrs : list attr; ev_dropped : Z }.
Record link := Link { lk_trace : list Z; lk_span : list Z; lk_state : str; lk_attrs : list attr; lk_dropped : Z; lk_flags : Z }.
Record span := Span { sp_trace : list Z; sp_id : list Z; sp_state : str; sp_parent : list Z; sp_flags : Z; sp_name : str; sp_kind : Z;
                      sp_start : Z; sp_end : Z; sp_attrs : list attr; sp_dropped : Z; sp_events : list event; sp_dropped_events : Z;
                      sp_links : list link; sp_dropped_links : Z; sp_status : option (Z * str) }.
Record scope := Scope { sc_name : str; sc_version : str; sc_attrs : list attr; sc_dropped : Z }.
Record scope_spans := ScopeSpans { ss_scope : option scope; ss_url : str; ss_spans : list span }.
Record resource_spans := ResourceSpans { rs_resource : option (list attr * Z); rs_url : str; rs_scopes : list scope_spans }.

(** * Export *)
(** format!("{:02x}", byte) of each byte *)
Definition hex (l : list Z) : str := flat_map (fun b => [hex_digit (b / 16); hex_digit (b mod 16)]) l.
Definition kind_name (k : Z) : str :=
  if k =? 1 then txt "SPAN_KIND_INTERNAL" else if k =? 2 then txt "SPAN_KIND_SERVER" else if k =? 3 then txt "SPAN_KIND_CLIENT"
  else if k =? 4 then txt "SPAN_KIND_PRODUCER" else if k =? 5 then txt "SPAN_KIND_CONSUMER" else txt "SPAN_KIND_UNSPECIFIED".
Definition status_name (k : Z) : str :=
  if k =? 1 then txt "STATUS_CODE_OK" else if k =? 2 then txt "STATUS_CODE_ERROR" else txt "STATUS_CODE_UNSET".
(** parser.rs:243-250 and the like *)
Definition attr_text (v : aval) : str :=
  match v with AStr s => s | ABool true => txt "true" | ABool false => txt "false" | AInt z => dec z | AText s => s | ANone => [] end.
Definition attr_puts (pre : str) (l : list attr) : fields :=
  flat_map (fun a => match a_value a with Some v => [(pre ++ txt "attributes/" ++ a_key a, JStr (attr_text v))] | None => [] end) l.
Definition int (z : Z) : json := JNum (NInt z).
(** parser.rs:230-266: the resource; the service name is kept only if it is a string *)
Definition res_puts (r : resource_spans) : fields :=
  match rs_resource r with
  | Some (attrs, dropped) =>
      flat_map (fun a => if str_eqb (a_key a) (txt "service.name")
                         then match a_value a with Some (AStr s) => [(txt "ResourceSpans/Resource/attributes/service.name", JStr s)] | _ => [] end
                         else attr_puts (txt "ResourceSpans/Resource/") [a]) attrs
      ++ [(txt "ResourceSpans/Resource/dropped_attributes_count", int dropped)]
  | None => []
  end ++ [(txt "ResourceSpans/schema_url", JStr (rs_url r))].
(** parser.rs:267-304: the scope *)
Definition scope_puts (s : scope_spans) : fields :=
  match ss_scope s with
  | Some c => [(txt "ResourceSpans/ScopeSpans/InstrumentationScope/name", JStr (sc_name c));
               (txt "ResourceSpans/ScopeSpans/InstrumentationScope/version", JStr (sc_version c))]
              ++ attr_puts (txt "ResourceSpans/ScopeSpans/InstrumentationScope/") (sc_attrs c)
              ++ [(txt "ResourceSpans/ScopeSpans/InstrumentationScope/dropped_attributes_count", int (sc_dropped c))]
  | None => []
  end ++ [(txt "ResourceSpans/ScopeSpans/schema_url", JStr (ss_url s))].
Definition SPAN : str := txt "ResourceSpans/ScopeSpans/Span/".
Definition event_prefix (i : Z) : str := SPAN ++ txt "Event_" ++ dec i ++ txt "/".
Definition link_prefix (i : Z) : str := SPAN ++ txt "Link_" ++ dec i ++ txt "/".
(** parser.rs:381-409 *)
Definition event_puts (i : Z) (e : event) : fields :=
  [(event_prefix i ++ txt "time_unix_nano", int (ev_time e)); (event_prefix i ++ txt "name", JStr (ev_name e))]
  ++ attr_puts (event_prefix i) (ev_attrs e) ++ [(event_prefix i ++ txt "dropped_attributes_count", int (ev_dropped e))].
Fixpoint events_puts (i : Z) (l : list event) : fields := match l with [] => [] | e :: r => event_puts i e ++ events_puts (i + 1) r end.
(** parser.rs:414-457 *)
Definition link_puts (i : Z) (k : link) : fields :=
  [(link_prefix i ++ txt "trace_id", JStr (hex (lk_trace k))); (link_prefix i ++ txt "span_id", JStr (hex (lk_span k)));
   (link_prefix i ++ txt "trace_state", JStr (lk_state k))]
  ++ attr_puts (link_prefix i) (lk_attrs k)
  ++ [(link_prefix i ++ txt "dropped_attributes_count", int (lk_dropped k)); (link_prefix i ++ txt "flags", int (lk_flags k))].
Fixpoint links_puts (i : Z) (l : list link) : fields := match l with [] => [] | e :: r => link_puts i e ++ links_puts (i + 1) r end.
(** parser.rs:305-479: the span *)
Definition span_puts (s : span) : fields :=
  [(SPAN ++ txt "trace_id", JStr (hex (sp_trace s))); (SPAN ++ txt "span_id", JStr (hex (sp_id s)));
   (SPAN ++ txt "trace_state", JStr (sp_state s)); (SPAN ++ txt "parent_span_id", JStr (hex (sp_parent s)));
   (SPAN ++ txt "flags", int (sp_flags s)); (SPAN ++ txt "name", JStr (sp_name s)); (SPAN ++ txt "kind", JStr (kind_name (sp_kind s)));
   (SPAN ++ txt "start_time_unix_nano", int (sp_start s)); (SPAN ++ txt "end_time_unix_nano", int (sp_end s))]
  ++ attr_puts SPAN (sp_attrs s)
  ++ [(SPAN ++ txt "dropped_attributes_count", int (sp_dropped s))]
  ++ events_puts 0 (sp_events s)
  ++ [(SPAN ++ txt "dropped_events_count", int (sp_dropped_events s))]
  ++ links_puts 0 (sp_links s)
  ++ [(SPAN ++ txt "dropped_links_count", int (sp_dropped_links s))]
  ++ match sp_status s with
     | Some (code, msg) => [(SPAN ++ txt "Status/code", JStr (status_name code)); (SPAN ++ txt "Status/message", JStr msg)]
     | None => []
     end
  ++ [(SPAN ++ txt "duration_nano", int (wrap_u64 (sp_end s - sp_start s)))].
(** parser.rs:226-486: the map of the fields is emptied for each resource, and only then *)
Fixpoint spans_rows (fs : fields) (l : list span) : list fields * fields :=
  match l with [] => ([], fs) | s :: r => let fs := puts (span_puts s) fs in let (rows, fs') := spans_rows fs r in (fs :: rows, fs') end.
Fixpoint scopes_rows (fs : fields) (l : list scope_spans) : list fields * fields :=
  match l with
  | [] => ([], fs)
  | s :: r => let (rows, fs) := spans_rows (puts (scope_puts s) fs) (ss_spans s) in let (rows', fs) := scopes_rows fs r in (rows ++ rows', fs)
  end.
Definition otlp (req : list resource_spans) : list fields := flat_map (fun r => fst (scopes_rows (puts (res_puts r) []) (rs_scopes r))) req.

(** http_service.rs:1753-1770 *)
Definition TIME_COLUMN : str := SPAN ++ txt "start_time_unix_nano".
Definition LIB_NAME : str := txt "ResourceSpans/ScopeSpans/InstrumentationScope/name".
Definition LIB_VERSION : str := txt "ResourceSpans/ScopeSpans/InstrumentationScope/version".
Definition STATUS_CODE : str := SPAN ++ txt "Status/code".
Definition STATUS_MESSAGE : str := SPAN ++ txt "Status/message".
Definition SPAN_ID : str := SPAN ++ txt "span_id".
Definition NAME : str := SPAN ++ txt "name".
Definition PARENT : str := SPAN ++ txt "parent_span_id".
Definition TRACE_ID : str := SPAN ++ txt "trace_id".
Definition TRACE_STATE : str := SPAN ++ txt "trace_state".
Definition SERVICE : str := txt "ResourceSpans/Resource/attributes/service.name".
Definition FLAGS : str := SPAN ++ txt "flags".
Definition KIND : str := SPAN ++ txt "kind".
Definition DURATION : str := SPAN ++ txt "duration_nano".
Definition RES_DROPPED : str := txt "ResourceSpans/Resource/dropped_attributes_count".
Definition DROPPED : str := SPAN ++ txt "dropped_attributes_count".
Definition DROPPED_EVENTS : str := SPAN ++ txt "dropped_events_count".
Definition DROPPED_LINKS : str := SPAN ++ txt "dropped_links_count".
Fixpoint join_comma (l : list str) : str := match l with [] => [] | [a] => a | a :: r => a ++ 44 :: join_comma r end.
Definition TAG_COLUMNS : str :=
  join_comma [LIB_NAME; LIB_VERSION; STATUS_CODE; SPAN_ID; NAME; PARENT; SPAN_ID; TRACE_ID; TRACE_STATE; SERVICE].
Definition export_line (table : str) (fs : fields) : option line := to_line (fun _ => None) 0 table TIME_COLUMN TAG_COLUMNS fs.

(** * The stored row *)
(** A row has a time and cells; an empty cell is a null.  [StringArray::value] and [Float64Array::value] of a null give the empty text
    and zero, the contents the builders leave there. *)
Inductive cell := CStr (s : str) | CNum (f : f64) | CBool (b : bool).
Record row := Row { r_time : Z; r_cell : str -> option cell }.
Fixpoint assoc {A : Type} (k : str) (l : list (str * A)) : option A :=
  match l with [] => None | (k', v) :: r => if str_eqb k k' then Some v else assoc k r end.
Definition cell_of (v : fval) : cell := match v with VBool b => CBool b | VF64 f => CNum f | VStr s => CStr s end.
Definition row_of_line (ln : line) : row :=
  Row (l_time ln) (fun k => match assoc k (l_tags ln) with Some t => Some (CStr t) | None => option_map cell_of (assoc k (l_fields ln)) end).
Definition str_at (r : row) (k : str) : str := match r_cell r k with Some (CStr s) => s | _ => [] end.
Definition num_at (r : row) (k : str) : f64 := match r_cell r k with Some (CNum f) => f | _ => FInt 0 end.
(** [as u32], [as u64], [as i64] of a float *)
Definition clamp (lo hi : Z) (f : f64) : Z := match f with FInt z => Z.max lo (Z.min hi z) | FBits _ => 0 end.

(** * Jaeger *)
(** jaeger_model.rs *)
Inductive tagv := TStr (s : str) | TInt (z : Z) | TBool (b : bool).
Record process := Process { p_service : str; p_tags : list (str * tagv) }.
Record jspan := JSpan { j_trace : str; j_id : str; j_parent : option str; j_flags : option Z; j_name : str; j_refs : list (str * str);
                        j_start : Z; j_duration : Z; j_tags : list (str * tagv); j_logs : list (Z * list (str * tagv));
                        j_process : process; j_pid : option str }.
Fixpoint starts (p s : str) : bool := match p, s with [], _ => true | x :: p, y :: s => (x =? y) && starts p s | _, _ => false end.
(** otlp_to_jaeger.rs:313-323 to_jaeger_span_kind *)
Definition jaeger_kind (s : str) : str :=
  if str_eqb s (txt "SPAN_KIND_INTERNAL") then txt "internal" else if str_eqb s (txt "SPAN_KIND_SERVER") then txt "server"
  else if str_eqb s (txt "SPAN_KIND_CLIENT") then txt "client" else if str_eqb s (txt "SPAN_KIND_PRODUCER") then txt "producer"
  else if str_eqb s (txt "SPAN_KIND_CONSUMER") then txt "consumer" else txt "unspecified".
(** [s.split at slashes, the last part] *)
Fixpoint after_slash (cur s : str) : str := match s with [] => cur | c :: r => if c =? 47 then after_slash r r else after_slash cur r end.
Record acc := Acc { ac_event : Z; ac_link : Z; ac_tags : list (str * tagv); ac_ptags : list (str * tagv);
                    ac_logs : list (Z * list (str * tagv)); ac_refs : list (str * str) }.
(** otlp_to_jaeger.rs:624-683: one event; its attributes go to the process *)
Definition event_log (cols : list str) (r : row) (i : Z) : Z * list (str * tagv) :=
  (clamp 0 U64_MAX (num_at r (event_prefix i ++ txt "time_unix_nano")),
   flat_map (fun c => if starts (event_prefix i ++ txt "attributes/") c then []
                      else if str_eqb c (event_prefix i ++ txt "name") then [(txt "name", TStr (str_at r c))]
                      else if str_eqb c (event_prefix i ++ txt "dropped_attributes_count")
                           then [(txt "dropped_attributes_count", TInt (clamp I64_MIN I64_MAX (num_at r c)))] else []) cols).
Definition event_ptags (cols : list str) (r : row) (i : Z) : list (str * tagv) :=
  flat_map (fun c => if starts (event_prefix i ++ txt "attributes/") c then [(c, TStr (str_at r c))] else []) cols.
(** otlp_to_jaeger.rs:545-722: one column *)
Definition column_step (cols : list str) (r : row) (a : acc) (c : str) : option acc :=
  let '(Acc e l tags ptags logs refs) := a in
  if starts (txt "ResourceSpans/Resource/attributes") c && negb (str_eqb c SERVICE) then Some (Acc e l tags (ptags ++ [(c, TStr (str_at r c))]) logs refs)
  else if str_eqb c RES_DROPPED then Some (Acc e l tags (ptags ++ [(txt "dropped_attributes_count", TInt (clamp I64_MIN I64_MAX (num_at r c)))]) logs refs)
  else if starts (SPAN ++ txt "attributes/") c then Some (Acc e l tags (ptags ++ [(c, TStr (str_at r c))]) logs refs)
  else if str_eqb c DROPPED || str_eqb c DROPPED_EVENTS || str_eqb c DROPPED_LINKS
       then Some (Acc e l (tags ++ [(after_slash c c, TInt (clamp I64_MIN I64_MAX (num_at r c)))]) ptags logs refs)
  else if str_eqb c TRACE_STATE then Some (Acc e l (tags ++ [(after_slash c c, TStr (str_at r c))]) ptags logs refs)
  else if starts (event_prefix e) c then
    if mem (event_prefix e ++ txt "time_unix_nano") cols
    then Some (Acc (e + 1) l tags (ptags ++ event_ptags cols r e) (logs ++ [event_log cols r e]) refs) else None
  else if starts (link_prefix l) c then
    if mem (link_prefix l ++ txt "trace_id") cols && mem (link_prefix l ++ txt "span_id") cols
    then Some (Acc e (l + 1) tags ptags logs (refs ++ [(str_at r (link_prefix l ++ txt "trace_id"), str_at r (link_prefix l ++ txt "span_id"))])) else None
  else Some a.
Fixpoint columns_loop (cols : list str) (r : row) (a : acc) (l : list str) : option acc :=
  match l with [] => Some a | c :: l => match column_step cols r a c with Some a => columns_loop cols r a l | None => None end end.
(** otlp_to_jaeger.rs:325-727 recordbatch_to_span *)
Definition to_jspan (cols : list str) (r : row) : option jspan :=
  let str_if k := if mem k cols then Some (str_at r k) else None in
  let or_empty o := match o with Some s => s | None => [] end in
  let tags0 := match str_if KIND with Some s => [(txt "span.kind", TStr (jaeger_kind s))] | None => [] end in
  let ptags0 :=
    match str_if STATUS_CODE with
    | Some s => (txt "otel.status_code", TStr s) :: (if str_eqb s (txt "STATUS_CODE_ERROR") then [(txt "error", TBool true)] else [])
    | None => [] end
    ++ match str_if STATUS_MESSAGE with Some s => [(txt "otel.status_description", TStr s)] | None => [] end
    ++ match str_if LIB_NAME with Some s => [(txt "otel.library.name", TStr s)] | None => [] end
    ++ match str_if LIB_VERSION with Some s => [(txt "otel.library.version", TStr s)] | None => [] end in
  match columns_loop cols r (Acc 0 0 tags0 ptags0 [] []) cols with
  | Some a => Some (JSpan (or_empty (str_if TRACE_ID)) (or_empty (str_if SPAN_ID)) (str_if PARENT)
                      (if mem FLAGS cols then Some (clamp 0 (2 ^ 32 - 1) (num_at r FLAGS)) else None) (or_empty (str_if NAME)) (ac_refs a)
                      (wrap_u64 (Z.quot (r_time r) 1000)) (if mem DURATION cols then clamp 0 U64_MAX (num_at r DURATION) / 1000 else 0)
                      (ac_tags a) (ac_logs a) (Process (or_empty (str_if SERVICE)) (ac_ptags a)) None)
  | None => None
  end.

(** A batch of the scan: its columns and its rows. *)
Record batch := Batch { b_cols : list str; b_rows : list row }.
Definition set_pid (j : jspan) (p : str) : jspan :=
  JSpan (j_trace j) (j_id j) (j_parent j) (j_flags j) (j_name j) (j_refs j) (j_start j) (j_duration j) (j_tags j) (j_logs j) (j_process j) (Some p).
(** jaeger_model.rs Trace: the spans and the processes by their ids *)
Record trace := Trace { t_id : str; t_spans : list jspan; t_procs : list (str * process) }.
Fixpoint proc_put (k : str) (p : process) (m : list (str * process)) : list (str * process) :=
  match m with [] => [(k, p)] | (k', p') :: r => if str_eqb k k' then (k, p) :: r else (k', p') :: proc_put k p r end.
(** http_service.rs:2031-2053: of each batch the first row only; every batch has a column of trace ids *)
Fixpoint batch_spans (l : list batch) : option (list jspan) :=
  match l with
  | [] => Some []
  | b :: r => match b_rows b with
              | [] => batch_spans r
              | w :: _ => match to_jspan (b_cols b) w, batch_spans r with Some j, Some js => Some (j :: js) | _, _ => None end
              end
  end.
(** http_service.rs:2092-2099: the processes p0, p1, ... *)
Fixpoint number (i : Z) (l : list jspan) : list jspan := match l with [] => [] | j :: r => set_pid j (112 :: dec i) :: number (i + 1) r end.
Fixpoint number_procs (i : Z) (l : list jspan) (m : list (str * process)) : list (str * process) :=
  match l with [] => m | j :: r => number_procs (i + 1) r (proc_put (112 :: dec i) (j_process j) m) end.
(** http_service.rs:1987-2099 get_trace: the batches are those of the rows with this trace id *)
Definition get_trace (id : str) (l : list batch) : option trace :=
  match batch_spans l with
  | Some js => Some (Trace (match js with [] => [] | _ => id end) (number 0 js) (number_procs 0 js []))
  | None => None
  end.
(** http_service.rs:1902-1946 search_traces: traces by their id; the first span of a trace has the process p1, the next p1, p2, ... *)
Fixpoint search_put (id : str) (j : jspan) (m : list trace) : list trace :=
  match m with
  | [] => [Trace id [set_pid j (txt "p1")] [(txt "p1", j_process j)]]
  | t :: r => if str_eqb id (t_id t)
              then let p := 112 :: dec (Z.of_nat (length (t_spans t))) in
                   Trace (t_id t) (t_spans t ++ [set_pid j p]) (proc_put p (j_process j) (t_procs t)) :: r
              else t :: search_put id j r
  end.
Fixpoint search_loop (l : list batch) (m : list trace) : option (list trace) :=
  match l with
  | [] => Some m
  | b :: r => match b_rows b with
              | [] => search_loop r m
              | w :: _ => match to_jspan (b_cols b) w with Some j => search_loop r (search_put (str_at w TRACE_ID) j m) | None => None end
              end
  end.
Definition search_traces (l : list batch) : option (list trace) := search_loop l [].
