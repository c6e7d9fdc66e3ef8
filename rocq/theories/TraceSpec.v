(** What a trace read from the Jaeger interface should show of the spans that were exported. *)
From Coq Require Import Ascii String.
From Coq Require Import List.
From Verif Require Import Prelude LogModel LogSpec TraceModel.
Open Scope list_scope.
Open Scope Z_scope.

(** the spans of a request in their order, each with its resource and its scope *)
Definition spans_of (req : list resource_spans) : list (resource_spans * scope_spans * span) :=
  flat_map (fun r => flat_map (fun s => map (fun sp => (r, s, sp)) (ss_spans s)) (rs_scopes r)) req.

(** the hexadecimal text of some bytes: two digits for each *)
Definition hex_value (c d : Z) : Prop := 48 <= c <= 57 /\ d = c - 48 \/ 97 <= c <= 102 /\ d = c - 87.
Inductive hex_text : list Z -> str -> Prop :=
| hex_nil : hex_text [] []
| hex_cons b l c1 c2 d1 d2 s : hex_value c1 d1 -> hex_value c2 d2 -> b = 16 * d1 + d2 -> hex_text l s -> hex_text (b :: l) (c1 :: c2 :: s).
Definition bytes (l : list Z) : Prop := Forall (fun b => 0 <= b < 256) l.

(** enum SpanKind and enum Status.StatusCode of OpenTelemetry *)
Inductive kind_shown : Z -> str -> Prop :=
| kind0 : kind_shown 0 (txt "unspecified") | kind1 : kind_shown 1 (txt "internal") | kind2 : kind_shown 2 (txt "server")
| kind3 : kind_shown 3 (txt "client") | kind4 : kind_shown 4 (txt "producer") | kind5 : kind_shown 5 (txt "consumer").
Inductive status_shown : Z -> str -> Prop :=
| status0 : status_shown 0 (txt "STATUS_CODE_UNSET") | status1 : status_shown 1 (txt "STATUS_CODE_OK") | status2 : status_shown 2 (txt "STATUS_CODE_ERROR").
(** the text of an attribute *)
Inductive value_shown : aval -> str -> Prop :=
| shown_str s : value_shown (AStr s) s
| shown_true : value_shown (ABool true) (txt "true")
| shown_false : value_shown (ABool false) (txt "false")
| shown_int z s : text_of (JNum (NInt z)) s -> value_shown (AInt z) s
| shown_text s : value_shown (AText s) s.

(** what is asked of a span: ids of bytes, numbers in the range of their types, an end not before the start and at most 104 days after it,
    plain text in the name and the trace state, attributes with distinct keys *)
Record good_span (sp : span) : Prop := {
  g_trace : bytes (sp_trace sp); g_id : bytes (sp_id sp); g_parent : bytes (sp_parent sp);
  g_flags : 0 <= sp_flags sp < 2 ^ 32; g_kind : 0 <= sp_kind sp <= 5;
  g_start : 0 <= sp_start sp < 2 ^ 63; g_end : sp_start sp <= sp_end sp <= sp_start sp + 2 ^ 53;
  g_name : plain_text (sp_name sp); g_state : plain_text (sp_state sp);
  g_attrs : NoDup (map a_key (sp_attrs sp)); g_ints : forall k z, In (Attr k (Some (AInt z))) (sp_attrs sp) -> - 2 ^ 63 <= z < 2 ^ 63;
  g_status : forall code msg, sp_status sp = Some (code, msg) -> 0 <= code <= 2 }.
(** the service of a resource: its attribute service.name *)
Definition service (r : resource_spans) (s : str) : Prop :=
  exists attrs d, rs_resource r = Some (attrs, d) /\ NoDup (map a_key attrs) /\ In (Attr (txt "service.name") (Some (AStr s))) attrs.

(** the span that Jaeger shows is the one that was exported *)
Record span_shown (r : resource_spans) (sp : span) (j : jspan) : Prop := {
  sh_trace : hex_text (sp_trace sp) (j_trace j);
  sh_id : hex_text (sp_id sp) (j_id j);
  sh_parent : exists p, j_parent j = Some p /\ hex_text (sp_parent sp) p;
  sh_flags : j_flags j = Some (sp_flags sp);
  sh_name : j_name j = sp_name sp;
  sh_start : j_start j = sp_start sp / 1000;
  sh_duration : j_duration j = (sp_end sp - sp_start sp) / 1000;
  sh_kind : exists k, kind_shown (sp_kind sp) k /\ In (txt "span.kind", TStr k) (j_tags j);
  sh_state : In (txt "trace_state", TStr (sp_state sp)) (j_tags j);
  sh_service : forall s, service r s -> plain_text s -> p_service (j_process j) = s;
  sh_status : forall code msg, sp_status sp = Some (code, msg) ->
    (exists t, status_shown code t /\ In (txt "otel.status_code", TStr t) (p_tags (j_process j))) /\
    In (txt "otel.status_description", TStr msg) (p_tags (j_process j)) /\
    (In (txt "error", TBool true) (p_tags (j_process j)) <-> code = 2);
  sh_attrs : forall k v, In (Attr k (Some v)) (sp_attrs sp) -> v <> ANone ->
    exists t, value_shown v t /\ In (txt "ResourceSpans/ScopeSpans/Span/attributes/" ++ k, TStr t) (p_tags (j_process j)) }.

(** the columns a line writes *)
Definition line_columns (ln : line) : list str := map fst (l_tags ln) ++ map fst (l_fields ln).
(** a table that only exports have written: every column comes from a line of some request *)
Definition exported_columns (cols : list str) : Prop :=
  forall c, In c cols -> c = txt "time" \/ exists table req fs ln, In fs (otlp req) /\ export_line table fs = Some ln /\ In c (line_columns ln) /\
    incl (line_columns ln) cols.

(** the column belongs to the [n]-th event, the [n]-th link *)
Definition event_column (n : Z) (c : str) : Prop := exists d rest, decimal d n /\ c = txt "ResourceSpans/ScopeSpans/Span/Event_" ++ d ++ [47] ++ rest.
Definition link_column (n : Z) (c : str) : Prop := exists d rest, decimal d n /\ c = txt "ResourceSpans/ScopeSpans/Span/Link_" ++ d ++ [47] ++ rest.
(** such columns come in the order of their numbers, and there are exactly [n] of them *)
Definition in_turn (P : Z -> str -> Prop) (n : nat) (cols : list str) : Prop :=
  (forall l1 a l2 b l3 x y, cols = l1 ++ a :: l2 ++ b :: l3 -> P x a -> P y b -> x <= y) /\
  (forall c x, In c cols -> P x c -> x < Z.of_nat n).
(** an event as Jaeger shows it: its time in nanoseconds, as a float holds it, its name and the number of attributes left out *)
Definition event_shown (e : event) (g : Z * list (str * tagv)) : Prop :=
  Z.abs (fst g - ev_time e) <= 512 /\
  forall k v, In (k, v) (snd g) <-> k = txt "name" /\ v = TStr (ev_name e) \/ k = txt "dropped_attributes_count" /\ v = TInt (ev_dropped e).
Definition link_shown (l : link) (g : str * str) : Prop := hex_text (lk_trace l) (fst g) /\ hex_text (lk_span l) (snd g).

(** the same span, with the id of its process *)
Definition with_process (j : jspan) (p : str) : jspan :=
  JSpan (j_trace j) (j_id j) (j_parent j) (j_flags j) (j_name j) (j_refs j) (j_start j) (j_duration j) (j_tags j) (j_logs j) (j_process j) (Some p).
(** a batch of the one row [w], of a table that only exports have written *)
Definition one_row (b : batch) (w : row) : Prop := b_rows b = [w] /\ exported_columns (b_cols b).
