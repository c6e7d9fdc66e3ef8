(** C76: spans that were exported are shown by the Jaeger interface. *)
From Coq Require Import Ascii String.
From Coq Require Import List.
From Verif Require Import Prelude LogModel LogSpec TraceModel TraceSpec TraceProofs TraceEvents TraceFind.
Open Scope list_scope.
Open Scope Z_scope.

(** Every span of a request gives one row, and whatever other columns the table has and in whatever order, the row is shown as that span.
    Missing: names with quotes and the like, spans without a status, events and links (below), attributes of the scope. *)
Theorem C76_span_partial : forall table req i r s sp, nth_error (spans_of req) i = Some (r, s, sp) -> good_span sp ->
  length (otlp req) = length (spans_of req) /\
  exists fs ln, nth_error (otlp req) i = Some fs /\ export_line table fs = Some ln /\ l_table ln = table /\ l_time ln = sp_start sp /\
    forall cols j, incl (line_columns ln) cols -> to_jspan cols (row_of_line ln) = Some j -> span_shown r sp j.
Proof.
  intros table req i r s sp N G. pose proof (rows_ok req) as F. split; [symmetry; eapply Forall2_length; exact F|].
  assert (exists fs, nth_error (otlp req) i = Some fs /\ row_ok (r, s, sp) fs) as (fs & NF & fs0 & IV & ->).
  { clear G. revert i N. induction F as [|x y l1 l2 R F IH]; intros [|i] N; try discriminate; [injection N as ->; exists y; auto|]. apply (IH i N). }
  destruct (span_values sp) as (_ & _ & _ & _ & _ & _ & _ & V8 & _). cbv beta in V8.
  pose proof (own sp fs0 _ _ V8) as F8. destruct (line_some table (puts (span_puts sp) fs0) (sp_start sp)) as (ln & E).
  { exact (fs_ordered r sp fs0 IV). } { exact (fs_scalars r sp fs0 IV). } { exact F8. } { destruct (g_start sp G). split; [|auto]. eapply Z.le_trans; [|eauto]. discriminate. }
  exists (puts (span_puts sp) fs0), ln. split; [exact NF|]. split; [exact E|]. pose proof (fs_ordered r sp fs0 IV) as O.
  split; [exact (proj1 (line_facts table _ ln O E))|]. split; [exact (line_time table _ ln O E _ F8)|].
  intros cols j C T. exact (shown_ok table r sp fs0 ln cols IV E C j G T).
Qed.
Print Assumptions C76_span_partial.

(** A row of a table that only exports have written can always be shown. *)
Theorem C76_readable_partial : forall cols w, exported_columns cols -> exists j, to_jspan cols w = Some j.
Proof. exact readable. Qed.
Print Assumptions C76_readable_partial.

(** Events and links are shown one by one, if the columns come in the order of their numbers and the table has none beyond those of the
    span. *)
Theorem C76_events_partial : forall table req i r s sp fs ln cols j, nth_error (spans_of req) i = Some (r, s, sp) -> nth_error (otlp req) i = Some fs ->
  export_line table fs = Some ln -> incl (line_columns ln) cols -> to_jspan cols (row_of_line ln) = Some j ->
  (Z.of_nat (length (sp_events sp)) < 2 ^ 64 - 1 -> Forall (fun e => 0 <= ev_time e < 2 ^ 63 /\ 0 <= ev_dropped e < 2 ^ 32) (sp_events sp) ->
   in_turn event_column (length (sp_events sp)) cols -> Forall2 event_shown (sp_events sp) (j_logs j)) /\
  (Z.of_nat (length (sp_links sp)) < 2 ^ 64 - 1 -> Forall (fun k => bytes (lk_trace k) /\ bytes (lk_span k)) (sp_links sp) ->
   in_turn link_column (length (sp_links sp)) cols -> Forall2 link_shown (sp_links sp) (j_refs j)).
Proof.
  intros table req i r s sp fs ln cols j N NF E C T. pose proof (rows_ok req) as F.
  assert (row_ok (r, s, sp) fs) as (fs0 & IV & ->).
  { clear E. revert i N NF. induction F as [|x y l1 l2 R F IH]; intros [|i] N NF; try discriminate; [injection N as ->; injection NF as ->; exact R|]. apply (IH i N NF). }
  split.
  - exact (events_ok table r sp fs0 ln cols IV E C j T).
  - exact (links_ok table r sp fs0 ln cols IV E C j T).
Qed.
Print Assumptions C76_events_partial.

(** One trace by its id: each row is shown, in order, with its own process.  Missing: batches of more than one row. *)
Theorem C76_trace_partial : forall id bs, Z.of_nat (length bs) < 2 ^ 64 -> Forall (fun b => exists w, one_row b w) bs -> exists t, get_trace id bs = Some t /\
  length (t_spans t) = length bs /\ NoDup (map j_pid (t_spans t)) /\ NoDup (map fst (t_procs t)) /\ (bs <> [] -> t_id t = id) /\
  forall i b w, nth_error bs i = Some b -> b_rows b = [w] -> exists j p, to_jspan (b_cols b) w = Some j /\
    nth_error (t_spans t) i = Some (with_process j p) /\ In (p, j_process j) (t_procs t).
Proof. exact trace_ok. Qed.
Print Assumptions C76_trace_partial.

(** A search: one trace for each trace id; it has the spans with this id and no others.  Missing: the processes, see below. *)
Theorem C76_search_partial : forall bs, Forall (fun b => exists w, one_row b w) bs -> exists ts, search_traces bs = Some ts /\ NoDup (map t_id ts) /\
  (forall b w, In b bs -> b_rows b = [w] -> exists j p t, to_jspan (b_cols b) w = Some j /\ In t ts /\
     t_id t = str_at w (txt "ResourceSpans/ScopeSpans/Span/trace_id") /\ In (with_process j p) (t_spans t)) /\
  (forall t s, In t ts -> In s (t_spans t) -> exists b w j p, In b bs /\ b_rows b = [w] /\ to_jspan (b_cols b) w = Some j /\
     t_id t = str_at w (txt "ResourceSpans/ScopeSpans/Span/trace_id") /\ s = with_process j p).
Proof.
  intros bs F. destruct (search_ok_gen bs [] F ltac:(constructor)) as (ts & E & ND & _ & K2 & K3). exists ts. split; [exact E|]. split; [exact ND|]. split.
  - intros b w I W. destruct (K2 b w I W) as (j & p & Q & t & IT & ID & IS). exists j, p, t. auto.
  - intros t s IT IS. destruct (K3 (t_id t) s) as [(? & [] & _)|R]; [exists t; auto|]. exact R.
Qed.
Print Assumptions C76_search_partial.

(** * What does not hold *)
Definition span0 : span := Span [1; 2] [3; 255] [] [] 1 (txt "GET /") 2 1700000000000000000 1700000000000250000 [] 0 [] 0 [] 0 None.
Definition with_status (sp : span) (st : option (Z * str)) : span :=
  Span (sp_trace sp) (sp_id sp) (sp_state sp) (sp_parent sp) (sp_flags sp) (sp_name sp) (sp_kind sp) (sp_start sp) (sp_end sp) (sp_attrs sp) (sp_dropped sp)
    (sp_events sp) (sp_dropped_events sp) (sp_links sp) (sp_dropped_links sp) st.
Definition with_events (sp : span) (l : list event) : span :=
  Span (sp_trace sp) (sp_id sp) (sp_state sp) (sp_parent sp) (sp_flags sp) (sp_name sp) (sp_kind sp) (sp_start sp) (sp_end sp) (sp_attrs sp) (sp_dropped sp)
    l (sp_dropped_events sp) (sp_links sp) (sp_dropped_links sp) (sp_status sp).
Definition with_name (sp : span) (n : str) : span :=
  Span (sp_trace sp) (sp_id sp) (sp_state sp) (sp_parent sp) (sp_flags sp) n (sp_kind sp) (sp_start sp) (sp_end sp) (sp_attrs sp) (sp_dropped sp)
    (sp_events sp) (sp_dropped_events sp) (sp_links sp) (sp_dropped_links sp) (sp_status sp).
Definition with_times (sp : span) (a b : Z) : span :=
  Span (sp_trace sp) (sp_id sp) (sp_state sp) (sp_parent sp) (sp_flags sp) (sp_name sp) (sp_kind sp) a b (sp_attrs sp) (sp_dropped sp)
    (sp_events sp) (sp_dropped_events sp) (sp_links sp) (sp_dropped_links sp) (sp_status sp).
Definition service_of (v : aval) (spans : list span) : resource_spans :=
  ResourceSpans (Some ([Attr (txt "service.name") (Some v)], 0)) [] [ScopeSpans None [] spans].
(** the lines of a request, and the spans shown if each is a batch of its own with the given columns *)
Definition lines (req : list resource_spans) : list line := flat_map (fun fs => match export_line (txt "t") fs with Some l => [l] | None => [] end) (otlp req).
Definition shown (cols : list str) (l : list line) : list jspan := flat_map (fun l => match to_jspan cols (row_of_line l) with Some j => [j] | None => [] end) l.

Definition j0 : jspan := JSpan [] [] None None [] [] 0 0 [] [] (Process [] []) None.
Definition covers (cols : list str) (l : list line) : bool := forallb (fun l => forallb (fun c => mem c cols) (line_columns l)) l.
Lemma covers_incl cols l : covers cols l = true -> forall x, In x l -> incl (line_columns x) cols.
Proof.
  unfold covers. intros Q x I c J. rewrite forallb_forall in Q. specialize (Q x I). rewrite forallb_forall in Q. specialize (Q c J).
  destruct (LogProofs.mem_spec c cols); [auto|discriminate].
Qed.
Fixpoint dedup (l : list str) : list str := match l with [] => [] | c :: r => if mem c r then dedup r else c :: dedup r end.
(** the columns of a table that these lines have created, in the order of their names *)
Fixpoint insert (c : str) (l : list str) : list str := match l with [] => [c] | d :: r => match str_cmp c d with Gt => d :: insert c r | _ => c :: l end end.
Definition columns_of (l : list line) : list str := txt "time" :: fold_right insert [] (dedup (flat_map line_columns l)).

(** A span without a status after one that failed, in the same resource: it is shown as failed. *)
Definition req1 : list resource_spans := [service_of (AStr (txt "web")) [with_status span0 (Some (2, txt "timeout")); span0]].
Definition cols1 : list str := Eval vm_compute in columns_of (lines req1).
Theorem C76_status_leaks_refuted : exists req cols j, option_map snd (nth_error (spans_of req) 1) = Some span0 /\ sp_status span0 = None /\
  (forall l, In l (lines req) -> incl (line_columns l) cols) /\ nth_error (shown cols (lines req)) 1 = Some j /\
  In (txt "error", TBool true) (p_tags (j_process j)) /\ In (txt "otel.status_description", TStr (txt "timeout")) (p_tags (j_process j)).
Proof.
  exists req1, cols1, (nth 1 (shown cols1 (lines req1)) j0). split; [reflexivity|]. split; [reflexivity|].
  split; [apply covers_incl; vm_compute; reflexivity|]. split; [vm_compute; reflexivity|]. split; vm_compute; auto 10.
Qed.
Print Assumptions C76_status_leaks_refuted.
(** A span without events is shown with an event at time zero, because another span of the table has one. *)
Definition req2 : list resource_spans := [service_of (AStr (txt "web")) [span0]].
Definition req3 : list resource_spans := [service_of (AStr (txt "web")) [with_events span0 [Event 1700000000000000100 (txt "retry") [] 0]]].
Definition cols2 : list str := Eval vm_compute in columns_of (lines req2 ++ lines req3).
Theorem C76_phantom_event_refuted : exists req req' cols j, map (fun x => sp_events (snd x)) (spans_of req) = [[]] /\
  (forall l, In l (lines req ++ lines req') -> incl (line_columns l) cols) /\ shown cols (lines req) = [j] /\
  exists fields, j_logs j = [(0, fields)] /\ In (txt "name", TStr []) fields.
Proof.
  exists req2, req3, cols2, (nth 0 (shown cols2 (lines req2)) j0). split; [reflexivity|]. split; [apply covers_incl; vm_compute; reflexivity|].
  split; [vm_compute; reflexivity|]. exists (snd (nth 0 (j_logs (nth 0 (shown cols2 (lines req2)) j0)) (0, []))). split; vm_compute; auto.
Qed.
Print Assumptions C76_phantom_event_refuted.
(** Of eleven events ten are shown: the columns come in the order of their names, and those of Event_10 are before those of Event_2. *)
Definition events11 : list event := map (fun n => Event (1700000000000000000 + n) (txt "e") [] 0) [1; 2; 3; 4; 5; 6; 7; 8; 9; 10; 11].
Definition req4 : list resource_spans := [service_of (AStr (txt "web")) [with_events span0 events11]].
Definition cols4 : list str := Eval vm_compute in columns_of (lines req4).
Theorem C76_eleventh_event_refuted : exists req cols j, map (fun x => length (sp_events (snd x))) (spans_of req) = [11%nat] /\
  (forall l, In l (lines req) -> incl (line_columns l) cols) /\ shown cols (lines req) = [j] /\ length (j_logs j) = 10%nat.
Proof.
  exists req4, cols4, (nth 0 (shown cols4 (lines req4)) j0). split; [reflexivity|]. split; [apply covers_incl; vm_compute; reflexivity|].
  split; vm_compute; reflexivity.
Qed.
Print Assumptions C76_eleventh_event_refuted.
(** The time of an event is shown in nanoseconds, rounded, beside the time of its span in microseconds. *)
Definition cols3 : list str := Eval vm_compute in columns_of (lines req3).
Theorem C76_event_time_refuted : exists req cols j, map (fun x => (sp_start (snd x), map ev_time (sp_events (snd x)))) (spans_of req) = [(1700000000000000000, [1700000000000000100])] /\
  (forall l, In l (lines req) -> incl (line_columns l) cols) /\ shown cols (lines req) = [j] /\
  j_start j = 1700000000000000 /\ map fst (j_logs j) = [1700000000000000000].
Proof.
  exists req3, cols3, (nth 0 (shown cols3 (lines req3)) j0). split; [reflexivity|]. split; [apply covers_incl; vm_compute; reflexivity|].
  split; [vm_compute; reflexivity|]. split; vm_compute; reflexivity.
Qed.
Print Assumptions C76_event_time_refuted.
(** A name with a quote at its end is shown as another name. *)
Definition req5 : list resource_spans := [service_of (AStr (txt "web")) [with_name span0 (txt "say ""hi""")]].
Definition cols5 : list str := Eval vm_compute in columns_of (lines req5).
Theorem C76_name_refuted : exists req cols j, map (fun x => sp_name (snd x)) (spans_of req) = [txt "say ""hi"""] /\
  (forall l, In l (lines req) -> incl (line_columns l) cols) /\ shown cols (lines req) = [j] /\ j_name j = txt "say \""hi\".
Proof.
  exists req5, cols5, (nth 0 (shown cols5 (lines req5)) j0). split; [reflexivity|]. split; [apply covers_incl; vm_compute; reflexivity|]. split; vm_compute; reflexivity.
Qed.
Print Assumptions C76_name_refuted.
(** A service name that is a number is lost. *)
Definition req6 : list resource_spans := [service_of (AInt 7) [span0]].
Definition cols6 : list str := Eval vm_compute in columns_of (lines req6).
Theorem C76_service_refuted : exists req cols j, (exists r s, spans_of req = [(r, s, span0)] /\ rs_resource r = Some ([Attr (txt "service.name") (Some (AInt 7))], 0)) /\
  (forall l, In l (lines req) -> incl (line_columns l) cols) /\ shown cols (lines req) = [j] /\ p_service (j_process j) = [] /\ p_tags (j_process j) = [(txt "dropped_attributes_count", TInt 0)].
Proof.
  exists req6, cols6, (nth 0 (shown cols6 (lines req6)) j0). split; [eexists; eexists; split; reflexivity|]. split; [apply covers_incl; vm_compute; reflexivity|].
  split; [vm_compute; reflexivity|]. split; vm_compute; reflexivity.
Qed.
Print Assumptions C76_service_refuted.
(** A span that ends a nanosecond before its start lasts 584 years. *)
Definition req7 : list resource_spans := [service_of (AStr (txt "web")) [with_times span0 1700000000000000001 1700000000000000000]].
Definition cols7 : list str := Eval vm_compute in columns_of (lines req7).
Theorem C76_duration_refuted : exists req cols j, map (fun x => sp_end (snd x) - sp_start (snd x)) (spans_of req) = [-1] /\
  (forall l, In l (lines req) -> incl (line_columns l) cols) /\ shown cols (lines req) = [j] /\ j_duration j = 18446744073709551.
Proof.
  exists req7, cols7, (nth 0 (shown cols7 (lines req7)) j0). split; [reflexivity|]. split; [apply covers_incl; vm_compute; reflexivity|]. split; vm_compute; reflexivity.
Qed.
Print Assumptions C76_duration_refuted.
(** Two spans that differ in their times only are rows of one series and come in one batch: the second is not shown. *)
Definition req8 : list resource_spans := [service_of (AStr (txt "web")) [span0; with_times span0 1700000001000000000 1700000002000000000]].
Definition cols8 : list str := Eval vm_compute in columns_of (lines req8).
Theorem C76_batch_refuted : exists req cols t, length (spans_of req) = 2%nat /\ (forall l, In l (lines req) -> incl (line_columns l) cols) /\
  length (lines req) = 2%nat /\ (exists tags, map l_tags (lines req) = [tags; tags]) /\
  get_trace (txt "0102") [Batch cols (map row_of_line (lines req))] = Some t /\ map j_start (t_spans t) = [1700000000000000].
Proof.
  exists req8, cols8, (match get_trace (txt "0102") [Batch cols8 (map row_of_line (lines req8))] with Some t => t | None => Trace [] [] [] end).
  split; [reflexivity|]. split; [apply covers_incl; vm_compute; reflexivity|]. split; [vm_compute; reflexivity|]. split; [|split; vm_compute; reflexivity].
  exists (l_tags (nth 0 (lines req8) (Line [] [] [] 0))). vm_compute. reflexivity.
Qed.
Print Assumptions C76_batch_refuted.
(** A search that finds two spans of a trace gives both the process of the second. *)
Definition req9 : list resource_spans := [service_of (AStr (txt "web")) [span0]; service_of (AStr (txt "db")) [with_times span0 1700000001000000000 1700000002000000000]].
Definition cols9 : list str := Eval vm_compute in columns_of (lines req9).
Theorem C76_search_process_refuted : exists req cols t, (forall l, In l (lines req) -> incl (line_columns l) cols) /\ length (lines req) = 2%nat /\
  search_traces (map (fun l => Batch cols [row_of_line l]) (lines req)) = Some [t] /\
  map (fun j => (p_service (j_process j), j_pid j)) (t_spans t) = [(txt "web", Some (txt "p1")); (txt "db", Some (txt "p1"))] /\
  map (fun x => (fst x, p_service (snd x))) (t_procs t) = [(txt "p1", txt "db")].
Proof.
  exists req9, cols9, (match search_traces (map (fun l => Batch cols9 [row_of_line l]) (lines req9)) with Some [t] => t | _ => Trace [] [] [] end).
  split; [apply covers_incl; vm_compute; reflexivity|]. split; [vm_compute; reflexivity|]. split; [vm_compute; reflexivity|]. split; vm_compute; reflexivity.
Qed.
Print Assumptions C76_search_process_refuted.

(** * A case that meets the hypotheses *)
Definition spanA : span := Span [1; 2] [3; 255] (txt "k=v") [9; 9] 1 (txt "GET /") 2 1700000000000000000 1700000000000250000
  [Attr (txt "http.code") (Some (AInt 500)); Attr (txt "ok") (Some (ABool false))] 0
  [Event 1700000000000000100 (txt "retry") [] 1; Event 1700000000000000200 (txt "give up") [] 0] 0 [Link [7] [8] [] [] 0 0] 0 (Some (2, txt "no answer")).
Definition reqA : list resource_spans := [service_of (AStr (txt "web")) [span0; spanA]].
Definition colsA : list str := Eval vm_compute in columns_of (lines reqA).
Definition lineA : line := Eval vm_compute in nth 1 (lines reqA) (Line [] [] [] 0).
Definition jA : jspan := Eval vm_compute in nth 1 (shown colsA (lines reqA)) j0.
Example spanA_good : good_span spanA.
Proof.
  constructor; cbn [spanA sp_trace sp_id sp_parent sp_flags sp_kind sp_start sp_end sp_name sp_state sp_attrs sp_status].
  - repeat constructor; lia.
  - repeat constructor; lia.
  - repeat constructor; lia.
  - lia.
  - lia.
  - lia.
  - lia.
  - repeat (constructor; [split; [vm_compute; discriminate|split; vm_compute; discriminate]|]). constructor.
  - repeat (constructor; [split; [vm_compute; discriminate|split; vm_compute; discriminate]|]). constructor.
  - cbn [map a_key]. constructor; [intros [H|[]]; discriminate H|]. constructor; [intros []|constructor].
  - intros k z [H|[H|[]]]; [injection H as _ <-; lia|discriminate].
  - intros c m H. injection H as <- _. lia.
Qed.
Example colsA_in_turn : in_turn event_column 2 colsA /\ in_turn link_column 1 colsA.
Proof.
  split.
  - apply (in_turn_check _ (txt "ResourceSpans/ScopeSpans/Span/Event_")); [|vm_compute; reflexivity|vm_compute; reflexivity]. intros x c (d & rest & D & ->). apply number_in_ok. exact D.
  - apply (in_turn_check _ (txt "ResourceSpans/ScopeSpans/Span/Link_")); [|vm_compute; reflexivity|vm_compute; reflexivity]. intros x c (d & rest & D & ->). apply number_in_ok. exact D.
Qed.
Example spanA_cols : incl (line_columns lineA) colsA /\ to_jspan colsA (row_of_line lineA) = Some jA.
Proof. split; [apply (covers_incl colsA [lineA]); [vm_compute; reflexivity|left; reflexivity]|vm_compute; reflexivity]. Qed.
Example spanA_shown : j_name jA = txt "GET /" /\ j_duration jA = 250 /\ p_service (j_process jA) = txt "web" /\ map fst (j_logs jA) = [1700000000000000000; 1700000000000000256] /\
  j_refs jA = [(txt "07", txt "08")] /\ In (txt "error", TBool true) (p_tags (j_process jA)).
Proof. repeat split; vm_compute; auto. Qed.
Example colsA_exported : exported_columns colsA.
Proof.
  intros c I. destruct I as [<-|I]; [left; reflexivity|]. right. exists (txt "t"), reqA, (nth 1 (otlp reqA) []), lineA.
  split; [vm_compute; auto|]. split; [vm_compute; reflexivity|]. split; [|apply spanA_cols].
  assert (forallb (fun c => mem c (line_columns lineA)) (tl colsA) = true) as Q by (vm_compute; reflexivity). rewrite forallb_forall in Q.
  specialize (Q c I). destruct (LogProofs.mem_spec c (line_columns lineA)); [auto|discriminate].
Qed.
