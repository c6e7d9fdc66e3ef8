(** C75: every record of a log request becomes one row with its own values. *)
From Coq Require Import Ascii String.
From Coq Require Import List.
From Verif Require Import Prelude LogModel LogSpec LogProofs.
Open Scope list_scope.
Open Scope Z_scope.

(** What the columns are called and what they hold: the scalars of the document under their dotted paths, and nothing else. *)
Theorem C75_columns_partial : forall j, plain_keys j -> forall k x, In (k, x) (flatten [] j) <-> value_of j k x.
Proof. intros j P k x. apply value_iff. exact P. Qed.
Print Assumptions C75_columns_partial.

(** The row of one record.  Missing: keys that are empty or have a dot, quotes, backslashes and control characters in tags, nulls, and
    integers beyond 2^53: see the refutations. *)
Theorem C75_record_partial : forall rfc3339 now table tc tags j, listable tags -> plain_keys j ->
  (forall k v, value_of j k v -> storable rfc3339 tc tags k v) ->
  exists ln, to_line rfc3339 now table tc (commas tags) (flatten [] j) = Some ln /\ row_of rfc3339 now table tc tags (value_of j) ln.
Proof. exact record_ok. Qed.
Print Assumptions C75_record_partial.

(** When a record is turned down: a time that cannot be read, or a null outside the tags. *)
Theorem C75_rejected_partial : forall rfc3339 now table tc tags j, listable tags -> plain_keys j ->
  (to_line rfc3339 now table tc (commas tags) (flatten [] j) = None <->
   exists k v, value_of j k v /\ ~ In k tags /\ (k = tc /\ (forall t, ~ time_from rfc3339 v t) \/ k <> tc /\ v = JNull)).
Proof. exact record_rejected. Qed.
Print Assumptions C75_rejected_partial.

(** A request of documents, one per line: one row for each, in their order. *)
Theorem C75_ndjson_partial : forall rfc3339 clock table tc tags docs, listable tags -> Forall plain_keys docs ->
  (forall j k v, In j docs -> value_of j k v -> storable rfc3339 tc tags k v) ->
  exists logs lns, ndjson (map Some docs) = Some logs /\ to_lines rfc3339 clock table tc (commas tags) logs = Some lns /\ length lns = length docs /\
    forall i j, nth_error docs i = Some j -> exists ln, nth_error lns i = Some ln /\ row_of rfc3339 (clock i) table tc tags (value_of j) ln.
Proof.
  intros rfc clock table tc tags docs LT P ST. exists (map (flatten []) docs). rewrite Forall_forall in P.
  destruct (to_lines_ok rfc table tc (commas tags) (map (flatten []) docs) clock) as (lns & E & Q & R).
  { intros i m I. rewrite nth_error_map in I. destruct (nth_error docs i) as [j|] eqn:J; [|discriminate]. injection I as <-. apply nth_error_In in J.
    destruct (record_ok rfc (clock i) table tc tags j LT (P _ J)) as (ln & E & _); eauto. }
  exists lns. split; [apply ndjson_all|]. split; [exact E|]. split; [rewrite Q; apply map_length|]. intros i j J.
  destruct (R i (flatten [] j)) as (ln & N1 & X); [rewrite nth_error_map, J; reflexivity|]. exists ln. split; [exact N1|]. apply nth_error_In in J.
  destruct (record_ok rfc (clock i) table tc tags j LT (P _ J)) as (ln2 & E2 & RO); [eauto|]. congruence.
Qed.
Print Assumptions C75_ndjson_partial.
(** The same for a bulk request: a command before each document. *)
Theorem C75_bulk_partial : forall rfc3339 clock table tc tags (docs : list (command * json)), listable tags -> Forall plain_keys (map snd docs) ->
  (forall j k v, In j (map snd docs) -> value_of j k v -> storable rfc3339 tc tags k v) ->
  exists logs lns, bulk (map (fun d => (Some (fst d), Some (snd d))) docs) = Some logs /\
    to_lines rfc3339 clock table tc (commas tags) logs = Some lns /\ length lns = length docs /\
    forall i c j, nth_error docs i = Some (c, j) -> exists ln, nth_error lns i = Some ln /\ row_of rfc3339 (clock i) table tc tags (value_of j) ln.
Proof.
  intros rfc clock table tc tags docs LT P ST. destruct (C75_ndjson_partial rfc clock table tc tags (map snd docs) LT P ST) as (logs & lns & E1 & E2 & Q & R).
  rewrite ndjson_all in E1. injection E1 as <-. rewrite map_map in E2. rewrite map_length in Q. exists (map (fun d => flatten [] (snd d)) docs), lns. split; [apply bulk_all|].
  split; [exact E2|]. split; [exact Q|]. intros i c j J. apply R. rewrite nth_error_map, J. reflexivity.
Qed.
Print Assumptions C75_bulk_partial.

(** All or nothing: no row of a request is written if one document is not JSON or one record is turned down. *)
Theorem C75_all_or_nothing_partial : forall rfc3339 clock table tc tags docs, listable tags -> (forall j, In (Some j) docs -> plain_keys j) ->
  (match ndjson docs with Some logs => to_lines rfc3339 clock table tc (commas tags) logs | None => None end = None <->
   In None docs \/ exists j k v, In (Some j) docs /\ value_of j k v /\ ~ In k tags /\
                     (k = tc /\ (forall t, ~ time_from rfc3339 v t) \/ k <> tc /\ v = JNull)).
Proof.
  intros rfc clock table tc tags docs LT P. destruct (ndjson docs) as [logs|] eqn:E.
  - assert (exists js, docs = map Some js /\ logs = map (flatten []) js) as (js & -> & ->).
    { clear P. revert logs E. induction docs as [|[j|] docs IH]; intros logs E; cbn [ndjson] in E; try discriminate; [injection E as <-; exists []; auto|].
      destruct (ndjson docs) as [ls|]; [|discriminate]. injection E as <-. destruct (IH ls eq_refl) as (js & -> & ->). exists (j :: js). auto. }
    rewrite to_lines_none. split.
    + intros (i & m & I & R). right. rewrite nth_error_map in I. destruct (nth_error js i) as [j|] eqn:J; [|discriminate]. injection I as <-. apply nth_error_In in J.
      assert (In (Some j) (map Some js)) as IJ by (apply in_map; auto). apply record_rejected in R; auto. destruct R as (k & v & R). exists j, k, v. auto.
    + intros [I|(j & k & v & I & R)]; [apply in_map_iff in I; destruct I as (? & ? & _); discriminate|]. pose proof (P _ I) as PJ. apply in_map_iff in I. destruct I as (j2 & Q & I). injection Q as ->.
      apply In_nth_error in I. destruct I as (i & I). exists i, (flatten [] j). split; [rewrite nth_error_map, I; reflexivity|]. apply record_rejected; eauto.
  - split; auto. intros _. left. clear P. induction docs as [|[j|] docs IH]; cbn [ndjson] in E; [discriminate| |left; auto]. destruct (ndjson docs); [discriminate|]. right. auto.
Qed.
Print Assumptions C75_all_or_nothing_partial.

(** The binary Loki request: one row for each entry, in their order, with the labels of its stream, its text and its time. *)
Theorem C75_loki_partial : forall rfc3339 clock table streams,
  Forall (fun p => - 2 ^ 63 <= nanos (snd p) < 2 ^ 63) (loki_entries streams) ->
  to_lines rfc3339 clock table (txt "time") [] (loki streams) =
  Some (map (fun p => Line table [] [(txt "lables", VStr (fst p)); (txt "msg", VStr (e_line (snd p)))] (nanos (snd p))) (loki_entries streams)).
Proof. intros rfc clock table streams F. apply loki_ok. exact F. Qed.
Print Assumptions C75_loki_partial.

(** * What does not hold *)
(** Two values of a record whose paths are joined to the same name: one of them is lost. *)
Theorem C75_dotted_refuted : exists j ln, leaf j [txt "a.b"] (JNum (NInt 1)) /\ leaf j [txt "a"; txt "b"] (JNum (NInt 2)) /\
  to_line (fun _ => None) 0 (txt "t") (txt "time") [] (flatten [] j) = Some ln /\ l_fields ln = [(txt "a.b", VF64 (FInt 1))].
Proof.
  exists (JObj [(txt "a", JObj [(txt "b", JNum (NInt 2))]); (txt "a.b", JNum (NInt 1))]). eexists. split; [|split; [|split]].
  - eapply leaf_obj; [right; left; reflexivity|constructor].
  - eapply leaf_obj; [left; reflexivity|]. eapply leaf_obj; [left; reflexivity|constructor].
  - reflexivity.
  - reflexivity.
Qed.
Print Assumptions C75_dotted_refuted.
(** A value below an empty key is stored under the name of another path. *)
Theorem C75_empty_key_refuted : exists j x, leaf j [txt "a"; []; txt "b"] x /\ flatten [] j = [(txt "a.b", x)].
Proof.
  exists (JObj [(txt "a", JObj [([], JObj [(txt "b", JBool true)])])]), (JBool true). split; [|reflexivity].
  eapply leaf_obj; [left; reflexivity|]. eapply leaf_obj; [left; reflexivity|]. eapply leaf_obj; [left; reflexivity|constructor].
Qed.
Print Assumptions C75_empty_key_refuted.
(** A tag with a backslash, a quote or a line break is stored escaped: another text than the one given. *)
Theorem C75_tag_escaped_refuted : exists s ln, to_line (fun _ => None) 0 (txt "t") (txt "time") (txt "host") (flatten [] (JObj [(txt "host", JStr s); (txt "v", JBool true)])) = Some ln /\
  l_tags ln = [(txt "host", txt "a\\b")] /\ s = txt "a\b".
Proof. exists (txt "a\b"). eexists. split; [|split]; reflexivity. Qed.
Print Assumptions C75_tag_escaped_refuted.
(** A quote at the end of a tag is lost and leaves a backslash. *)
Theorem C75_tag_quote_refuted : exists s ln, to_line (fun _ => None) 0 (txt "t") (txt "time") (txt "host") (flatten [] (JObj [(txt "host", JStr s); (txt "v", JBool true)])) = Some ln /\
  l_tags ln = [(txt "host", [97; 92])] /\ s = [97; 34].
Proof. exists [97; 34]. eexists. split; [|split]; reflexivity. Qed.
Print Assumptions C75_tag_quote_refuted.
(** An integer beyond 2^53 is stored as another number. *)
Theorem C75_integer_refuted : exists z ln, to_line (fun _ => None) 0 (txt "t") (txt "time") [] (flatten [] (JObj [(txt "id", JNum (NInt z))])) = Some ln /\
  0 <= z < 2 ^ 63 /\ l_fields ln <> [(txt "id", VF64 (FInt z))].
Proof. exists (2 ^ 53 + 1). eexists. split; [reflexivity|]. split; [lia|]. intros E. vm_compute in E. discriminate E. Qed.
Print Assumptions C75_integer_refuted.
(** One null makes the whole request fail, although the other records are good. *)
Theorem C75_null_refuted : exists j1 j2 logs, ndjson [Some j1; Some j2] = Some logs /\ to_lines (fun _ => None) (fun _ => 0) (txt "t") (txt "time") [] logs = None /\
  to_lines (fun _ => None) (fun _ => 0) (txt "t") (txt "time") [] [flatten [] j1] <> None.
Proof. exists (JObj [(txt "v", JBool true)]), (JObj [(txt "v", JBool true); (txt "w", JNull)]). eexists. split; [reflexivity|]. split; [reflexivity|discriminate]. Qed.
Print Assumptions C75_null_refuted.
(** A Loki request in JSON: its two entries are put into one row, and the time of the row is the clock. *)
Theorem C75_loki_json_refuted : exists e1 e2 logs ln,
  ndjson [Some (JObj [(txt "streams", JArr [JObj [(txt "stream", JObj [(txt "app", JStr (txt "x"))]); (txt "values", JArr [e1; e2])]])])] = Some logs /\
  to_lines (fun _ => None) (fun _ => 77) (txt "t") (txt "time") [] logs = Some [ln] /\ l_time ln = 77 /\
  In (txt "streams.0.values.0.1", VStr (txt "one")) (l_fields ln) /\ In (txt "streams.0.values.1.1", VStr (txt "two")) (l_fields ln).
Proof.
  exists (JArr [JStr (txt "1700000000000000000"); JStr (txt "one")]), (JArr [JStr (txt "1700000000000000001"); JStr (txt "two")]).
  set (d := JObj _). exists [flatten [] d].
  exists (match to_line (fun _ => None) 77 (txt "t") (txt "time") [] (flatten [] d) with Some l => l | None => Line [] [] [] 0 end).
  split; [reflexivity|]. split; [vm_compute; reflexivity|]. split; [vm_compute; reflexivity|]. split; vm_compute; [right; right; left; reflexivity|right; right; right; right; left; reflexivity].
Qed.
Print Assumptions C75_loki_json_refuted.
(** The id of a bulk command is not used: a second document under the same id does not replace the first. *)
Theorem C75_bulk_id_refuted : exists c j1 j2 logs lns, c_id c = Some (txt "1") /\ c_create c = false /\
  bulk [(Some c, Some j1); (Some c, Some j2)] = Some logs /\
  to_lines (fun _ => None) (fun _ => 0) (txt "t") (txt "time") [] logs = Some lns /\
  map (fun l => (l_time l, l_fields l)) lns = [(5, [(txt "v", VBool true)]); (6, [(txt "v", VBool false)])].
Proof.
  exists (Command false (Some (txt "1")) None), (JObj [(txt "time", JNum (NInt 5)); (txt "v", JBool true)]), (JObj [(txt "time", JNum (NInt 6)); (txt "v", JBool false)]). eexists. eexists.
  split; [reflexivity|]. split; [reflexivity|]. split; [reflexivity|]. split; reflexivity.
Qed.
Print Assumptions C75_bulk_id_refuted.

(** * A case that meets the hypotheses *)
Definition doc0 : json := JObj [(txt "ctx", JObj [(txt "ids", JArr [JNum (NInt 7); JNum (NInt (-8))]); (txt "ok", JBool true)]);
                               (txt "host", JStr (txt "web-1")); (txt "msg", JStr (txt "say ""hi""")); (txt "time", JNum (NInt 1700000000000000000))].
Example doc0_plain : plain_keys doc0.
Proof.
  unfold doc0. constructor; cbn [map fst snd].
  - repeat constructor; cbn [In]; intros H; repeat (destruct H as [H|H]; [discriminate H|]); destruct H.
  - repeat (constructor; [split; [discriminate|cbn; intros H; repeat (destruct H as [H|H]; [discriminate H|]); destruct H]|]). constructor.
  - constructor; [|repeat constructor]. constructor; cbn [map fst snd].
    + repeat constructor; cbn [In]; intros H; repeat (destruct H as [H|H]; [discriminate H|]); destruct H.
    + repeat (constructor; [split; [discriminate|cbn; intros H; repeat (destruct H as [H|H]; [discriminate H|]); destruct H]|]). constructor.
    + constructor; [|repeat constructor]. constructor; [reflexivity|repeat constructor].
Qed.
Example tags0_listable : listable [txt "host"; txt "ctx.ok"].
Proof. split; [discriminate|]. repeat constructor; try discriminate; cbn; intros H; repeat (destruct H as [H|H]; [discriminate H|]); destruct H. Qed.
Example doc0_storable : forall k v, value_of doc0 k v -> storable (fun _ => None) (txt "time") [txt "host"; txt "ctx.ok"] k v.
Proof.
  intros k v V. apply (C75_columns_partial _ doc0_plain) in V. vm_compute in V.
  repeat (destruct V as [V|V]; [injection V as <- <-; vm_compute;
    first [exact I|repeat constructor; discriminate|eexists; constructor; split; [discriminate|reflexivity]|repeat split; try discriminate|discriminate]|]); [..|destruct V].
Qed.
Example doc0_row : to_line (fun _ => None) 0 (txt "t") (txt "time") (txt "host,ctx.ok") (flatten [] doc0) =
  Some (Line (txt "t") [(txt "ctx.ok", txt "true"); (txt "host", txt "web-1")]
         [(txt "ctx.ids.0", VF64 (FInt 7)); (txt "ctx.ids.1", VF64 (FInt (-8))); (txt "msg", VStr (txt "say ""hi"""))] 1700000000000000000).
Proof. reflexivity. Qed.
