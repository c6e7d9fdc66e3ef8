(** C39: line protocol text is parsed to the points it denotes. *)
From Coq Require Import String.
From Verif Require Import Prelude Bytes LineModel LineSpec.
From Verif Require Import MetaModel LineProofs.
Open Scope Z_scope.
Local Open Scope list_scope.
Definition t (s : string) : list Z := text s.

(** Every text that the documentation assigns to a list of points is accepted, and the points come back in order: the same
    table, the same tags and fields as maps (sorted by key, a repeated key with its first value), the same time, the
    default time for lines without one.  Missing for the full property: the names excluded by [writable] (see the refuted
    statements below), and [ff], the external float parser, is a parameter. *)
Theorem C39_round_trip_partial : forall F (ff : list Z -> option F) default_time ps txt,
  Forall writable ps -> lines_text ff ps txt ->
  exists ls, parse ff default_time txt = Ok ls /\ Forall2 (denotes default_time) ps ls.
Proof.
  intros F ff dt ps txt W T. exists (map (point_line dt) ps). split; [now apply parse_lines|]. clear. induction ps; cbn; constructor; auto using point_line_denotes.
Qed.
Print Assumptions C39_round_trip_partial.

(** The order in which tags are written does not matter: lines with the same table and the same tag map get the same tag
    list and the same series hash, so they are routed to the same shard. *)
Theorem C39_tag_order : forall F (ff : list Z -> option F) dt1 dt2 p1 p2 t1 t2 ls1 ls2,
  writable p1 -> writable p2 -> lines_text ff [p1] t1 -> lines_text ff [p2] t2 ->
  pt_table p1 = pt_table p2 -> (forall k, get k (pt_tags p1) = get k (pt_tags p2)) ->
  parse ff dt1 t1 = Ok ls1 -> parse ff dt2 t2 = Ok ls2 ->
  exists l1 l2, ls1 = [l1] /\ ls2 = [l2] /\ l_tags l1 = l_tags l2 /\ l_hash l1 = l_hash l2.
Proof.
  intros F ff dt1 dt2 p1 p2 t1 t2 ls1 ls2 W1 W2 T1 T2 E G P1 P2.
  rewrite (parse_lines ff dt1 [p1] t1) in P1 by auto. rewrite (parse_lines ff dt2 [p2] t2) in P2 by auto. injection P1 as <-. injection P2 as <-.
  exists (point_line dt1 p1), (point_line dt2 p2). split; [reflexivity|]. split; [reflexivity|].
  assert (X : l_tags (point_line dt1 p1) = l_tags (point_line dt2 p2)).
  { destruct (point_line_denotes dt1 p1) as (_ & M1 & _). destruct (point_line_denotes dt2 p2) as (_ & M2 & _). exact (same_map_unique _ _ _ _ M1 M2 G). }
  split; [exact X|]. destruct (point_line_denotes dt1 p1) as (A1 & _ & _ & _ & H1). destruct (point_line_denotes dt2 p2) as (A2 & _ & _ & _ & H2).
  now rewrite H1, H2, X, A1, A2, E.
Qed.
Print Assumptions C39_tag_order.

(** Tags and fields already in key order come back exactly as written. *)
Theorem C39_round_trip_sorted : forall F (ff : list Z -> option F) default_time p txt,
  writable p -> lines_text ff [p] txt -> StronglySorted key_lt (pt_tags p) -> StronglySorted key_lt (pt_fields p) ->
  exists h, parse ff default_time txt =
    Ok [LN h (pt_table p) (pt_tags p) (pt_fields p) (match pt_time p with Some z => z | None => default_time end)].
Proof.
  intros F ff dt p txt W T S1 S2. rewrite (parse_lines ff dt [p] txt) by auto. exists (hash_line (pt_table p) (pt_tags p)). cbn [map]. unfold point_line, finish_line.
  assert (X : forall A (l : list (str * A)), StronglySorted key_lt l -> dedup_keys (sort_keys l) = l).
  { intros A l Sl. destruct (sort_dedup_same l) as [Sd Gd]. now apply sorted_ext. }
  now rewrite (X _ _ S1), (X _ _ S2).
Qed.
Print Assumptions C39_round_trip_sorted.

(** ** Findings *)
(** The point [p], written as documented in [txt], is not what the parser returns. *)
Definition misread {F} (ff : list Z -> option F) (p : point) (txt : list Z) : Prop :=
  line_text ff p txt /\ forall dt ls, parse ff dt txt = Ok ls -> ~ Forall2 (denotes dt) [p] ls.
Definition one {F} : list (list Z * @fval F) := [(t "v", FI64 1)].
Lemma one_text {F} (ff : list Z -> option F) : fields_text ff one (t "v=1i").
Proof. apply (ft_one ff (t "v") (FI64 1) (t "1i")). apply (vt_int ff 1). unfold is_i64; rewrite I64_MIN_eq, I64_MAX_eq; lia. Qed.
(** A table name that starts with a character that must be escaped cannot be written: the first byte of a line is taken
    without looking for a backslash. *)
Theorem C39_escaped_table_start_refuted : exists F (ff : list Z -> option F) p txt, misread ff p txt /\ pt_table p = t ",a".
Proof.
  exists Z, (fun _ => None), (PT (t ",a") [] one (Some 5)), (t "\,a v=1i 5"). split; [|reflexivity]. split.
  - exists (t "v=1i"). split; [apply one_text|reflexivity].
  - intros dt ls H. vm_compute in H. discriminate H.
Qed.
Print Assumptions C39_escaped_table_start_refuted.
(** The same for the first field key, where the parser does not complain: the field is stored under a name that still has
    the backslash. *)
Theorem C39_escaped_field_start_refuted : exists F (ff : list Z -> option F) p txt, misread ff p txt /\
  pt_fields p = [(t ",v", FI64 1)] /\ forall dt, exists h, parse ff dt txt = Ok [LN h (t "m") [] [(t "\,v", FI64 1)] 5].
Proof.
  exists Z, (fun _ => None), (PT (t "m") [] [(t ",v", FI64 1)] (Some 5)), (t "m \,v=1i 5"). split; [split|split].
  - exists (t "\,v=1i"). split; [|reflexivity]. apply (ft_one (fun _ => None) (t ",v") (FI64 1) (t "1i")). apply (vt_int _ 1). unfold is_i64; rewrite I64_MIN_eq, I64_MAX_eq; lia.
  - intros dt ls H. vm_compute in H. injection H as <-. intro X. inversion X as [|? ? ? ? D]. subst. destruct D as (_ & _ & [_ D] & _). specialize (D (t ",v")). vm_compute in D. discriminate D.
  - reflexivity.
  - intro dt. eexists. vm_compute. reflexivity.
Qed.
Print Assumptions C39_escaped_field_start_refuted.
(** A table name with an equals sign and a space is rejected: the equals sign may be written with or without a backslash,
    and neither works. *)
Theorem C39_table_equals_refuted : exists F (ff : list Z -> option F) p txt, misread ff p txt /\ pt_table p = t "c a=b" /\
  forall dt, parse ff dt (t "c\ a\=b v=1i 5") = Err.
Proof.
  exists Z, (fun _ => None), (PT (t "c a=b") [] one (Some 5)), (t "c\ a=b v=1i 5"). split; [split|split].
  - exists (t "v=1i"). split; [apply one_text|reflexivity].
  - intros dt ls H. vm_compute in H. discriminate H.
  - reflexivity.
  - intro dt. vm_compute. reflexivity.
Qed.
Print Assumptions C39_table_equals_refuted.
(** A tag value with a backslash is rejected, and with the backslash doubled it is another value. *)
Theorem C39_backslash_refuted : exists F (ff : list Z -> option F) p txt, misread ff p txt /\ pt_tags p = [(t "k", t "a\b")] /\
  forall dt, exists h, parse ff dt (t "m,k=a\\b v=1i 5") = Ok [LN h (t "m") [(t "k", t "a\\b")] one 5].
Proof.
  exists Z, (fun _ => None), (PT (t "m") [(t "k", t "a\b")] one (Some 5)), (t "m,k=a\b v=1i 5"). split; [split|split].
  - exists (t "v=1i"). split; [apply one_text|reflexivity].
  - intros dt ls H. vm_compute in H. discriminate H.
  - reflexivity.
  - intro dt. eexists. vm_compute. reflexivity.
Qed.
Print Assumptions C39_backslash_refuted.
(** The parser is not total on bad input: a field without a value makes it panic. *)
Theorem C39_no_panic_refuted : exists txt, forall F (ff : list Z -> option F) dt, parse ff dt txt = Panic.
Proof. exists (t "m v= 5"). intros. vm_compute. reflexivity. Qed.
Print Assumptions C39_no_panic_refuted.
(** A line without fields is not rejected: it is glued to the next line, whose point is stored in a table that the text
    does not name. *)
Definition two_lines : list Z := t "cpu" ++ c_nl :: t "mem v=1i 5".
Theorem C39_incomplete_line_refuted : forall F (ff : list Z -> option F) dt,
  exists h, parse ff dt two_lines = Ok [LN h (t "cpu" ++ c_nl :: t "mem") [] one 5].
Proof. intros. eexists. vm_compute. reflexivity. Qed.
Print Assumptions C39_incomplete_line_refuted.
(** What follows the digits of the last timestamp is ignored at the end of the input and rejected before a newline. *)
Theorem C39_trailing_text_refuted : forall F (ff : list Z -> option F) dt,
  (exists h, parse ff dt (t "m v=1i 5x") = Ok [LN h (t "m") [] one 5]) /\ parse ff dt (t "m v=1i 5x" ++ [c_nl]) = Err.
Proof. intros. split; [eexists|]; vm_compute; reflexivity. Qed.
Print Assumptions C39_trailing_text_refuted.
(** A line without any field is accepted at the end of the input. *)
Theorem C39_no_fields_refuted : forall F (ff : list Z -> option F) dt, exists h, parse ff dt (t "m v=") = Ok [LN h (t "m") [] [] dt].
Proof. intros. eexists. vm_compute. reflexivity. Qed.
Print Assumptions C39_no_fields_refuted.

(** ** The hypotheses can be met *)
Definition p_ex : @point Z := PT (t "disk usage,x") [(t "path", t "C:=a,b c"); (t "a b", t "")]
  [(t "s", FStr (t "say ""hi\"", 1")); (t "k=1", FU64 3); (t "b", FBool true)] (Some (-7)).
Definition p_ex2 : @point Z := PT (t "a=b") [] one None.
Definition txt_ex : list Z := t "# two points" ++ c_nl :: c_nl ::
  t "disk\ usage\,x,path=C:\=a\,b\ c,a\ b= s=""say \""hi\\\"", 1"",k\=1=3u,b=True -7" ++ c_cr :: c_nl :: t "a=b v=1i".
Example ex_writable : Forall writable [p_ex; p_ex2].
Proof.
  repeat apply Forall_cons; [| |constructor].
  - unfold writable, p_ex, table_ok, plain_start, is_i64. cbn [pt_table pt_tags pt_fields pt_time]. split; [|split; [|split; [|split]]].
    + split; [vm_compute; exact I|]. vm_compute. split; [intro H; repeat (destruct H as [H|H]; [discriminate H|]); exact H|]. repeat (split; [discriminate|]). left. intro H. repeat (destruct H as [H|H]; [discriminate H|]). exact H.
    + repeat apply Forall_cons; [split; vm_compute; exact I..|constructor].
    + repeat apply Forall_cons; [split; [discriminate|vm_compute; exact I]..|constructor].
    + vm_compute. repeat split; discriminate.
    + rewrite I64_MIN_eq, I64_MAX_eq. lia.
  - unfold writable, p_ex2, table_ok, plain_start, one. cbn [pt_table pt_tags pt_fields pt_time]. split; [|split; [|split; [|split]]].
    + split; [vm_compute; exact I|]. vm_compute. split; [intro H; repeat (destruct H as [H|H]; [discriminate H|]); exact H|]. repeat (split; [discriminate|]). right. intro H.
      destruct H as [H|[H|H]]; repeat (destruct H as [H|H]; [discriminate H|]); exact H.
    + constructor.
    + repeat apply Forall_cons; [split; [discriminate|vm_compute; exact I]..|constructor].
    + vm_compute. repeat split; discriminate.
    + exact I.
Qed.
Example ex_text : lines_text (fun _ => None) [p_ex; p_ex2] txt_ex.
Proof.
  unfold txt_ex.
  change (t "# two points" ++ ?r) with (c_hash :: t " two points" ++ r).
  assert (X : forall c, In c (t " two points") -> 32 <= c) by (intros c H; vm_compute in H; repeat (destruct H as [<-|H]; [lia|]); destruct H).
  apply lt_comment; [intro H; apply X in H; unfold c_nl in H; lia|intro H; apply X in H; unfold c_cr in H; lia|now left|]. apply lt_blank; [cbn; auto 10|].
  apply lt_more with (p := p_ex); [|now right|].
  - exists (t "s=""say \""hi\\\"", 1"",k\=1=3u,b=True"). split; [|reflexivity].
    apply (ft_more _ (t "s") _ (t """say \""hi\\\"", 1""") _ (t "k\=1=3u,b=True")); [apply (vt_str _ (t "say ""hi\"", 1"))|].
    apply (ft_more _ (t "k=1") _ (t "3u") _ (t "b=True")); [apply (vt_uint _ 3); unfold is_u64; rewrite U64_MAX_eq; lia|].
    apply (ft_one _ (t "b") _ (t "True")). apply vt_true. vm_compute. tauto.
  - apply lt_blank; [cbn; auto 10|]. apply lt_last. exists (t "v=1i"). split; [apply one_text|reflexivity].
Qed.
Example ex_parsed : exists h1 h2, parse (fun _ => @None Z) 100 txt_ex =
  Ok [LN h1 (t "disk usage,x") [(t "a b", t ""); (t "path", t "C:=a,b c")] [(t "b", FBool true); (t "k=1", FU64 3); (t "s", FStr (t "say ""hi\"", 1"))] (-7);
      LN h2 (t "a=b") [] one 100].
Proof. eexists _, _. vm_compute. reflexivity. Qed.
Example ex_order : forall k, get k [(t "a", t "1"); (t "b", t "2"); (t "a", t "3")] = get k [(t "b", t "2"); (t "a", t "1")].
Proof.
  intro k. cbn [get]. destruct (seqb k (t "a")) eqn:A; destruct (seqb k (t "b")) eqn:B; try reflexivity. apply MetaProofs.seqb_eq in A, B. subst. discriminate B.
Qed.
