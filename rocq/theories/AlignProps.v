(** Queries over data written before schema changes (C59). *)
From Verif Require Import Prelude MergeModel MergeSpec CompactModel CompactSpec EvolveModel EvolveSpec AlignModel AlignSpec AlignProofs EvolveProps.
Open Scope Z_scope.

(** Whatever columns were added, dropped or renamed since a chunk was written: a scan of it returns
    every row, once and in order, with the value of each of the query's columns found by its id, null
    if the chunk does not have it.  Missing: chunks whose groups have different columns. *)
Theorem C59_scan_partial : forall un bin prune q cols gs, query_ok q ->
  Forall (fun b => group_ok b /\ sb_cols b = cols) gs ->
  read_chunk un bin prune q None gs = Some (all_seen (q_fields q) gs).
Proof. intros. eapply read_all; eauto. Qed.
Print Assumptions C59_scan_partial.

(** With a predicate: the rows that come back are rows of the chunk, and filtering them with the
    predicate, which the query engine does afterwards, gives exactly the rows of the chunk that
    satisfy it.  Missing: chunks whose groups have different columns, predicates with AND or OR below
    another operator, and names that meant another column when the file was written. *)
Theorem C59_filtered_scan_partial : forall un bin prune q cols gs e tags, prune_ok un bin prune -> query_ok q ->
  Forall (fun b => group_ok b /\ sb_cols b = cols) gs ->
  positive e -> (forall n, mentions n e -> In n (map (fun p => sc_name (fst p)) q)) -> Forall (names_ok q e) gs ->
  exists rows, read_chunk un bin prune q (Some e) gs = Some rows /\
    (forall w, In w rows -> In w (all_seen (q_fields q) gs)) /\
    filter (sat un bin tags (q_fields q) e) rows = filter (sat un bin tags (q_fields q) e) (all_seen (q_fields q) gs).
Proof.
  intros un bin prune q cols gs e tags Hp Hq H He Hm HN.
  destruct (read_pred un bin prune Hp q Hq cols e He Hm tags gs H HN) as (rows & E & F & I & _). exists rows. auto.
Qed.
Print Assumptions C59_filtered_scan_partial.

(** The query engine does not apply filters on time again: every row that comes back satisfies them. *)
Theorem C59_time_filter_partial : forall un bin prune q cols gs e c tags rows, prune_ok un bin prune -> query_ok q ->
  Forall (fun b => group_ok b /\ sb_cols b = cols) gs ->
  positive e -> (forall n, mentions n e -> In n (map (fun p => sc_name (fst p)) q)) -> Forall (names_ok q e) gs ->
  conjunct c e -> (forall n, mentions n c -> n = sc_name time_col) ->
  read_chunk un bin prune q (Some e) gs = Some rows ->
  forall w, In w rows -> sat un bin tags (q_fields q) c w = true.
Proof.
  intros un bin prune q cols gs e c tags rows Hp Hq H He Hm HN C HT E.
  destruct (read_pred un bin prune Hp q Hq cols e He Hm tags gs H HN) as (rows' & E' & _ & _ & X). rewrite E in E'. injection E' as <-.
  apply (X c C). intros n Hn. rewrite (HT n Hn). destruct Hq as ((q' & ->) & _). left. reflexivity.
Qed.
Print Assumptions C59_time_filter_partial.

(** ** Examples *)
Definition ex_un (op : Z) (v : option Z) : option Z :=
  if op =? 0 then Some (match v with None => 1 | Some _ => 0 end)       (* IS NULL *)
  else if op =? 1 then Some (match v with None => 0 | Some _ => 1 end)  (* IS NOT NULL *)
  else Some (if is_true v then 0 else 1).                               (* IS NOT TRUE *)
Definition ex_bin (op : Z) (a b : option Z) : option Z :=
  match a, b with
  | Some x, Some y => Some (if op =? 0 then (if x =? y then 1 else 0) else (if x <? y then 1 else 0)) (* =, < *)
  | _, _ => None
  end.
Definition ex_prune (e : pexpr) (sch : list scol) (gs : list sblock) : list bool := map (fun _ => true) gs.
Lemma ex_prune_ok : prune_ok ex_un ex_bin ex_prune.
Proof.
  intros e sch gs. split; [apply map_length|]. intros i b r Hb _ _ _. unfold ex_prune. revert i Hb. induction gs as [|g gs IH]; intros [|i] Hb; try discriminate; auto.
  cbn [map nth]. apply IH; auto.
Qed.
(** A table with column a (id 1, name 1); x (id 2, name 2) and the tag t (id 3, name 3) came later. *)
Definition ex_q := [(time_col, false); (COL 1 1, false); (COL 2 2, false); (COL 3 3, true)].
Definition ex_old := SB 10 20 [COL 1 1] [MR 10 [Some 5]; MR 20 [Some 1]] [MR 10 [Some 5]; MR 20 [Some 1]].
(** time < 15 AND (a = 5 AND (x IS NULL OR t = 9)) *)
Definition ex_e := PAnd (PBin 1 (PCol 0 0) (PLit (Some 15)))
  (PAnd (PBin 0 (PCol 1 1) (PLit (Some 5))) (POr (PUn 0 (PCol 2 2)) (PBin 0 (PCol 3 3) (PLit (Some 9))))).
Lemma nodup_z (l : list Z) : nodup Z.eq_dec l = l -> NoDup l.
Proof. intros <-. apply NoDup_nodup. Qed.
Ltac group_tac := split; [repeat (constructor; [|repeat constructor; cbn; lia]); constructor|split; [apply nodup_z; reflexivity|repeat constructor]].
Lemma ex_query_ok : query_ok ex_q.
Proof. split; [eexists; reflexivity|]. split; [repeat (constructor; [|repeat constructor; cbn; lia]); constructor|apply nodup_z; reflexivity]. Qed.
Example C59_example : prune_ok ex_un ex_bin ex_prune /\ query_ok ex_q /\ group_ok ex_old /\ positive ex_e /\
  (forall n, mentions n ex_e -> In n (map (fun p => sc_name (fst p)) ex_q)) /\ names_ok ex_q ex_e ex_old /\
  conjunct (PBin 1 (PCol 0 0) (PLit (Some 15))) ex_e /\
  read_chunk ex_un ex_bin ex_prune ex_q (Some ex_e) [ex_old] = Some [[Some 10; Some 5; None]] /\
  filter (sat ex_un ex_bin (fun _ => None) (q_fields ex_q) ex_e) (all_seen (q_fields ex_q) [ex_old]) = [[Some 10; Some 5; None]].
Proof.
  split; [exact ex_prune_ok|]. split; [exact ex_query_ok|]. split; [group_tac|]. split; [cbn; auto 10|]. split; [cbn; intros n; tauto|]. split.
  - intros c p [<- | []] Hp. cbn in Hp. destruct Hp as [<- | [<- | [<- | [<- | []]]]]; cbn; auto; discriminate.
  - split; [cbn; auto|]. split; vm_compute; reflexivity.
Qed.

(** ** Cases that break it *)
(** Compaction copies full blocks as they are: a block from before a column was added and one from
    after end up in one chunk.  Every query of this series that asks for the new column fails. *)
Theorem C59_scan_mixed_chunk_refuted : exists f1 f2 out, f1 = flush_file [] 1 [COL 1 1] [MR 10 [Some 5]; MR 20 [Some 6]] /\
  f2 = flush_file [] 2 [COL 1 1; COL 2 2] [MR 30 [Some 5; Some 7]; MR 40 [Some 6; Some 8]] /\
  s_compact 2 I64_MIN I64_MAX [f1; f2] = Some out /\ Forall group_ok (map stored out) /\
  (forall un bin prune, read_chunk un bin prune [(time_col, false); (COL 1 1, false); (COL 2 2, false)] None (sf_blocks f1) <> None /\
    read_chunk un bin prune [(time_col, false); (COL 1 1, false); (COL 2 2, false)] None (sf_blocks f2) <> None /\
    read_chunk un bin prune [(time_col, false); (COL 1 1, false); (COL 2 2, false)] None (map stored out) = None).
Proof.
  eexists; eexists; eexists. split; [reflexivity|]. split; [reflexivity|]. split; [vm_compute; reflexivity|]. split.
  - cbn [map stored]. constructor; [group_tac|]. constructor; [group_tac|constructor].
  - intros un bin prune. split; [discriminate|]. split; [discriminate|]. reflexivity.
Qed.
Print Assumptions C59_scan_mixed_chunk_refuted.

(** Predicates look for columns by name.  Column a was renamed to c, then a new column a was added:
    [a IS NULL] holds for all old rows but is evaluated on the old a, and they are not returned. *)
Theorem C59_filtered_scan_rename_refuted : exists q e w, q = [(time_col, false); (COL 1 4, false); (COL 2 1, false)] /\ e = PUn 0 (PCol 1 2) /\
  query_ok q /\ group_ok ex_old /\ positive e /\
  In w (all_seen (q_fields q) [ex_old]) /\ sat ex_un ex_bin (fun _ => None) (q_fields q) e w = true /\
  read_chunk ex_un ex_bin ex_prune q (Some e) [ex_old] = Some [].
Proof.
  eexists; eexists; exists [Some 10; Some 5; None]. split; [reflexivity|]. split; [reflexivity|]. split.
  { split; [eexists; reflexivity|]. split; [repeat (constructor; [|repeat constructor; cbn; lia]); constructor|apply nodup_z; reflexivity]. }
  split; [group_tac|]. split; [cbn; auto|]. split; [vm_compute; auto|]. split; vm_compute; reflexivity.
Qed.
Print Assumptions C59_filtered_scan_rename_refuted.

(** Below another operator the rewriting strengthens: (a = 5 AND x IS NOT NULL) IS NOT TRUE holds for
    the old row with a = 5, where x is null, but it is not returned. *)
Theorem C59_filtered_scan_nested_refuted : exists e w, e = PUn 2 (PAnd (PBin 0 (PCol 1 1) (PLit (Some 5))) (PUn 1 (PCol 2 2))) /\
  query_ok ex_q /\ group_ok ex_old /\ names_ok ex_q e ex_old /\
  In w (all_seen (q_fields ex_q) [ex_old]) /\ sat ex_un ex_bin (fun _ => None) (q_fields ex_q) e w = true /\
  exists rows, read_chunk ex_un ex_bin ex_prune ex_q (Some e) [ex_old] = Some rows /\ ~ In w rows.
Proof.
  eexists; exists [Some 10; Some 5; None]. split; [reflexivity|]. split; [exact ex_query_ok|]. split; [group_tac|]. split.
  - intros c p [<- | []] Hp. cbn in Hp. destruct Hp as [<- | [<- | [<- | [<- | []]]]]; cbn; auto; discriminate.
  - split; [vm_compute; auto|]. split; [vm_compute; reflexivity|]. eexists. split; [vm_compute; reflexivity|]. vm_compute. intuition discriminate.
Qed.
Print Assumptions C59_filtered_scan_nested_refuted.
