(** C65: COUNT is the number of rows (with a value) that a SELECT shows. *)
From Verif Require Import Prelude CountModel CountSpec CountProofs.

(** exact_count, and COUNT with WHERE, GROUP BY, DISTINCT or of a tag, are never answered from metadata. *)
Theorem C65_exact_count : forall sch q vs,
  q_exact q = true \/ q_plain q = false \/ (exists n c, q_arg q = ECol n /\ column_of n sch = Some c /\ c_kind c = KTag) ->
  answer sch q vs = exact_count sch q vs.
Proof.
  intros sch q vs H. unfold answer, pushes. destruct H as [->|[->|(n & c & -> & E & K)]].
  - rewrite andb_false_r. reflexivity.
  - reflexivity.
  - destruct (q_plain q && negb (q_exact q)); [|reflexivity]. rewrite E. unfold is_kind. rewrite K. reflexivity.
Qed.
Print Assumptions C65_exact_count.

(** COUNT( * ) misses no row: it is at least the number of rows shown, whatever was overwritten, deleted, flushed or
    compacted. *)
Theorem C65_no_row_missed : forall sch q vs, storage_ok sch vs -> counts_rows q -> (exact_count sch q vs <= answer sch q vs)%nat.
Proof.
  intros sch q vs [SO ST] (null & E). unfold answer. destruct (pushes sch q) as [n|] eqn:P; [|reflexivity].
  unfold pushes in P. destruct (q_plain q && negb (q_exact q)); [|discriminate]. rewrite E in P. destruct null; [discriminate|].
  destruct sch as [|c sch']; [discriminate|]. injection P as <-. unfold exact_count, count_pushed.
  apply sum_le. intros v IV. apply sum_le. intros s IS. unfold exact_series.
  eapply Nat.le_trans; [|apply (sum_flat_ge _ versions); intros src IR; apply source_rows_ge; apply (ST v s src c IV IS IR eq_refl)].
  fold (all_versions s). rewrite filter_all.
  - unfold shown_times. eapply Nat.le_trans; [apply nodup_le|]. rewrite map_length. reflexivity.
  - intros t _. unfold eval_query. rewrite E. destruct (q_proj q); reflexivity.
Qed.
Print Assumptions C65_no_row_missed.

(** COUNT( * ) is exact when no row was written twice or deleted after it was flushed. *)
Theorem C65_count_rows_partial : forall sch q vs, storage_ok sch vs -> counts_rows q ->
  (forall v s, In v vs -> In s v -> stored_once s) ->
  answer sch q vs = exact_count sch q vs.
Proof.
  intros sch q vs [SO ST] (null & E) O. unfold answer. destruct (pushes sch q) as [n|] eqn:P; [|reflexivity].
  unfold pushes in P. destruct (q_plain q && negb (q_exact q)); [|discriminate]. rewrite E in P. destruct null; [discriminate|].
  destruct sch as [|c sch']; [discriminate|]. injection P as <-. unfold exact_count, count_pushed.
  apply sum_eq. intros v IV. apply sum_eq. intros s IS. destruct (O v s IV IS) as [ND NT]. rewrite series_sources.
  - unfold exact_series, shown_times. rewrite nodup_id by exact ND. rewrite filter_all; [symmetry; apply map_length|].
    intros t _. unfold eval_query. rewrite E. destruct (q_proj q); reflexivity.
  - intros src IR. apply source_rows_eq; [apply (ST v s src c IV IS IR eq_refl)|]. intros k ->. apply NT, IR.
Qed.
Print Assumptions C65_count_rows_partial.

(** COUNT of a column is exact when moreover the column kept its name, holds no NULL in files, tags were not added after
    fields, and a subquery without a name passes the column on as it is. *)
Theorem C65_count_column_partial : forall sch q vs n c, storage_ok sch vs -> q_arg q = ECol n -> column_of n sch = Some c ->
  passes_through q ->
  (forall v s, In v vs -> In s v -> stored_once s) ->
  (forall v s src, In v vs -> In s v -> In src (s_sources s) -> column_kept c src) ->
  answer sch q vs = exact_count sch q vs.
Proof.
  intros sch q vs n c [SO ST] E C PT O K. unfold answer. destruct (pushes sch q) as [m|] eqn:P; [|reflexivity].
  unfold pushes in P. destruct (q_plain q && negb (q_exact q)); [|discriminate]. rewrite E, C in P.
  destruct (is_kind KTag c) eqn:TK; [discriminate|]. injection P as <-.
  pose proof C as C'. apply find_some in C' as [IC NC]. apply Z.eqb_eq in NC.
  assert (EV : forall s t, eval_query q (shown_value sch s t) = shown_value sch s t n).
  { intros s t. unfold eval_query. unfold passes_through in PT. rewrite E in *. destruct (q_proj q) as [ps|]; [|reflexivity].
    destruct PT as (e & F & ->). cbn [eval]. rewrite F. reflexivity. }
  destruct SO as ((h & sch' & -> & KT & ID & OT) & NI & NN).
  unfold exact_count, count_pushed. apply sum_eq. intros v IV. apply sum_eq. intros s IS. destruct (O v s IV IS) as [ND NT].
  destruct (c_kind c) eqn:KC.
  - assert (c = h). { destruct IC as [<-|IC]; [reflexivity|]. exfalso. exact (OT c IC KC). } subst h. rewrite <- NC.
    rewrite series_sources.
    + unfold exact_series, shown_times. rewrite nodup_id by exact ND. rewrite filter_all; [symmetry; apply map_length|].
      intros t _. rewrite EV. unfold shown_value. rewrite C, KC. reflexivity.
    + intros src IR. apply source_rows_eq; [apply (ST v s src c IV IS IR eq_refl)|]. intros k ->. apply NT, IR.
  - unfold is_kind in TK. rewrite KC in TK. discriminate.
  - rewrite (exact_field (h :: sch') q s c ND KC).
    + unfold all_versions. rewrite filter_flat_map. apply sum_flat. intros src IR. rewrite <- NC.
      apply (source_field (c_name h)); [exact KC| |apply (ST v s src h IV IS IR eq_refl)|apply (K v s src IV IS IR)|].
      * intros Z0. cbn in NI. inversion NI as [|? ? N1 _]; subst. destruct IC as [->|IC]; [congruence|].
        apply N1. rewrite ID, <- Z0. apply in_map, IC.
      * intros k ->. apply NT, IR.
    + intros t. rewrite EV. unfold shown_value. rewrite C, KC. reflexivity.
Qed.
Print Assumptions C65_count_column_partial.

(** ** A case: time 100, tag 101, fields 102 and 103; one series with a file and rows in memory *)
Definition ctime := COL 0 100 KTime.
Definition ctag := COL 1 101 KTag.
Definition cf1 := COL 2 102 KField.
Definition cf2 := COL 3 103 KField.
Definition ex_sch := [ctime; ctag; cf1; cf2].
Definition ex_file := CH [[PG ctime [Some 1; Some 2]; PG cf1 [Some 7; Some 8]; PG cf2 [Some 5; Some 6]]] [].
Definition ex_mem := [GR ex_sch [MR 3 [Some 9; None]; MR 4 [None; Some 4]]].
Definition ex_series := SER (fun _ => Some 1) [Chunk ex_file; Memcache ex_mem].
Definition ex_q (e : expr) := Q e None true false.
Example ex_sch_ok : schema_ok ex_sch.
Proof.
  split; [exists ctime, [ctag; cf1; cf2]|split].
  - split; [reflexivity|]. split; [reflexivity|]. split; [reflexivity|]. intros d [<-|[<-|[<-|[]]]]; discriminate.
  - repeat constructor; cbn; intuition discriminate.
  - repeat constructor; cbn; intuition discriminate.
Qed.
Example ex_ok : storage_ok ex_sch [[ex_series]].
Proof.
  split; [apply ex_sch_ok|]. intros v s src c [<-|[]] [<-|[]] IR H. injection H as <-. destruct IR as [<-|[<-|[]]].
  - intros ps [<-|[]]. split; [repeat constructor; cbn; intuition discriminate|].
    split; [repeat constructor; cbn; intuition discriminate|]. split.
    + intros p [<-|[<-|[<-|[]]]]; cbn; split; try reflexivity; split; intros H; try reflexivity; discriminate.
    + intros t [<-|[<-|[]]]; discriminate.
  - intros g [<-|[]]. split; [apply ex_sch_ok|reflexivity].
Qed.
Example ex_once : forall v s, In v [[ex_series]] -> In s v -> stored_once s.
Proof.
  intros v s [<-|[]] [<-|[]]. split; [repeat constructor; cbn; intuition discriminate|].
  intros c [H|[H|[]]]; [injection H as <-; reflexivity|discriminate].
Qed.
Example ex_kept : forall v s src, In v [[ex_series]] -> In s v -> In src (s_sources s) -> column_kept cf1 src.
Proof.
  intros v s src [<-|[]] [<-|[]] [<-|[<-|[]]].
  - intros ps p [<-|[]] [<-|[<-|[<-|[]]]]; cbn; (split; [split; intros H; try reflexivity; discriminate|]); intros H; try discriminate.
    intros [A|[A|[]]]; discriminate.
  - intros g [<-|[]]. split.
    + exists ctime, [ctag], [cf1; cf2]. split; [reflexivity|]. split; [intros x [<-|[]]; reflexivity|].
      split; [intros x [<-|[<-|[]]]; reflexivity|]. repeat constructor.
    + intros d [<-|[<-|[<-|[<-|[]]]]]; cbn; (split; [split; intros H; try reflexivity; discriminate|]); intros H; try reflexivity; discriminate.
Qed.
Example ex_counts : answer ex_sch (ex_q (ECol 102)) [[ex_series]] = 3%nat /\ answer ex_sch (ex_q (ELit false)) [[ex_series]] = 4%nat
  /\ pushes ex_sch (ex_q (ECol 102)) = Some 102 /\ pushes ex_sch (ex_q (ELit false)) = Some 100.
Proof. repeat split; reflexivity. Qed.

(** ** What COUNT gets wrong *)
(** A NULL in a file is counted: a flush changes COUNT of a field. *)
Theorem C65_null_refuted : exists sch q before after, storage_ok sch [[SER (fun _ => Some 1) [before]]]
  /\ storage_ok sch [[SER (fun _ => Some 1) [after]]]
  /\ exact_count sch q [[SER (fun _ => Some 1) [before]]] = 1%nat /\ answer sch q [[SER (fun _ => Some 1) [before]]] = 1%nat
  /\ exact_count sch q [[SER (fun _ => Some 1) [after]]] = 1%nat /\ answer sch q [[SER (fun _ => Some 1) [after]]] = 2%nat.
Proof.
  exists ex_sch, (ex_q (ECol 102)), (Memcache ex_mem),
    (Chunk (CH [[PG ctime [Some 3; Some 4]; PG cf1 [Some 9; None]; PG cf2 [None; Some 4]]] [])).
  split; [|split]; [| |repeat split; reflexivity].
  - split; [apply ex_sch_ok|]. intros v s src c [<-|[]] [<-|[]] [<-|[]] H. injection H as <-.
    intros g [<-|[]]. split; [apply ex_sch_ok|reflexivity].
  - split; [apply ex_sch_ok|]. intros v s src c [<-|[]] [<-|[]] [<-|[]] H. injection H as <-.
    intros ps [<-|[]]. split; [repeat constructor; cbn; intuition discriminate|].
    split; [repeat constructor; cbn; intuition discriminate|]. split.
    + intros p [<-|[<-|[<-|[]]]]; cbn; split; try reflexivity; split; intros H; try reflexivity; discriminate.
    + intros t [<-|[<-|[]]]; discriminate.
Qed.
Print Assumptions C65_null_refuted.
(** A row written twice is counted twice. *)
Theorem C65_overwritten_refuted : exists sch q vs, storage_ok sch vs /\ counts_rows q /\
  exact_count sch q vs = 1%nat /\ answer sch q vs = 2%nat.
Proof.
  exists ex_sch, (ex_q (ELit false)), [[SER (fun _ => Some 1) [Memcache [GR ex_sch [MR 3 [Some 9; None]; MR 3 [Some 8; None]]]]]].
  split; [|split; [exists false; reflexivity|split; reflexivity]].
  split; [apply ex_sch_ok|]. intros v s src c [<-|[]] [<-|[]] [<-|[]] H. injection H as <-.
  intros g [<-|[]]. split; [apply ex_sch_ok|reflexivity].
Qed.
Print Assumptions C65_overwritten_refuted.
(** A row deleted after it was flushed is still counted. *)
Theorem C65_deleted_refuted : exists sch q vs, storage_ok sch vs /\ counts_rows q /\
  exact_count sch q vs = 1%nat /\ answer sch q vs = 2%nat.
Proof.
  exists ex_sch, (ex_q (ELit false)),
    [[SER (fun _ => Some 1) [Chunk (CH (ch_groups ex_file) [TB 0 1 1; TB 1 1 1; TB 2 1 1; TB 3 1 1])]]].
  split; [|split; [exists false; reflexivity|split; reflexivity]].
  destruct ex_ok as [A B]. split; [exact A|]. intros v s src c [<-|[]] [<-|[]] [<-|[]] H.
  exact (B [ex_series] ex_series (Chunk ex_file) c (or_introl eq_refl) (or_introl eq_refl) (or_introl eq_refl) H).
Qed.
Print Assumptions C65_deleted_refuted.
(** After a tag was added, rows in memory are counted by another field, or not at all. *)
Definition late_sch := ex_sch ++ [COL 4 104 KTag].
Example late_ok : schema_ok late_sch.
Proof.
  split; [exists ctime, [ctag; cf1; cf2; COL 4 104 KTag]|split].
  - split; [reflexivity|]. split; [reflexivity|]. split; [reflexivity|]. intros d [<-|[<-|[<-|[<-|[]]]]]; discriminate.
  - repeat constructor; cbn; intuition discriminate.
  - repeat constructor; cbn; intuition discriminate.
Qed.
Theorem C65_added_tag_refuted : exists sch vs, storage_ok sch vs /\ (forall v s, In v vs -> In s v -> stored_once s)
  /\ exact_count sch (ex_q (ECol 102)) vs = 2%nat /\ answer sch (ex_q (ECol 102)) vs = 0%nat
  /\ exact_count sch (ex_q (ECol 103)) vs = 1%nat /\ answer sch (ex_q (ECol 103)) vs = 2%nat.
Proof.
  exists late_sch, [[SER (fun _ => Some 1) [Memcache [GR late_sch [MR 3 [Some 9; None]; MR 4 [Some 8; Some 4]]]]]].
  split; [|split; [|repeat split; reflexivity]].
  - split; [apply late_ok|]. intros v s src c [<-|[]] [<-|[]] [<-|[]] H. injection H as <-.
    intros g [<-|[]]. split; [apply late_ok|reflexivity].
  - intros v s [<-|[]] [<-|[]]. split; [repeat constructor; cbn; intuition discriminate|].
    intros c [H|[]]; discriminate.
Qed.
Print Assumptions C65_added_tag_refuted.
(** After a column was renamed, COUNT of it does not see the values in files. *)
Theorem C65_renamed_refuted : exists sch q vs, storage_ok sch vs /\ (forall v s, In v vs -> In s v -> stored_once s)
  /\ exact_count sch q vs = 2%nat /\ answer sch q vs = 0%nat.
Proof.
  exists [ctime; ctag; COL 2 105 KField; cf2], (ex_q (ECol 105)), [[SER (fun _ => Some 1) [Chunk ex_file]]].
  split; [|split; [|split; reflexivity]].
  - split; [split; [exists ctime, [ctag; COL 2 105 KField; cf2]|split]|].
    + split; [reflexivity|]. split; [reflexivity|]. split; [reflexivity|]. intros d [<-|[<-|[<-|[]]]]; discriminate.
    + repeat constructor; cbn; intuition discriminate.
    + repeat constructor; cbn; intuition discriminate.
    + destruct ex_ok as [A B]. intros v s src c [<-|[]] [<-|[]] [<-|[]] H. injection H as <-.
      exact (B [ex_series] ex_series (Chunk ex_file) ctime (or_introl eq_refl) (or_introl eq_refl) (or_introl eq_refl) eq_refl).
  - intros v s [<-|[]] [<-|[]]. split; [repeat constructor; cbn; intuition discriminate|].
    intros c [H|[]]. injection H as <-. reflexivity.
Qed.
Print Assumptions C65_renamed_refuted.
(** SELECT count(a) FROM (SELECT b AS a FROM t) counts column a of the table. *)
Theorem C65_subquery_refuted : exists sch q vs, storage_ok sch vs /\ (forall v s, In v vs -> In s v -> stored_once s)
  /\ q_proj q = Some [(102, ECol 103)] /\ q_arg q = ECol 102
  /\ exact_count sch q vs = 1%nat /\ answer sch q vs = 2%nat.
Proof.
  exists ex_sch, (Q (ECol 102) (Some [(102, ECol 103)]) true false),
    [[SER (fun _ => Some 1) [Memcache [GR ex_sch [MR 3 [Some 9; None]; MR 4 [Some 8; Some 4]]]]]].
  split; [|split; [|repeat split; reflexivity]].
  - split; [apply ex_sch_ok|]. intros v s src c [<-|[]] [<-|[]] [<-|[]] H. injection H as <-.
    intros g [<-|[]]. split; [apply ex_sch_ok|reflexivity].
  - intros v s [<-|[]] [<-|[]]. split; [repeat constructor; cbn; intuition discriminate|].
    intros c [H|[]]; discriminate.
Qed.
Print Assumptions C65_subquery_refuted.
