(** C68: what SHOW SERIES and SHOW TAG VALUES list. *)
From Verif Require Import Prelude TimeRangeModel DomainModel DomainSpec FilterModel FilterSpec FilterProofs ShowModel ShowSpec ShowProofs.

(** SHOW SERIES lists the keys of exactly the series the WHERE clause selects.  Partial: tables with tags, conditions that meet
    [where_ok]; see the refutations. *)
Theorem C68_series_exact_partial : forall name tags e wt data k,
  tags <> [] -> data_ok tags data -> where_ok tags wt e ->
  (In k (show_series name tags e wt data) <-> exists s, In s data /\ chosen e wt s /\ k = key name tags (tuple_of tags s)).
Proof. intros name tags e wt data k NE DO W. exact (series_exact tags data DO name e wt k NE W). Qed.
Print Assumptions C68_series_exact_partial.

(** Every key is listed once, however many vnodes have the series.  Partial: as above, and no name or value that makes keys ambiguous. *)
Theorem C68_series_once_partial : forall name tags e wt data,
  tags <> [] -> data_ok tags data -> where_ok tags wt e -> names_ok tags -> values_ok data -> NoDup (show_series name tags e wt data).
Proof. exact series_once. Qed.
Print Assumptions C68_series_once_partial.

(** Different series have different keys. *)
Theorem C68_keys_differ : forall name tags s s',
  names_ok tags -> values_ok [s; s'] -> key name tags (tuple_of tags s) = key name tags (tuple_of tags s') ->
  forall k, In k tags -> tag_of s (k_col k) = tag_of s' (k_col k).
Proof.
  intros name tags s s' NO V H k I. unfold key in H. apply app_inv_head in H. inversion V as [|? ? V1 V2]; subst. inversion V2 as [|? ? V3 _]; subst.
  assert (E : tuple_of tags s = tuple_of tags s') by (apply (key_tags_inj tags); auto; unfold tuple_of; rewrite ?map_length; auto; apply tuple_values; auto).
  unfold tuple_of in E. exact (ext_in_map E k I).
Qed.
Print Assumptions C68_keys_differ.

(** SHOW TAG VALUES lists exactly the values that the tags asked for have in the selected series, each once. *)
Theorem C68_tag_values_exact_partial : forall w tags e wt data,
  data_ok tags data -> where_ok tags wt e ->
  NoDup (show_tag_values w tags e wt data) /\
  forall n v, In (n, v) (show_tag_values w tags e wt data) <->
    exists k s, In k tags /\ with_ok w k = true /\ In s data /\ chosen e wt s /\ n = k_name k /\ tag_of s (k_col k) = Some v.
Proof. intros w tags e wt data DO W. split; [apply values_once|]. intros n v. exact (values_exact tags data DO w e wt n v W). Qed.
Print Assumptions C68_tag_values_exact_partial.

(** WITH KEY selects by name. *)
Theorem C68_with_key : forall k n l,
  (with_ok (WEqual n) k = true <-> k_name k = n) /\ (with_ok (WUnEqual n) k = true <-> k_name k <> n) /\
  (with_ok (WIn l) k = true <-> In (k_name k) l) /\ (with_ok (WNotIn l) k = true <-> ~ In (k_name k) l).
Proof.
  assert (B : forall a b, bytes_eqb a b = true <-> a = b) by (intros a b; unfold bytes_eqb; destruct (list_eq_dec Z.eq_dec a b); split; congruence).
  intros k n l. cbn [with_ok]. split; [rewrite B; split; congruence|]. split; [rewrite negb_true_iff, <- not_true_iff_false, B; split; congruence|].
  split; [rewrite existsb_exists|rewrite forallb_forall].
  - split; [intros (x&I&E); apply B in E; congruence|]. intros I. exists (k_name k). split; auto. apply B; auto.
  - split.
    + intros H I. specialize (H _ I). rewrite negb_true_iff, <- not_true_iff_false, B in H. auto.
    + intros H x I. rewrite negb_true_iff, <- not_true_iff_false, B. congruence.
Qed.
Print Assumptions C68_with_key.

(** In a SELECT a scan of one tag gives one value per row. *)
Theorem C68_select_rows : forall k data, Forall (fun s => Forall is_i64 (s_times s)) data -> scan_tag false k data = rows_of (k_col k) data.
Proof. exact select_rows. Qed.
Print Assumptions C68_select_rows.

(** * A table "m" with the tags ta (column 1) and tb (column 2): series a,x in two vnodes; b without tb; a,y. *)
Definition tags0 : list tcol := [Tcol 1 [116; 97]; Tcol 2 [116; 98]].
Definition sa := Series [(1, [97]); (2, [120])] [5; 7].
Definition sb := Series [(1, [98])] [9].
Definition sc := Series [(1, [97]); (2, [121])] [3].
Definition data0 : list series := [sa; sb; sc; sa].
Definition str (l : list Z) : expr := ELit (Some (SStr l)).
(** ta = 'a' AND tb IS NOT NULL AND 'z' > tb *)
Definition not_null (c : Z) : expr := EUnsup (fun r => Some (SBool (match r c with Some _ => true | None => false end))).
Definition e0 : expr := EAnd (EAnd (ECmp OEq (ECol 1) (str [97])) (not_null 2)) (ECmp OGt (str [122]) (ECol 2)).
Definition e1 : expr := EAnd (ECmp OEq (ECol 1) (str [97])) (ECmp OGe (ECol TIME) (ELit (Some (SNum TSK 5)))).
Lemma data0_ok : data_ok tags0 data0.
Proof. split; [reflexivity|]. repeat constructor; vm_compute; discriminate. Qed.
Lemma names0 : names_ok tags0.
Proof. split; [repeat constructor; cbn; intuition discriminate|]. repeat constructor; cbn; intuition discriminate. Qed.
Lemma values0 : values_ok data0.
Proof. repeat constructor; cbn; intuition discriminate. Qed.
Ltac clash := intros ? ? ? ? A B; cbn in A, B;
  repeat match goal with H : _ \/ _ |- _ => destruct H as [H|H] | H : False |- _ => destruct H end;
  injection A; injection B; intros; subst; try discriminate; split; reflexivity.
Ltac lits := unfold lits_ok; cbn; repeat constructor; unfold lit_ok, ts_of; cbn; intros; unfold TIME in *; try discriminate; try (i64; lia); auto.
Lemma where0 : where_ok tags0 false (Some e0).
Proof.
  split; [|split; [|split]].
  - split; [cbn; sp; auto; intros ? [?|?]; discriminate|]. split; [cbn; auto|]. split; [lits|clash].
  - repeat constructor; intros r r' H; cbn; rewrite ?(H 1 eq_refl), ?(H 2 eq_refl); reflexivity.
  - reflexivity.
  - repeat constructor; reflexivity.
Qed.
Lemma where1 : where_ok tags0 true (Some e1).
Proof.
  split; [cbn; sp; auto; intros ? [?|?]; discriminate|]. split; [cbn; auto|]. split; [lits|clash].
Qed.
(** "m,ta=a,tb=x" and "m,ta=a,tb=y" *)
Example C68_nonvacuous :
  data_ok tags0 data0 /\ names_ok tags0 /\ values_ok data0 /\ where_ok tags0 false (Some e0) /\ where_ok tags0 true (Some e1) /\ where_ok tags0 false None /\
  show_series [109] tags0 (Some e0) false data0 = [[109; 44; 116; 97; 61; 97; 44; 116; 98; 61; 121]; [109; 44; 116; 97; 61; 97; 44; 116; 98; 61; 120]] /\
  show_series [109] tags0 (Some e1) true data0 = [[109; 44; 116; 97; 61; 97; 44; 116; 98; 61; 120]] /\
  length (show_series [109] tags0 None false data0) = 3%nat /\
  show_tag_values (WEqual [116; 98]) tags0 (Some e0) false data0 = [([116; 98], [121]); ([116; 98], [120])] /\
  length (show_tag_values (WNotIn []) tags0 None false data0) = 4%nat.
Proof. repeat (split; [first [exact data0_ok|exact names0|exact values0|exact where0|exact where1|exact I|vm_compute; reflexivity]|]). vm_compute. reflexivity. Qed.
Example C68_select_nonvacuous : scan_tag false (Tcol 1 [116; 97]) data0 = [Some [97]; Some [97]; Some [98]; Some [97]; Some [97]; Some [97]].
Proof. vm_compute. reflexivity. Qed.

(** FINDING.  For a table without tags SHOW SERIES prints the name of the table once for every row: nothing removes the duplicates
    (the projection has no tag, so the rule that adds DISTINCT does not fire; planner.rs:1388-1400 adds none of its own). *)
Theorem C68_no_tags_refuted : exists name data, data_ok [] data /\ names_ok [] /\ values_ok data /\ ~ NoDup (show_series name [] None false data).
Proof.
  exists [109], [Series [] [5; 7]]. split; [split; [reflexivity|repeat constructor; vm_compute; discriminate]|]. split; [split; constructor|].
  split; [repeat constructor|]. vm_compute. intros H. inversion H as [|? ? H1 _]; subst. apply H1. left; auto.
Qed.
Print Assumptions C68_no_tags_refuted.
(** FINDING.  The key is not escaped: the series ta='a,tb=x' and the series ta='a', tb='x' are both printed "m,ta=a,tb=x". *)
Theorem C68_ambiguous_key_refuted : exists name tags s s',
  names_ok tags /\ data_ok tags [s; s'] /\ tuple_of tags s <> tuple_of tags s' /\ key name tags (tuple_of tags s) = key name tags (tuple_of tags s') /\
  ~ NoDup (show_series name tags None false [s; s']).
Proof.
  exists [109], tags0, sa, (Series [(1, [97; 44; 116; 98; 61; 120])] [5]). split; [exact names0|].
  split; [split; [reflexivity|repeat constructor; vm_compute; discriminate]|]. split; [vm_compute; discriminate|]. split; [reflexivity|].
  vm_compute. intros H. inversion H as [|? ? H1 _]; subst. apply H1. left; auto.
Qed.
Print Assumptions C68_ambiguous_key_refuted.
(** FINDING.  A series whose rows were all deleted or have expired stays in the index: it is listed without a condition on time, and
    not listed with one that every time satisfies. *)
Theorem C68_no_rows_refuted : exists name tags s k,
  names_ok tags /\ data_ok tags [s] /\ s_times s = [] /\ In k (show_series name tags None false [s]) /\ show_series name tags None true [s] = [].
Proof.
  exists [109], tags0, (Series [(1, [97])] []), [109; 44; 116; 97; 61; 97]. split; [exact names0|].
  split; [split; [reflexivity|repeat constructor; vm_compute; discriminate]|]. split; [auto|]. split; [vm_compute; auto|]. reflexivity.
Qed.
Print Assumptions C68_no_rows_refuted.
(** FINDING.  WHERE ta >= 'b' AND ta > 'b' lists the series with ta = 'b': the table takes both comparisons over and their domains
    intersect wrongly (C04). *)
Theorem C68_clash_refuted : exists tags e data k s,
  data_ok tags data /\ simple (is_tag tags) e /\ leaves_ok e = true /\ Forall (exact_ok tags) (conjuncts e) /\
  In k (show_series [109] tags (Some e) false data) /\ data = [s] /\ ~ chosen (Some e) false s.
Proof.
  exists tags0, (EAnd (ECmp OGe (ECol 1) (str [98])) (ECmp OGt (ECol 1) (str [98]))), [sb], (key [109] tags0 (tuple_of tags0 sb)), sb.
  split; [split; [reflexivity|repeat constructor; vm_compute; discriminate]|]. split; [cbn; sp; auto; intros ? [?|?]; discriminate|].
  split; [reflexivity|]. split; [repeat constructor|]. split; [vm_compute; auto|]. split; [auto|]. vm_compute. discriminate.
Qed.
Print Assumptions C68_clash_refuted.
(** FINDING.  WHERE starts_with(tb, 'x') AND ta = 'b' lists the series ta='a', tb='x': the visitor pushes nothing for the function,
    so that no domain is made of the AND, but the comparison was taken over and is checked nowhere. *)
Theorem C68_function_refuted : exists tags e data k s,
  data_ok tags data /\ usual (is_tag tags) e /\ Forall (exact_ok tags) (conjuncts e) /\ Forall (tags_only tags) (conjuncts e) /\
  In k (show_series [109] tags (Some e) false data) /\ data = [s] /\ ~ chosen (Some e) false s.
Proof.
  exists tags0, (EAnd (EOpaque (fun r => match r 2 with Some (SStr (120 :: _)) => Some (SBool true) | _ => None end)) (ECmp OEq (ECol 1) (str [98]))), [sa],
    (key [109] tags0 (tuple_of tags0 sa)), sa.
  split; [split; [reflexivity|repeat constructor; vm_compute; discriminate]|].
  split; [split; [cbn; sp; auto; intros ? [?|?]; discriminate|split; [cbn; auto|split; [lits|clash]]]|].
  split; [repeat constructor|]. split; [repeat constructor; intros r r' H; cbn; rewrite ?(H 1 eq_refl), ?(H 2 eq_refl); reflexivity|].
  split; [vm_compute; auto|]. split; [auto|]. vm_compute. discriminate.
Qed.
Print Assumptions C68_function_refuted.
(** FINDING.  In the subquery of SHOW SERIES ... WHERE ta IN (SELECT ta FROM m GROUP BY ta HAVING count( * ) > 1) the count is the
    number of series, not of rows. *)
Theorem C68_subquery_refuted : exists k n data v, In v (having false k n data) /\ ~ In v (having true k n data).
Proof.
  exists (Tcol 1 [116; 97]), 1, [sa], (Some [97]). split; [vm_compute; auto|]. vm_compute. auto.
Qed.
Print Assumptions C68_subquery_refuted.
