(** Page statistics and the pruning of column groups by them (C81). *)
From Verif Require Import Prelude PruneModel PruneSpec PruneProofs.
Open Scope Z_scope.

(** A page has the values that were put into it, row by row, and its statistics count its nulls. *)
Theorem C81_page : forall p vs, written p vs ->
  cells p = vs /\ s_nulls (pg_stat p) = Z.of_nat (length (filter (fun v => match v with None => true | Some _ => false end) vs)).
Proof.
  intros p vs H. destruct (written_cells p vs H) as (C & N & _). split; auto. rewrite N. clear.
  induction vs as [|[x|] vs IH]; [reflexivity| |].
  - change (flatten (Some x :: vs)) with (x :: flatten vs). cbn [length filter]. lia.
  - change (flatten (None :: vs)) with (flatten vs). cbn [length filter]. lia.
Qed.
Print Assumptions C81_page.

(** No value of the page is below its minimum or above its maximum, in the order in which values are compared.
    Missing: NaN and -0.0 (see below). *)
Theorem C81_bounds_partial : forall p vs, written p vs -> (forall v, In (Some v) vs -> in_range v /\ plain v) ->
  forall v, In (Some v) vs ->
    (forall m, s_min (pg_stat p) = Some m -> leq m v) /\ (forall m, s_max (pg_stat p) = Some m -> leq v m).
Proof.
  intros p vs H G v Hv. destruct (written_bounds p vs H G) as [A B]. split; intros m Hm.
  - destruct (A m Hm); auto.
  - destruct (B m Hm); auto.
Qed.
Print Assumptions C81_bounds_partial.

(** For integers and times the two are values of the page, its least and its greatest: what the file says is
    the time range of a block is the range of its times. *)
Theorem C81_exact_partial : forall p vs, written p vs -> pg_ty p = TInt \/ pg_ty p = TUint ->
  (forall v, In (Some v) vs -> in_range v) -> (exists v, In (Some v) vs) ->
  exists lo hi, s_min (pg_stat p) = Some lo /\ s_max (pg_stat p) = Some hi /\ In (Some lo) vs /\ In (Some hi) vs /\
    forall v, In (Some v) vs -> leq lo v /\ leq v hi.
Proof. exact written_exact. Qed.
Print Assumptions C81_exact_partial.

(** A group with a row that the predicate selects is read, whatever the other groups are, whatever other
    operators the predicate has, and whichever strings count as UTF-8. *)
Theorem C81_prune_partial : forall utf8 other gs g j e, In g gs -> Forall (fun p => exists vs, written p vs) g -> plain_group g -> literals_ok e ->
  selects other g j e -> In g (filter_column_groups utf8 e gs).
Proof. intros utf8 other gs g j e Hg. apply In_nth_error in Hg as [i Hi]. eapply groups_kept; eauto. Qed.
Print Assumptions C81_prune_partial.

(** And the pages are good for something: of groups that all have an integer column (or times), a comparison
    with [<], [<=], [>] or [>=] reads exactly those with a row it selects. Missing: other types, combinations,
    groups in which the column is null everywhere. *)
Theorem C81_skip_partial : forall utf8 other ty n gs g lit op, ty = TInt \/ ty = TUint -> type_of lit = ty -> in_range lit ->
  op = Lt \/ op = Le \/ op = Gt \/ op = Ge ->
  (forall g', In g' gs -> exists p vs, int_column ty n g' p vs) -> In g gs -> (exists j v, row_value g j n = Some v) ->
  (In g (filter_column_groups utf8 (ECmp op n (Some lit)) gs) <-> exists j, selects other g j (ECmp op n (Some lit))).
Proof. exact groups_read. Qed.
Print Assumptions C81_skip_partial.
(** Equality reads those groups that have a value up to the literal and one from the literal on. *)
Theorem C81_skip_eq_partial : forall utf8 other ty n gs g lit, ty = TInt \/ ty = TUint -> type_of lit = ty -> in_range lit ->
  (forall g', In g' gs -> exists p vs, int_column ty n g' p vs) -> In g gs -> (exists j v, row_value g j n = Some v) ->
  (In g (filter_column_groups utf8 (ECmp Eq n (Some lit)) gs) <->
   (exists j, selects other g j (ECmp Le n (Some lit))) /\ exists k, selects other g k (ECmp Ge n (Some lit))).
Proof. exact groups_read_eq. Qed.
Print Assumptions C81_skip_eq_partial.

(** ** Examples *)
Definition ex_page (name : Z) (ty : dtype) (vs : list (option value)) : page :=
  match flush_page name ty vs with Some p => p | None => PG 0 TBool [] [] (STAT TBool None None 0) end.
Definition ex_page' (name : Z) (ty : dtype) (vs : list (option value)) : page :=
  match arrow_array_to_page name ty vs with Some p => p | None => PG 0 TBool [] [] (STAT TBool None None 0) end.
Definition ex_ints : list (option value) := [Some (VInt 7); None; Some (VInt (-3)); Some (VInt 5)].
Definition ex_strs : list (option value) := [Some (VStr [98]); Some (VStr [97; 97]); None; Some (VStr [99])].
Example ex_written : written (ex_page 1 TInt ex_ints) ex_ints /\ written (ex_page' 1 TInt ex_ints) ex_ints /\
  written (ex_page 2 TStr ex_strs) ex_strs /\ written (ex_page' 2 TStr ex_strs) ex_strs.
Proof.
  split; [apply by_flush with 1 TInt; vm_compute; reflexivity|]. split; [apply by_compaction with 1 TInt; reflexivity|].
  split; [apply by_flush with 2 TStr; vm_compute; reflexivity | apply by_compaction with 2 TStr; reflexivity].
Qed.
Example ex_stats : pg_stat (ex_page 1 TInt ex_ints) = STAT TInt (Some (VInt (-3))) (Some (VInt 7)) 1 /\
  pg_stat (ex_page' 1 TInt ex_ints) = pg_stat (ex_page 1 TInt ex_ints) /\
  pg_stat (ex_page 2 TStr ex_strs) = STAT TStr (Some (VStr [])) (Some (VStr [99])) 1 /\
  pg_stat (ex_page' 2 TStr ex_strs) = STAT TStr (Some (VStr [97; 97])) (Some (VStr [99])) 1.
Proof. repeat split; vm_compute; reflexivity. Qed.
Example ex_plain : forall v, In (Some v) ex_ints \/ In (Some v) ex_strs -> in_range v /\ plain v.
Proof.
  intros v H. cbn in H. intuition (try discriminate); match goal with E : Some _ = Some _ |- _ => injection E as <- end; cbn; auto; try lia; repeat constructor; lia.
Qed.
(** Two groups: [i = 5 OR i > 100] with [s = 'b'] is found in the first row of the first, nothing of the second. *)
Definition ex_g1 : list page := [ex_page 1 TInt [Some (VInt 5); None]; ex_page 2 TStr [Some (VStr [98]); Some (VStr [97])]].
Definition ex_g2 : list page := [ex_page' 1 TInt [Some (VInt 6); Some (VInt 9)]; ex_page' 2 TStr [Some (VStr [98]); Some (VStr [99])]].
Definition ex_pred : expr := EAnd (EOr (ECmp Eq 1 (Some (VInt 5))) (ECmp Gt 1 (Some (VInt 100)))) (ECmp Eq 2 (Some (VStr [98]))).
Example ex_pruned : filter_column_groups (fun _ => true) ex_pred [ex_g1; ex_g2] = [ex_g1] /\
  selects (fun _ _ => False) ex_g1 0 ex_pred /\ literals_ok ex_pred /\ plain_group ex_g1 /\ Forall (fun p => exists vs, written p vs) ex_g1.
Proof.
  split; [vm_compute; reflexivity|]. split; [|split; [|split]].
  - split; [left|]; do 2 eexists; (split; [vm_compute; reflexivity|]); split; reflexivity.
  - cbn. repeat split; try lia. repeat constructor; lia.
  - unfold plain_group, ex_g1.
    assert (A : cells (ex_page 1 TInt [Some (VInt 5); None]) = [Some (VInt 5); None]) by (vm_compute; reflexivity).
    assert (B : cells (ex_page 2 TStr [Some (VStr [98]); Some (VStr [97])]) = [Some (VStr [98]); Some (VStr [97])]) by (vm_compute; reflexivity).
    apply Forall_cons; [rewrite A|apply Forall_cons; [rewrite B|apply Forall_nil]].
    + apply Forall_cons; [intros v E; injection E as <-; cbn; lia|]. apply Forall_cons; [discriminate|apply Forall_nil].
    + apply Forall_cons; [intros v E; injection E as <-; cbn; split; auto; repeat constructor; lia|].
      apply Forall_cons; [intros v E; injection E as <-; cbn; split; auto; repeat constructor; lia|apply Forall_nil].
  - unfold ex_g1. apply Forall_cons; [exists [Some (VInt 5); None]; apply by_flush with 1 TInt; vm_compute; reflexivity|]. apply Forall_cons; [exists [Some (VStr [98]); Some (VStr [97])]; apply by_flush with 2 TStr; vm_compute; reflexivity | apply Forall_nil].
Qed.
Example ex_int_columns : int_column TInt 1 ex_g1 (ex_page 1 TInt [Some (VInt 5); None]) [Some (VInt 5); None] /\
  int_column TInt 1 ex_g2 (ex_page' 1 TInt [Some (VInt 6); Some (VInt 9)]) [Some (VInt 6); Some (VInt 9)] /\
  row_value ex_g1 0 1 = Some (VInt 5) /\ row_value ex_g2 1 1 = Some (VInt 9) /\
  filter_column_groups (fun _ => true) (ECmp Le 1 (Some (VInt 5))) [ex_g1; ex_g2] = [ex_g1] /\
  filter_column_groups (fun _ => true) (ECmp Eq 1 (Some (VInt 7))) [ex_g1; ex_g2] = [ex_g2].
Proof.
  split; [|split; [|split; [vm_compute; reflexivity|split; [vm_compute; reflexivity|split; vm_compute; reflexivity]]]].
  - split; [vm_compute; reflexivity|]. split; [apply by_flush with 1 TInt; vm_compute; reflexivity|]. split; [vm_compute; reflexivity|].
    intros v [E|[E|[]]]; [injection E as <-; cbn; lia | discriminate].
  - split; [vm_compute; reflexivity|]. split; [apply by_compaction with 1 TInt; vm_compute; reflexivity|]. split; [vm_compute; reflexivity|].
    intros v [E|[E|[]]]; injection E as <-; cbn; lia.
Qed.

(** ** Where it fails *)
(** NaN: the statistics leave it out.  The page has 5.0 and NaN; [f != 5.0] selects the second row, but minimum
    and maximum are both 5.0, so the group is not read.  (Prometheus writes NaN for a series that has ended.) *)
Definition f5 : value := VFloat 4617315517961601024.
Definition fnan : value := VFloat 9221120237041090560.
Theorem C81_nan_refuted : exists g, Forall (fun p => exists vs, written p vs) g /\
  row_value g 1 1 = Some fnan /\ selects (fun _ _ => False) g 1 (ECmp Ne 1 (Some f5)) /\
  filter_column_groups (fun _ => true) (ECmp Ne 1 (Some f5)) [g] = [].
Proof.
  exists [ex_page 1 TFloat [Some f5; Some fnan]]. split; [|split; [|split]].
  - constructor; [|constructor]. exists [Some f5; Some fnan]. apply by_flush with 1 TFloat. vm_compute. reflexivity.
  - vm_compute. reflexivity.
  - cbn [selects]. exists fnan, f5. split; [vm_compute; reflexivity|]. split; auto. right. split; [|discriminate].
    constructor. vm_compute. discriminate.
  - vm_compute. reflexivity.
Qed.
Print Assumptions C81_nan_refuted.

(** -0.0: the statistics take it for 0.0, comparisons put it below.  [f < 0.0] selects the second row of the page
    0.0, -0.0, but its minimum is 0.0; with the values in the other order the row is found. *)
Definition fzero : value := VFloat 0.
Definition fminus : value := VFloat 9223372036854775808.
Theorem C81_minus_zero_refuted : exists g h, Forall (fun p => exists vs, written p vs) (g ++ h) /\
  selects (fun _ _ => False) g 1 (ECmp Lt 1 (Some fzero)) /\ selects (fun _ _ => False) h 0 (ECmp Lt 1 (Some fzero)) /\
  filter_column_groups (fun _ => true) (ECmp Lt 1 (Some fzero)) [g; h] = [h].
Proof.
  exists [ex_page 1 TFloat [Some fzero; Some fminus]], [ex_page 1 TFloat [Some fminus; Some fzero]]. split; [|split; [|split]].
  - cbn [app]. apply Forall_cons; [exists [Some fzero; Some fminus]; apply by_flush with 1 TFloat; vm_compute; reflexivity|]. apply Forall_cons; [exists [Some fminus; Some fzero]; apply by_flush with 1 TFloat; vm_compute; reflexivity | apply Forall_nil].
  - cbn [selects]. exists fminus, fzero. split; [vm_compute; reflexivity|]. split; auto. split; [|discriminate]. constructor. vm_compute. discriminate.
  - cbn [selects]. exists fminus, fzero. split; [vm_compute; reflexivity|]. split; auto. split; [|discriminate]. constructor. vm_compute. discriminate.
  - vm_compute. reflexivity.
Qed.
Print Assumptions C81_minus_zero_refuted.

(** After a flush the minimum of strings is always the empty string and the range of Booleans always false to
    true: a page of [b], [c] is read for [s < 'a'], and one of true for [NOT x], until it is compacted. *)
Theorem C81_exact_flush_refuted : exists p q, written p [Some (VStr [98]); Some (VStr [99])] /\ written q [Some (VBool true)] /\
  s_min (pg_stat p) = Some (VStr []) /\ s_min (pg_stat q) = Some (VBool false) /\
  filter_column_groups (fun _ => true) (ECmp Lt 1 (Some (VStr [97]))) [[p]] = [[p]] /\
  filter_column_groups (fun _ => true) (ENot 2) [[q]] = [[q]].
Proof.
  exists (ex_page 1 TStr [Some (VStr [98]); Some (VStr [99])]), (ex_page 2 TBool [Some (VBool true)]).
  split; [apply by_flush with 1 TStr; vm_compute; reflexivity|]. split; [apply by_flush with 2 TBool; vm_compute; reflexivity|].
  repeat split; vm_compute; reflexivity.
Qed.
Print Assumptions C81_exact_flush_refuted.
