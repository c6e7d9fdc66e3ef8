(** C02, C03: what a DELETE removes and what a query reads, from their WHERE clauses. *)
From Verif Require Import Prelude TimeRangeModel DomainModel DomainSpec FilterModel FilterSpec FilterProofs.

(** C03: rows the filter selects lie in the pushed-down time ranges and tag domains, so reading
    only those loses nothing.  Partial: no comparison has an operator inside an operand, casts of
    time and tag columns are not compared, literals have the column's type, and under an OR no
    column is compared with one literal both strictly and inclusively; see the refutations. *)
Theorem C03_pushdown_sound_partial : forall is_tag cty e r tm,
  let pushed := fun c => (c =? TIME) || is_tag c in
  table_ok is_tag cty -> simple pushed e -> or_ok pushed e -> lits_ok pushed cty e ->
  row_ok cty r tm -> selected e r ->
  trs_contains (fst (push_down is_tag e)) tm = true /\ row_in (snd (push_down is_tag e)) r.
Proof.
  intros is_tag cty e r tm pushed (T1 & T2 & T3) S O L R SE.
  assert (ORD : forall c, pushed c = true -> cty c <> DBool).
  { intros c P. unfold pushed in P. apply orb_true_iff in P as [P|P].
    - apply Z.eqb_eq in P. subst. rewrite T1. discriminate.
    - rewrite (T3 c P). discriminate. }
  destruct (query_domains pushed cty ORD e S O L) as (m & E & N & D).
  unfold push_down. rewrite E. unfold resolve. cbn [fst snd cd_keep].
  destruct R as (It & Rt & Rty). split.
  - apply time_ranges_of; auto; intros d G; rewrite (keep_get (fun c => c =? TIME)) in G; rewrite Z.eqb_refl in G.
    + destruct (D TIME d eq_refl G) as (D1 & D2 & D3 & D4). rewrite T1 in D1. sp; auto.
      apply (tied_inside (CM pushed e) cty); auto.
    + destruct (D TIME d eq_refl G) as (D1 & D2 & D3 & D4).
      destruct (D4 r tm (conj It (conj Rt Rty)) SE) as (v & Ev & Iv). rewrite Rt in Ev. injection Ev as <-. auto.
  - cbn [row_in]. intros c d G. rewrite (keep_get is_tag) in G. destruct (is_tag c) eqn:TC; [|discriminate].
    destruct (D c d) as (_ & _ & _ & D4); [unfold pushed; rewrite TC; apply orb_true_r|auto|].
    apply (D4 r tm (conj It (conj Rt Rty)) SE).
Qed.
Print Assumptions C03_pushdown_sound_partial.

(** A table with tags 1 and 2 and a numeric field 3. *)
Definition is_tag (c : Z) : bool := (c =? 1) || (c =? 2).
Definition cty (c : Z) : dtype := if c =? 0 then DNum TSK else if c =? 3 then DNum 7 else DStr.
Definition lts z := ELit (Some (SNum TSK z)).
Definition lst z := ELit (Some (SStr [z])).
Definition time_ op z := ECmp op (ECol TIME) (lts z).
Definition tag_ c op z := ECmp op (ECol c) (lst z).
Definition row_of (t a b f : Z) : row := fun c =>
  if c =? 0 then Some (SNum TSK t) else if c =? 1 then Some (SStr [a])
  else if c =? 2 then Some (SStr [b]) else if c =? 3 then Some (SNum 7 f) else None.
(** A predicate the visitor does not look into: [f > n] written with a function or NOT. *)
Definition field_gt (n : Z) : row -> option scalar := fun r =>
  match r 3 with Some (SNum _ z) => Some (SBool (n <? z)) | _ => None end.
Lemma table_is_ok : table_ok is_tag cty.
Proof.
  split; [reflexivity|]. split; [reflexivity|]. intros c H. unfold is_tag, cty in *.
  destruct (Z.eqb_spec c 0); [subst; discriminate|]. destruct (Z.eqb_spec c 3); [subst; discriminate|]. reflexivity.
Qed.
Lemma row_of_ok t a b f : is_i64 t -> row_ok cty (row_of t a b f) t.
Proof.
  intros H. split; auto. split; [reflexivity|]. intros c v. unfold row_of, cty.
  destruct (Z.eqb_spec c 0); [intros E; injection E as <-; auto|].
  destruct (Z.eqb_spec c 1) as [->|]; [intros E; injection E as <-; auto|].
  destruct (Z.eqb_spec c 2) as [->|]; [intros E; injection E as <-; auto|].
  destruct (Z.eqb_spec c 3) as [->|]; [intros E; injection E as <-; auto|]. discriminate.
Qed.
(** (time >= 5 AND tag1 != 'a' AND NOT f ... ) OR (10 = time AND tag1 < 'c') *)
Definition q1 : expr :=
  EOr (EAnd (EAnd (time_ OGe 5) (tag_ 1 ONe 97)) (EUnsup (field_gt 3)))
      (EAnd (ECmp OEq (lts 2) (ECol TIME)) (tag_ 1 OLt 99)).
Ltac clash := intros ? ? ? ? A B; cbn in A, B;
  repeat match goal with H : _ \/ _ |- _ => destruct H as [H|H] | H : False |- _ => destruct H end;
  injection A; injection B; intros; subst; try discriminate; split; reflexivity.
Ltac lits := unfold lits_ok; cbn; repeat constructor; unfold lit_ok, ts_of; cbn; intros; unfold TIME in *; try discriminate; try (i64; lia); auto.
Example C03_nonvacuous :
  let pushed := fun c => (c =? TIME) || is_tag c in
  table_ok is_tag cty /\ simple pushed q1 /\ or_ok pushed q1 /\ lits_ok pushed cty q1 /\
  row_ok cty (row_of 7 98 98 4) 7 /\ selected q1 (row_of 7 98 98 4) /\
  selected q1 (row_of 2 97 98 0) /\
  trs_contains (fst (push_down is_tag q1)) 3 = false /\ ~ row_in (snd (push_down is_tag (tag_ 1 ONe 97))) (row_of 7 97 98 4).
Proof.
  cbn zeta. sp; try reflexivity.
  - exact table_is_ok.
  - cbn. sp; auto; intros ? [?|?]; discriminate.
  - cbn [or_ok q1 time_ tag_]. sp; auto. clash.
  - lits.
  - apply row_of_ok. i64. lia.
  - intros H. destruct (H 1 (nsc_domain ONe (SStr [97])) eq_refl) as (v & E & (q & Q & I)). injection E as <-.
    cbn in Q. destruct Q as [<-|[<-|[]]]; destruct I as [I1 I2]; cbv in I1, I2; congruence.
Qed.

(** FINDING.  An operand with an arithmetic operator pushes an entry of its own that nobody pops
    (transformation.rs:196-206), which shifts the operands of every enclosing AND/OR: the filter
    [time = 1 OR (time = 2 AND f + 1 > 5 AND time = 2)] is turned into [time = 2]; the row at time
    1 is selected but never read. *)
Definition q_arith : expr :=
  EOr (time_ OEq 1)
      (EAnd (EAnd (time_ OEq 2) (ECmp OGt (EArith (fun a b => match a, b with Some (SNum k x), Some (SNum _ y) => Some (SNum k (x + y)) | _, _ => None end)
                                                  (ECol 3) (ELit (Some (SNum 7 1)))) (ELit (Some (SNum 7 5)))))
            (time_ OEq 2)).
Theorem C03_operand_refuted : exists is_tag cty e r tm,
  table_ok is_tag cty /\ row_ok cty r tm /\ selected e r /\ trs_contains (fst (push_down is_tag e)) tm = false.
Proof.
  exists is_tag, cty, q_arith, (row_of 1 97 97 0), 1. sp; [exact table_is_ok|apply row_of_ok; i64; lia|reflexivity|vm_compute; reflexivity].
Qed.
Print Assumptions C03_operand_refuted.
(** FINDING.  [time >= 5 OR time > 5] is turned into [time > 5]: the row at time 5 is selected but
    never read (see C04_union_refuted). *)
Theorem C03_union_refuted : exists is_tag cty e r tm,
  table_ok is_tag cty /\ simple (fun _ => true) e /\ row_ok cty r tm /\ selected e r /\
  trs_contains (fst (push_down is_tag e)) tm = false.
Proof.
  exists is_tag, cty, (EOr (time_ OGe 5) (time_ OGt 5)), (row_of 5 97 97 0), 5.
  sp; [exact table_is_ok| |apply row_of_ok; i64; lia|reflexivity|vm_compute; reflexivity].
  cbn. sp; auto; intros ? [?|?]; discriminate.
Qed.
Print Assumptions C03_union_refuted.
(** FINDING.  A cast of a compared column is dropped (transformation.rs:62-80): with a cast that
    changes the order (such as a number of another unit, or numbers cast to strings) selected
    rows lie outside the pushed-down domain.  Here the cast multiplies by 1000. *)
Theorem C03_cast_refuted : exists is_tag cty e r tm,
  table_ok is_tag cty /\ row_ok cty r tm /\ selected e r /\ trs_contains (fst (push_down is_tag e)) tm = false.
Proof.
  exists is_tag, cty, (ECmp OGt (ECast (fun v => match v with SNum k z => Some (SNum k (z * 1000)) | _ => None end) (ECol TIME)) (lts 5000)),
    (row_of 7 97 97 0), 7. sp; [exact table_is_ok|apply row_of_ok; i64; lia|reflexivity|vm_compute; reflexivity].
Qed.
Print Assumptions C03_cast_refuted.

(** C02: a DELETE with a grouped condition removes exactly the rows the condition selects: the
    predicate it sends to the storage engine (time ranges and tag domains) holds of a row iff the
    WHERE clause does.  Partial: groupings, literals and ends as in the hypotheses; see the
    refutations. *)
Theorem C02_delete_exact_partial : forall is_tag cty e r tm,
  table_ok is_tag cty -> grouped e -> no_clash (comparisons e) ->
  Forall (fun n => lit_ok cty n /\ (fst (fst n) = TIME \/ is_tag (fst (fst n)) = true)) (comparisons e) ->
  row_ok cty r tm ->
  exists trs tags, delete_predicate e = Some (trs, tags) /\
    (trs_contains trs tm = true /\ row_in tags r <-> selected e r).
Proof.
  intros is_tag cty e r tm (T1 & T2 & T3) G N L R.
  assert (L' : Forall (fun n => lit_ok cty n /\ is_orderable (snd n) = true) (comparisons e)).
  { eapply Forall_impl; [|exact L]. intros [[c o] v] [A B]. split; auto. cbn [fst snd] in *. unfold lit_ok in A. destruct A as [A _].
    destruct B as [-> |B]; [rewrite T1 in A|rewrite (T3 c B) in A]; destruct v; cbn in *; congruence. }
  assert (TIMES : forall e' m t, dexact cty true e' m -> Forall (lit_ok cty) (comparisons e') -> row_ok cty r t ->
     (trs_contains (trs_new (filter_to_time_ranges (Some m))) t = true <-> selected e' r)).
  { intros e' m t (ND & K & V) LL RO. rewrite <- (V r t RO). destruct RO as (It & Rt & Rty). rewrite time_ranges_of; auto.
    - cbn [row_in]. split.
      + intros H c d E. destruct (K c d E) as (KT & _). apply Z.eqb_eq in KT. subst c. eauto.
      + intros H d E. destruct (H TIME d E) as (v & Ev & Iv). rewrite Rt in Ev. injection Ev as <-. auto.
    - intros d E. destruct (K TIME d E) as (_ & D1 & D2 & D3). rewrite T1 in D1. sp; auto. eapply tied_inside; eauto. }
  assert (LL : forall l, Forall (fun n => lit_ok cty n /\ is_orderable (snd n) = true) l -> Forall (lit_ok cty) l).
  { intros l. apply Forall_impl. tauto. }
  unfold delete_predicate, expr_to_tag_and_time_domains. destruct G as [(k & K)|(k & a & b & -> & KA & KB)].
  - destruct (dvisit_kind cty k e K L' N (DC [] [] [])) as (m & -> & D). destruct k; unfold push_kind, dc_push; cbn [d_tags d_times head_or_all].
    + eexists _, _; split; [reflexivity|]. rewrite (TIMES e m tm D); auto. split; [tauto|]. intros H; split; auto. intros c d E; discriminate.
    + eexists _, _; split; [reflexivity|]. destruct D as (_ & _ & V). rewrite (V r tm R).
      split; [tauto|]. intros H; split; auto. apply all_contains, R.
  - cbn [comparisons] in *. apply Forall_app in L' as [LA LB].
    destruct (dvisit_kind cty k a KA LA) with (x := DC [] [] []) as (ma & EA & DA).
    { intros c o1 o2 v H1 H2. apply (N c o1 o2 v); apply in_app_iff; auto. }
    destruct (dvisit_kind cty (negb k) b KB LB) with (x := push_kind k (DC [] [] []) ma) as (mb & EB & DB).
    { intros c o1 o2 v H1 H2. apply (N c o1 o2 v); apply in_app_iff; auto. }
    cbn [dvisit]. rewrite EA, EB. assert (SA : selected (EAnd a b) r <-> selected a r /\ selected b r) by (apply and3_true).
    destruct k; unfold push_kind, dc_push, try_intersect; cbn [negb d_flags d_tags d_times Bool.eqb head_or_all].
    + eexists _, _; split; [reflexivity|]. rewrite (TIMES a ma tm DA); auto. destruct DB as (_ & _ & V). rewrite (V r tm R), SA. tauto.
    + eexists _, _; split; [reflexivity|]. rewrite (TIMES b mb tm DB); auto. destruct DA as (_ & _ & V). rewrite (V r tm R), SA. tauto.
Qed.
Print Assumptions C02_delete_exact_partial.

Definition d1 : expr := EAnd (EAnd (tag_ 1 OGe 97) (tag_ 2 ONe 98)) (EAnd (EAnd (time_ OGt 3) (time_ OLe 9)) (ECmp ONe (lts 7) (ECol TIME))).
Example C02_nonvacuous :
  table_ok is_tag cty /\ grouped d1 /\ no_clash (comparisons d1) /\
  Forall (fun n => lit_ok cty n /\ (fst (fst n) = TIME \/ is_tag (fst (fst n)) = true)) (comparisons d1) /\
  row_ok cty (row_of 8 99 99 0) 8 /\ selected d1 (row_of 8 99 99 0) /\ ~ selected d1 (row_of 7 99 99 0) /\
  ~ selected d1 (row_of 8 99 98 0).
Proof.
  sp; try reflexivity; try (intros H; vm_compute in H; discriminate).
  - exact table_is_ok.
  - right. exists false. eexists _, _. split; [reflexivity|]. cbn [all_kind tag_ time_ lst lts negb]. sp; reflexivity.
  - clash.
  - cbn. repeat (constructor; [split; [split; unfold ts_of, TIME; intros; try discriminate; try (i64; lia); reflexivity|
      solve [left; reflexivity|right; reflexivity]]|]). constructor.
  - apply row_of_ok. i64. lia.
Qed.

(** FINDING.  Conditions on tags and on time that are not grouped lose conjuncts
    (transformation.rs:371-402: when the two topmost domains are of different kinds the flag of
    the upper one is dropped but its domain is not).  SQL's AND associates to the left, so the
    ordinary [DELETE ... WHERE tag = 'a' AND time >= 1 AND time <= 5] forgets [time >= 1] and
    deletes everything up to 5. *)
Definition d_bad : expr := EAnd (EAnd (tag_ 1 OEq 97) (time_ OGe 1)) (time_ OLe 5).
Theorem C02_order_refuted : exists is_tag cty e r tm trs tags,
  table_ok is_tag cty /\ row_ok cty r tm /\ delete_predicate e = Some (trs, tags) /\
  ~ selected e r /\ trs_contains trs tm = true /\ row_in tags r.
Proof.
  exists is_tag, cty, d_bad, (row_of (-100) 97 98 0), (-100). eexists _, _.
  sp; [exact table_is_ok|apply row_of_ok; i64; lia|reflexivity|(intros HH; vm_compute in HH; discriminate)|vm_compute; reflexivity|].
  intros c d E. change (cm_get c [(1, nsc_domain OEq (SStr [97]))] = Some d) in E. cbn [cm_get] in E. destruct (Z.eqb_spec 1 c) as [<-|]; [|discriminate]. injection E as <-.
  exists (SStr [97]). split; [reflexivity|]. exists (r_eq DStr (SStr [97])). split; [left; reflexivity|]. split; cbv; discriminate.
Qed.
Print Assumptions C02_order_refuted.
(** FINDING.  [DELETE ... WHERE tag = NULL] selects no row and deletes every row: a comparison
    with a null literal pushes nothing, and no domain means all. *)
Theorem C02_null_refuted : forall c o, exists trs tags,
  delete_predicate (ECmp o (ECol c) (ELit None)) = Some (trs, tags) /\
  (forall r, ~ selected (ECmp o (ECol c) (ELit None)) r) /\
  forall r tm, is_i64 tm -> trs_contains trs tm = true /\ row_in tags r.
Proof.
  intros c o. eexists _, _. split; [reflexivity|]. split.
  - intros r. unfold selected. cbn [eval]. destruct (r c); discriminate.
  - intros r tm H. split; [apply all_contains; auto|]. intros k d E. discriminate.
Qed.
Print Assumptions C02_null_refuted.
(** FINDING.  [DELETE ... WHERE time > 9223372036854775807] selects no row and deletes every row
    (the bound wraps around, domain.rs:41-58). *)
Theorem C02_max_refuted : exists trs tags,
  delete_predicate (time_ OGt I64_MAX) = Some (trs, tags) /\
  (forall cty r tm, row_ok cty r tm -> ~ selected (time_ OGt I64_MAX) r) /\
  forall tm, is_i64 tm -> trs_contains trs tm = true.
Proof.
  eexists _, _. split; [reflexivity|]. split.
  - intros ct r tm (It & Rt & _). unfold selected. cbn [eval time_ lts]. rewrite Rt, ts_cmp. intros E. injection E as E.
    destruct (Z.compare_spec tm I64_MAX); cbn in E; try discriminate. i64. lia.
  - intros tm H. apply (all_contains tm H).
Qed.
Print Assumptions C02_max_refuted.
(** FINDING.  [time >= 5 AND time > 5] deletes the row at 5 (see C04_intersect_refuted). *)
Theorem C02_bound_refuted : exists is_tag cty e r tm trs tags,
  table_ok is_tag cty /\ grouped e /\ row_ok cty r tm /\ delete_predicate e = Some (trs, tags) /\
  ~ selected e r /\ trs_contains trs tm = true /\ row_in tags r.
Proof.
  exists is_tag, cty, (EAnd (time_ OGe 5) (time_ OGt 5)), (row_of 5 97 98 0), 5.
  destruct (delete_predicate (EAnd (time_ OGe 5) (time_ OGt 5))) as [[trs tags]|] eqn:E; [|discriminate].
  exists trs, tags. sp; [exact table_is_ok| |apply row_of_ok; i64; lia|reflexivity|(intros HH; vm_compute in HH; discriminate)| |].
  - left. exists true. cbn. auto.
  - injection E as <- <-. vm_compute. reflexivity.
  - injection E as <- <-. intros c d Q. discriminate.
Qed.
Print Assumptions C02_bound_refuted.
