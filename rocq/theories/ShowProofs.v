(** Proofs for C68. *)
From Verif Require Import Prelude TimeRangeModel DomainModel DomainSpec DomainProofs FilterModel FilterSpec FilterProofs ShowModel ShowSpec.

(** * Conjuncts *)
Lemma conjuncts_cons : forall e, exists x l, conjuncts e = x :: l.
Proof. induction e; cbn [conjuncts]; try (do 2 eexists; reflexivity). destruct IHe1 as (x&l&->). do 2 eexists; reflexivity. Qed.
Definition rebuilt (e : expr) : expr := match conjunction (conjuncts e) with Some e => e | None => e end.
Lemma conj_some : forall e, conjunction (conjuncts e) = Some (rebuilt e).
Proof. intros e. unfold rebuilt. destruct (conjuncts_cons e) as (x&l&->). reflexivity. Qed.

Section Fold.
Context (P : expr -> Prop) (PA : forall a b, P (EAnd a b) <-> P a /\ P b).
Lemma conj_forall : forall e, P e <-> Forall P (conjuncts e).
Proof.
  induction e; cbn [conjuncts]; try (split; [intros; constructor; auto|intros H; inversion H; auto]).
  rewrite PA, IHe1, IHe2, Forall_app. tauto.
Qed.
Lemma fold_forall : forall l x, P (fold_left EAnd l x) <-> P x /\ Forall P l.
Proof.
  induction l as [|y l IH]; intros x; cbn [fold_left]; [split; [auto|tauto]|].
  rewrite IH, PA. split; [intros ((?&?)&?); auto|intros (?&H); inversion H; auto].
Qed.
Lemma rebuilt_iff : forall e, P (rebuilt e) <-> P e.
Proof.
  intros e. rewrite (conj_forall e). unfold rebuilt, conjunction. destruct (conjuncts_cons e) as (x&l&->). rewrite fold_forall.
  split; [intros (?&?); auto|intros H; inversion H; auto].
Qed.
End Fold.
Lemma selected_and : forall a b r, selected (EAnd a b) r <-> selected a r /\ selected b r.
Proof. intros a b r. unfold selected. cbn [eval]. apply and3_true. Qed.
Lemma comparisons_conj : forall e, comparisons e = flat_map comparisons (conjuncts e).
Proof. induction e; try (cbn [conjuncts flat_map]; rewrite app_nil_r; reflexivity). cbn [conjuncts comparisons]. rewrite flat_map_app. congruence. Qed.
Lemma comparisons_fold : forall l x, comparisons (fold_left EAnd l x) = comparisons x ++ flat_map comparisons l.
Proof. induction l as [|y l IH]; intros x; cbn [fold_left flat_map]; [rewrite app_nil_r; auto|]. rewrite IH. cbn [comparisons]. rewrite app_assoc. auto. Qed.
Lemma rebuilt_comparisons : forall e, comparisons (rebuilt e) = comparisons e.
Proof. intros e. rewrite (comparisons_conj e). unfold rebuilt, conjunction. destruct (conjuncts_cons e) as (x&l&->). apply comparisons_fold. Qed.
Lemma rebuilt_conjuncts : forall e, conjuncts (rebuilt e) = conjuncts e.
Proof.
  assert (A : forall l x, conjuncts (fold_left EAnd l x) = conjuncts x ++ flat_map conjuncts l).
  { induction l as [|y l IH]; intros x; cbn [fold_left flat_map]; [rewrite app_nil_r; auto|]. rewrite IH. cbn [conjuncts]. rewrite app_assoc. auto. }
  assert (B : forall e, flat_map conjuncts (conjuncts e) = conjuncts e).
  { induction e; try reflexivity. cbn [conjuncts]. rewrite flat_map_app. congruence. }
  intros e. pose proof (B e) as E. unfold rebuilt, conjunction. destruct (conjuncts_cons e) as (x&l&Q). rewrite Q in *. rewrite A. exact E.
Qed.
Lemma usual_rebuilt : forall pushed e, usual pushed e -> usual pushed (rebuilt e).
Proof.
  intros pushed e (S&O&L&N). split; [|split; [|split]].
  - apply (rebuilt_iff (simple pushed)); auto. cbn [simple]. tauto.
  - apply (rebuilt_iff (or_ok pushed)); auto. cbn [or_ok]. tauto.
  - unfold lits_ok in *. rewrite rebuilt_comparisons. auto.
  - rewrite rebuilt_comparisons. auto.
Qed.
Lemma leaves_rebuilt : forall e, leaves_ok e = true -> complete (rebuilt e) = true.
Proof.
  intros e H. assert (H2 : complete e = true) by (revert H; induction e; cbn [leaves_ok complete]; auto; intros H; apply andb_true_iff in H; destruct H; rewrite IHe1, IHe2; auto).
  apply (rebuilt_iff (fun e => complete e = true)); auto. intros a b. cbn [complete]. apply andb_true_iff.
Qed.

(** * The conditions taken over by the domains *)
Section Exact.
Context (pushed : Z -> bool) (cty : Z -> dtype) (ordered : forall c, pushed c = true -> cty c <> DBool).
Definition sat (m : cmap) (r : row) : Prop := forall c d, pushed c = true -> cm_get c m = Some d -> exists v, r c = Some v /\ in_domain v d.
Definition good (c : expr) : Prop :=
  match c with
  | ECmp _ (ECol k) (ELit (Some v)) | ECmp _ (ELit (Some v)) (ECol k) => pushed k = true
  | _ => can_exact c = false
  end.
Definition enforces (e : expr) (m : cmap) : Prop := forall r, sat m r -> forall c, In c (conjuncts e) -> good c -> can_exact c = true -> selected c r.

Lemma one_enforced : forall e m, conjuncts e = [e] -> simple pushed e -> lits_ok pushed cty e -> forall s, qvisit e s = Some m :: s -> enforces e m.
Proof.
  intros e m CE S L s Q r SA c I G X. rewrite CE in I. destruct I as [<-|[]].
  destruct e as [k|v|f e|o a b|a b|a b|f a b|f|f]; try discriminate X.
  assert (K : exists k v o', pushed k = true /\ norm a o b = Some (k, o', v) /\ ((a = ECol k /\ b = ELit (Some v) /\ o' = o) \/ (a = ELit (Some v) /\ b = ECol k /\ o' = reverse_op o))).
  { cbn [good] in G. destruct a as [ca|[va|]|fa ea|oa a1 a2|a1 a2|a1 a2|fa a1 a2|fa|fa]; try congruence; destruct b as [cb|[vb|]|fb eb|ob b1 b2|b1 b2|b1 b2|fb b1 b2|fb|fb]; try congruence;
      cbn [norm]; do 3 eexists; (split; [eassumption|]); (split; [reflexivity|]); auto 10. }
  destruct K as (k&v&o'&P&NO&K). destruct S as (QA&QB&_).
  cbn [qvisit] in Q. rewrite !quiet_visit in Q by auto. unfold cmp_domains in Q. rewrite NO in Q. cbn [nsc_domains cd_of] in Q. injection Q as <-.
  destruct (SA k (nsc_domain o' v) P) as (x&Rx&Dx); [cbn [cm_get]; rewrite Z.eqb_refl; auto|].
  assert (T : scalar_ty v = cty k).
  { unfold lits_ok in L. destruct K as [(->&->&_)|(->&->&_)]; cbn [comparisons filter fst] in L; rewrite P in L; inversion L as [|? ? L1 _]; subst; apply L1. }
  assert (OV : is_orderable v = true) by (eapply ty_ordered; eauto).
  destruct (nsc_ok k o' v OV) as (_&_&_&V). apply V in Dx.
  unfold selected. destruct K as [(->&->&->)|(->&->&->)]; cbn [eval]; rewrite Rx; [congruence|].
  rewrite cmp_reverse. congruence.
Qed.
Lemma qexact : forall e, simple pushed e -> or_ok pushed e -> lits_ok pushed cty e -> complete e = true -> no_clash (CM pushed e) ->
  forall s, exists m, qvisit e s = Some m :: s /\ dsound pushed cty e m /\ enforces e m.
Proof.
  assert (B : forall e, conjuncts e = [e] -> simple pushed e -> or_ok pushed e -> lits_ok pushed cty e -> complete e = true ->
     forall s, exists m, qvisit e s = Some m :: s /\ dsound pushed cty e m /\ enforces e m).
  { intros e CE S O L C s. pose proof (qvisit_ok pushed cty ordered e S O L s) as H. rewrite C in H. destruct H as (m&Q&D).
    exists m. split; auto. split; auto. eapply one_enforced; eauto. }
  induction e as [c|v|f e IH|o a IHa b IHb|a IHa b IHb|a IHa b IHb|f a IHa b IHb|f|f]; intros S O L C N s; try (apply B; auto; fail).
  destruct S as [SA SB], O as [OA OB]. cbn [complete] in C. apply andb_true_iff in C. destruct C as [CA CB].
  pose proof L as L'. apply lits_and in L as [LA LB]. rewrite CM_and in N.
  assert (NA : no_clash (CM pushed a)) by (intros c o1 o2 v H1 H2; apply (N c o1 o2 v); apply in_app_iff; auto).
  assert (NB : no_clash (CM pushed b)) by (intros c o1 o2 v H1 H2; apply (N c o1 o2 v); apply in_app_iff; auto).
  destruct (IHa SA OA LA CA NA s) as (ma&QA&DA&EA). destruct (IHb SB OB LB CB NB (Some ma :: s)) as (mb&QB&DB&EB).
  destruct (dsound_and pushed cty a b ma mb DA DB) as (m&E&D). exists m. cbn [qvisit]. rewrite QA, QB, E. split; auto. split; auto.
  intros r SM.
  assert (X : sat ma r /\ sat mb r).
  { destruct DA as [NDA DA], DB as [NDB DB]. destruct (inter_get mb ma m E NDB NDA) as [_ G].
    split; intros c d P Gd.
    - specialize (SM c). destruct (cm_get c mb) as [db|] eqn:GB.
      + destruct (DA c d P Gd) as (A1&A2&A3&_). destruct (DB c db P GB) as (B1&B2&B3&_).
        destruct (inter_rangeish _ _ _ B1 A1 B2 A2) as (d'&E'&_). destruct (d_intersect_ok _ _ _ _ B1 A1 E') as (_&_&_&V).
        destruct (SM d' P) as (v&Rv&Iv); [rewrite G, GB, Gd, E'; reflexivity|]. exists v. split; auto.
        destruct (V v) as [_ V2]. apply V2; auto. apply (tied_agree (cty c) c (CM pushed a ++ CM pushed b)); auto;
          [eapply ends_tied_incl; [|exact B3]|eapply ends_tied_incl; [|exact A3]]; intros z Iz; apply in_app_iff; auto.
      + apply (SM d P). rewrite G, GB, Gd. reflexivity.
    - specialize (SM c). destruct (cm_get c ma) as [da|] eqn:GA.
      + destruct (DA c da P GA) as (A1&A2&A3&_). destruct (DB c d P Gd) as (B1&B2&B3&_).
        destruct (inter_rangeish _ _ _ B1 A1 B2 A2) as (d'&E'&_). destruct (d_intersect_ok _ _ _ _ B1 A1 E') as (_&_&_&V).
        destruct (SM d' P) as (v&Rv&Iv); [rewrite G, GA, Gd, E'; reflexivity|]. exists v. split; auto.
        destruct (V v) as [_ V2]. apply V2; auto. apply (tied_agree (cty c) c (CM pushed a ++ CM pushed b)); auto;
          [eapply ends_tied_incl; [|exact B3]|eapply ends_tied_incl; [|exact A3]]; intros z Iz; apply in_app_iff; auto.
      + apply (SM d P). rewrite G, GA, Gd. reflexivity. }
  destruct X as [XA XB]. intros c I Gc Xc. cbn [conjuncts] in I. apply in_app_iff in I. destruct I as [I|I]; [eapply EA|eapply EB]; eauto.
Qed.
End Exact.

(** * The scan of the index *)
Lemma by_domain_iff : forall d v, rangeish d -> (by_domain d v = true <-> exists x, v = Some x /\ in_domain x d).
Proof.
  intros d v R. destruct d as [m|s| |]; cbn in R; try tauto.
  - cbn [by_domain in_domain]. destruct v as [v|]; [|split; [discriminate|intros (x&X&_); discriminate]].
    rewrite existsb_exists. unfold in_ranges.
    assert (A : forall r, above_lowb v (low r) && below_highb v (high r) = true <-> in_range v r).
    { intros r. rewrite andb_true_iff. unfold above_lowb, below_highb, in_range, above_low, below_high, sle, slt.
      destruct (m_val (low r)) as [a|], (m_val (high r)) as [b|]; try destruct (m_bound (low r)); try destruct (m_bound (high r));
        try destruct (scalar_cmp a v); try destruct (scalar_cmp v b); cbn; intuition congruence. }
    split.
    + intros (r&I&X). exists v. split; auto. exists r. split; auto. apply A; auto.
    + intros (x&X&r&I&Y). injection X as <-. exists r. split; auto. apply A; auto.
  - cbn. split; [discriminate|]. intros (x&_&[]).
Qed.
Lemma get_in : forall m c d, NoDup (map fst m) -> (In (c, d) m <-> cm_get c m = Some d).
Proof.
  induction m as [|[k x] m IH]; intros c d N; cbn [map fst In cm_get]; [intuition discriminate|]. inversion N as [|? ? N1 N2]; subst.
  specialize (IH c d N2). destruct (Z.eqb_spec k c) as [->|X].
  - split; [|intros E; injection E as <-; auto]. intros [E|I]; [injection E as <-; auto|]. exfalso. apply N1. apply in_map_iff. exists (c, d). auto.
  - rewrite <- IH. split; [|auto]. intros [E|I]; auto. injection E as -> ->. tauto.
Qed.
Lemma filter_nodup : forall (p : Z -> bool) (m : cmap), NoDup (map fst m) -> NoDup (map fst (filter (fun e => p (fst e)) m)).
Proof.
  induction m as [|[k x] m IH]; intros N; auto. inversion N as [|? ? N1 N2]; subst. cbn [filter fst]. destruct (p k); [|apply IH; auto].
  cbn [map fst]. constructor; [|apply IH; auto]. intros I. apply N1. apply in_map_iff in I. destruct I as (y&E&I). apply filter_In in I.
  apply in_map_iff. exists y. tauto.
Qed.
Lemma by_domains_iff : forall m r, NoDup (map fst m) -> (forall c d, cm_get c m = Some d -> rangeish d) -> (by_domains (Some m) r = true <-> row_in (Some m) r).
Proof.
  intros m r N R. unfold by_domains. rewrite forallb_forall. cbn [row_in]. split.
  - intros H c d G. apply by_domain_iff; eauto. apply get_in in G; auto. exact (H (c, d) G).
  - intros H [c d] I. apply get_in in I; auto. cbn [fst snd]. apply by_domain_iff; eauto.
Qed.
Lemma show_ordered : forall c, show_type c <> DBool.
Proof. intros c. unfold show_type. destruct (c =? TIME); discriminate. Qed.
Lemma srow_ok : forall s t, is_i64 t -> row_ok show_type (srow s t) t.
Proof.
  intros s t I. split; auto. split; [reflexivity|]. intros c v. unfold srow, show_type. destruct (c =? TIME); [intros E; injection E as <-; auto|].
  destruct (tag_of s c); [|discriminate]. intros E; injection E as <-; auto.
Qed.
Lemma holds_iff : forall e r, holds e r = true <-> selected e r.
Proof. intros e r. unfold holds, selected. destruct (eval e r) as [[| |[]]|]; split; congruence. Qed.

Section Table.
Context (tags : list tcol) (data : list series) (DO : data_ok tags data).
Notation istag := (is_tag tags).
Lemma trow_tuple : forall s c, istag c = true -> trow tags (tuple_of tags s) c = srow s 0 c.
Proof.
  assert (A : forall l s c, existsb (fun k => k_col k =? c) l = true -> trow l (tuple_of l s) c = match tag_of s c with Some v => Some (SStr v) | None => None end).
  { induction l as [|k l IH]; intros s c H; cbn [existsb] in H; [discriminate|]. cbn [trow tuple_of map]. destruct (Z.eqb_spec c (k_col k)) as [->|X]; auto.
    destruct (Z.eqb_spec (k_col k) c); [congruence|]. apply IH; auto. }
  intros s c H. rewrite A by exact H. unfold srow. destruct (Z.eqb_spec c TIME) as [->|X]; auto. destruct DO as (T&_). congruence.
Qed.
Lemma srow_time : forall s t t' c, istag c = true -> srow s t c = srow s t' c.
Proof. intros s t t' c H. unfold srow. destruct (Z.eqb_spec c TIME) as [->|X]; auto. destruct DO as (T&_). congruence. Qed.

Lemma taken_over : forall c, column_literal c = can_exact c.
Proof.
  intros c. destruct c as [k|v|f e|o a b|a b|a b|f a b|f|f]; try reflexivity. unfold column_literal, can_exact.
  destruct o; try (rewrite andb_false_r; reflexivity); destruct a as [ca|va|fa ea|oa a1 a2|a1 a2|a1 a2|fa a1 a2|fa|fa]; try destruct ea; destruct b as [cb|vb|fb eb|ob b1 b2|b1 b2|b1 b2|fb b1 b2|fb|fb]; try destruct eb; reflexivity.
Qed.
Lemma exact_good : forall c, exact_ok tags c -> good istag c.
Proof.
  intros c H. pose proof (taken_over c) as T. unfold exact_ok in H. unfold good. rewrite T in H. exact H.
Qed.
(** What the index returns, filtered by what was kept, is what the WHERE clause selects. *)
Lemma index_exact : forall e s, usual istag e -> Forall (tags_only tags) (conjuncts e) -> leaves_ok e = true -> Forall (exact_ok tags) (conjuncts e) ->
  (by_domains (snd (pushed_down istag (Some e))) (srow s 0) = true /\ forallb (fun c => holds c (trow tags (tuple_of tags s))) (kept (Some e)) = true <->
   selected e (srow s 0)).
Proof.
  intros e s U TO LO EO. unfold pushed_down. rewrite conj_some. unfold push_down, resolve. cbn [snd].
  pose proof (usual_rebuilt _ _ U) as (S&O&L&N). pose proof (leaves_rebuilt e LO) as C.
  destruct (qexact istag show_type (fun c _ => show_ordered c) (rebuilt e) S O L C N []) as (m&Q&(ND&D)&E).
  unfold expr_to_column_domains. rewrite Q. cbn [cd_keep].
  rewrite by_domains_iff.
  2: { apply filter_nodup. auto. }
  2: { intros c d G. rewrite keep_get in G. destruct (istag c) eqn:T; [|discriminate]. exact (proj1 (proj2 (D c d T G))). }
  assert (KE : forall c, In c (conjuncts e) -> (holds c (trow tags (tuple_of tags s)) = true <-> selected c (srow s 0))).
  { intros c I. rewrite holds_iff. unfold selected. rewrite Forall_forall in TO. rewrite (TO c I (trow tags (tuple_of tags s)) (srow s 0)); [tauto|]. intros k K. apply trow_tuple; auto. }
  rewrite forallb_forall. cbn [kept]. split.
  - intros (RI&K). rewrite (conj_forall (fun e => selected e (srow s 0))) by (intros; apply selected_and). rewrite Forall_forall. intros c I.
    destruct (can_exact c) eqn:X.
    + apply (E (srow s 0)); auto; [|rewrite rebuilt_conjuncts; auto|].
      * intros k d T G. apply (RI k d). rewrite keep_get, T. auto.
      * rewrite Forall_forall in EO. exact (exact_good c (EO c I)).
    + apply KE; auto. apply K. apply filter_In. rewrite X. auto.
  - intros SE. split.
    + intros c d G. rewrite keep_get in G. destruct (istag c) eqn:T; [|discriminate]. destruct (D c d T G) as (_&_&_&F).
      apply (F (srow s 0) 0); [apply srow_ok; split; vm_compute; discriminate|]. apply (rebuilt_iff (fun e => selected e (srow s 0))); auto. intros; apply selected_and.
    + intros c I. apply filter_In in I. apply KE; [tauto|]. rewrite (conj_forall (fun e => selected e (srow s 0))) in SE by (intros; apply selected_and).
      rewrite Forall_forall in SE. apply SE. tauto.
Qed.
Lemma listed_false : forall e t, where_ok tags false e -> (In t (listed tags e false data) <-> exists s, In s data /\ chosen e false s /\ t = tuple_of tags s).
Proof.
  intros e t W. unfold listed, tag_scan. rewrite filter_In. unfold distinct. rewrite nodup_In, in_map_iff. unfold chosen.
  destruct e as [e|]; cbn [where_ok] in W.
  - destruct W as (U&TO&LO&EO). split.
    + intros ((s&<-&I)&K). apply filter_In in I. destruct I as (I&B). exists s. split; auto. split; auto. apply index_exact; auto.
    + intros (s&I&SE&->). apply index_exact in SE; auto. destruct SE as (B&K). split; auto. exists s. split; auto. apply filter_In. auto.
  - split.
    + intros ((s&<-&I)&_). apply filter_In in I. exists s. tauto.
    + intros (s&I&_&->). split; auto. exists s. split; auto. apply filter_In. auto.
Qed.
Lemma scan_exact : forall e s t, usual (fun c => (c =? TIME) || istag c) e -> is_i64 t -> selected e (srow s t) ->
  trs_contains (fst (pushed_down istag (Some e))) t = true /\ by_domains (snd (pushed_down istag (Some e))) (srow s t) = true.
Proof.
  intros e s t U IT SE. unfold pushed_down. rewrite conj_some. pose proof (usual_rebuilt _ _ U) as (S&O&L&N).
  destruct (query_domains _ show_type (fun c _ => show_ordered c) (rebuilt e) S O L) as (m&Q&(ND&D)).
  assert (SE' : selected (rebuilt e) (srow s t)) by (apply (rebuilt_iff (fun e => selected e (srow s t))); auto; intros; apply selected_and).
  pose proof (srow_ok s t IT) as RO. unfold push_down. rewrite Q. unfold resolve. cbn [fst snd cd_keep]. split.
  - apply time_ranges_of; auto; intros d G; rewrite (keep_get (fun c => c =? TIME)) in G; rewrite Z.eqb_refl in G.
    + destruct (D TIME d eq_refl G) as (D1&D2&D3&D4). sp; auto. apply (tied_inside (CM (fun c => (c =? TIME) || istag c) (rebuilt e)) show_type); auto.
    + destruct (D TIME d eq_refl G) as (D1&D2&D3&D4). destruct (D4 _ t RO SE') as (v&Ev&Iv). injection Ev as <-. auto.
  - apply by_domains_iff; [apply filter_nodup; auto| |].
    + intros c d G. rewrite keep_get in G. destruct (istag c) eqn:T; [|discriminate]. apply (D c d); auto. rewrite T. apply orb_true_r.
    + intros c d G. rewrite keep_get in G. destruct (istag c) eqn:T; [|discriminate]. destruct (D c d) as (_&_&_&F); [rewrite T; apply orb_true_r|auto|].
      exact (F _ t RO SE').
Qed.
Lemma table_scan_in : forall e x, where_ok tags true e ->
  (In x (table_scan tags e data) <-> In (fst x) data /\ In (snd x) (s_times (fst x)) /\ match e with Some e => selected e (srow (fst x) (snd x)) | None => True end).
Proof.
  intros e [s t] W. unfold table_scan. rewrite in_flat_map. cbn [fst snd].
  assert (IT : In s data -> In t (s_times s) -> is_i64 t).
  { intros I J. destruct DO as (_&F). rewrite Forall_forall in F. destruct (F s I) as (F1&_). rewrite Forall_forall in F1. auto. }
  split.
  - intros (s'&I&J). apply in_map_iff in J. destruct J as (t'&X&J). injection X as -> ->. apply filter_In in J. destruct J as (J&B).
    split; auto. split; auto. destruct e as [e|]; auto. apply andb_true_iff in B. apply holds_iff. tauto.
  - intros (I&J&SE). exists s. split; auto. apply in_map_iff. exists t. split; auto. apply filter_In. split; auto.
    destruct e as [e|]; cbn [where_ok] in W.
    + destruct (scan_exact e s t W (IT I J) SE) as (A&B). change (fun c => existsb (fun k => k_col k =? c) tags) with istag. rewrite A, B.
      cbn [andb]. apply holds_iff. auto.
    + cbn [pushed_down fst snd]. rewrite all_contains by auto. reflexivity.
Qed.
Lemma listed_true : forall e t, where_ok tags true e -> (In t (listed tags e true data) <-> exists s, In s data /\ chosen e true s /\ t = tuple_of tags s).
Proof.
  intros e t W. unfold listed, distinct. rewrite nodup_In, in_map_iff. unfold chosen. split.
  - intros ((s&tm)&<-&I). apply table_scan_in in I; auto. cbn [fst snd] in *. exists s. split; [tauto|]. split; auto. exists tm. tauto.
  - intros (s&I&(tm&J&SE)&->). exists (s, tm). split; auto. apply table_scan_in; auto.
Qed.
Lemma listed_iff : forall e wt t, where_ok tags wt e -> (In t (listed tags e wt data) <-> exists s, In s data /\ chosen e wt s /\ t = tuple_of tags s).
Proof. intros e [] t W; [apply listed_true|apply listed_false]; auto. Qed.
Lemma listed_once : forall e wt, NoDup (listed tags e wt data).
Proof. intros e []; unfold listed, tag_scan, distinct; [apply NoDup_nodup|]. apply NoDup_filter. apply NoDup_nodup. Qed.
Lemma series_exact : forall name e wt k, tags <> [] -> where_ok tags wt e ->
  (In k (show_series name tags e wt data) <-> exists s, In s data /\ chosen e wt s /\ k = key name tags (tuple_of tags s)).
Proof.
  intros name e wt k NE W.
  assert (E : show_series name tags e wt data = map (key name tags) (listed tags e wt data)) by (unfold show_series; destruct tags; [tauto|auto]).
  rewrite E, in_map_iff. split.
  - intros (t&<-&I). apply listed_iff in I; auto. destruct I as (s&I&C&->). eauto.
  - intros (s&I&C&->). exists (tuple_of tags s). split; auto. apply listed_iff; eauto.
Qed.
Lemma values_exact : forall w e wt n v, where_ok tags wt e ->
  (In (n, v) (show_tag_values w tags e wt data) <->
   exists k s, In k tags /\ with_ok w k = true /\ In s data /\ chosen e wt s /\ n = k_name k /\ tag_of s (k_col k) = Some v).
Proof.
  intros w e wt n v W. unfold show_tag_values. rewrite nodup_In, in_flat_map.
  assert (TR : forall s k, In k tags -> trow tags (tuple_of tags s) (k_col k) = match tag_of s (k_col k) with Some v => Some (SStr v) | None => None end).
  { intros s k I. assert (T : istag (k_col k) = true) by (apply existsb_exists; exists k; split; auto; apply Z.eqb_refl).
    rewrite trow_tuple by auto. unfold srow. destruct (Z.eqb_spec (k_col k) TIME) as [X|X]; auto. destruct DO as (Y&_). congruence. }
  split.
  - intros (k&I&J). apply filter_In in I. destruct I as (I&WK). rewrite nodup_In, in_flat_map in J. destruct J as (t&J&X). apply listed_iff in J; auto.
    destruct J as (s&J&C&->). rewrite TR in X by auto. destruct (tag_of s (k_col k)) as [v'|] eqn:E; [|destruct X]. destruct X as [X|[]]. injection X as <- <-.
    exists k, s. auto 10.
  - intros (k&s&I&WK&J&C&->&E). exists k. split; [apply filter_In; auto|]. rewrite nodup_In, in_flat_map. exists (tuple_of tags s).
    split; [apply listed_iff; eauto|]. rewrite TR, E by auto. left; auto.
Qed.
End Table.

(** * Keys *)
Lemma key_tags_head : forall tags t, key_tags tags t = [] \/ exists k x, In k tags /\ key_tags tags t = 44 :: k_name k ++ 61 :: x.
Proof.
  induction tags as [|k tags IH]; intros [|v t]; cbn [key_tags]; auto. destruct v as [v|].
  - right. exists k, (v ++ key_tags tags t). split; [left; auto|]. cbn [app]. rewrite <- app_assoc. reflexivity.
  - destruct (IH t) as [H|(k'&x&I&H)]; [left; auto|right]. exists k', x. split; [right; auto|auto].
Qed.
Lemma split_first : forall c (a b x y : list Z), ~ In c a -> ~ In c b -> (x = [] \/ exists x', x = c :: x') -> (y = [] \/ exists y', y = c :: y') ->
  a ++ x = b ++ y -> a = b /\ x = y.
Proof.
  induction a as [|i a IH]; intros [|j b] x y A B X Y E; cbn [app] in E; auto.
  - subst x. destruct X as [X|(x'&X)]; [discriminate|]. injection X as -> _. cbn in B. tauto.
  - subst y. destruct Y as [Y|(y'&Y)]; [discriminate|]. injection Y as -> _. cbn in A. tauto.
  - injection E as -> E. cbn in A, B. destruct (IH b x y) as (->&->); auto.
Qed.
Lemma key_tags_inj : forall tags t1 t2, names_ok tags -> length t1 = length tags -> length t2 = length tags ->
  Forall (fun v => match v with Some v => ~ In 44 v | None => True end) t1 -> Forall (fun v => match v with Some v => ~ In 44 v | None => True end) t2 ->
  key_tags tags t1 = key_tags tags t2 -> t1 = t2.
Proof.
  induction tags as [|k tags IH]; intros [|v1 t1] [|v2 t2] (NN&NC) L1 L2 F1 F2 E; try discriminate; auto.
  cbn [length] in L1, L2. injection L1 as L1. injection L2 as L2. inversion F1 as [|? ? G1 F1']; subst. inversion F2 as [|? ? G2 F2']; subst.
  cbn [map] in NN. inversion NN as [|? ? N1 N2]; subst. inversion NC as [|? ? C1 C2]; subst.
  assert (NK : names_ok tags) by (split; auto).
  assert (HD : forall t, key_tags tags t = [] \/ exists x', key_tags tags t = 44 :: x') by (intros t; destruct (key_tags_head tags t) as [H|(?&?&_&H)]; eauto).
  assert (X : forall v t t', 44 :: k_name k ++ 61 :: (v ++ key_tags tags t) = key_tags tags t' -> False).
  { intros v t t' H. destruct (key_tags_head tags t') as [Q|(k'&x&I&Q)]; rewrite Q in H; [discriminate|]. injection H as H.
    rewrite Forall_forall in C2. destruct (split_first 61 _ _ _ _ (proj2 C1) (proj2 (C2 k' I)) (or_intror (ex_intro _ _ eq_refl)) (or_intror (ex_intro _ _ eq_refl)) H) as (H1&_).
    apply N1. apply in_map_iff. eauto. }
  cbn [key_tags] in E. destruct v1 as [v1|], v2 as [v2|]; cbn [app] in E; rewrite <- ?app_assoc in E; cbn [app] in E.
  - injection E as E. apply app_inv_head in E. injection E as E. apply (split_first 44) in E; auto. destruct E as (->&E). f_equal. apply IH; auto.
  - exfalso. eapply X; eauto.
  - exfalso. eapply X; eauto.
  - f_equal. apply IH; auto.
Qed.
Lemma tuple_values : forall tags s, Forall (fun x => ~ In 44 (snd x)) (s_tags s) -> Forall (fun v => match v with Some v => ~ In 44 v | None => True end) (tuple_of tags s).
Proof.
  intros tags s F. apply Forall_forall. intros v I. apply in_map_iff in I. destruct I as (k&<-&_). unfold tag_of.
  destruct (find (fun x => fst x =? k_col k) (s_tags s)) as [x|] eqn:E; auto. apply find_some in E. rewrite Forall_forall in F. apply F. tauto.
Qed.
Lemma nodup_map_in : forall A B (f : A -> B) l, NoDup l -> (forall x y, In x l -> In y l -> f x = f y -> x = y) -> NoDup (map f l).
Proof.
  induction l as [|a l IH]; intros N H; cbn [map]; constructor; inversion N as [|? ? N1 N2]; subst.
  - intros I. apply in_map_iff in I. destruct I as (b&E&I). apply N1. rewrite (H a b); auto; [left|right]; auto.
  - apply IH; auto. intros x y X Y. apply H; right; auto.
Qed.
Lemma series_once : forall name tags e wt data, tags <> [] -> data_ok tags data -> where_ok tags wt e -> names_ok tags -> values_ok data ->
  NoDup (show_series name tags e wt data).
Proof.
  intros name tags e wt data NE DO W NO V.
  assert (E : show_series name tags e wt data = map (key name tags) (listed tags e wt data)) by (unfold show_series; destruct tags; [tauto|auto]).
  rewrite E. apply nodup_map_in; [apply listed_once|]. intros x y X Y H. unfold key in H. apply app_inv_head in H.
  apply listed_iff in X; auto. apply listed_iff in Y; auto. destruct X as (s&I&_&->), Y as (s'&I'&_&->).
  unfold values_ok in V. rewrite Forall_forall in V.
  apply (key_tags_inj tags); auto; unfold tuple_of; rewrite ?map_length; auto; apply tuple_values; auto.
Qed.
Lemma values_once : forall w tags e wt data, NoDup (show_tag_values w tags e wt data).
Proof. intros. apply NoDup_nodup. Qed.

(** * A scan outside SHOW *)
Lemma select_rows : forall k data, Forall (fun s => Forall is_i64 (s_times s)) data -> scan_tag false k data = rows_of (k_col k) data.
Proof.
  intros k data F. unfold scan_tag, table_scan, rows_of. cbn [pushed_down fst snd]. induction F as [|s data F _ IH]; auto.
  cbn [flat_map]. rewrite map_app. f_equal; [|exact IH]. clear IH data. rewrite map_map. cbn [fst].
  induction F as [|t l H _ IH]; auto. cbn [filter]. rewrite all_contains by auto. cbn [andb by_domains cd_all forallb map length repeat]. f_equal. exact IH.
Qed.
