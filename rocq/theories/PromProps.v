(** C73: what Prometheus remote write stored is what remote read returns. *)
From Verif Require Import Prelude PrecisionModel PromModel PromSpec PromProofs.

(** After any accepted writes to a database of nanosecond precision, a query is answered with exactly the latest samples of the
    series it selects, one series for each set of labels, in the order of time.  Partial: [series_ok] and [query_ok] exclude the
    cases refuted below, and all writes are remote writes. *)
Theorem C73_read_back_partial : forall search full kw reqs d q,
  Forall series_ok (concat reqs) -> writes NS reqs db0 = Some d -> query_ok search full kw (concat reqs) q ->
  exists res, remote_read search kw NS d q = Some res /\ answers full (concat reqs) q res.
Proof. exact read_back_ok. Qed.
Print Assumptions C73_read_back_partial.

(** Such writes are accepted. *)
Theorem C73_write_accepted : forall reqs, Forall series_ok (concat reqs) -> exists d, writes NS reqs db0 = Some d.
Proof.
  intros reqs F. exists (db_of (sent (concat reqs))). rewrite writes_lines, lines_sent, put_lines_rows; auto.
  eapply Forall_impl; [|exact F]. intros ts (_ & _ & _ & _ & H). exact H.
Qed.
Print Assumptions C73_write_accepted.

(** * A history: cpu{host="a"}, cpu{host="b"} with one sample sent twice, mem{host="a"}. *)
Definition cpu : str := [99; 112; 117].
Definition mem : str := [109; 101; 109].
Definition host : str := [104; 111; 115; 116].
Definition s1 := TSer [Label metric_label cpu; Label host [97]] [Sample 11 1000; Sample 12 2000].
Definition s2 := TSer [Label host [98]; Label metric_label cpu] [Sample 21 1000; Sample 22 1000].
Definition s3 := TSer [Label metric_label mem; Label host [97]] [Sample 31 1000].
Definition hist : list (list tseries) := [[s1]; [s2; s3]].
Definition d1 : db := match writes NS hist db0 with Some d => d | None => db0 end.
Definition done (p : precision) (reqs : list (list tseries)) : db := match writes p reqs db0 with Some d => d | None => db0 end.
Definition nokw (_ : str) : bool := false.
Ltac nodup := repeat (first [apply NoDup_nil|apply NoDup_cons; [cbn; intuition discriminate|]]).
Ltac each tac := repeat (first [apply Forall_nil|apply Forall_cons; [tac|]]).
Ltac ser := split; [cbn [map ts_labels l_name s1 s2 s3]; nodup|
  split; [each ltac:(repeat split; cbn; intuition discriminate)|
  split; [first [eexists; split; [left; reflexivity|split; [reflexivity|cbn; intuition discriminate]]|eexists; split; [right; left; reflexivity|split; [reflexivity|cbn; intuition discriminate]]]|
  split; [discriminate|each ltac:(unfold fits; cbn; lia)]]]].
Ltac sers := apply Forall_forall; let ts := fresh "ts" in let J := fresh "J" in intros ts J; cbn [concat app hist In] in J; repeat (destruct J as [<-|J]; [ser|]); contradiction.
Example C73_ex_series : Forall series_ok (concat hist).
Proof. sers. Qed.
Definition q1 := Query 0 1500 [Matcher MEq metric_label cpu; Matcher MNeq host [99]].
Example C73_ex_query : query_ok search_text full_text nokw (concat hist) q1.
Proof.
  split; [unfold fits; cbn; lia|]. split; [unfold fits; cbn; lia|]. split; auto. exists [], (Matcher MEq metric_label cpu), [Matcher MNeq host [99]].
  split; auto. split; auto. split; [left; split; auto; exists s1; split; [left; auto|reflexivity]|].
  intros m [<-|[]]. split; [discriminate|]. split; [cbn; unfold plain_char; repeat constructor; lia|]. split; auto. split; [discriminate|]. split; [discriminate|].
  split; [cbn; intuition discriminate|]. split; [exact I|]. intros ts IT _. split; [exists ts; split; auto; split; auto|intros _]; destruct IT as [<-|[<-|[<-|[]]]]; discriminate.
Qed.
Example C73_ex_read : writes NS hist db0 = Some d1 /\ remote_read search_text nokw NS d1 q1 =
  Some [TSer [Label metric_label cpu; Label host [98]] [Sample 22 1000]; TSer [Label metric_label cpu; Label host [97]] [Sample 11 1000]].
Proof. split; vm_compute; reflexivity. Qed.

(** * Findings.  In each the writes are as above; the query leaves the restrictions in one way. *)
Definition wrong (reqs : list (list tseries)) (q : query) : Prop :=
  exists d, Forall series_ok (concat reqs) /\ writes NS reqs db0 = Some d /\ fits (q_start q) /\ fits (q_end q) /\
    forall res, remote_read search_text nokw NS d q = Some res -> ~ answers full_text (concat reqs) q res.
(** The sample asked for is [Sample v t] of the series [ls]; the answer does not have it. *)
Lemma missing reqs q ls t v ts d : In ts (concat reqs) -> ts_labels ts = ls ->
  (forall ls' s', In (ls', s') (sent (concat reqs)) -> s_ms s' = t -> same_labels ls' ls -> s_value s' = v) -> In (Sample v t) (ts_samples ts) ->
  q_start q <= t <= q_end q -> (forall m, In m (q_matchers q) -> matches full_text m (value_of ls (m_name m))) ->
  (forall res, remote_read search_text nokw NS d q = Some res -> forall ts', In ts' res -> ~ In (Sample v t) (ts_samples ts')) ->
  forall res, remote_read search_text nokw NS d q = Some res -> ~ answers full_text (concat reqs) q res.
Proof.
  intros I L U IS R M N res E (A & _). destruct (proj2 (A ls t v)) as (ts' & I' & _ & S'); [|exact (N res E ts' I' S')]. split; [|auto].
  assert (P : In (ls, Sample v t) (sent (concat reqs))) by (unfold sent; apply in_flat_map; exists ts; split; auto; rewrite L; apply in_map; auto).
  (* the last of the equal writes *)
  unfold latest. generalize dependent (sent (concat reqs)). clear - R. intros l U P. induction l as [|(lx, sx) l IH] using rev_ind; [contradiction|].
  apply in_app_or in P.
  destruct (Z.eq_dec (s_ms sx) t) as [T|T].
  - destruct (list_eq_dec (list_eq_dec Z.eq_dec) (map (value_of lx) (map l_name lx ++ map l_name ls)) (map (value_of ls) (map l_name lx ++ map l_name ls))) as [E|E].
    + assert (S : same_labels lx ls).
      { intros n. destruct (in_dec (list_eq_dec Z.eq_dec) n (map l_name lx ++ map l_name ls)) as [J|J]; [exact (ext_in_map E n J)|].
        rewrite !value_tag. destruct (tag_of lx n) eqn:X; [exfalso; apply J, in_or_app; left; apply (tag_in _ _ _ X)|].
        destruct (tag_of ls n) eqn:Y; [exfalso; apply J, in_or_app; right; apply (tag_in _ _ _ Y)|]. auto. }
      exists l, lx, []. split; [|split; auto]. destruct sx as [vx tx]. cbn [s_ms] in T. subst tx. f_equal. f_equal. f_equal. f_equal.
      apply (U lx (Sample vx t)); auto. apply in_or_app. right; left; auto.
    + destruct P as [P|[P|[]]]; [|exfalso; apply E; congruence].
      destruct IH as (h1 & l' & h2 & A & B & C); auto; [intros l' s' J; apply U; apply in_or_app; auto|]. exists h1, l', (h2 ++ [(lx, sx)]). split; [rewrite A, <- app_assoc; auto|]. split; auto.
      intros l2 v2 J. apply in_app_or in J. destruct J as [J|[J|[]]]; [eauto|]. injection J as -> _. intros S. apply E. apply map_ext. auto.
  - destruct P as [P|[P|[]]]; [|exfalso; apply T; injection P as _ ->; auto].
    destruct IH as (h1 & l' & h2 & A & B & C); auto; [intros l' s' J; apply U; apply in_or_app; auto|]. exists h1, l', (h2 ++ [(lx, sx)]). split; [rewrite A, <- app_assoc; auto|]. split; auto.
    intros l2 v2 J. apply in_app_or in J. destruct J as [J|[J|[]]]; [eauto|]. injection J as _ ->. contradiction.
Qed.
(** The answer has a sample that was not asked for. *)
Lemma extra reqs q ls t v d : 
  ~ (q_start q <= t <= q_end q /\ forall m, In m (q_matchers q) -> matches full_text m (value_of ls (m_name m))) ->
  (exists res ts, remote_read search_text nokw NS d q = Some res /\ In ts res /\ ts_labels ts = ls /\ In (Sample v t) (ts_samples ts)) ->
  forall res, remote_read search_text nokw NS d q = Some res -> ~ answers full_text (concat reqs) q res.
Proof.
  intros N (r & ts & E & I & L & S) res E' (A & _). rewrite E in E'. injection E' as <-. destruct (proj1 (A ls t v)) as (_ & H1 & H2); [|auto]. exists ts. split; auto. split; auto. rewrite L. intros n; auto.
Qed.
Ltac hyps d := exists d; split; [sers|split; [vm_compute; reflexivity|split; [unfold fits; cbn; lia|split; [unfold fits; cbn; lia|]]]].
Ltac lost ts ls t v := match goal with |- forall res, remote_read _ _ _ ?d ?q = Some res -> ~ answers _ (concat ?r) _ _ =>
    apply (missing r q ls t v ts d); [cbn; auto|reflexivity| |cbn; auto|cbn; lia| | ] end.
(** FINDING.  The values of matchers are put between quotes as they are: cpu{host="a' OR host = 'b"} for the times 5000 to 6000 returns
    all samples of cpu{host="a"}. *)
Definition inject : str := [97; 39; 32; 79; 82; 32] ++ host ++ [32; 61; 32; 39; 98].
Theorem C73_injection_refuted : exists reqs q, wrong reqs q /\ exists d ts, writes NS reqs db0 = Some d /\
  remote_read search_text nokw NS d q = Some [ts] /\ Forall (fun s => ~ q_start q <= s_ms s) (ts_samples ts) /\ ts_samples ts <> [].
Proof.
  exists hist, (Query 5000 6000 [Matcher MEq metric_label cpu; Matcher MEq host inject]). split.
  - hyps d1. apply (extra _ _ [Label metric_label cpu; Label host [97]] 1000 11); [cbn; lia|].
    do 2 eexists. split; [vm_compute; reflexivity|]. split; [left; reflexivity|]. split; [reflexivity|]. left; reflexivity.
  - exists d1. eexists. split; [vm_compute; reflexivity|]. split; [vm_compute; reflexivity|]. split; [repeat constructor; cbn; lia|discriminate].
Qed.
Print Assumptions C73_injection_refuted.
(** FINDING.  Label names are not quoted and so lower-cased: a matcher on the label Host is refused. *)
Definition Host : str := [72; 111; 115; 116].
Definition s4 := TSer [Label metric_label cpu; Label Host [97]] [Sample 41 1000].
Theorem C73_upper_case_refuted : exists reqs q d, wrong reqs q /\ writes NS reqs db0 = Some d /\ remote_read search_text nokw NS d q = None.
Proof.
  exists [[s4]], (Query 0 2000 [Matcher MEq metric_label cpu; Matcher MEq Host [97]]), (match writes NS [[s4]] db0 with Some d => d | None => db0 end).
  split; [|split; vm_compute; reflexivity]. hyps (match writes NS [[s4]] db0 with Some d => d | None => db0 end).
  intros res E. vm_compute in E. discriminate.
Qed.
Print Assumptions C73_upper_case_refuted.
(** FINDING.  A label that a series does not have is NULL: cpu{dc!="x"} leaves out the series without dc. *)
Definition dc : str := [100; 99].
Definition s5 := TSer [Label metric_label cpu; Label dc [120]] [Sample 51 1000].
Definition d5 : db := match writes NS [[s1; s5]] db0 with Some d => d | None => db0 end.
Theorem C73_missing_label_refuted : exists reqs q d, wrong reqs q /\ writes NS reqs db0 = Some d /\ remote_read search_text nokw NS d q = Some [].
Proof.
  exists [[s1; s5]], (Query 0 1500 [Matcher MEq metric_label cpu; Matcher MNeq dc [120]]), d5.
  split; [|split; vm_compute; reflexivity]. hyps d5. lost s1 (ts_labels s1) 1000 11.
  - intros ls s I T S. cbn in I. repeat destruct I as [I|I]; try contradiction; injection I as <- <-; cbn in T; try discriminate; auto. specialize (S dc). discriminate.
  - intros m [<-|[<-|[]]]; cbn; [reflexivity|discriminate].
  - intros res E. vm_compute in E. injection E as <-. intros ts' [].
Qed.
Print Assumptions C73_missing_label_refuted.
(** FINDING.  Regular expressions are searched, not matched: cpu{host=~"a"} returns cpu{host="ab"}. *)
Definition s6 := TSer [Label metric_label cpu; Label host [97; 98]] [Sample 61 1000].
Theorem C73_regex_refuted : exists reqs q, wrong reqs q /\ q_matchers q = [Matcher MEq metric_label cpu; Matcher MRe host [97]].
Proof.
  exists [[s6]], (Query 0 1500 [Matcher MEq metric_label cpu; Matcher MRe host [97]]). split; auto.
  hyps (match writes NS [[s6]] db0 with Some d => d | None => db0 end). apply (extra _ _ [Label metric_label cpu; Label host [97; 98]] 1000 61).
  - intros (_ & H). specialize (H _ (or_intror (or_introl eq_refl))). vm_compute in H. discriminate.
  - do 2 eexists. split; [vm_compute; reflexivity|]. split; [left; reflexivity|]. split; [reflexivity|]. left; reflexivity.
Qed.
Print Assumptions C73_regex_refuted.
(** FINDING.  Without a matcher on the name the answer is empty; of two matchers on the name only the last counts. *)
Theorem C73_name_refuted :
  (exists reqs q d, wrong reqs q /\ writes NS reqs db0 = Some d /\ q_matchers q = [Matcher MEq host [97]] /\ remote_read search_text nokw NS d q = Some []) /\
  (exists reqs q, wrong reqs q /\ q_matchers q = [Matcher MEq metric_label mem; Matcher MEq metric_label cpu]).
Proof.
  split.
  - exists hist, (Query 0 1500 [Matcher MEq host [97]]), d1. split; [|split; [vm_compute; reflexivity|split; [auto|vm_compute; reflexivity]]].
    hyps d1. lost s1 (ts_labels s1) 1000 11.
    + intros ls s I T S. cbn in I. repeat destruct I as [I|I]; try contradiction; injection I as <- <-; cbn in T; try discriminate; auto; [specialize (S host)|specialize (S host)|specialize (S metric_label)]; discriminate.
    + intros m [<-|[]]; reflexivity.
    + intros res E. vm_compute in E. injection E as <-. intros ts' [].
  - exists hist, (Query 0 1500 [Matcher MEq metric_label mem; Matcher MEq metric_label cpu]). split; auto.
    hyps d1. apply (extra _ _ [Label metric_label cpu; Label host [97]] 1000 11).
    + intros (_ & H). specialize (H _ (or_introl eq_refl)). vm_compute in H. discriminate.
    + do 2 eexists. split; [vm_compute; reflexivity|]. split; [right; left; reflexivity|]. split; [reflexivity|]. left; reflexivity.
Qed.
Print Assumptions C73_name_refuted.
(** FINDING.  Milliseconds are multiplied without a check: "everything" (the smallest to the largest time) returns nothing, and a
    sample far in the future is stored elsewhere. *)
Theorem C73_overflow_refuted :
  (exists d, writes NS hist db0 = Some d /\ remote_read search_text nokw NS d (Query (-9223372036854775808) 9223372036854775807 [Matcher MEq metric_label cpu]) = Some []) /\
  (exists ts d, ts_samples ts = [Sample 1 (2 ^ 58)] /\ writes NS [[ts]] db0 = Some d /\
     remote_read search_text nokw NS d (Query 0 0 [Matcher MEq metric_label cpu]) = Some [TSer (ts_labels ts) [Sample 1 0]]).
Proof.
  split; [exists d1; split; vm_compute; reflexivity|].
  exists (TSer [Label metric_label cpu] [Sample 1 (2 ^ 58)]), (done NS [[TSer [Label metric_label cpu] [Sample 1 (2 ^ 58)]]]). split; [auto|]. split; vm_compute; reflexivity.
Qed.
Print Assumptions C73_overflow_refuted.
(** FINDING.  The times of the query are nanoseconds whatever the precision of the database: in a database with milliseconds no sample
    of the range is found. *)
Theorem C73_precision_refuted : exists d, writes MS hist db0 = Some d /\ remote_read search_text nokw MS d (Query 1000 1500 [Matcher MEq metric_label cpu]) = Some [].
Proof. exists (done MS hist). split; vm_compute; reflexivity. Qed.
Print Assumptions C73_precision_refuted.
(** FINDING.  A row of the table without a value (written by SQL or line protocol) becomes a sample with the value 0. *)
Theorem C73_null_refuted : exists d0 d r, d = put r d0 /\ writes NS hist db0 = Some d0 /\ r_value r = None /\
  remote_read search_text nokw NS d (Query 7000 8000 [Matcher MEq metric_label cpu]) = Some [TSer [Label metric_label cpu; Label host [97]] [Sample 0 7000]].
Proof.
  exists d1, (put (Row cpu [Label metric_label cpu; Label host [97]] 7000000000 None) d1), (Row cpu [Label metric_label cpu; Label host [97]] 7000000000 None). split; [reflexivity|]. split; [vm_compute; reflexivity|]. split; [auto|]. vm_compute. reflexivity.
Qed.
Print Assumptions C73_null_refuted.
(** FINDING.  The text that tells series apart joins names and values with the character 1, which may occur in a value: two series are
    returned as one. *)
Definition s7 := TSer [Label metric_label cpu; Label dc [97; 1; 104; 111; 115; 116; 1; 98]; Label host [99]] [Sample 71 1000].
Definition s8 := TSer [Label metric_label cpu; Label dc [97]; Label host [98; 1; 104; 111; 115; 116; 1; 99]] [Sample 81 1000].
Theorem C73_separator_refuted : exists d, writes NS [[s7; s8]] db0 = Some d /\ ~ same_labels (ts_labels s7) (ts_labels s8) /\
  exists ts, remote_read search_text nokw NS d (Query 0 2000 [Matcher MEq metric_label cpu]) = Some [ts] /\ length (ts_samples ts) = 2%nat.
Proof.
  exists (done NS [[s7; s8]]). split; [vm_compute; reflexivity|]. split; [intros H; specialize (H dc); discriminate|]. eexists. split; vm_compute; reflexivity.
Qed.
Print Assumptions C73_separator_refuted.
