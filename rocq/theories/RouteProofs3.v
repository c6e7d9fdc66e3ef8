(** Proofs about routing: requests and the rows they leave. *)
From Verif Require Import Prelude WriteModel WriteSpec BucketModel RouteModel RouteSpec RouteProofs RouteProofs2.

Definition always_from (bs : list bucket) (d : dbase) (P : dbase -> event -> Prop) (es : list event) : Prop :=
  forall es1 e es2, es = es1 ++ e :: es2 -> P (run bs d es1) e.
Lemma always_cons bs d P e es : always_from bs d P (e :: es) -> P d e /\ always_from bs (step bs d e) P es.
Proof.
  intros H. split; [exact (H [] e es eq_refl)|]. intros es1 x es2 ->. exact (H (e :: es1) x es2 eq_refl).
Qed.
Lemma always_intro bs d (P : dbase -> event -> Prop) e es : P d e -> always_from bs (step bs d e) P es -> always_from bs d P (e :: es).
Proof.
  intros H A [|x es1] y es2 E; cbn in E; injection E as <- ->; [exact H|]. exact (A es1 y es2 eq_refl).
Qed.
Lemma always_start bs P es : always_from bs empty P es -> always bs P es.
Proof. exact (fun H => H). Qed.
Lemma always_nil bs d (P : dbase -> event -> Prop) : always_from bs d P [].
Proof. intros [|x es1] y es2 E; discriminate. Qed.
Lemma locate_cases bs h ts :
  match bucket_by_timestamp bs ts with
  | Some b => match b_group b with [] => locate bs h ts = None | _ => exists r, locate bs h ts = Some r end
  | None => locate bs h ts = None
  end.
Proof.
  unfold locate. destruct (bucket_by_timestamp bs ts) as [b|]; [|reflexivity]. unfold vnode_for.
  destruct (b_group b) as [|g gs] eqn:G; [reflexivity|].
  assert (L : 0 < Z.of_nat (length (g :: gs))) by (cbn [length]; lia).
  remember (Z.of_nat (length (g :: gs))) as n. destruct (n =? 0) eqn:E; [apply Z.eqb_eq in E; lia|].
  destruct (nth_error (g :: gs) (Z.to_nat (h mod n))) as [r|] eqn:N; [eauto|].
  apply nth_error_None in N. pose proof (Z.mod_pos_bound h n L). lia.
Qed.
(** tag columns stay distinct *)
Lemma add_names_nodup ns : forall l, NoDup l -> NoDup (add_names ns l).
Proof.
  unfold add_names. induction ns as [|n ns IH]; intros l ND; cbn; [exact ND|]. apply IH.
  destruct (existsb (str_eqb n) l) eqn:E; [exact ND|].
  apply (Permutation_NoDup (Permutation_cons_append l n)). constructor; [|exact ND].
  intros I. apply not_true_iff_false in E. apply E. apply existsb_exists. exists n. split; [exact I|apply str_eqb_refl].
Qed.
Lemma tags_of_set t names tg rows T :
  tags_of (DB (set_tags t names tg) rows) T = if str_eqb t T then names else tags_of (DB tg rows) T.
Proof.
  unfold tags_of, set_tags. cbn [d_tags find fst]. destruct (str_eqb t T) eqn:E; [reflexivity|].
  induction tg as [|p tg IH]; [reflexivity|]. cbn [filter find].
  destruct (str_eqb (fst p) t) eqn:F; cbn [negb].
  - apply str_eqb_eq in F. rewrite F, E. exact IH.
  - cbn [find]. destruct (str_eqb (fst p) T); [reflexivity|exact IH].
Qed.
Lemma tags_nodup bs d T e : leaves T e -> NoDup (tags_of d T) -> NoDup (tags_of (step bs d e) T).
Proof.
  destruct e as [v t tags ts fs|t vals ts fs|t n|t old new|t old new]; cbn [leaves step]; intros L ND.
  - destruct (locate _ _ _); [|exact ND]. rewrite tags_of_set. destruct (str_eqb t T) eqn:E; [|exact ND].
    apply str_eqb_eq in E. subst. apply add_names_nodup, ND.
  - destruct fs; [exact ND|]. destruct (locate _ _ _); exact ND.
  - rewrite tags_of_set. destruct (str_eqb t T) eqn:E; [|exact ND].
    apply str_eqb_eq in E. subst. apply add_names_nodup, ND.
  - rewrite tags_of_set. apply str_eqb_neq in L. rewrite L. exact ND.
  - destruct (clash _ _ _ _); exact ND.
Qed.

Definition given (names : list str) (vals : list (option str)) : list (str * str) :=
  flat_map (fun c => match snd c with Some v => [(fst c, v)] | None => [] end) (combine names vals).
Lemma given_in names vals n : In n (map fst (given names vals)) -> In n names.
Proof.
  unfold given. revert vals. induction names as [|x names IH]; intros [|v vals]; cbn; try (intros []).
  rewrite map_app. intros I. apply in_app_iff in I as [I|I]; [|right; eapply IH, I].
  destruct v; cbn in I; [destruct I as [I|[]]; auto|destruct I].
Qed.
Lemma given_nodup names vals : NoDup names -> NoDup (map fst (given names vals)).
Proof.
  unfold given. revert vals. induction names as [|x names IH]; intros [|v vals] ND; cbn; try constructor.
  inversion ND as [|? ? N1 N2]; subst. rewrite map_app. destruct v as [v|]; cbn; [|apply IH, N2].
  constructor; [|apply IH, N2]. intros I. apply N1. eapply given_in, I.
Qed.

Definition rel (T : str) (p : pl) (w : wish) : Prop :=
  q_table w = T /\ q_ts w = p_ts p /\ q_fields w = p_fs p /\ (forall n, q_tags w n = tag_value (p_key p) n)
  /\ StronglySorted tlt (p_key p) /\ NoDup (map fst (p_fs p)).
Definition of_table (T : str) (ws : list wish) : list wish := filter (fun w => str_eqb (q_table w) T) ws.
Lemma of_table_app T a b : of_table T (a ++ b) = of_table T a ++ of_table T b.
Proof. apply filter_app. Qed.

Lemma places_wishes bs T es : forall d, NoDup (tags_of d T) -> (forall e, In e es -> leaves T e) ->
  always_from bs d request_ok es -> Forall2 (rel T) (places bs d T es) (of_table T (wishes bs d es)).
Proof.
  induction es as [|e es IH]; intros d ND L A; cbn [places wishes]; [constructor|].
  apply always_cons in A as [R A]. rewrite of_table_app. apply Forall2_app.
  2:{ apply IH; [|intros x Hx; apply L; right; exact Hx|exact A]. apply tags_nodup; [apply L; left; reflexivity|exact ND]. }
  clear IH A. destruct e as [v t tags ts fs|t vals ts fs|t n|t old new|t old new]; cbn [place_of wish_of]; try constructor.
  - cbn [q_ts q_fields]. cbn in R. destruct R as (R1 & R2 & R3).
    pose proof (locate_cases bs (line_hash v t tags) ts) as LC.
    destruct (bucket_by_timestamp bs ts) as [b|]; [|rewrite LC; destruct (str_eqb t T); constructor].
    destruct (b_group b) as [|g0 gs0]; [rewrite LC; destruct (str_eqb t T); constructor|].
    destruct LC as [r ->]. destruct fs as [|f fs]; [contradiction|].
    unfold of_table. cbn [filter q_table]. destruct (str_eqb t T) eqn:E; [|constructor].
    apply str_eqb_eq in E. subst t. constructor; [|constructor].
    unfold rel. cbn [q_table q_ts q_fields q_tags p_ts p_fs p_key].
    split; [reflexivity|]. split; [reflexivity|]. split; [reflexivity|]. split; [|split; [|exact R1]].
    + intros n. destruct v; cbn [line_key]; rewrite ?tag_value_dedup, tag_value_sort; reflexivity.
    + destruct v; cbn [line_key]; [apply dedup_strict|apply sort_strict, R3; discriminate|apply sort_strict, R3; discriminate].
  - cbn [q_ts q_fields]. cbn in R. destruct R as (R1 & R2).
    destruct (str_eqb t T) eqn:E.
    2:{ destruct (bucket_by_timestamp bs ts) as [b|]; [|constructor]. destruct (b_group b) as [|g0 gs0]; [constructor|].
        destruct fs; [constructor|]. unfold of_table. cbn [filter q_table]. rewrite E. constructor. }
    pose proof (locate_cases bs (record_hash t (combine (tags_of d t) vals)) ts) as LC.
    destruct (bucket_by_timestamp bs ts) as [b|]; [|rewrite LC; destruct fs; constructor].
    destruct (b_group b) as [|g0 gs0]; [rewrite LC; destruct fs; constructor|].
    destruct LC as [r ->]. destruct fs as [|f fs]; [constructor|].
    unfold of_table. cbn [filter q_table]. rewrite E.
    apply str_eqb_eq in E. subst t. constructor; [|constructor].
    unfold rel. cbn [q_table q_ts q_fields q_tags p_ts p_fs p_key].
    split; [reflexivity|]. split; [reflexivity|]. split; [reflexivity|]. split; [|split; [|exact R1]].
    + intros n. unfold record_key. rewrite tag_value_sort. reflexivity.
    + unfold record_key. apply sort_strict. apply (given_nodup _ vals ND).
Qed.

(** ** Requests that agree on the replica set of a series *)
Lemma rel_in T ps ws : Forall2 (rel T) ps ws ->
  (forall p, In p ps -> exists w, In w ws /\ rel T p w) /\ (forall w, In w ws -> exists p, In p ps /\ rel T p w).
Proof.
  induction 1 as [|p w ps ws R F [A B]]; [split; intros ? []|]. split; intros x [<-|I].
  - exists w. split; [left; reflexivity|exact R].
  - destruct (A _ I) as (y & Y & Q). exists y. split; [right; exact Y|exact Q].
  - exists p. split; [left; reflexivity|exact R].
  - destruct (B _ I) as (y & Y & Q). exists y. split; [right; exact Y|exact Q].
Qed.
Lemma last_filter T tags ts f ws v : last_given T tags ts f (of_table T ws) v -> last_given T tags ts f ws v.
Proof.
  revert v. induction ws as [|w ws IH] using rev_ind; intros v; [auto|]. rewrite of_table_app. unfold of_table at 2. cbn.
  destruct (str_eqb (q_table w) T) eqn:E.
  - intros H. inversion H as [Q|ws' w' v' O H' Q|ws' w' v' O F Q].
    + destruct (of_table T ws); discriminate.
    + apply app_inj_tail in Q as [-> ->]. apply last_other; [exact O|]. apply IH, H'.
    + apply app_inj_tail in Q as [-> ->]. apply last_hit; assumption.
  - rewrite app_nil_r. intros H. apply last_other; [|apply IH, H]. left. intros (A & _). apply str_eqb_neq in E. auto.
Qed.
Definition agree_on (g : list (str * str) -> Z -> Z) (ps : list pl) : Prop :=
  forall p, In p ps -> p_repl p = g (p_key p) (p_ts p).
Lemma pick_given T g ps ws k ts f : Forall2 (rel T) ps ws -> agree_on g ps -> StronglySorted tlt k ->
  last_given T (tag_value k) ts f ws (pick_last (g k ts) k ts f None ps).
Proof.
  intros F G K. revert F G. revert ws. induction ps as [|p ps IH] using rev_ind; intros ws F G.
  - inversion F; subst. constructor.
  - apply Forall2_app_inv_l in F as (ws1 & ws2 & F1 & F2 & ->).
    inversion F2 as [|? w ? ? R F3]; subst. inversion F3; subst. clear F2 F3.
    assert (G1 : agree_on g ps) by (intros q Hq; apply G, in_app_iff; auto).
    assert (G2 : p_repl p = g (p_key p) (p_ts p)) by (apply G, in_app_iff; cbn; auto).
    specialize (IH _ F1 G1). rewrite pick_app. destruct R as (R1 & R2 & R3 & R4 & R5 & R6).
    destruct ((p_repl p =? g k ts) && tags_eqb (p_key p) k && (p_ts p =? ts)) eqn:E.
    + rewrite !andb_true_iff, !Z.eqb_eq, tags_eqb_eq in E. destruct E as [[E1 E2] E3].
      rewrite <- R3. destruct (field_value (q_fields w) f) as [v|] eqn:V.
      * apply last_hit; [|exact V]. split; [exact R1|]. split; [|congruence]. intros n. rewrite R4, E2. reflexivity.
      * apply last_other; [right; exact V|exact IH].
    + apply last_other; [|exact IH]. left. intros (Q1 & Q2 & Q3). apply not_true_iff_false in E. apply E.
      rewrite !andb_true_iff, !Z.eqb_eq, tags_eqb_eq.
      assert (EK : p_key p = k). { apply strict_ext; [exact R5|exact K|]. intros n. rewrite <- R4. apply Q2. }
      rewrite G2, EK. rewrite R2 in Q3. rewrite Q3. auto.
Qed.
Lemma agreed bs T g es : (forall e, In e es -> leaves T e) -> always bs request_ok es ->
  agree_on g (places bs empty T es) -> one_row_each bs es T.
Proof.
  intros L A G. pose proof (places_wishes bs T es empty (NoDup_nil _) L A) as F.
  destruct (rel_in _ _ _ F) as [F1 F2]. unfold one_row_each. rewrite (select_run bs T es empty L).
  change (select empty T) with (@nil srow). set (ps := places bs empty T es) in *.
  destruct (placed T ps) as (P1 & P2 & P3). { intros p Hp. destruct (F1 _ Hp) as (w & _ & R). apply R. }
  set (rows := fold_left (doit T) ps []) in *.
  assert (LR : forall a, In a rows -> exists p, In p ps /\ loc a = (p_repl p, T, p_key p, p_ts p)).
  { intros a I. apply P2. apply in_map, I. }
  split; [|split; [|split]].
  - intros i j a b Ha Hb E1 E2.
    destruct (LR a (nth_error_In _ _ Ha)) as (p & Hp & Ep). destruct (LR b (nth_error_In _ _ Hb)) as (q & Hq & Eq).
    unfold loc in Ep, Eq. injection Ep as A1 A2 A3 A4. injection Eq as B1 B2 B3 B4.
    destruct (F1 _ Hp) as (_ & _ & _ & _ & _ & _ & Sp & _). destruct (F1 _ Hq) as (_ & _ & _ & _ & _ & _ & Sq & _).
    assert (EK : p_key p = p_key q). { apply strict_ext; [exact Sp|exact Sq|]. intros n. rewrite <- A3, <- B3. apply E1. }
    assert (EL : loc a = loc b).
    { unfold loc. rewrite A1, A2, A3, A4, B1, B2, B3, B4. rewrite (G _ Hp), (G _ Hq), EK.
      replace (p_ts q) with (p_ts p) by congruence. reflexivity. }
    apply (proj1 (NoDup_nth_error (map loc rows)) P1).
    + apply nth_error_Some. rewrite nth_error_map, Ha. discriminate.
    + rewrite !nth_error_map, Ha, Hb. cbn. congruence.
  - intros a I. destruct (LR a I) as (p & Hp & Ep). unfold loc in Ep. injection Ep as A1 A2 A3 A4.
    destruct (F1 _ Hp) as (w & Hw & R1 & R2 & R3 & R4 & R5 & R6). exists w. apply filter_In in Hw as [Hw _].
    split; [exact Hw|]. split; [exact R1|]. split; [intros n; rewrite R4, A3; reflexivity|congruence].
  - intros w Hw ET. destruct (F2 w) as (p & Hp & R1 & R2 & R3 & R4 & R5 & R6).
    { apply filter_In. split; [exact Hw|]. apply str_eqb_eq, ET. }
    assert (I : In (p_repl p, T, p_key p, p_ts p) (map loc rows)) by (apply P2; eauto).
    apply in_map_iff in I as (a & Ea & Ia). unfold loc in Ea. injection Ea as A1 A2 A3 A4.
    exists a. split; [exact Ia|]. split; [exact R1|]. split; [intros n; rewrite R4, A3; reflexivity|congruence].
  - intros a f I. apply last_filter. rewrite (P3 _ f I). destruct (LR a I) as (p & Hp & Ep).
    unfold loc in Ep. injection Ep as A1 A2 A3 A4.
    destruct (F1 _ Hp) as (_ & _ & _ & _ & _ & _ & Sp & _).
    rewrite A1, (G _ Hp), A3, A4. apply (pick_given T g); [exact F|exact G|exact Sp].
Qed.

(** ** The three ways of writing that agree *)
Lemma places_inv bs T (Q : dbase -> event -> Prop) (R : pl -> Prop) es : forall d,
  NoDup (tags_of d T) -> (forall e, In e es -> leaves T e) -> always_from bs d Q es -> always_from bs d request_ok es ->
  (forall d e p, NoDup (tags_of d T) -> Q d e -> request_ok d e -> In p (place_of bs d T e) -> R p) ->
  forall p, In p (places bs d T es) -> R p.
Proof.
  induction es as [|e es IH]; intros d ND L A B H p; cbn [places]; [intros []|].
  apply always_cons in A as [A1 A2]. apply always_cons in B as [B1 B2]. intros I. apply in_app_iff in I as [I|I].
  - eapply H; eassumption.
  - eapply (IH (step bs d e)); try eassumption.
    + apply tags_nodup; [apply L; left; reflexivity|exact ND].
    + intros x Hx. apply L. right. exact Hx.
Qed.
Lemma full_given names vals : length vals = length names -> ~ In None vals ->
  map (fun c => (fst c, match snd c with Some v => v | None => [] end)) (combine names vals) = given names vals
  /\ map fst (given names vals) = names.
Proof.
  unfold given. revert vals. induction names as [|n names IH]; intros [|v vals] L NN; cbn in L; try discriminate; [auto|].
  cbn. destruct v as [v|]; [|exfalso; apply NN; left; reflexivity].
  destruct (IH vals) as [-> E]; [lia|intros I; apply NN; right; exact I|]. cbn. rewrite E. auto.
Qed.
Lemma by_name_strict l : by_name (map fst l) -> StronglySorted tlt l.
Proof.
  unfold by_name. induction l as [|x l IH]; cbn; intros H; [constructor|]. inversion H as [|? ? H1 H2]; subst.
  constructor; [auto|]. rewrite Forall_forall in *. intros y Hy. apply H2. apply in_map, Hy.
Qed.
Lemma always_leaves bs T (Q : dbase -> event -> Prop) es : (forall d e, Q d e -> leaves T e) -> always bs Q es ->
  forall e, In e es -> leaves T e.
Proof. intros H A e I. apply in_split in I as (es1 & es2 & ->). eapply H. exact (A es1 e es2 eq_refl). Qed.

Definition loc_or (bs : list bucket) (h ts : Z) : Z := match locate bs h ts with Some r => r | None => 0 end.
Lemma lines_full_inserts bs es T : always bs request_ok es -> always bs (lines_and_full_inserts T) es -> one_row_each bs es T.
Proof.
  intros A B.
  assert (L : forall e, In e es -> leaves T e).
  { apply (always_leaves bs T (lines_and_full_inserts T)); [|exact B]. intros d [| | | |]; cbn; auto. }
  apply (agreed bs T (fun k ts => loc_or bs (hash_tags (hash_with 0 T) k) ts)); [exact L|exact A|].
  intros p Hp. revert p Hp.
  apply (places_inv bs T (lines_and_full_inserts T) _ es empty (NoDup_nil _) L B A).
  intros d e p ND Q R I. destruct e as [v t tags ts fs|t vals ts fs|t n|t old new|t old new]; cbn [place_of] in I; try destruct I.
  - destruct (str_eqb t T) eqn:E; [|destruct I]. apply str_eqb_eq in E. subst t. cbn in Q, R.
    destruct (locate bs (line_hash v T tags) ts) as [r|] eqn:LO; [|destruct I]. destruct I as [<-|[]]. cbn [p_repl p_key p_ts p_fs].
    unfold loc_or. replace (hash_tags (hash_with 0 T) (line_key v tags)) with (line_hash v T tags); [rewrite LO; reflexivity|].
    destruct v; [reflexivity|reflexivity|]. exfalso. apply Q; reflexivity.
  - destruct (str_eqb t T) eqn:E; [|destruct I]. apply str_eqb_eq in E. subst t. cbn in Q, R.
    destruct fs as [|f fs]; [destruct I|].
    destruct (locate bs _ ts) as [r|] eqn:LO; [|destruct I]. destruct I as [<-|[]]. cbn [p_repl p_key p_ts p_fs].
    destruct (Q eq_refl) as [SN NN]. destruct R as [_ R]. destruct (full_given _ _ R NN) as [E1 E2].
    unfold loc_or. replace (hash_tags _ _) with (record_hash T (combine (tags_of d T) vals)); [rewrite LO; reflexivity|].
    unfold record_hash, record_key. rewrite E1. fold (given (tags_of d T) vals). f_equal. symmetry. apply sort_id.
    apply by_name_strict. rewrite E2. exact SN.
Qed.
Lemma given_values names vals : NoDup names -> length vals = length names ->
  vals = map (fun n => tag_value (given names vals) n) names.
Proof.
  unfold given. revert vals. induction names as [|n names IH]; intros [|v vals] ND L; cbn in L; try discriminate; [reflexivity|].
  inversion ND as [|? ? N1 N2]; subst. cbn [combine flat_map fst snd map].
  assert (X : forall m, In m names -> tag_value ((match v with Some v0 => [(n, v0)] | None => [] end) ++ given names vals) m
                        = tag_value (given names vals) m).
  { intros m Hm. destruct v as [v|]; cbn; [|reflexivity]. destruct (str_eqb n m) eqn:E; [|reflexivity].
    apply str_eqb_eq in E. subst. contradiction. }
  f_equal.
  - destruct v as [v|]; cbn; [rewrite str_eqb_refl; reflexivity|].
    symmetry. apply tag_value_notin. intros I. apply N1. eapply given_in, I.
  - rewrite (IH vals N2) at 1 by lia. apply map_ext_in. intros m Hm. symmetry. apply (X m Hm).
Qed.
Lemma only_inserts bs es T names : always bs request_ok es -> always bs (inserts_only T names) es -> one_row_each bs es T.
Proof.
  intros A B.
  assert (L : forall e, In e es -> leaves T e).
  { apply (always_leaves bs T (inserts_only T names)); [|exact B]. intros d [| | | |]; cbn; auto. }
  apply (agreed bs T (fun k ts => loc_or bs (record_hash T (combine names (map (tag_value k) names))) ts)); [exact L|exact A|].
  intros p Hp. revert p Hp.
  apply (places_inv bs T (inserts_only T names) _ es empty (NoDup_nil _) L B A).
  intros d e p ND Q R I. destruct e as [v t tags ts fs|t vals ts fs|t n|t old new|t old new]; cbn [place_of] in I; try destruct I.
  - cbn in Q. apply str_eqb_neq in Q. rewrite Q in I. destruct I.
  - destruct (str_eqb t T) eqn:E; [|destruct I]. apply str_eqb_eq in E. subst t. cbn in Q, R. specialize (Q eq_refl).
    destruct fs as [|f fs]; [destruct I|].
    destruct (locate bs _ ts) as [r|] eqn:LO; [|destruct I]. destruct I as [<-|[]]. cbn [p_repl p_key p_ts p_fs]. rewrite Q in *. destruct R as [_ R].
    unfold loc_or. replace (map _ names) with vals; [rewrite LO; reflexivity|].
    rewrite (given_values names vals ND R) at 1. apply map_ext. intros n. symmetry. unfold record_key. apply tag_value_sort.
Qed.
Lemma only_logs bs es T : always bs request_ok es -> always bs (logs_only T) es -> one_row_each bs es T.
Proof.
  intros A B.
  assert (L : forall e, In e es -> leaves T e).
  { apply (always_leaves bs T (logs_only T)); [|exact B]. intros d [| | | |]; cbn; auto. }
  apply (agreed bs T (fun k ts => loc_or bs 0 ts)); [exact L|exact A|].
  intros p Hp. revert p Hp.
  apply (places_inv bs T (logs_only T) _ es empty (NoDup_nil _) L B A).
  intros d e p ND Q R I. destruct e as [v t tags ts fs|t vals ts fs|t n|t old new|t old new]; cbn [place_of] in I; try destruct I.
  - destruct (str_eqb t T) eqn:E; [|destruct I]. apply str_eqb_eq in E. subst t. cbn in Q. rewrite (Q eq_refl) in I. cbn in I.
    destruct (locate bs 0 ts) as [r|] eqn:LO; [|destruct I]. destruct I as [<-|[]]. cbn [p_repl p_key p_ts p_fs]. unfold loc_or. rewrite LO. reflexivity.
  - cbn in Q. apply str_eqb_neq in Q. rewrite Q in I. destruct I.
Qed.
