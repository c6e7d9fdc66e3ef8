(** From the rows of the batches to the groups of a write. *)
From Verif Require Import Prelude PrecisionModel WriteModel WriteSpec WriteProofs WriteProofs2.

(** *** One row *)
Section ROW.
Variables (s m : schema) (L : list crow) (cs : list column) (i : nat) (l : line).
Hypothesis (GS : good s) (GM : good m).
Hypothesis (CF : cols_fin L cs).
Hypothesis (NL : nth_error L i = Some (line_cells l)).
Hypothesis (NDC : NoDup (names (line_cells l))).
Hypothesis (LC : clean_line l).
Hypothesis (KN : known s m l).
Hypothesis (TM : forall n v r, In r L -> lookup n r = Some (KTime, v) -> n = TIME).

Lemma in_L : In (line_cells l) L. Proof. exact (nth_error_In _ _ NL). Qed.
Lemma i_lt : (i < length L)%nat. Proof. apply nth_error_Some. congruence. Qed.
Lemma row_full c : In c cs -> (i < length (c_data c))%nat.
Proof. intros I. destruct CF as [_ F]. rewrite Forall_forall in F. destruct (F c I) as [-> _]. exact i_lt. Qed.
Lemma row_at c : In c cs -> lookup (c_name c) (line_cells l) = option_map (fun v => (c_kind c, v)) (at_row i c).
Proof.
  intros I. destruct CF as [(_ & F & _) _]. rewrite Forall_forall in F. destruct (F c I) as (_ & _ & H).
  rewrite (H _ _ NL). unfold at_row. destruct (nth i (c_valid c) false); reflexivity.
Qed.
Lemma row_cell n k v : In (n, k, v) (line_cells l) <-> exists c, In c cs /\ c_name c = n /\ c_kind c = k /\ at_row i c = Some v.
Proof.
  rewrite <- (lookup_In n k v _ NDC). split.
  - intros Q. destruct CF as [(_ & _ & C1 & _) _]. destruct (C1 _ _ _ _ in_L Q) as (c & I & EN & EK).
    exists c. split; [exact I|]. split; [exact EN|]. split; [exact EK|]. pose proof (row_at c I) as R. rewrite EN, Q in R.
    destruct (at_row i c) as [w|]; [|discriminate]. cbn in R. injection R as _ ->. reflexivity.
  - intros (c & I & <- & <- & A). rewrite (row_at c I), A. reflexivity.
Qed.
Lemma field_cell n v : In (n, v) (l_fields l) <-> In (n, KField (type_of v), v) (line_cells l).
Proof.
  unfold line_cells. rewrite !in_app_iff, !in_map_iff. split.
  - intros I. right. left. exists (n, v). auto.
  - intros [((a & b) & Q & _)|[((a & b) & Q & I)|[Q|[]]]]; cbn in Q; [discriminate| |discriminate].
    apply (f_equal (fun x => (fst (fst x), snd x))) in Q. cbn in Q. rewrite <- Q. exact I.
Qed.
Lemma any_field_cell n ty v : In (n, KField ty, v) (line_cells l) -> ty = type_of v.
Proof.
  unfold line_cells. rewrite !in_app_iff, !in_map_iff.
  intros [((a & b) & Q & _)|[((a & b) & Q & I)|[Q|[]]]]; cbn in Q; [discriminate| |discriminate]. injection Q as _ <- <-. reflexivity.
Qed.
Lemma tag_cell n v : In (n, v) (l_tags l) <-> In (n, KTag, CS v) (line_cells l).
Proof.
  unfold line_cells. rewrite !in_app_iff, !in_map_iff. split.
  - intros I. left. exists (n, v). auto.
  - intros [((a & b) & Q & I)|[((a & b) & Q & I)|[Q|[]]]]; cbn in Q; [|discriminate|discriminate]. injection Q as -> ->. exact I.
Qed.
Lemma any_tag_cell n c : In (n, KTag, c) (line_cells l) -> exists v, c = CS v.
Proof.
  unfold line_cells. rewrite !in_app_iff, !in_map_iff.
  intros [((a & b) & Q & I)|[((a & b) & Q & I)|[Q|[]]]]; cbn in Q; [|discriminate|discriminate]. injection Q as _ <-. eauto.
Qed.
Lemma time_cell : In (TIME, KTime, CI (l_ts l)) (line_cells l).
Proof. unfold line_cells. rewrite !in_app_iff. right. right. left. reflexivity. Qed.
Lemma any_time_cell n c : In (n, KTime, c) (line_cells l) -> n = TIME /\ c = CI (l_ts l).
Proof.
  unfold line_cells. rewrite !in_app_iff, !in_map_iff.
  intros [((a & b) & Q & I)|[((a & b) & Q & I)|[Q|[]]]]; cbn in Q; [discriminate|discriminate|]. injection Q as <- <-. auto.
Qed.
Lemma known_field c v : In c cs -> fieldk (c_kind c) = true -> at_row i c = Some v ->
  exists tc tc', In tc (s_cols s) /\ In tc' (s_cols m) /\ t_name tc = c_name c /\ is_field tc = true
                 /\ t_id tc' = t_id tc /\ t_name tc' = c_name c.
Proof.
  intros I K A. destruct (KN (c_name c) (c_kind c)) as (tc & tc' & A1 & A2 & A3 & A4 & A5 & A6).
  - apply uses_cells. exists v. apply row_cell. eauto.
  - intros Q. rewrite Q in K. discriminate.
  - exists tc, tc'. repeat (split; [assumption|]). split; [|auto]. unfold is_field. rewrite A4. exact K.
Qed.

Lemma row_ok from prec ts : timestamp_convert from prec (l_ts l) = Some ts ->
  exists r, to_row from prec s cs i = Ok r /\ w_ts r = ts /\ Permutation (named m (values s r)) (l_fields l).
Proof.
  intros TC. destruct CF as [(ND & FC & C1 & C2) FF].
  assert (TU : forall c1, In c1 cs -> c_kind c1 = KTime -> c_name c1 = TIME).
  { intros c1 I1 K1. destruct (C2 c1 I1) as (r & v & J & Q). rewrite K1 in Q. exact (TM _ _ _ J Q). }
  destruct (fill_row_spec s i GS cs (repeat None (width s)) false None) as (fs & h & t & E & LF & A & B & C & D).
  - exact row_full.
  - intros c v I K Q. destruct (known_field c v I K Q) as (tc & _ & A1 & _ & A3 & A4 & _). eauto.
  - intros c I K. pose proof (row_at c I) as R. rewrite (TU c I K) in R.
    rewrite (proj2 (lookup_In TIME KTime (CI (l_ts l)) _ NDC) time_cell) in R.
    destruct (at_row i c) as [v|] eqn:Q; [|discriminate]. cbn in R. injection R as _ <-. exists (l_ts l).
    unfold at_row in Q. destruct (nth i (c_valid c) false); [|discriminate]. injection Q as Q.
    rewrite <- Q. apply nth_error_nth'. apply row_full. exact I.
  - intros c1 c2 I1 I2 K1 K2. apply (nodup_map_inj c_name cs); auto. rewrite (TU c1 I1 K1), (TU c2 I2 K2). reflexivity.
  - exact ND.
  - apply repeat_length.
  - assert (H : h = true).
    { apply B. right. destruct LC as (_ & _ & NE). destruct (l_fields l) as [|[n v] r] eqn:EL; [congruence|].
      assert (I : In (n, v) (l_fields l)) by (rewrite EL; left; reflexivity).
      apply field_cell in I. apply row_cell in I as (c & I & _ & K & Q). exists c, v. rewrite K. auto. }
    assert (T : t = Some (l_ts l)).
    { destruct (proj1 (row_cell _ _ _) time_cell) as (c & I & _ & K & Q). apply (C c (l_ts l) I K).
      unfold at_row in Q. destruct (nth i (c_valid c) false); [|discriminate]. injection Q as Q.
      rewrite <- Q. apply nth_error_nth'. apply row_full. exact I. }
    unfold to_row. rewrite E. cbn [bind]. rewrite H, T, TC. cbn [negb].
    eexists. split; [reflexivity|]. split; [reflexivity|].
    assert (LV : length (w_fields (RW ts fs)) = length (field_ids s)) by (cbn [w_fields]; rewrite <- width_len by exact GS; exact LF).
    apply named_perm.
    + exact GM.
    + apply values_nodup, field_ids_nodup, GS.
    + exact (proj1 (proj2 LC)).
    + intros n v. split.
      * intros I. apply field_cell in I. apply row_cell in I as (c & I & EN & K & Q).
        assert (FK : fieldk (c_kind c) = true) by (rewrite K; reflexivity).
        destruct (known_field c v I FK Q) as (tc & tc' & A1 & A2 & A3 & A4 & A5 & A6).
        assert (J : In (t_id tc) (field_ids s)) by (apply field_ids_In; eauto).
        apply In_nth_error in J as [p J]. exists (t_id tc). split.
        -- apply (values_In s _ (t_id tc) v LV). exists p. split; [exact J|]. cbn [w_fields].
           apply (proj1 (A p (t_id tc) J) c v I FK Q). exists tc. auto.
        -- apply name_of_spec; [exact GM|]. exists tc'. split; [exact A2|]. split; [exact A5|congruence].
      * intros (id & I & NM). apply (values_In s _ id v LV) in I as (p & NP & V). cbn [w_fields] in V.
        assert (J : In id (field_ids s)) by exact (nth_error_In _ _ NP).
        apply field_ids_In in J as (tc0 & J1 & J2 & J3).
        assert (DEC : forall q, In q cs -> True) by auto.
        assert (EX : (exists c w, In c cs /\ fieldk (c_kind c) = true /\ at_row i c = Some w
                        /\ exists tc, In tc (s_cols s) /\ t_name tc = c_name c /\ t_id tc = id)
                     \/ (forall c w, In c cs -> fieldk (c_kind c) = true -> at_row i c = Some w ->
                           ~ (exists tc, In tc (s_cols s) /\ t_name tc = c_name c /\ t_id tc = id))).
        { clear - J1 J3. induction cs as [|c l0 IH]; [right; intros c w []|].
          destruct IH as [(c0 & w & I & R)|IH]; [left; exists c0, w; split; [right; exact I|exact R]|].
          destruct (fieldk (c_kind c)) eqn:K; [|right; intros c1 w [<-|I]; [congruence|apply IH; exact I]].
          destruct (at_row i c) as [w0|] eqn:Q; [|right; intros c1 w [<-|I]; [congruence|apply IH; exact I]].
          destruct (existsb (fun tc => str_eqb (t_name tc) (c_name c) && (t_id tc =? id)) (s_cols s)) eqn:X.
          - left. exists c, w0. split; [left; reflexivity|]. split; [exact K|]. split; [exact Q|].
            apply existsb_exists in X as (tc & X1 & X2). apply andb_true_iff in X2 as [X2 X3].
            apply str_eqb_eq in X2. apply Z.eqb_eq in X3. eauto.
          - right. intros c1 w [<-|I]; [|apply IH; exact I]. intros _ _ (tc & X1 & X2 & X3).
            assert (Y : existsb (fun tc => str_eqb (t_name tc) (c_name c) && (t_id tc =? id)) (s_cols s) = true); [|congruence].
            apply existsb_exists. exists tc. split; [exact X1|]. rewrite X2, str_eqb_refl. apply Z.eqb_eq. exact X3. }
        destruct EX as [(c & w & I & FK & Q & tc & T1 & T2 & T3)|EX].
        -- rewrite (proj1 (A p id NP) c w I FK Q (ex_intro _ tc (conj T1 (conj T2 T3)))) in V. injection V as <-.
           destruct (known_field c w I FK Q) as (tc1 & tc' & A1 & A2 & A3 & A4 & A5 & A6).
           assert (tc1 = tc) as -> by (apply (nodup_map_inj t_name (s_cols s)); [exact (proj2 GS)|exact A1|exact T1|congruence]).
           apply name_of_spec in NM as (c2 & M1 & M2 & M3); [|exact GM].
           assert (c2 = tc') as -> by (apply (nodup_map_inj t_id (s_cols m)); [exact (proj1 GM)|exact M1|exact A2|congruence]).
           apply field_cell. apply row_cell. exists c. split; [exact I|]. split; [congruence|]. split; [|exact Q].
           assert (RC : In (c_name c, c_kind c, w) (line_cells l)) by (apply row_cell; eauto).
           destruct (c_kind c) as [|ty|]; try discriminate. apply any_field_cell in RC. subst ty. reflexivity.
        -- rewrite (proj2 (A p id NP) EX) in V. rewrite nth_repeat_lt in V; [discriminate|]. rewrite width_len by exact GS.
           apply nth_error_Some. congruence.
Qed.

Lemma key_tags_ok : forall cs', (forall c, In c cs' -> In c cs) -> NoDup (map c_name cs') ->
  exists ts, key_tags s i cs' = Ok ts /\ NoDup (map fst ts)
    /\ forall id v, In (id, v) ts <-> exists c tc, In c cs' /\ c_kind c = KTag /\ at_row i c = Some (CS v)
                                       /\ In tc (s_cols s) /\ t_name tc = c_name c /\ t_id tc = id.
Proof.
  induction cs' as [|c cs' IH]; intros SUB ND; cbn [key_tags].
  - exists []. split; [reflexivity|]. split; [constructor|]. intros id v. split; [intros []|intros (c & tc & [] & _)].
  - inversion ND as [|? ? NI ND']; subst.
    destruct IH as (ts & E & N & M); [intros c' I; apply SUB; right; exact I|exact ND'|].
    assert (SKIP : (forall v, c_kind c = KTag -> at_row i c <> Some v) ->
       exists ts, key_tags s i cs' = Ok ts /\ NoDup (map fst ts)
         /\ forall id v, In (id, v) ts <-> exists c0 tc, In c0 (c :: cs') /\ c_kind c0 = KTag /\ at_row i c0 = Some (CS v)
                                       /\ In tc (s_cols s) /\ t_name tc = c_name c0 /\ t_id tc = id).
    { intros H. exists ts. split; [exact E|]. split; [exact N|]. intros id v. rewrite M. split.
      - intros (c0 & tc & I & R). exists c0, tc. split; [right; exact I|exact R].
      - intros (c0 & tc & [<-|I] & K & Q & R); [exfalso; exact (H _ K Q)|]. exists c0, tc. auto. }
    destruct (c_kind c) as [|ty|] eqn:EK; [|apply SKIP; discriminate|apply SKIP; discriminate].
    rewrite read_at by (apply row_full, SUB; left; reflexivity). cbn [bind].
    destruct (at_row i c) as [v|] eqn:Q; [|apply SKIP; intros v _; discriminate].
    assert (RC : In (c_name c, KTag, v) (line_cells l)).
    { apply row_cell. exists c. split; [apply SUB; left; reflexivity|auto]. }
    destruct (any_tag_cell _ _ RC) as [w ->].
    destruct (KN (c_name c) KTag) as (tc & tc' & A1 & A2 & A3 & A4 & A5 & A6).
    { apply uses_cells. eauto. }
    { discriminate. }
    rewrite (proj2 (col_of_spec s (c_name c) tc GS) (conj A1 A3)), E. cbn [bind].
    eexists. split; [reflexivity|]. split.
    + cbn [map fst]. constructor; [|exact N]. intros I. apply in_map_iff in I as ((id & v') & X & I). cbn in X. subst id.
      apply M in I as (c0 & tc0 & I & K & Q0 & B1 & B2 & B3).
      assert (tc0 = tc) as -> by (apply (nodup_map_inj t_id (s_cols s)); [exact (proj1 GS)|exact B1|exact A1|exact B3]).
      apply NI. rewrite <- A3, B2. apply in_map. exact I.
    + intros id v'. cbn [In]. rewrite M. split.
      * intros [X|(c0 & tc0 & I & R)].
        -- injection X as <- <-. exists c, tc. split; [left; reflexivity|]. auto 10.
        -- exists c0, tc0. split; [right; exact I|exact R].
      * intros (c0 & tc0 & [<-|I] & K & Q0 & B1 & B2 & B3).
        -- left. rewrite Q in Q0. injection Q0 as <-.
           assert (tc0 = tc) as -> by (apply (nodup_map_inj t_name (s_cols s)); [exact (proj2 GS)|exact B1|exact A1|congruence]).
           congruence.
        -- right. exists c0, tc0. auto 10.
Qed.
Lemma key_ok table : exists k, build_key table s cs i = Ok k /\ k_table k = table /\ Permutation (named m (k_tags k)) (l_tags l).
Proof.
  destruct (key_tags_ok cs) as (ts & E & N & M); [auto|exact (proj1 (proj1 CF))|].
  unfold build_key. rewrite E. cbn [bind]. eexists. split; [reflexivity|]. split; [reflexivity|]. cbn [k_tags].
  set (ss := isort _ ts). assert (P : Permutation ss ts) by apply isort_perm. clearbody ss.
  apply named_perm.
  - exact GM.
  - exact (Permutation_NoDup (Permutation_map fst (Permutation_sym P)) N).
  - exact (proj1 LC).
  - intros n v. rewrite tag_cell, row_cell. split.
    + intros (c & I & EN & K & Q). destruct (KN n KTag) as (tc & tc' & A1 & A2 & A3 & A4 & A5 & A6).
      { apply uses_cells. exists (CS v). apply row_cell. eauto. }
      { discriminate. }
      exists (t_id tc). split.
      * apply (Permutation_in _ (Permutation_sym P)). apply M. exists c, tc. split; [exact I|]. split; [exact K|]. split; [exact Q|].
        split; [exact A1|]. split; [congruence|reflexivity].
      * apply name_of_spec; [exact GM|]. exists tc'. auto.
    + intros (id & I & NM). apply (Permutation_in _ P) in I. apply M in I as (c & tc & I & K & Q & T1 & T2 & T3).
      exists c. split; [exact I|]. split; [|auto].
      destruct (KN (c_name c) KTag) as (tc1 & tc' & A1 & A2 & A3 & A4 & A5 & A6).
      { apply uses_cells. exists (CS v). apply row_cell. exists c. auto. }
      { discriminate. }
      assert (tc1 = tc) as -> by (apply (nodup_map_inj t_name (s_cols s)); [exact (proj2 GS)|exact A1|exact T1|congruence]).
      apply name_of_spec in NM as (c2 & M1 & M2 & M3); [|exact GM].
      assert (c2 = tc') as -> by (apply (nodup_map_inj t_id (s_cols m)); [exact (proj1 GM)|exact M1|exact A2|congruence]).
      congruence.
Qed.
End ROW.
