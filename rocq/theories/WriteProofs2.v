(** Proofs about the rows built from the batches of a request. *)
From Verif Require Import Prelude PrecisionModel WriteModel WriteSpec WriteProofs.

Lemma nodup_map_inj {A B} (f : A -> B) l x y : NoDup (map f l) -> In x l -> In y l -> f x = f y -> x = y.
Proof.
  induction l as [|z l IH]; cbn; intros ND I J E; [destruct I|]. inversion ND as [|? ? NI ND']; subst.
  destruct I as [->|I], J as [->|J]; [reflexivity| | |apply IH; auto]; exfalso; apply NI.
  - rewrite E. apply in_map. exact J.
  - rewrite <- E. apply in_map. exact I.
Qed.
Lemma col_of_spec s n c : good s -> (col_of s n = Some c <-> In c (s_cols s) /\ t_name c = n).
Proof.
  intros [_ ND]. unfold col_of. split.
  - intros H. apply find_some in H as [I E]. rewrite <- in_rev in I. apply str_eqb_eq in E. auto.
  - intros [I E]. destruct (find (fun c => str_eqb (t_name c) n) (rev (s_cols s))) as [c'|] eqn:F.
    + apply find_some in F as [I' E']. rewrite <- in_rev in I'. apply str_eqb_eq in E'. f_equal.
      apply (nodup_map_inj t_name (s_cols s)); auto. congruence.
    + exfalso. assert (I' : In c (rev (s_cols s))) by (rewrite <- in_rev; exact I).
      pose proof (find_none _ _ F c I') as G. cbn in G. apply str_eqb_neq in G. auto.
Qed.
Lemma name_of_spec m id n : good m -> (name_of m id = Some n <-> exists c, In c (s_cols m) /\ t_id c = id /\ t_name c = n).
Proof.
  intros [ND _]. unfold name_of. split.
  - destruct (find _ (s_cols m)) as [c|] eqn:F; [|discriminate]. intros H. injection H as H.
    apply find_some in F as [I E]. apply Z.eqb_eq in E. exists c. auto.
  - intros (c & I & E & H). destruct (find (fun c => t_id c =? id) (s_cols m)) as [c'|] eqn:F.
    + apply find_some in F as [I' E']. apply Z.eqb_eq in E'. cbn. f_equal. rewrite <- H. f_equal.
      apply (nodup_map_inj t_id (s_cols m)); auto. congruence.
    + exfalso. pose proof (find_none _ _ F c I) as G. cbn in G. apply Z.eqb_neq in G. auto.
Qed.
Lemma nodup_filter_map {A B} (f : A -> B) p l : NoDup (map f l) -> NoDup (map f (filter p l)).
Proof.
  induction l as [|x l IH]; cbn; intros ND; [constructor|]. inversion ND as [|? ? NI ND']; subst.
  destruct (p x); cbn; [|auto]. constructor; [|auto]. intros I. apply NI. apply in_map_iff in I as (y & E & I).
  apply filter_In in I as [I _]. rewrite <- E. apply in_map. exact I.
Qed.
Lemma field_ids_nodup s : good s -> NoDup (field_ids s).
Proof.
  intros [ND _]. unfold field_ids. apply (Permutation_NoDup (Permutation_sym (isort_perm _ _))).
  apply nodup_filter_map. exact ND.
Qed.
Lemma field_ids_In s id : In id (field_ids s) <-> exists c, In c (s_cols s) /\ is_field c = true /\ t_id c = id.
Proof.
  unfold field_ids. split.
  - intros I. apply (Permutation_in _ (isort_perm _ _)) in I. apply in_map_iff in I as (c & E & I).
    apply filter_In in I as [I F]. eauto.
  - intros (c & I & F & E). apply (Permutation_in _ (Permutation_sym (isort_perm _ _))). apply in_map_iff. exists c.
    split; [exact E|]. apply filter_In. auto.
Qed.
Lemma width_len s : good s -> width s = length (field_ids s).
Proof. intros G. unfold width. rewrite nodup_fixed_point; [reflexivity|]. apply field_ids_nodup. exact G. Qed.
Lemma last_pos_some x l p : last_pos x l = Some p -> nth_error l p = Some x.
Proof.
  revert p. induction l as [|y l IH]; cbn; intros p H; [discriminate|]. destruct (last_pos x l) as [i|].
  - injection H as <-. cbn. apply IH. reflexivity.
  - destruct (Z.eqb_spec y x); [|discriminate]. injection H as <-. subst. reflexivity.
Qed.
Lemma last_pos_In x l : In x l -> exists p, last_pos x l = Some p.
Proof.
  induction l as [|y l IH]; cbn; intros I; [destruct I|]. destruct (last_pos x l) as [i|]; [eauto|].
  destruct (Z.eqb_spec y x); [eauto|]. destruct I as [I|I]; [contradiction|]. destruct (IH I). discriminate.
Qed.
Lemma nth_error_unique {A} (l : list A) p q x : NoDup l -> nth_error l p = Some x -> nth_error l q = Some x -> p = q.
Proof.
  intros ND E F. apply (proj1 (NoDup_nth_error l) ND); [apply nth_error_Some; congruence|congruence].
Qed.

(** The value of row [i] in a column. *)
Definition at_row (i : nat) (c : column) : option cell := if nth i (c_valid c) false then Some (nth i (c_data c) (CI 0)) else None.
Definition fieldk (k : kind) : bool := match k with KField _ => true | _ => false end.
Lemma read_at c i : (i < length (c_data c))%nat -> read c i = Ok (at_row i c).
Proof. intros H. unfold read. apply Nat.ltb_lt in H. rewrite H. reflexivity. Qed.

Lemma fill_row_spec s i : good s -> forall cs fs h t,
  (forall c, In c cs -> (i < length (c_data c))%nat) ->
  (forall c v, In c cs -> fieldk (c_kind c) = true -> at_row i c = Some v ->
     exists tc, In tc (s_cols s) /\ t_name tc = c_name c /\ is_field tc = true) ->
  (forall c, In c cs -> c_kind c = KTime -> exists z, nth_error (c_data c) i = Some (CI z)) ->
  (forall c1 c2, In c1 cs -> In c2 cs -> c_kind c1 = KTime -> c_kind c2 = KTime -> c1 = c2) ->
  NoDup (map c_name cs) -> length fs = width s ->
  exists fs' h' t', fill_row s i cs (fs, h, t) = Ok (fs', h', t') /\ length fs' = width s
    /\ (forall p id, nth_error (field_ids s) p = Some id ->
          (forall c v, In c cs -> fieldk (c_kind c) = true -> at_row i c = Some v ->
             (exists tc, In tc (s_cols s) /\ t_name tc = c_name c /\ t_id tc = id) -> nth p fs' None = Some v)
          /\ ((forall c v, In c cs -> fieldk (c_kind c) = true -> at_row i c = Some v ->
                 ~ (exists tc, In tc (s_cols s) /\ t_name tc = c_name c /\ t_id tc = id)) -> nth p fs' None = nth p fs None))
    /\ (h' = true <-> h = true \/ exists c v, In c cs /\ fieldk (c_kind c) = true /\ at_row i c = Some v)
    /\ (forall c z, In c cs -> c_kind c = KTime -> nth_error (c_data c) i = Some (CI z) -> t' = Some z)
    /\ ((forall c, In c cs -> c_kind c <> KTime) -> t' = t).
Proof.
  intros G. induction cs as [|c cs IH]; intros fs h t HL HF HT HU ND LF; cbn [fill_row].
  - exists fs, h, t. split; [reflexivity|]. split; [exact LF|]. split; [|split; [|split]].
    + intros p id _. split; [intros c v []|reflexivity].
    + split; [auto|]. intros [H|(c & v & [] & _)]. exact H.
    + intros c z [].
    + reflexivity.
  - inversion ND as [|? ? NI ND']; subst.
    assert (IH' := fun fs h t => IH fs h t (fun c' I => HL c' (or_intror I)) (fun c' v I => HF c' v (or_intror I))
                     (fun c' I => HT c' (or_intror I)) (fun c1 c2 I1 I2 => HU c1 c2 (or_intror I1) (or_intror I2)) ND').
    assert (SKIP : fieldk (c_kind c) && match at_row i c with Some _ => true | None => false end = false ->
       c_kind c <> KTime -> fill_row s i (c :: cs) (fs, h, t) = fill_row s i cs (fs, h, t) ->
       exists fs' h' t', fill_row s i (c :: cs) (fs, h, t) = Ok (fs', h', t') /\ length fs' = width s
    /\ (forall p id, nth_error (field_ids s) p = Some id ->
          (forall c0 v, In c0 (c :: cs) -> fieldk (c_kind c0) = true -> at_row i c0 = Some v ->
             (exists tc, In tc (s_cols s) /\ t_name tc = c_name c0 /\ t_id tc = id) -> nth p fs' None = Some v)
          /\ ((forall c0 v, In c0 (c :: cs) -> fieldk (c_kind c0) = true -> at_row i c0 = Some v ->
                 ~ (exists tc, In tc (s_cols s) /\ t_name tc = c_name c0 /\ t_id tc = id)) -> nth p fs' None = nth p fs None))
    /\ (h' = true <-> h = true \/ exists c0 v, In c0 (c :: cs) /\ fieldk (c_kind c0) = true /\ at_row i c0 = Some v)
    /\ (forall c0 z, In c0 (c :: cs) -> c_kind c0 = KTime -> nth_error (c_data c0) i = Some (CI z) -> t' = Some z)
    /\ ((forall c0, In c0 (c :: cs) -> c_kind c0 <> KTime) -> t' = t)).
    { intros SK NT ->. destruct (IH' fs h t LF) as (fs' & h' & t' & E & L' & A & B & C & D).
      exists fs', h', t'. split; [exact E|]. split; [exact L'|]. split; [|split; [|split]].
      - intros p id NE. destruct (A p id NE) as [A1 A2]. split.
        + intros c0 v [<-|I] K Q; [rewrite K, Q in SK; discriminate|]. apply A1; assumption.
        + intros H. apply A2. intros c0 v I. apply H. right. exact I.
      - rewrite B. split; (intros [H|(c0 & v & I & K & Q)]; [left; exact H|right]).
        + exists c0, v. split; [right; exact I|auto].
        + destruct I as [<-|I]; [rewrite K, Q in SK; discriminate|]. exists c0, v. auto.
      - intros c0 z [<-|I] K; [contradiction|]. apply C; assumption.
      - intros H. apply D. intros c0 I. apply H. right. exact I. }
    cbn [fill_row] in SKIP. destruct (c_kind c) as [|ty|] eqn:EK.
    + apply SKIP; [reflexivity|discriminate|reflexivity].
    + rewrite (read_at c i (HL c (or_introl eq_refl))) in SKIP |- *. cbn [bind] in SKIP |- *. destruct (at_row i c) as [v|] eqn:AR.
      2:{ apply SKIP; [reflexivity|discriminate|reflexivity]. }
      destruct (HF c v (or_introl eq_refl)) as (tc & I1 & I2 & I3); [rewrite EK; reflexivity|exact AR|].
      rewrite (proj2 (col_of_spec s (c_name c) tc G) (conj I1 I2)).
      destruct (last_pos_In (t_id tc) (field_ids s)) as [p LP]; [apply field_ids_In; eauto|]. rewrite LP.
      pose proof (last_pos_some _ _ _ LP) as NP.
      assert (PL : (p < length fs)%nat) by (rewrite LF, width_len by exact G; apply nth_error_Some; congruence).
      apply Nat.ltb_lt in PL as PL'. rewrite PL'.
      destruct (IH' (set_at p (Some v) fs) true t) as (fs' & h' & t' & E & L' & A & B & C & D); [rewrite set_at_length; exact LF|].
      exists fs', h', t'. split; [exact E|]. split; [exact L'|]. split; [|split; [|split]].
      * intros q id NE. destruct (A q id NE) as [A1 A2]. split.
        -- intros c0 w [<-|I] K Q H; [|apply (A1 c0 w); assumption].
           rewrite AR in Q. injection Q as <-. destruct H as (tc' & J1 & J2 & J3).
           assert (tc' = tc) as -> by (apply (nodup_map_inj t_name (s_cols s)); [exact (proj2 G)|exact J1|exact I1|congruence]).
           assert (q = p) as -> by (apply (nth_error_unique (field_ids s) q p id); [apply field_ids_nodup; exact G|exact NE|congruence]).
           rewrite A2.
           ++ rewrite nth_set_at by exact PL. rewrite Nat.eqb_refl. reflexivity.
           ++ intros c0 w I K' Q' (tc2 & T1 & T2 & T3). apply NI.
              assert (tc2 = tc) as -> by (apply (nodup_map_inj t_id (s_cols s)); [exact (proj1 G)|exact T1|exact I1|congruence]).
              rewrite <- I2, T2. apply in_map. exact I.
        -- intros H. rewrite A2 by (intros c0 w I; apply H; right; exact I). rewrite nth_set_at by exact PL.
           destruct (Nat.eqb_spec q p) as [->|]; [|reflexivity]. exfalso.
           apply (H c v (or_introl eq_refl)); [rewrite EK; reflexivity|exact AR|]. exists tc. split; [exact I1|]. split; [exact I2|congruence].
      * rewrite B. split; [|left; reflexivity]. intros _. right. exists c, v. split; [left; reflexivity|]. rewrite EK. auto.
      * intros c0 z [<-|I] K; [congruence|]. apply C; assumption.
      * intros H. apply D. intros c0 I. apply H. right. exact I.
    + destruct (HT c (or_introl eq_refl) EK) as [z HZ]. rewrite HZ.
      destruct (IH' fs h (Some z) LF) as (fs' & h' & t' & E & L' & A & B & C & D).
      exists fs', h', t'. split; [exact E|]. split; [exact L'|]. split; [|split; [|split]].
      * intros p id NE. destruct (A p id NE) as [A1 A2]. split.
        -- intros c0 v [<-|I] K Q; [rewrite EK in K; discriminate|]. apply A1; assumption.
        -- intros H. apply A2. intros c0 v I. apply H. right. exact I.
      * rewrite B. split; (intros [H|(c0 & v & I & K & Q)]; [left; exact H|right]).
        -- exists c0, v. split; [right; exact I|auto].
        -- destruct I as [<-|I]; [rewrite EK in K; discriminate|]. exists c0, v. auto.
      * intros c0 z0 I K Q. assert (c0 = c) as -> by (apply HU; [exact I|left; reflexivity|exact K|exact EK]).
        rewrite HZ in Q. injection Q as <-. apply D. intros c1 I1 K1.
        assert (c1 = c) as -> by (apply HU; [right; exact I1|left; reflexivity|exact K1|exact EK]).
        apply NI, in_map. exact I1.
      * intros H. exfalso. exact (H c (or_introl eq_refl) EK).
Qed.

Lemma values_In s r id v : length (w_fields r) = length (field_ids s) ->
  (In (id, v) (values s r) <-> exists p, nth_error (field_ids s) p = Some id /\ nth p (w_fields r) None = Some v).
Proof.
  unfold values. generalize (field_ids s) as ids, (w_fields r) as fs. induction ids as [|x ids IH]; intros [|f fs] L; try discriminate.
  - cbn. split; [intros []|intros ([|p] & H & _); discriminate].
  - cbn [combine flat_map fst snd]. rewrite in_app_iff, IH by (cbn in L; lia). split.
    + intros [I|(p & A & B)]; [|exists (S p); auto]. destruct f as [w|]; [|destruct I]. destruct I as [I|[]]. injection I as <- <-.
      exists O. auto.
    + intros ([|p] & A & B); cbn in A, B; [|right; eauto]. injection A as <-. left. subst f. left. reflexivity.
Qed.
Lemma values_nodup s r : NoDup (field_ids s) -> NoDup (map fst (values s r)).
Proof.
  unfold values. generalize (field_ids s) as ids, (w_fields r) as fs. induction ids as [|x ids IH]; intros fs ND; [constructor|].
  destruct fs as [|f fs]; [constructor|]. inversion ND as [|? ? NI ND']; subst. cbn [combine flat_map fst snd]. rewrite map_app.
  assert (SUB : forall y, In y (map fst (flat_map (fun iv : Z * option cell => match snd iv with Some v => [(fst iv, v)] | None => [] end) (combine ids fs))) -> In y ids).
  { intros y I. apply in_map_iff in I as ((a & b) & <- & I). apply in_flat_map in I as ((a' & b') & I & J).
    apply in_combine_l in I. cbn in J. destruct b'; [|destruct J]. destruct J as [J|[]]. injection J as <- _. exact I. }
  destruct f as [w|]; cbn [map app fst]; [|apply IH; exact ND']. constructor; [|apply IH; exact ND']. intros I. apply NI, SUB, I.
Qed.
Lemma named_In {A} m (l : list (Z * A)) n v : In (n, v) (named m l) <-> exists id, In (id, v) l /\ name_of m id = Some n.
Proof.
  unfold named. rewrite in_flat_map. split.
  - intros ((id & w) & I & J). cbn in J. destruct (name_of m id) as [n'|] eqn:E; [|destruct J]. destruct J as [J|[]].
    injection J as -> ->. eauto.
  - intros (id & I & E). exists (id, v). split; [exact I|]. cbn. rewrite E. left. reflexivity.
Qed.
Lemma named_nodup {A} m (l : list (Z * A)) : good m -> NoDup (map fst l) -> NoDup (map fst (named m l)).
Proof.
  intros G. induction l as [|[id v] l IH]; cbn; intros ND; [constructor|]. inversion ND as [|? ? NI ND']; subst. rewrite map_app.
  destruct (name_of m id) as [n|] eqn:E; cbn [map app fst]; [|apply IH; exact ND']. constructor; [|apply IH; exact ND'].
  intros I. apply in_map_iff in I as ((n' & w) & Q & I). cbn in Q. subst n'. apply named_In in I as (id' & I & E').
  apply name_of_spec in E as (c & C1 & C2 & C3); [|exact G]. apply name_of_spec in E' as (c' & D1 & D2 & D3); [|exact G].
  assert (c' = c) as -> by (apply (nodup_map_inj t_name (s_cols m)); [exact (proj2 G)|exact D1|exact C1|congruence]).
  apply NI. rewrite <- C2, D2. change id' with (fst (id', w)). apply in_map. exact I.
Qed.
Lemma nodup_fst {A B} (l : list (A * B)) : NoDup (map fst l) -> NoDup l.
Proof. apply NoDup_map_inv. Qed.
Lemma named_perm {A} m (l : list (Z * A)) pts : good m -> NoDup (map fst l) -> NoDup (map fst pts) ->
  (forall n v, In (n, v) pts <-> exists id, In (id, v) l /\ name_of m id = Some n) -> Permutation (named m l) pts.
Proof.
  intros G N1 N2 H. apply NoDup_Permutation.
  - apply nodup_fst, named_nodup; assumption.
  - apply nodup_fst, N2.
  - intros [n v]. rewrite named_In, H. reflexivity.
Qed.
