From Verif Require Import Prelude TimeRangeModel TimeRangeSpec TsmModel TsmSpec TsmProofs TsmProofs2.

(** ** all chunks of a writer *)
Lemma in_all s sid c : In (sid, c) (all_chunks s) <-> exists t m, In (t, m) s /\ In (sid, c) m.
Proof.
  unfold all_chunks. rewrite in_concat. split.
  - intros (m & I & J). apply in_map_iff in I. destruct I as ([t m'] & <- & I). eauto.
  - intros (t & m & I & J). exists m. split; auto. exact (in_map snd _ _ I).
Qed.
Lemma nodup_cat {A} (a b : list A) : NoDup a -> NoDup b -> (forall x, In x a -> ~ In x b) -> NoDup (a ++ b).
Proof.
  induction a as [|x a IH]; cbn; intros N M D; auto. apply NoDup_cons_iff in N. destruct N as [N1 N2]. constructor; auto.
  rewrite in_app_iff. intros [I|I]; auto. apply (D x); auto.
Qed.
Lemma nodup_all s : NoDup (map fst s) -> (forall t m, In (t, m) s -> NoDup (map fst m)) ->
  (forall t t' m m' sid, In (t, m) s -> In (t', m') s -> In sid (map fst m) -> In sid (map fst m') -> t = t') -> NoDup (map fst (all_chunks s)).
Proof.
  unfold all_chunks. induction s as [|[t m] s IH]; cbn; intros N H D. { constructor. } apply NoDup_cons_iff in N. destruct N as [N1 N2].
  rewrite map_app. apply nodup_cat.
  - apply (H t m); auto.
  - apply IH; auto. { intros; eapply H; eauto. } intros t1 t2 m1 m2 sid I J. apply D; auto.
  - intros sid I J. apply N1. apply in_map_iff in J. destruct J as ([sid' c] & Q & J). cbn in Q; subst sid'.
    fold (all_chunks s) in J. apply in_all in J. destruct J as (t' & m' & J & K).
    rewrite (D t t' m m' sid); auto. { exact (in_map fst _ _ J). } exact (in_map fst _ _ K).
Qed.
Lemma get2_in s t sid c : NoDup (map fst s) -> (forall t m, In (t, m) s -> NoDup (map fst m)) ->
  (get2 t sid s = Some c <-> exists m, In (t, m) s /\ In (sid, c) m).
Proof.
  intros N H. unfold get2. split.
  - destruct (aget t s) as [m|] eqn:G; [|discriminate]. intros Q. exists m. split; apply aget_in; auto.
  - intros (m & I & J). rewrite (in_aget _ _ _ N I). apply in_aget; auto. apply (H t m I).
Qed.

Section C.
  Context (E : tsm_env) (key : Z -> Z -> Z) (ws : list wr) (w : tw) (C : Core key ws w) (OT : one_table ws).
  Lemma get_in t sid c : get2 t sid (w_specs w) = Some c <-> exists m, In (t, m) (w_specs w) /\ In (sid, c) m.
  Proof. apply get2_in; apply C. Qed.
  Lemma chunk_of t sid c : get2 t sid (w_specs w) = Some c -> exists x xs, writes_of t sid ws = x :: xs /\ chunk_ok key (w_out w) t sid (x :: xs) c.
  Proof.
    intros G. pose proof (c_get _ _ _ C t sid) as H. rewrite G in H. destruct (ch_key _ _ _ _ _ _ H) as (x & Q & _).
    destruct (writes_of t sid ws) as [|y xs]; [discriminate|]. exists y, xs. auto.
  Qed.
  Lemma sids_nodup : NoDup (map fst (all_chunks (w_specs w))).
  Proof.
    apply nodup_all; try apply C. intros t t' m m' sid I J K L. apply in_map_iff in K, L. destruct K as ([s1 c] & Q1 & K), L as ([s2 c'] & Q2 & L). cbn in *. subst s1 s2.
    assert (G1 : get2 t sid (w_specs w) = Some c) by (apply get_in; eauto). assert (G2 : get2 t' sid (w_specs w) = Some c') by (apply get_in; eauto).
    destruct (chunk_of _ _ _ G1) as (x & xs & A & _), (chunk_of _ _ _ G2) as (y & ys & B & _).
    assert (Ix : In x (writes_of t sid ws)) by (rewrite A; left; auto). assert (Iy : In y (writes_of t' sid ws)) by (rewrite B; left; auto).
    apply writes_in in Ix, Iy. destruct Ix as (P1 & P2 & P3), Iy as (R1 & R2 & R3). rewrite <- P2, <- R2. apply OT; auto. congruence.
  Qed.
  Lemma all_get sid c : aget sid (all_chunks (w_specs w)) = Some c <-> exists t, get2 t sid (w_specs w) = Some c.
  Proof.
    split.
    - intros G. apply aget_in in G. apply in_all in G. destruct G as (t & m & I & J). exists t. apply get_in. eauto.
    - intros (t & G). apply in_aget. { apply sids_nodup. } apply in_all. exists t. apply get_in. auto.
  Qed.
  Lemma all_get_x x : In x ws -> exists c, get2 (tname x) (x_sid x) (w_specs w) = Some c /\ aget (x_sid x) (all_chunks (w_specs w)) = Some c.
  Proof.
    intros I. pose proof (c_get _ _ _ C (tname x) (x_sid x)) as H. destruct (get2 (tname x) (x_sid x) (w_specs w)) as [c|] eqn:G.
    - exists c. split; auto. apply all_get. eauto.
    - exfalso. assert (J : In x (writes_of (tname x) (x_sid x) ws)) by (apply writes_in; auto). rewrite H in J. destruct J.
  Qed.
  Lemma core_schemas t : In t (map fst (w_specs w)) -> exists s, aget t (w_schemas w) = Some s /\ sc_name s = t.
  Proof.
    intros I. apply (c_tab _ _ _ C) in I. apply in_map_iff in I. destruct I as (x & <- & I). pose proof (c_sc2 _ _ _ C x I) as H.
    destruct (aget (tname x) (w_schemas w)) as [s|] eqn:G; [|destruct H; auto]. exists s. split; auto. destruct (c_sc _ _ _ C _ _ G) as [(y & _ & _ & S1) _]. auto.
  Qed.
  Lemma core_open : env_ok E -> w_comp w = w_v2 w -> exists b r, finish E w = Some b /\ tsm_open E b = Ok r /\ opened E w b r.
  Proof. intros OK Q. apply finish_open; auto. - apply C. - apply core_schemas. - apply sids_nodup. Qed.

  Context (b : bytes) (r : treader) (O : opened E w b r) (OK : env_ok E) (WOK : Forall (write_ok E) ws).
  Lemma find_x x : In x ws -> exists c, aget (x_sid x) (r_chunks r) = Some c /\ chunk_ok key b (tname x) (x_sid x) (writes_of (tname x) (x_sid x) ws) c.
  Proof.
    intros I. destruct (all_get_x x I) as (c & A & B). exists c. rewrite (o_chunks _ _ _ _ O). split; auto.
    pose proof (c_get _ _ _ C (tname x) (x_sid x)) as H. rewrite A in H. destruct (o_pre _ _ _ _ O) as [tl ->]. apply chunk_more. auto.
  Qed.
  Lemma read_all_ok ps qs : Forall2 (page_at b) ps qs -> Forall (fun p => crc_ok E (pg_bytes p) = true) ps -> read_all E b qs = Ok ps.
  Proof.
    induction 1 as [|p q ps qs (A & B & D) F IH]; intros G; auto. inversion G; subst. cbn. unfold read_page. rewrite D. cbn. rewrite H1. cbn. rewrite IH by auto. cbn.
    rewrite A. destruct p; auto.
  Qed.
  Lemma find_read x i : In x ws -> match nth_error (writes_of (tname x) (x_sid x) ws) i with
    | Some y => exists g, find_group r (x_sid x) i = Some g /\ group_ok b i y g
    | None => find_group r (x_sid x) i = None end.
  Proof.
    intros I. destruct (find_x x I) as (c & A & B). unfold find_group. rewrite A. exact (groups_find _ _ 0 _ i (ch_groups _ _ _ _ _ _ B)).
  Qed.
  Lemma nth_ws x i y : nth_error (writes_of (tname x) (x_sid x) ws) i = Some y -> In y ws /\ write_ok E y.
  Proof. intros Q. apply nth_error_In in Q. apply writes_in in Q. destruct Q as [Q _]. split; auto. rewrite Forall_forall in WOK. auto. Qed.
  Lemma low_all z : z <= tmin (f_tr (r_foot r)) <-> z <= I64_MAX /\ forall x, In x ws -> z <= tmin (x_tr x).
  Proof.
    destruct (o_range _ _ _ _ O) as (gs & F & M & Q). rewrite Q, (fold_low _ z). split; intros [A B]; split; auto.
    - intros x I. destruct (all_get_x x I) as (c & G & _). pose proof (c_get _ _ _ C (tname x) (x_sid x)) as H. rewrite G in H.
      apply get_in in G. destruct G as (m & I1 & I2).
      assert (J : In x (writes_of (tname x) (x_sid x) ws)) by (apply writes_in; auto).
      assert (L : z <= tmin (tc_tr c)).
      { clear - F B I1 I2. induction F as [|s g ss gs P F IH]; [destruct I1|]. destruct I1 as [->|I1]; [|apply IH; auto; intros a Ia; apply B; right; auto].
        specialize (B (group_range g) (or_introl eq_refl)). unfold group_range in B. rewrite (fold_map tr_merge cw_tr) in B. rewrite P in B. cbn in B.
        rewrite (fold_low _ z) in B. destruct B as [_ B]. apply B. apply in_map_iff. exists (x_sid x, c). auto. }
      rewrite (ch_tr _ _ _ _ _ _ H) in L. rewrite (fold_low _ z) in L. destruct L as [_ L]. apply L. apply in_map; auto.
    - assert (K : forall t m sid c, In (t, m) (w_specs w) -> In (sid, c) m -> z <= tmin (tc_tr c)).
      { intros t m sid c I1 I2. assert (G : get2 t sid (w_specs w) = Some c) by (apply get_in; eauto). pose proof (c_get _ _ _ C t sid) as H. rewrite G in H.
        rewrite (ch_tr _ _ _ _ _ _ H). rewrite (fold_low _ z). split; auto. intros a I. apply in_map_iff in I. destruct I as (x & <- & I). apply writes_in in I. apply B. apply I. }
      clear - F K A. intros a I. revert K. induction F as [|[t m] g ss gs P F IH]; intros K; [destruct I|]. destruct I as [<-|I].
      + unfold group_range. rewrite (fold_map tr_merge cw_tr), P. rewrite (fold_low _ z). split; auto. intros a I. apply in_map_iff in I. destruct I as ([sid c] & <- & I).
        apply (K t m sid c); cbn; auto.
      + apply IH; auto. intros t' m' sid c I1. apply (K t' m'). right; auto.
  Qed.
  Lemma high_all z : tmax (f_tr (r_foot r)) <= z <-> I64_MIN <= z /\ forall x, In x ws -> tmax (x_tr x) <= z.
  Proof.
    destruct (o_range _ _ _ _ O) as (gs & F & M & Q). rewrite Q, (fold_high _ z). split; intros [A B]; split; auto.
    - intros x I. destruct (all_get_x x I) as (c & G & _). pose proof (c_get _ _ _ C (tname x) (x_sid x)) as H. rewrite G in H.
      apply get_in in G. destruct G as (m & I1 & I2).
      assert (J : In x (writes_of (tname x) (x_sid x) ws)) by (apply writes_in; auto).
      assert (L : tmax (tc_tr c) <= z).
      { clear - F B I1 I2. induction F as [|s g ss gs P F IH]; [destruct I1|]. destruct I1 as [->|I1]; [|apply IH; auto; intros a Ia; apply B; right; auto].
        specialize (B (group_range g) (or_introl eq_refl)). unfold group_range in B. rewrite (fold_map tr_merge cw_tr) in B. rewrite P in B. cbn in B.
        rewrite (fold_high _ z) in B. destruct B as [_ B]. apply B. apply in_map_iff. exists (x_sid x, c). auto. }
      rewrite (ch_tr _ _ _ _ _ _ H) in L. rewrite (fold_high _ z) in L. destruct L as [_ L]. apply L. apply in_map; auto.
    - assert (K : forall t m sid c, In (t, m) (w_specs w) -> In (sid, c) m -> tmax (tc_tr c) <= z).
      { intros t m sid c I1 I2. assert (G : get2 t sid (w_specs w) = Some c) by (apply get_in; eauto). pose proof (c_get _ _ _ C t sid) as H. rewrite G in H.
        rewrite (ch_tr _ _ _ _ _ _ H). rewrite (fold_high _ z). split; auto. intros a I. apply in_map_iff in I. destruct I as (x & <- & I). apply writes_in in I. apply B. apply I. }
      clear - F K A. intros a I. revert K. induction F as [|[t m] g ss gs P F IH]; intros K; [destruct I|]. destruct I as [<-|I].
      + unfold group_range. rewrite (fold_map tr_merge cw_tr), P. rewrite (fold_high _ z). split; auto. intros a I. apply in_map_iff in I. destruct I as ([sid c] & <- & I).
        apply (K t m sid c); cbn; auto.
      + apply IH; auto. intros t' m' sid c I1. apply (K t' m'). right; auto.
  Qed.
  Lemma exists_or {A} (P : A -> bool) (l : list A) : (exists x, In x l /\ P x = true) \/ forall x, In x l -> P x = false.
  Proof.
    induction l as [|a l [(x & I & Q)|IH]]; [right; intros x []|left; exists x; cbn; auto|]. destruct (P a) eqn:Q; [left; exists a; cbn; auto|right]. intros x [<-|I]; auto.
  Qed.
  Lemma range_hull : hull ws (f_tr (r_foot r)).
  Proof.
    split.
    - intros x I. split. { pose proof (proj1 (low_all (tmin (f_tr (r_foot r)))) (Z.le_refl _)) as [_ H]. auto. }
      pose proof (proj1 (high_all (tmax (f_tr (r_foot r)))) (Z.le_refl _)) as [_ H]. auto.
    - intros N. destruct ws as [|x0 ws'] eqn:W; [destruct N; auto|]. rewrite <- W in *. assert (I0 : In x0 ws) by (rewrite W; left; auto).
      assert (R : forall x, In x ws -> is_i64 (tmin (x_tr x)) /\ is_i64 (tmax (x_tr x))).
      { intros x I. rewrite Forall_forall in WOK. destruct (WOK x I) as (A & B & _). auto. }
      split.
      + pose proof (proj1 (low_all (tmin (f_tr (r_foot r)))) (Z.le_refl _)) as [L H].
        destruct (exists_or (fun x => tmin (x_tr x) =? tmin (f_tr (r_foot r))) ws) as [(x & I & Q)|K]. { exists x. split; auto. apply Z.eqb_eq; auto. }
        exfalso. assert (X : tmin (f_tr (r_foot r)) + 1 <= tmin (f_tr (r_foot r))); [|lia]. apply low_all. split.
        * specialize (H x0 I0). specialize (K x0 I0). apply Z.eqb_neq in K. destruct (R x0 I0) as [R1 _]. unfold is_i64 in R1. lia.
        * intros x I. specialize (H x I). specialize (K x I). apply Z.eqb_neq in K. lia.
      + pose proof (proj1 (high_all (tmax (f_tr (r_foot r)))) (Z.le_refl _)) as [L H].
        destruct (exists_or (fun x => tmax (x_tr x) =? tmax (f_tr (r_foot r))) ws) as [(x & I & Q)|K]. { exists x. split; auto. apply Z.eqb_eq; auto. }
        exfalso. assert (X : tmax (f_tr (r_foot r)) <= tmax (f_tr (r_foot r)) - 1); [|lia]. apply high_all. split.
        * specialize (H x0 I0). specialize (K x0 I0). apply Z.eqb_neq in K. destruct (R x0 I0) as [_ R1]. unfold is_i64 in R1. lia.
        * intros x I. specialize (H x I). specialize (K x I). apply Z.eqb_neq in K. lia.
  Qed.
  Lemma meta_nodup : NoDup (map fst (r_meta r)).
  Proof. rewrite (o_tables _ _ _ _ O). apply C. Qed.
  Lemma core_gives : gives_back E r ws key.
  Proof.
    unfold gives_back. repeat match goal with |- _ /\ _ => split end.
    - intros sid. split.
      + intros (c & G). rewrite (o_chunks _ _ _ _ O) in G. apply all_get in G. destruct G as (t & G). destruct (chunk_of _ _ _ G) as (x & xs & A & _).
        assert (I : In x (writes_of t sid ws)) by (rewrite A; left; auto). apply writes_in in I. destruct I as (I & _ & <-). apply in_map; auto.
      + intros I. apply in_map_iff in I. destruct I as (x & <- & I). destruct (find_x x I) as (c & A & _). eauto.
    - intros sid c G. rewrite (o_chunks _ _ _ _ O) in G. apply all_get in G. destruct G as (t & G). destruct (chunk_of _ _ _ G) as (x & xs & A & B).
      rewrite (ch_table _ _ _ _ _ _ B). exists x, xs. split; auto. split; [apply B|]. destruct (ch_key _ _ _ _ _ _ B) as (x0 & [= <-] & K). split; auto.
      destruct (groups_ids _ _ _ _ (ch_groups _ _ _ _ _ _ B)) as [I1 I2]. auto.
    - intros x i I. fold (tname x). pose proof (find_read x i I) as H. unfold read_series_pages. destruct (nth_error _ i) as [y|] eqn:Q.
      + destruct H as (g & -> & G). destruct (nth_ws _ _ _ Q) as [_ (_ & _ & _ & Y)]. rewrite (o_file _ _ _ _ O). apply read_all_ok; auto. apply G.
      + rewrite H. auto.
    - intros t. unfold schema_of. fold tname. change (fun x => sc_name (x_schema x)) with tname. rewrite <- (c_tab _ _ _ C t), <- (o_tables _ _ _ _ O). split.
      + intros (s & Q). destruct (aget t (r_meta r)) as [g|] eqn:G; [|discriminate]. apply aget_in in G. exact (in_map fst _ _ G).
      + intros I. destruct (aget t (r_meta r)) as [g|] eqn:G; cbn; eauto. apply aget_none in G. contradiction.
    - intros t s. unfold schema_of. destruct (aget t (r_meta r)) as [g|] eqn:G; [|discriminate]. intros [= <-]. apply aget_in in G.
      destruct (o_schema _ _ _ _ O _ _ G) as [A _]. exact (c_sc _ _ _ C _ _ A).
    - apply range_hull.
  Qed.
  Lemma core_raw x i y : In x ws -> nth_error (writes_of (tname x) (x_sid x) ws) i = Some y ->
    exists c, aget (x_sid x) (r_chunks r) = Some c /\ read_raw r (x_sid x) i = Ok (body (x_pages y)) /\
    forall s w', write_raw s c i (body (x_pages y)) w' = write_pages s (x_sid x) (tc_key c) (x_pages y) (x_tr y) w'.
  Proof.
    intros I Q. destruct (find_x x I) as (c & A & B). pose proof (find_read x i I) as H. rewrite Q in H. destruct H as (g & F & G). exists c. split; auto. split.
    - unfold read_raw. rewrite F, (o_file _ _ _ _ O), (gr_raw _ _ _ _ G). auto.
    - intros s w'. unfold find_group in F. rewrite A in F. unfold write_raw, write_pages. rewrite (ch_sid _ _ _ _ _ _ B), F.
      destruct (create_group (sc_name s) (x_sid x) (tc_key c) (header w')) as [id w1].
      rewrite (put_specs_eq (x_pages y) (cg_pages g)). 2:{ pose proof (gr_pages _ _ _ _ G) as P. clear - P. induction P as [|p q ps qs (P1 & P2 & _) P IH]; constructor; auto. }
      rewrite (gr_tr _ _ _ _ G). auto.
  Qed.
End C.
