From Verif Require Import Prelude Bytes TimeRangeModel TimeRangeSpec TimeRangeProofs TombModel TombSpec.
Open Scope Z_scope.

(** * Sets of ranges *)
Notation bin s t := (bt_in (inner s) t).
Definition full (s : tranges) : Prop := forall t, is_i64 t -> bin s t.
Record just (r : trange) (M : list trange) : Prop := {
  j_i64 : i64_range r; j_ne : nonempty r;
  j_in : forall t, instants r t -> instants_of M t;
  j_lo : tmin r = I64_MIN -> exists q, In q M /\ tmin q = I64_MIN /\ (q = tr_all -> r = tr_all);
  j_hi : tmax r = I64_MAX -> exists q, In q M /\ tmax q = I64_MAX /\ (q = tr_all -> r = tr_all) }.
Record fine (s : tranges) (M : list trange) : Prop := {
  f_wf : WF s;
  f_in : forall t, bin s t -> instants_of M t;
  f_min : rs_min s = I64_MIN -> bin s I64_MIN;
  f_max : rs_max s = I64_MAX -> bin s I64_MAX;
  f_lo : bin s I64_MIN -> exists q, In q M /\ tmin q = I64_MIN /\ (q = tr_all -> full s);
  f_hi : bin s I64_MAX -> exists q, In q M /\ tmax q = I64_MAX /\ (q = tr_all -> full s) }.

Lemma all_ok : i64_range tr_all /\ nonempty tr_all.
Proof. unfold tr_all. split; [split; cbn|unfold nonempty; cbn]; i64; lia. Qed.
Lemma fine_empty M : fine trs_empty M.
Proof.
  split; cbn.
  - apply WF_empty.
  - intros t H. destruct (bt_in_empty _ H).
  - rewrite I64_MIN_eq, I64_MAX_eq. lia.
  - rewrite I64_MIN_eq, I64_MAX_eq. lia.
  - intros H. destruct (bt_in_empty _ H).
  - intros H. destruct (bt_in_empty _ H).
Qed.
Lemma instants_of_incl M M' t : incl M M' -> instants_of M t -> instants_of M' t.
Proof. intros I (r&H&K). exists r. auto. Qed.
Lemma fine_mono s M M' : incl M M' -> fine s M -> fine s M'.
Proof.
  intros I [A B C D E F]. split; auto.
  - intros t H. eapply instants_of_incl; eauto.
  - intros H. destruct (E H) as (q&?&?&?). exists q; auto.
  - intros H. destruct (F H) as (q&?&?&?). exists q; auto.
Qed.
Lemma just_mono r M M' : incl M M' -> just r M -> just r M'.
Proof.
  intros I [A B C E F]. split; auto.
  - intros t H. eapply instants_of_incl; eauto.
  - intros H. destruct (E H) as (q&?&?&?). exists q; auto.
  - intros H. destruct (F H) as (q&?&?&?). exists q; auto.
Qed.
Lemma just_self r M : i64_range r -> nonempty r -> In r M -> just r M.
Proof. intros A B C. split; auto; [intros t H; exists r; auto| |]; intros H; exists r; auto. Qed.

Lemma full_all s : full s <-> (forall t, instants tr_all t -> bin s t).
Proof. split; intros H t Ht; apply H; unfold instants, tr_all, is_i64 in *; cbn in *; auto. Qed.
Lemma add_min s r : rs_min (add_time_range s r) = Z.min (rs_min s) (tmin r) /\ rs_max (add_time_range s r) = Z.max (rs_max s) (tmax r).
Proof. unfold add_time_range. destruct (map fst _); cbn; auto. Qed.

Lemma add_fine s r M : fine s M -> just r M -> fine (add_time_range s r) M.
Proof.
  intros F J. destruct F as [W I Mi Ma Lo Hi]. destruct J as [Ji Jn JI Jl Jh].
  pose proof (fun t => add_in s r t W Ji Jn) as A.
  destruct (add_min s r) as [E1 E2].
  assert (Fs : full s -> full (add_time_range s r)). { intros H t Ht. apply A. left; auto. }
  assert (Fr : r = tr_all -> full (add_time_range s r)).
  { intros -> . apply full_all. intros t Ht. apply A. right; auto. }
  destruct Ji as [Ji1 Ji2]. destruct W as [W1 W2 [W3 W4]].
  split.
  - apply add_WF; auto. split; auto. split; auto.
  - intros t H. apply A in H as [H|H]; auto.
  - rewrite E1. intros H. apply A. destruct (Z.eq_dec (rs_min s) I64_MIN) as [E|E]; [left; auto|right].
    unfold instants, nonempty, is_i64 in *. lia.
  - rewrite E2. intros H. apply A. destruct (Z.eq_dec (rs_max s) I64_MAX) as [E|E]; [left; auto|right].
    unfold instants, nonempty, is_i64 in *. lia.
  - intros H. apply A in H as [H|H].
    + destruct (Lo H) as (q&?&?&?). exists q; auto.
    + destruct Jl as (q&?&?&?). { unfold instants, is_i64 in *. lia. } exists q; auto.
  - intros H. apply A in H as [H|H].
    + destruct (Hi H) as (q&?&?&?). exists q; auto.
    + destruct Jh as (q&?&?&?). { unfold instants, is_i64 in *. lia. } exists q; auto.
Qed.
Lemma boundless_full s M : no_gap M -> fine s M -> trs_is_boundless s = true -> full s.
Proof.
  intros N F B. unfold trs_is_boundless in B. apply andb_true_iff in B as [B1 B2].
  destruct (f_lo _ _ F) as (a&A1&A2&A3). { apply (f_min _ _ F). lia. }
  destruct (f_hi _ _ F) as (b&B3&B4&B5). { apply (f_max _ _ F). lia. }
  destruct (N a b A1 B3 A2 B4); auto.
Qed.
Lemma ext_fine s l M : no_gap M -> fine s M -> Forall (fun r => just r M) l ->
  fine (trs_extend s l) M /\ forall t, bin (trs_extend s l) t <-> bin s t \/ instants_of l t.
Proof.
  intros N F J. unfold trs_extend. destruct (trs_is_boundless s) eqn:B.
  - split; auto. intros t. split; auto. intros [H|(r&Hr&Ht)]; auto.
    apply (boundless_full s M N F B). rewrite Forall_forall in J. destruct (j_i64 _ _ (J r Hr)) as [X Y].
    unfold instants, is_i64 in *. lia.
  - clear B. revert s F. induction J as [|r l Jr J IH]; intros s F; cbn [fold_left].
    + split; auto. intros t. rewrite instants_of_nil. tauto.
    + destruct (IH _ (add_fine _ _ _ F Jr)) as [F' E]. split; auto. intros t.
      rewrite E, instants_of_cons, add_in; [tauto|apply (f_wf _ _ F)|apply (j_i64 _ _ Jr)|apply (j_ne _ _ Jr)].
Qed.
Lemma ranges_in s t : instants_of (trs_ranges s) t <-> bin s t.
Proof.
  unfold instants_of, trs_ranges, bt_in, instants. split.
  - intros (r&Hr&Ht). apply in_map_iff in Hr as ([a b]&E&Hr). subst r. exists a, b. auto.
  - intros (a&b&Hin&Ht). exists (TR a b). split; auto. apply in_map_iff. exists (a, b). auto.
Qed.
(** The ranges of a set are apart. *)
Lemma wfl_same lo m a b c d t : wfl lo m -> In (a, b) m -> In (c, d) m -> a <= t <= b -> c <= t <= d -> (a, b) = (c, d).
Proof.
  intros W H1 H2 T1 T2. apply in_split in H1 as (m1&m2&E). subst m.
  apply wfl_app in W as (W1&W2&W3). apply in_app_or in H2 as [H2|[H2|H2]]; auto.
  - specialize (W3 _ _ _ _ H2 (or_introl eq_refl)). lia.
  - cbn [wfl] in W2. destruct W2 as (_&_&_&_&W2). pose proof (wfl_in _ _ _ _ W2 H2). lia.
Qed.
Lemma full_range s r : WF s -> full s -> In r (trs_ranges s) -> r = tr_all.
Proof.
  intros W F H. unfold trs_ranges in H. apply in_map_iff in H as ([a b]&E&H). cbn [fst snd] in E. subst r.
  pose proof (wfl_in0 _ _ _ _ (wf_l _ W) H) as (K1&K2&K3).
  destruct (chain_cover _ (inner s) I64_MIN I64_MAX (wf_l _ W)) as (x&y&Hxy&Hx&Hy).
  { i64; lia. } { intros z Hz. apply F. exact Hz. }
  pose proof (wfl_in0 _ _ _ _ (wf_l _ W) Hxy) as (L1&L2&L3). unfold is_i64 in *.
  assert (E : (a, b) = (x, y)). { apply (wfl_same _ _ a b x y a (wf_l _ W)); auto; lia. }
  inversion E; subst. unfold tr_all. f_equal; lia.
Qed.
Lemma fine_ranges s M : fine s M -> Forall (fun r => just r M) (trs_ranges s).
Proof.
  intros F. apply Forall_forall. intros r Hr. pose proof Hr as Hr'.
  unfold trs_ranges in Hr. apply in_map_iff in Hr as ([a b]&E&H). cbn [fst snd] in E.
  pose proof (wfl_in0 _ _ _ _ (wf_l _ (f_wf _ _ F)) H) as (K1&K2&K3).
  assert (I : forall t, instants r t -> bin s t).
  { intros t Ht. apply ranges_in. exists r. auto. }
  split.
  - subst r. split; auto.
  - subst r. auto.
  - intros t Ht. apply (f_in _ _ F). auto.
  - intros Em. destruct (f_lo _ _ F) as (q&Q1&Q2&Q3). { apply I. subst r. unfold instants, is_i64 in *; cbn in *; lia. }
    exists q. split; auto. split; auto. intros Eq. apply (full_range s r); auto. apply (f_wf _ _ F).
  - intros Em. destruct (f_hi _ _ F) as (q&Q1&Q2&Q3). { apply I. subst r. unfold instants, is_i64 in *; cbn in *; lia. }
    exists q. split; auto. split; auto. intros Eq. apply (full_range s r); auto. apply (f_wf _ _ F).
Qed.

(** * The cache as sets *)
Lemma ckeqb_eq a b : ckeqb a b = true <-> a = b.
Proof. destruct a, b. unfold ckeqb; cbn. rewrite andb_true_iff, !Z.eqb_eq. split; [intros []; congruence|intros [=]; auto]. Qed.
Lemma ckeqb_refl a : ckeqb a a = true. Proof. apply ckeqb_eq; auto. Qed.
Lemma ckeqb_neq a b : ckeqb a b = false <-> a <> b.
Proof. rewrite <- ckeqb_eq. destruct (ckeqb a b); split; congruence. Qed.
Lemma col_get_upd f k m k' :
  col_get (col_upd f k m) k' = if ckeqb k k' then f (col_get m k) else col_get m k'.
Proof.
  induction m as [|[j s] m IH]; unfold col_get in *; cbn [col_upd find fst snd].
  - destruct (ckeqb k k') eqn:E; auto.
  - destruct (ckeqb j k) eqn:E; cbn [find fst snd].
    + apply ckeqb_eq in E. subst j. destruct (ckeqb k k'); auto.
    + destruct (ckeqb j k') eqn:E'; cbn [find fst snd].
      * apply ckeqb_eq in E'. subst j. destruct (ckeqb k k') eqn:E2; auto.
        apply ckeqb_eq in E2. subst. rewrite ckeqb_refl in E. discriminate.
      * apply IH.
Qed.
Lemma col_upd_keys f k m : incl (map fst (col_upd f k m)) (k :: map fst m) /\ (NoDup (map fst m) -> NoDup (map fst (col_upd f k m))).
Proof.
  induction m as [|[j s] m [I1 I2]]; cbn [col_upd map fst].
  - split; [apply incl_refl|]. intros. constructor; auto.
  - destruct (ckeqb j k) eqn:E; cbn [map fst].
    + split; [apply incl_tl, incl_refl|auto].
    + split.
      * intros x [->|H]; [right; left; auto|]. apply I1 in H as [->|H]; [left; auto|right; right; auto].
      * intros N. inversion N; subst. constructor; auto. intros H. apply I1 in H as [H|H]; auto.
        apply ckeqb_neq in E. congruence.
Qed.
Lemma col_get_in m k s : NoDup (map fst m) -> In (k, s) m -> col_get m k = s.
Proof.
  intros N. induction m as [|[j x] m IH]; intros H; [destruct H|]. unfold col_get in *; cbn [find fst].
  inversion N; subst. destruct H as [E|H].
  - inversion E; subst. rewrite ckeqb_refl. auto.
  - destruct (ckeqb j k) eqn:E; auto. apply ckeqb_eq in E. subst j. destruct H2. apply (in_map fst) in H. auto.
Qed.
Lemma col_get_notin m k : ~ In k (map fst m) -> col_get m k = trs_empty.
Proof.
  unfold col_get. intros H. destruct (find _ m) as [p|] eqn:E; auto. apply find_some in E as [E1 E2].
  apply ckeqb_eq in E2. destruct H. subst k. apply in_map; auto.
Qed.

(** Tombstones as a list: what each column is given. *)
Definition one_of (k : ckey) (ts : list tomb) : list trange :=
  flat_map (fun t => match b_field t with FOne k' => if ckeqb k' k then b_ranges t else [] | FAll => [] end) ts.
Definition all_of (ts : list tomb) : list trange :=
  flat_map (fun t => match b_field t with FAll => b_ranges t | _ => [] end) ts.
Lemma instants_of_app a b t : instants_of (a ++ b) t <-> instants_of a t \/ instants_of b t.
Proof.
  unfold instants_of. split.
  - intros (r&H&K). apply in_app_or in H as [H|H]; [left|right]; exists r; auto.
  - intros [(r&H&K)|(r&H&K)]; exists r; rewrite in_app_iff; auto.
Qed.

Section Hist.
Variable L : ckey -> list trange.
Variable A : list trange.
Definition okL : Prop := (forall k, no_gap (L k ++ A)) /\ no_gap A.
Record good (c : tcache) : Prop := {
  g_nd : NoDup (map fst (c_cols c));
  g_key : Forall key_okk (map fst (c_cols c));
  g_all : fine (c_all c) A;
  g_all_eq : forall t, instants_of A t -> bin (c_all c) t;
  g_col : forall k, fine (col_get (c_cols c) k) (L k ++ A);
  g_cover : forall k t, instants_of (L k) t -> bin (col_get (c_cols c) k) t \/ bin (c_all c) t }.
Record fok (ts : list tomb) : Prop := {
  k_one : forall k, Forall (fun r => just r (L k ++ A)) (one_of k ts);
  k_all : Forall (fun r => just r A) (all_of ts);
  k_key : Forall (fun t => match b_field t with FOne k => key_okk k | FAll => True end) ts;
  k_cov_all : forall t, instants_of A t -> instants_of (all_of ts) t;
  k_cov : forall k t, instants_of (L k) t -> instants_of (one_of k ts) t \/ instants_of (all_of ts) t }.

Lemma load_gen ts c : okL -> (forall k, Forall (fun r => just r (L k ++ A)) (one_of k ts)) -> Forall (fun r => just r A) (all_of ts) ->
  Forall (fun t => match b_field t with FOne k => key_okk k | FAll => True end) ts ->
  NoDup (map fst (c_cols c)) -> Forall key_okk (map fst (c_cols c)) ->
  fine (c_all c) A -> (forall k, fine (col_get (c_cols c) k) (L k ++ A)) ->
  let c' := fold_left apply_tomb ts c in
  NoDup (map fst (c_cols c')) /\ Forall key_okk (map fst (c_cols c')) /\ fine (c_all c') A /\
  (forall k, fine (col_get (c_cols c') k) (L k ++ A)) /\
  (forall t, bin (c_all c') t <-> bin (c_all c) t \/ instants_of (all_of ts) t) /\
  (forall k t, bin (col_get (c_cols c') k) t <-> bin (col_get (c_cols c) k) t \/ instants_of (one_of k ts) t).
Proof.
  intros [N1 N2]. revert c. induction ts as [|x ts IH]; intros c H1 H2 HK Nd Kk F G; cbn [fold_left].
  - cbn. split; [auto|]. split; [auto|]. split; [auto|]. split; [auto|]. split; intros; rewrite instants_of_nil; tauto.
  - inversion HK as [|? ? Hx HK']; subst.
    assert (S1 : forall k, Forall (fun r => just r (L k ++ A)) (one_of k ts)).
    { intros k. specialize (H1 k). cbn [one_of flat_map] in H1. apply Forall_app in H1. apply H1. }
    assert (S2 : Forall (fun r => just r A) (all_of ts)).
    { cbn [all_of flat_map] in H2. apply Forall_app in H2. apply H2. }
    unfold apply_tomb at 2 4 6 8 10 12. cbn [all_of one_of flat_map].
    destruct x as [[k0|] rs]; cbn [b_field b_ranges] in *.
    + assert (Hrs : Forall (fun r => just r (L k0 ++ A)) rs).
      { specialize (H1 k0). cbn [one_of flat_map b_field] in H1. rewrite ckeqb_refl in H1. apply Forall_app in H1. apply H1. }
      destruct (ext_fine (col_get (c_cols c) k0) rs _ (N1 k0) (G k0) Hrs) as [E1 E2].
      destruct (IH (TC (col_upd (fun s => trs_extend s rs) k0 (c_cols c)) (c_all c))) as (B1&B2&B3&B4&B5&B6); auto.
      * cbn. apply col_upd_keys; auto.
      * cbn. destruct (col_upd_keys (fun s => trs_extend s rs) k0 (c_cols c)) as [I _].
        apply Forall_forall. intros y Hy. apply I in Hy as [<-|Hy]; auto. rewrite Forall_forall in Kk. auto.
      * intros k. cbn [c_cols]. rewrite col_get_upd. destruct (ckeqb k0 k) eqn:E; auto. apply ckeqb_eq in E. subst k. auto.
      * change (apply_tomb c (TB (FOne k0) rs)) with (TC (col_upd (fun s => trs_extend s rs) k0 (c_cols c)) (c_all c)).
        split; [auto|]. split; [auto|]. split; [auto|]. split; [auto|]. split.
        { intros t. rewrite B5. cbn [c_all app]. tauto. }
        { intros k t. rewrite B6. cbn [c_cols]. rewrite col_get_upd, instants_of_app.
          destruct (ckeqb k0 k) eqn:E. apply ckeqb_eq in E; subst k. rewrite E2. tauto. rewrite instants_of_nil. tauto. }
    + assert (Hrs : Forall (fun r => just r A) rs).
      { cbn [all_of flat_map b_field] in H2. apply Forall_app in H2. apply H2. }
      destruct (ext_fine (c_all c) rs _ N2 F Hrs) as [E1 E2].
      destruct (IH (TC (c_cols c) (trs_extend (c_all c) rs))) as (B1&B2&B3&B4&B5&B6); auto.
      change (apply_tomb c (TB FAll rs)) with (TC (c_cols c) (trs_extend (c_all c) rs)).
      split; [auto|]. split; [auto|]. split; [auto|]. split; [auto|]. split.
      { intros t. rewrite B5. cbn [c_all]. rewrite E2, instants_of_app. tauto. }
      { intros k t. rewrite B6. cbn [c_cols app]. tauto. }
Qed.
Lemma load_good ts : okL -> fok ts -> good (fold_left apply_tomb ts c_new).
Proof.
  intros O [K1 K2 K3 K4 K5]. destruct (load_gen ts c_new O K1 K2 K3) as (B1&B2&B3&B4&B5&B6); cbn; auto.
  - constructor.
  - apply fine_empty.
  - intros k. apply fine_empty.
  - split; auto.
    + intros t Ht. apply B5. right. auto.
    + intros k t Ht. destruct (K5 k t Ht); [left; apply B6|right; apply B5]; right; auto.
Qed.
End Hist.

(** * Bytes *)
Definition rok (r : trange) : Prop := i64_range r.
Definition tok (t : tomb) : Prop :=
  (length (b_ranges t) <= MAX_RANGES)%nat /\ Forall rok (b_ranges t) /\ match b_field t with FOne k => key_okk k | FAll => True end.
Definition enc_tomb (t : tomb) : list Z := enc_field (b_field t) (b_ranges t).
Lemma of_be32 z : 0 <= z < 2 ^ 32 -> of_be (be_bytes 4 z) = z.
Proof. intros H. rewrite of_be_be_bytes. apply Z.mod_small. exact H. Qed.
Lemma skipn_exact {B} (a b : list B) n : length a = n -> skipn n (a ++ b) = b.
Proof. intros <-. rewrite skipn_app, skipn_all, Nat.sub_diag. reflexivity. Qed.
Lemma firstn_exact {B} (a b : list B) n : length a = n -> firstn n (a ++ b) = a.
Proof. intros <-. rewrite firstn_app, firstn_all, Nat.sub_diag. cbn. apply app_nil_r. Qed.
Lemma dec_enc_i64 z rest : is_i64 z -> dec_i64 (enc_i64 z ++ rest) = z.
Proof.
  intros H. unfold dec_i64, enc_i64. rewrite firstn_exact by apply be_bytes_length. rewrite of_be_u64 by apply wrap_u64_is_u64.
  clear rest. i64. destruct (_ <? _) eqn:E; lia.
Qed.
Lemma enc_i64_len z : length (enc_i64 z) = 8%nat. Proof. apply be_bytes_length. Qed.
Lemma enc_range_len r : length (enc_range r) = 16%nat.
Proof. unfold enc_range. rewrite app_length, !enc_i64_len. reflexivity. Qed.
Lemma dec_ranges_enc rs rest : Forall rok rs -> dec_ranges (length rs) (concat (map enc_range rs) ++ rest) = rs.
Proof.
  induction 1 as [|r rs [H1 H2] F IH]; cbn [length dec_ranges map concat]; auto.
  rewrite <- app_assoc. rewrite (skipn_exact (enc_range r) _ 16) by apply enc_range_len. rewrite IH.
  unfold enc_range. rewrite <- app_assoc. rewrite dec_enc_i64 by auto.
  rewrite (skipn_exact (enc_i64 (tmin r))) by apply enc_i64_len. rewrite dec_enc_i64 by auto. destruct r; auto.
Qed.
Lemma enc_ranges_len rs : length (concat (map enc_range rs)) = (16 * length rs)%nat.
Proof. induction rs; cbn [map concat length]; auto. rewrite app_length, IHrs, enc_range_len. lia. Qed.

Lemma dec_v2_nil f : dec_v2 f [] = Some []. Proof. destruct f; reflexivity. Qed.
Lemma enc_tomb_shape t : tok t -> exists h hd, enc_tomb t = hd ++ be_bytes 4 (Z.of_nat (length (b_ranges t))) ++ concat (map enc_range (b_ranges t)) /\
  length hd = (h - 4)%nat /\ (4 < h)%nat /\
  forall f rest, dec_v2 (S f) (hd ++ rest) =
    if (length (hd ++ rest) <? h)%nat then None
          else
            let n := of_be (firstn 4 (skipn (h - 4) (hd ++ rest))) in
            if Z.of_nat (length (skipn h (hd ++ rest))) <? 16 * n then None
            else match dec_v2 f (skipn (h + 16 * Z.to_nat n) (hd ++ rest)) with
                 | Some ts => Some (TB (b_field t) (dec_ranges (Z.to_nat n) (skipn h (hd ++ rest))) :: ts)
                 | None => None
                 end.
Proof.
  intros (T1&T2&T3). destruct t as [f rs]. cbn [b_field b_ranges] in *. unfold enc_tomb, enc_field. cbn [b_field b_ranges]. cbv zeta.
  rewrite firstn_all2 by auto. destruct f as [[s c]|].
  - exists 13%nat, (0 :: be_bytes 4 s ++ be_bytes 4 c). split; [reflexivity|].
    split; [cbn [length]; rewrite app_length, !be_bytes_length; reflexivity|]. split; [lia|].
    intros g rest. cbn [app dec_v2]. replace (0 =? 1) with false by reflexivity.
    destruct T3 as [T3 T4]. cbn [fst snd] in *.
    change (skipn 1 (0 :: ((be_bytes 4 s ++ be_bytes 4 c) ++ rest))) with ((be_bytes 4 s ++ be_bytes 4 c) ++ rest).
    change (skipn 5 (0 :: ((be_bytes 4 s ++ be_bytes 4 c) ++ rest))) with (skipn 4 ((be_bytes 4 s ++ be_bytes 4 c) ++ rest)).
    rewrite <- app_assoc. rewrite (firstn_exact (be_bytes 4 s)) by apply be_bytes_length.
    rewrite (skipn_exact (be_bytes 4 s)) by apply be_bytes_length.
    rewrite (firstn_exact (be_bytes 4 c)) by apply be_bytes_length. rewrite !of_be32 by auto. reflexivity.
  - exists 5%nat, [1]. split; [reflexivity|]. split; [reflexivity|]. split; [lia|]. intros g rest. cbn [app dec_v2].
    replace (1 =? 1) with true by reflexivity. reflexivity.
Qed.
Lemma dec_v2_fuel f f' l : (length l <= f)%nat -> (length l <= f')%nat -> dec_v2 f l = dec_v2 f' l.
Proof.
  revert f' l. induction f as [|f IH]; intros f' l H1 H2.
  - destruct l; [|cbn in H1; lia]. rewrite !dec_v2_nil. auto.
  - destruct l as [|b l]; [rewrite !dec_v2_nil; auto|]. destruct f' as [|f']; [cbn in H2; lia|].
    cbn [dec_v2]. set (l0 := b :: l). assert (El : length l0 = S (length l)) by reflexivity.
    destruct (if b =? 1 then _ else _) as [fd h] eqn:E.
    assert (Hh : (0 < h)%nat). { destruct (b =? 1); inversion E; lia. }
    destruct (length l0 <? h)%nat eqn:E1; auto. destruct (_ <? _); auto.
    cbn [length] in H1, H2. rewrite (IH f'); auto; rewrite skipn_length; clear - El H1 H2 Hh; generalize (16 * Z.to_nat (of_be (firstn 4 (skipn (h - 4) l0))))%nat; intros; lia.
Qed.
Lemma dec_enc t rest : tok t ->
  dec_v2 (length (enc_tomb t ++ rest)) (enc_tomb t ++ rest) =
  match dec_v2 (length rest) rest with Some ts => Some (t :: ts) | None => None end.
Proof.
  intros T. destruct (enc_tomb_shape t T) as (h&hd&E&Lh&Hh&D).
  destruct T as (T1&T2&T3).
  assert (Hn : Z.of_nat (length (b_ranges t)) < 2 ^ 32).
  { unfold MAX_RANGES in T1. clear - T1. change (2 ^ 32) with 4294967296. lia. }
  pose proof (dec_ranges_enc (b_ranges t) rest T2) as DR.
  set (n := length (b_ranges t)) in *. set (body := concat (map enc_range (b_ranges t))) in *.
  assert (Lb : length body = (16 * n)%nat) by (subst body n; apply enc_ranges_len).
  set (nb := be_bytes 4 (Z.of_nat n)) in *. assert (Lnb : length nb = 4%nat) by apply be_bytes_length.
  assert (Onb : of_be nb = Z.of_nat n). { apply of_be32. lia. }
  rewrite E. rewrite <- !app_assoc. set (tail := nb ++ body ++ rest).
  rewrite (dec_v2_fuel _ (S (length (hd ++ tail)))) by lia.
  rewrite D. clear D.
  assert (Lt : length (hd ++ tail) = (h - 4 + (4 + (16 * n + length rest)))%nat).
  { unfold tail. rewrite !app_length, Lnb, Lb, Lh. lia. }
  destruct (length (hd ++ tail) <? h)%nat eqn:E1. { apply Nat.ltb_lt in E1. lia. }
  cbv zeta. rewrite (skipn_exact hd tail (h - 4)) by auto. replace (firstn 4 tail) with nb by (symmetry; apply firstn_exact; auto). rewrite Onb.
  assert (Sh : skipn h (hd ++ tail) = body ++ rest).
  { unfold tail. rewrite (app_assoc hd nb). apply skipn_exact. rewrite app_length. lia. }
  rewrite Sh. destruct (_ <? _) eqn:E2. { apply Z.ltb_lt in E2. rewrite app_length in E2. lia. }
  unfold tail. rewrite Nat2Z.id.
  assert (St : skipn (h + 16 * n) (hd ++ nb ++ body ++ rest) = rest).
  { rewrite !app_assoc. apply skipn_exact. rewrite !app_length. lia. }
  rewrite St, DR.
  rewrite (dec_v2_fuel _ (length rest) rest).
  - destruct (dec_v2 (length rest) rest); auto. destruct t; reflexivity.
  - rewrite !app_length. lia.
  - lia.
Qed.
Lemma dec_encs ts : Forall tok ts -> let l := concat (map enc_tomb ts) in dec_v2 (length l) l = Some ts.
Proof.
  induction 1 as [|t ts T F IH]; cbn [map concat]; auto. cbv zeta in *. rewrite dec_enc by auto. rewrite IH. auto.
Qed.

(** * Records *)
Definition frep (file : list trec) (ts : list tomb) : Prop := forall c, fold_left load_rec file c = fold_left apply_tomb ts c.
Lemma frep_app f1 f2 t1 t2 : frep f1 t1 -> frep f2 t2 -> frep (f1 ++ f2) (t1 ++ t2).
Proof. intros H1 H2 c. rewrite !fold_left_app, H1. apply H2. Qed.
Lemma load_rec_encs ts c : Forall tok ts -> load_rec c (REC false (concat (map enc_tomb ts))) = fold_left apply_tomb ts c.
Proof. intros T. unfold load_rec. cbn [r_v1 r_data]. rewrite (dec_encs ts T). auto. Qed.
Lemma pack_frep ts pre : Forall tok pre -> Forall tok ts -> frep (pack (concat (map enc_tomb pre)) (map enc_tomb ts)) (pre ++ ts).
Proof.
  intros P T c. revert c pre P. induction T as [|t ts Ht T IH]; intros c pre P; cbn [map pack].
  - rewrite app_nil_r. pose proof (load_rec_encs pre c P) as E.
    destruct (concat (map enc_tomb pre)) as [|b l] eqn:D; cbn [fold_left].
    + rewrite <- E. reflexivity.
    + apply E.
  - assert (Ec : concat (map enc_tomb pre) ++ enc_tomb t = concat (map enc_tomb (pre ++ [t]))).
    { rewrite map_app, concat_app. cbn [map concat]. rewrite app_nil_r. auto. }
    rewrite Ec. assert (P' : Forall tok (pre ++ [t])) by (apply Forall_app; auto).
    replace (pre ++ t :: ts) with ((pre ++ [t]) ++ ts) by (rewrite <- app_assoc; auto).
    destruct (_ <=? _).
    + cbn [fold_left]. rewrite load_rec_encs by auto. rewrite (IH _ []) by auto. cbn [app]. rewrite !fold_left_app. auto.
    + rewrite (IH _ (pre ++ [t])) by auto. auto.
Qed.
Fixpoint chunk_tombs (fuel : nat) (f : tfield) (rs : list trange) : list tomb :=
  match fuel, rs with
  | S fuel, _ :: _ => TB f (firstn MAX_RANGES rs) :: chunk_tombs fuel f (skipn MAX_RANGES rs)
  | _, _ => []
  end.
Lemma max_ranges_pos : (0 < MAX_RANGES)%nat. Proof. unfold MAX_RANGES. lia. Qed.
Lemma pieces_tombs fuel f rs : pieces_of fuel f rs = map enc_tomb (chunk_tombs fuel f rs).
Proof.
  revert rs. induction fuel as [|n IH]; intros [|r rs]; try reflexivity.
  cbn [pieces_of chunk_tombs map]. rewrite IH. f_equal.
  unfold enc_tomb, enc_field. cbn [b_field b_ranges]. rewrite firstn_firstn, Nat.min_id. auto.
Qed.
Lemma chunk_ranges fuel f rs : (length rs <= fuel)%nat -> flat_map b_ranges (chunk_tombs fuel f rs) = rs /\
  Forall (fun t => b_field t = f /\ (length (b_ranges t) <= MAX_RANGES)%nat) (chunk_tombs fuel f rs).
Proof.
  revert rs. induction fuel as [|n IH]; intros [|r rs] H; try (split; [reflexivity|constructor]).
  - cbn in H. lia.
  - change (chunk_tombs (S n) f (r :: rs)) with (TB f (firstn MAX_RANGES (r :: rs)) :: chunk_tombs n f (skipn MAX_RANGES (r :: rs))).
    assert (Hl : (length (skipn MAX_RANGES (r :: rs)) <= n)%nat).
    { rewrite skipn_length. pose proof max_ranges_pos. cbn [length] in *. lia. }
    destruct (IH _ Hl) as [E F]. cbn [flat_map b_ranges]. rewrite E, firstn_skipn. split; auto.
    constructor; auto. cbn [b_field b_ranges]. split; auto. rewrite firstn_length. lia.
Qed.
Lemma chunk_one k k' n rs : one_of k (chunk_tombs n (FOne k') rs) = if ckeqb k' k then flat_map b_ranges (chunk_tombs n (FOne k') rs) else [].
Proof.
  revert rs. induction n as [|n IH]; intros [|r rs]; cbn [chunk_tombs one_of flat_map]; try (destruct (ckeqb k' k); reflexivity).
  fold (one_of k). cbn [b_field b_ranges]. unfold one_of in IH. rewrite IH. destruct (ckeqb k' k); auto.
Qed.
Lemma chunk_all n rs : all_of (chunk_tombs n FAll rs) = flat_map b_ranges (chunk_tombs n FAll rs).
Proof.
  revert rs. induction n as [|n IH]; intros [|r rs]; cbn [chunk_tombs all_of flat_map]; auto.
  cbn [b_field b_ranges]. unfold all_of in IH. rewrite IH. auto.
Qed.
Lemma chunk_one_all k n rs : one_of k (chunk_tombs n FAll rs) = [].
Proof. revert rs. induction n as [|n IH]; intros [|r rs]; cbn [chunk_tombs one_of flat_map]; auto. apply IH. Qed.
Lemma chunk_all_one k n rs : all_of (chunk_tombs n (FOne k) rs) = [].
Proof. revert rs. induction n as [|n IH]; intros [|r rs]; cbn [chunk_tombs all_of flat_map]; auto. apply IH. Qed.
Lemma one_of_app k a b : one_of k (a ++ b) = one_of k a ++ one_of k b. Proof. apply flat_map_app. Qed.
Lemma all_of_app a b : all_of (a ++ b) = all_of a ++ all_of b. Proof. apply flat_map_app. Qed.

Section Save.
Variable order : list (ckey * tranges) -> list (ckey * tranges).
Hypothesis order_perm : forall m, Permutation (order m) m.
Definition save_tombs (c : tcache) : list tomb :=
  flat_map (fun p => chunk_tombs (length (trs_ranges (snd p))) (FOne (fst p)) (trs_ranges (snd p))) (order (c_cols c)) ++
  chunk_tombs (length (trs_ranges (c_all c))) FAll (trs_ranges (c_all c)).
Lemma save_pack c : c_save order c = pack [] (map enc_tomb (save_tombs c)).
Proof.
  unfold c_save, save_tombs. rewrite map_app, pieces_tombs. f_equal. f_equal.
  induction (order (c_cols c)); cbn [flat_map]; auto. rewrite map_app, pieces_tombs, IHl. auto.
Qed.
Lemma save_one c k : NoDup (map fst (c_cols c)) -> forall r, In r (one_of k (save_tombs c)) <-> In r (trs_ranges (col_get (c_cols c) k)).
Proof.
  intros N r. unfold save_tombs. rewrite one_of_app, chunk_one_all, app_nil_r.
  assert (E : In r (one_of k (flat_map (fun p => chunk_tombs (length (trs_ranges (snd p))) (FOne (fst p)) (trs_ranges (snd p))) (order (c_cols c)))) <->
    exists s, In (k, s) (order (c_cols c)) /\ In r (trs_ranges s)).
  { induction (order (c_cols c)) as [|[j s] l IH]; cbn [flat_map].
    - cbn. split; [tauto|intros (s&[]&_)].
    - rewrite one_of_app, in_app_iff, IH, chunk_one. cbn [fst snd].
      destruct (chunk_ranges (length (trs_ranges s)) (FOne j) (trs_ranges s)) as [-> _]; auto.
      split.
      + intros [H|(s'&H1&H2)].
        * destruct (ckeqb j k) eqn:E; [|destruct H]. apply ckeqb_eq in E. subst j. exists s. split; auto. left; auto.
        * exists s'. split; auto. right; auto.
      + intros (s'&[H|H]&H2).
        * inversion H; subst. rewrite ckeqb_refl. auto.
        * right. exists s'. auto. }
  rewrite E. split.
  - intros (s&H1&H2). apply (Permutation_in _ (order_perm _)) in H1. rewrite (col_get_in _ _ _ N H1). auto.
  - intros H. destruct (in_dec key_eq_dec k (map fst (c_cols c))) as [K|K].
    + apply in_map_iff in K as ([j s]&<-&K). cbn [fst] in *. rewrite (col_get_in _ _ _ N K) in H.
      exists s. split; auto. apply (Permutation_in _ (Permutation_sym (order_perm _))). auto.
    + rewrite col_get_notin in H by auto. destruct H.
Qed.
Lemma save_all c : all_of (save_tombs c) = trs_ranges (c_all c).
Proof.
  unfold save_tombs. rewrite all_of_app, chunk_all.
  destruct (chunk_ranges (length (trs_ranges (c_all c))) FAll (trs_ranges (c_all c))) as [-> _]; auto.
  replace (all_of _) with (@nil trange); auto. symmetry.
  induction (order (c_cols c)); cbn [flat_map]; auto. rewrite all_of_app, chunk_all_one. apply IHl.
Qed.
Lemma save_key c : Forall key_okk (map fst (c_cols c)) ->
  Forall (fun t => (length (b_ranges t) <= MAX_RANGES)%nat /\ match b_field t with FOne k => key_okk k | FAll => True end) (save_tombs c).
Proof.
  intros K. apply Forall_app. split.
  - apply Forall_flat_map. apply Forall_forall. intros [k s] H. cbn [fst snd].
    destruct (chunk_ranges (length (trs_ranges s)) (FOne k) (trs_ranges s)) as [_ F]; auto.
    eapply Forall_impl; [|exact F]. intros t [-> Ht]. split; auto. rewrite Forall_forall in K. apply K.
    apply (Permutation_in _ (order_perm _)) in H. apply (in_map fst) in H. auto.
  - destruct (chunk_ranges (length (trs_ranges (c_all c))) FAll (trs_ranges (c_all c))) as [_ F]; auto.
    eapply Forall_impl; [|exact F]. intros t [-> Ht]. auto.
Qed.
Lemma good_save L A c : good L A c -> fok L A (save_tombs c) /\ Forall tok (save_tombs c).
Proof.
  intros [G1 G2 G3 G4 G5 G6].
  assert (J1 : forall k, Forall (fun r => just r (L k ++ A)) (one_of k (save_tombs c))).
  { intros k. apply Forall_forall. intros r Hr. apply save_one in Hr; auto.
    pose proof (fine_ranges _ _ (G5 k)) as F. rewrite Forall_forall in F. auto. }
  assert (J2 : Forall (fun r => just r A) (all_of (save_tombs c))).
  { rewrite save_all. apply fine_ranges. auto. }
  pose proof (save_key c G2) as SK.
  split; [split|]; auto.
  - eapply Forall_impl; [|exact SK]. intros t [_ H]. auto.
  - intros t Ht. rewrite save_all, ranges_in. auto.
  - intros k t Ht. rewrite save_all, ranges_in. destruct (G6 k t Ht) as [H|H]; auto.
    left. apply ranges_in in H as (r&Hr&Hi). exists r. split; auto. apply save_one; auto.
  - apply Forall_forall. intros t Ht. rewrite Forall_forall in SK. destruct (SK t Ht) as [S1 S2].
    split; auto. split; auto. apply Forall_forall. intros r Hr. unfold rok. destruct t as [[k|] rs]; cbn [b_ranges b_field] in *.
    + specialize (J1 k). rewrite Forall_forall in J1. apply j_i64 with (M := L k ++ A). apply J1.
      apply in_flat_map. eexists. split; [exact Ht|]. cbn. rewrite ckeqb_refl. auto.
    + rewrite Forall_forall in J2. apply j_i64 with (M := A). apply J2. apply in_flat_map. eexists. split; [exact Ht|]. cbn. auto.
Qed.
End Save.

(** * Steps *)
Lemma no_gap_incl M M' : incl M M' -> no_gap M' -> no_gap M.
Proof. intros I N a b Ha Hb. apply N; auto. Qed.
Lemma incl_app3 {B} (a a' b : list B) : incl a a' -> incl (a ++ b) (a' ++ b).
Proof. intros I x H. apply in_app_or in H as [H|H]; apply in_or_app; auto. Qed.

Lemma add_good L L' A c ts r cols :
  okL L' A -> good L A c ->
  (forall k, incl (L k) (L' k)) -> (forall k x, In x (L' k) -> In x (L k) \/ (x = r /\ In k cols)) ->
  (forall k, In k cols -> In r (L' k)) ->
  i64_range r -> nonempty r -> Forall key_okk cols ->
  (forall k x, In x (one_of k ts) <-> x = r /\ In k cols) -> all_of ts = [] ->
  Forall (fun t => match b_field t with FOne k => key_okk k | FAll => True end) ts ->
  good L' A (fold_left apply_tomb ts c).
Proof.
  intros O [G1 G2 G3 G4 G5 G6] I1 I2 I3 Ri Rn Kc T1 T2 T3.
  assert (J : forall k, Forall (fun x => just x (L' k ++ A)) (one_of k ts)).
  { intros k. apply Forall_forall. intros x Hx. apply T1 in Hx as [-> Hk]. apply just_self; auto. apply in_or_app; auto. }
  destruct (load_gen L' A ts c O J) as (B1&B2&B3&B4&B5&B6); auto.
  { rewrite T2. constructor. }
  { intros k. eapply fine_mono; [|apply G5]. apply incl_app3; auto. }
  split; auto.
  - intros t Ht. apply B5. left. auto.
  - intros k t (x&Hx&Ht). destruct (I2 k x Hx) as [H|[-> H]].
    + destruct (G6 k t) as [K|K]. { exists x. auto. }
      * left. apply B6. auto.
      * right. apply B5. auto.
    + left. apply B6. right. exists r. split; auto. apply T1. auto.
Qed.
Lemma add_fok L L' A ts0 ts r cols :
  fok L A ts0 ->
  (forall k, incl (L k) (L' k)) -> (forall k x, In x (L' k) -> In x (L k) \/ (x = r /\ In k cols)) ->
  (forall k, In k cols -> In r (L' k)) ->
  i64_range r -> nonempty r -> Forall key_okk cols ->
  (forall k x, In x (one_of k ts) <-> x = r /\ In k cols) -> all_of ts = [] ->
  Forall (fun t => match b_field t with FOne k => key_okk k | FAll => True end) ts ->
  fok L' A (ts0 ++ ts).
Proof.
  intros [K1 K2 K3 K4 K5] I1 I2 I3 Ri Rn Kc T1 T2 T3. split.
  - intros k. rewrite one_of_app. apply Forall_app. split.
    + eapply Forall_impl; [|apply K1]. intros x Hx. eapply just_mono; [|exact Hx]. apply incl_app3; auto.
    + apply Forall_forall. intros x Hx. apply T1 in Hx as [-> Hk]. apply just_self; auto. apply in_or_app; auto.
  - rewrite all_of_app, T2, app_nil_r. auto.
  - apply Forall_app; auto.
  - intros t Ht. rewrite all_of_app, T2, app_nil_r. auto.
  - intros k t (x&Hx&Ht). rewrite one_of_app, all_of_app, T2, app_nil_r, instants_of_app. destruct (I2 k x Hx) as [H|[-> H]].
    + destruct (K5 k t) as [K|K]; auto. exists x; auto.
    + left. right. exists r. split; auto. apply T1; auto.
Qed.

Lemma batch_tombs c b : c_insert_batch c b = fold_left apply_tomb (map (fun p => TB (FOne (fst p)) (snd p)) b) c.
Proof.
  unfold c_insert_batch. destruct c as [m a]. cbn [c_cols c_all]. revert m.
  induction b as [|p b IH]; intros m; cbn [fold_left map]; auto. rewrite IH. reflexivity.
Qed.
Definition gtombs (b : list (ckey * list trange)) := map (fun p => TB (FOne (fst p)) (snd p)) b.
Lemma group_one k r b k' x : In x (one_of k' (gtombs (group_add k r b))) <-> In x (one_of k' (gtombs b)) \/ (x = r /\ k = k').
Proof.
  induction b as [|[j l] b IH]; cbn [group_add].
  - cbn. rewrite app_nil_r. destruct (ckeqb k k') eqn:E.
    + apply ckeqb_eq in E. cbn. intuition auto.
    + apply ckeqb_neq in E. cbn. intuition auto.
  - cbn [fst snd]. destruct (ckeqb j k) eqn:E.
    + apply ckeqb_eq in E. subst j. cbn [gtombs map one_of flat_map b_field b_ranges fst snd]. rewrite !in_app_iff.
      destruct (ckeqb k k') eqn:E.
      * apply ckeqb_eq in E. subst k'. rewrite in_app_iff. cbn. intuition auto.
      * apply ckeqb_neq in E. intuition auto.
    + cbn [gtombs map one_of flat_map b_field b_ranges fst snd]. rewrite !in_app_iff.
      unfold gtombs, one_of in IH. rewrite IH. tauto.
Qed.
Lemma groups_one r cols k' x : forall b, In x (one_of k' (gtombs (fold_left (fun m k => group_add k r m) cols b))) <->
  In x (one_of k' (gtombs b)) \/ (x = r /\ In k' cols).
Proof.
  induction cols as [|k cols IH]; intros b; cbn [fold_left].
  - cbn. tauto.
  - rewrite IH, group_one. cbn [In]. tauto.
Qed.
Lemma gtombs_all b : all_of (gtombs b) = []. Proof. induction b; cbn; auto. Qed.
Lemma group_keys r cols b : Forall key_okk cols -> Forall key_okk (map fst b) -> Forall key_okk (map fst (fold_left (fun m k => group_add k r m) cols b)).
Proof.
  revert b. induction cols as [|k cols IH]; intros b K1 K2; cbn [fold_left]; auto. inversion K1; subst. apply IH; auto.
  clear - H1 K2. induction b as [|[j l] b IHb]; cbn [group_add map fst]; [constructor; auto|].
  inversion K2; subst. destruct (ckeqb _ _); cbn [map fst]; constructor; auto.
Qed.

Lemma col_get_map f m k : col_get (map (fun p => (fst p, f (snd p))) m) k = if in_dec key_eq_dec k (map fst m) then f (col_get m k) else trs_empty.
Proof.
  induction m as [|[j s] m IH]; unfold col_get in *; cbn [map find fst snd].
  - destruct (in_dec _ _ _) as [[]|]; auto.
  - destruct (ckeqb j k) eqn:E; cbn [snd].
    + apply ckeqb_eq in E. destruct (in_dec key_eq_dec k (j :: map fst m)) as [I|N]; [reflexivity|]. exfalso. apply N. left; auto.
    + rewrite IH. apply ckeqb_neq in E. destruct (in_dec _ _ _), (in_dec _ _ _); auto.
      * destruct n. right; auto.
      * destruct i; [congruence|contradiction].
Qed.
Lemma insert_all_good L A c r : okL L (A ++ [r]) -> good L A c -> i64_range r -> nonempty r -> good L (A ++ [r]) (c_insert c FAll r).
Proof.
  intros [O1 O2] [G1 G2 G3 G4 G5 G6] Ri Rn. unfold c_insert.
  assert (E : tr_is_none r = false). { unfold tr_is_none, nonempty in *. lia. } rewrite E.
  assert (I : incl A (A ++ [r])) by (apply incl_appl, incl_refl).
  destruct (ext_fine (c_all c) [r] (A ++ [r]) O2) as [F1 F2].
  { eapply fine_mono; eauto. } { constructor; auto. apply just_self; auto. apply in_or_app. cbn; auto. }
  change (trs_push (c_all c) r) with (trs_extend (c_all c) [r]).
  split; cbn [c_cols c_all]; auto.
  - intros t Ht. apply F2. apply instants_of_app in Ht as [Ht|Ht]; auto.
  - intros k. eapply fine_mono; [|apply G5]. intros x Hx. apply in_app_or in Hx as [Hx|Hx]; apply in_or_app; auto.
  - intros k t Ht. destruct (G6 k t Ht); auto. right. apply F2; auto.
Qed.
Lemma compact_good L A c : okL L A -> good L A c -> good L A (c_compact c).
Proof.
  intros [O1 O2] [G1 G2 G3 G4 G5 G6]. unfold c_compact.
  set (cols := map _ (c_cols c)).
  assert (X : forall k, let x := trs_extend (col_get (c_cols c) k) (trs_ranges (c_all c)) in
    fine x (L k ++ A) /\ forall t, bin x t <-> bin (col_get (c_cols c) k) t \/ bin (c_all c) t).
  { intros k. destruct (ext_fine (col_get (c_cols c) k) (trs_ranges (c_all c)) (L k ++ A) (O1 k) (G5 k)) as [E1 E2].
    - eapply Forall_impl; [|apply (fine_ranges _ _ G3)]. intros r Hr. eapply just_mono; [|exact Hr]. apply incl_appr, incl_refl.
    - split; auto. intros t. rewrite E2, ranges_in. tauto. }
  assert (Gc : forall k, col_get cols k = if in_dec key_eq_dec k (map fst (c_cols c)) then trs_extend (col_get (c_cols c) k) (trs_ranges (c_all c)) else trs_empty).
  { intros k. apply (col_get_map (fun s => trs_extend s (trs_ranges (c_all c)))). }
  assert (Kc : map fst cols = map fst (c_cols c)). { unfold cols. rewrite map_map. reflexivity. }
  destruct (forallb _ cols) eqn:Ef.
  - split; cbn [c_cols c_all]; auto.
    + constructor.
    + constructor.
    + intros k. apply fine_empty.
    + intros k t Ht. right. destruct (G6 k t Ht) as [H|H]; auto.
      destruct (in_dec key_eq_dec k (map fst (c_cols c))) as [K|K].
      * rewrite forallb_forall in Ef. pose proof K as K'. apply in_map_iff in K as ([j s]&<-&K). cbn [fst] in *.
        pose proof (col_get_in _ _ _ G1 K) as Es.
        specialize (Ef (j, trs_extend s (trs_ranges (c_all c)))). cbn [snd] in Ef.
        rewrite forallb_forall in Ef.
        assert (Hb : bin (trs_extend s (trs_ranges (c_all c))) t). { rewrite <- Es. apply X. auto. }
        apply ranges_in in Hb as (r&Hr&Hrt).
        assert (Hi : trs_includes (c_all c) r = true).
        { apply Ef; auto. unfold cols. apply in_map_iff. exists (j, s). auto. }
        apply includes_spec in Hi; [|apply (f_wf _ _ G3)|unfold instants, nonempty in *; lia].
        destruct Hi as (a&b&Hin&Ha&Hb). exists a, b. split; auto. unfold instants in Hrt. lia.
      * rewrite col_get_notin in H by auto. destruct (bt_in_empty _ H).
  - split; cbn [c_cols c_all]; auto.
    + rewrite Kc; auto.
    + rewrite Kc; auto.
    + intros k. rewrite Gc. destruct (in_dec _ _ _); [apply X|apply fine_empty].
    + intros k t Ht. destruct (G6 k t Ht) as [H|H]; auto. rewrite Gc. destruct (in_dec _ _ _) as [K|K].
      * left. apply X; auto.
      * rewrite col_get_notin in H by auto. destruct (bt_in_empty _ H).
Qed.

Section Run.
Variable order : list (ckey * tranges) -> list (ckey * tranges).
Hypothesis order_perm : forall m, Permutation (order m) m.
Variable bloom : Z -> bool.
Definition dl (h : list tblock) (k : ckey) : list trange := if bloom (fst k) then deleted k h else [].
Definition sinv (h : list tblock) (s : tstone) : Prop :=
  good (dl h) (moved h) (t_cache s) /\ (exists ts, frep (t_file s) ts /\ fok (dl h) (moved h) ts) /\ t_tmp s = None.
Definition brun (h : list tblock) : tstone := tacts_run order bloom (flat_map acts h).
Lemma deleted_app k h b : deleted k (h ++ [b]) = deleted k h ++ deleted k [b].
Proof. apply flat_map_app. Qed.
Lemma moved_app h b : moved (h ++ [b]) = moved h ++ moved [b].
Proof. apply flat_map_app. Qed.
Lemma brun_app h b : brun (h ++ [b]) = fold_left (tact_run order bloom) (acts b) (brun h).
Proof. unfold brun, tacts_run. rewrite flat_map_app, fold_left_app. cbn [flat_map]. rewrite app_nil_r. auto. Qed.
Lemma frep_nil : frep [] []. Proof. intros c. reflexivity. Qed.
Lemma load_frep f ts : frep f ts -> c_load f = fold_left apply_tomb ts c_new.
Proof. intros H. apply H. Qed.

Theorem run_inv h : Forall block_ok h -> okL (dl h) (moved h) -> sinv h (brun h).
Proof.
  induction h as [|b h IH] using rev_ind; intros F O.
  - assert (D0 : forall k t, ~ instants_of (dl [] k) t).
    { intros k t. unfold dl. cbn [deleted flat_map]. destruct (bloom _); intros (r&[]&_). }
    assert (M0 : forall t, ~ instants_of (moved []) t) by (intros t (r&[]&_)).
    split; [|split; [|reflexivity]].
    + split.
      * constructor.
      * constructor.
      * apply fine_empty.
      * intros t H. destruct (M0 t H).
      * intros k. apply fine_empty.
      * intros k t H. destruct (D0 k t H).
    + exists []. split; [apply frep_nil|]. split.
      * intros k. constructor.
      * constructor.
      * constructor.
      * intros t H. destruct (M0 t H).
      * intros k t H. destruct (D0 k t H).
  - apply Forall_app in F as [F Fb]. inversion Fb as [|? ? Hb _]; subst.
    assert (I1 : forall k, incl (dl h k) (dl (h ++ [b]) k)).
    { intros k. unfold dl. rewrite deleted_app. destruct (bloom _); [apply incl_appl|]; apply incl_refl. }
    assert (I2 : incl (moved h) (moved (h ++ [b]))).
    { rewrite moved_app. apply incl_appl, incl_refl. }
    assert (O' : okL (dl h) (moved h)).
    { destruct O as [O1 O2]. split.
      - intros k. eapply no_gap_incl; [|apply O1]. intros x H. apply in_app_or in H as [H|H]; apply in_or_app; [left; apply I1|right]; eauto.
      - eapply no_gap_incl; eauto. }
    destruct (IH F O') as (Gc&(ts&Fr&Fk)&Tm). rewrite brun_app. set (s := brun h) in *. clearbody s. clear IH.
    destruct b as [cols r|r|]; cbn [acts fold_left tact_run].
    + destruct Hb as (Kc&Ri&Rn). unfold t_add_range. set (cs := filter (fun k => bloom (fst k)) cols).
      assert (Kcs : Forall key_okk cs).
      { apply Forall_forall. intros k Hk. apply filter_In in Hk as [Hk _]. rewrite Forall_forall in Kc. auto. }
      assert (Mv : moved (h ++ [BDelete cols r]) = moved h). { rewrite moved_app. cbn. apply app_nil_r. }
      assert (D2 : forall k x, In x (dl (h ++ [BDelete cols r]) k) -> In x (dl h k) \/ (x = r /\ In k cs)).
      { intros k x. unfold dl. rewrite deleted_app. destruct (bloom (fst k)) eqn:Eb; auto. rewrite in_app_iff. cbn [deleted flat_map].
        rewrite app_nil_r. destruct (in_dec _ _ _) as [Hk|Hk]; cbn [In]; [|tauto]. intros [H|[H|[]]]; auto. right. split; auto.
        apply filter_In; auto. }
      assert (D3 : forall k, In k cs -> In r (dl (h ++ [BDelete cols r]) k)).
      { intros k Hk. apply filter_In in Hk as [Hk Eb]. unfold dl. rewrite Eb, deleted_app, in_app_iff. right. cbn [deleted flat_map].
        destruct (in_dec _ _ _); [left; auto|contradiction]. }
      unfold sinv. rewrite Mv in *. cbn [t_cache t_file t_tmp].
      split; [|split; auto].
      * rewrite batch_tombs. apply (add_good (dl h) _ _ _ _ r cs); auto.
        { intros k x. rewrite (groups_one r cs k x []). cbn. tauto. }
        { apply gtombs_all. }
        { pose proof (group_keys r cs [] Kcs (Forall_nil _)) as Kg. rewrite Forall_map in Kg. rewrite Forall_map. cbn. auto. }
      * set (tn := map (fun k => TB (FOne k) [r]) cs).
        assert (Tn : forall k x, In x (one_of k tn) <-> x = r /\ In k cs).
        { intros k x. unfold tn. clear. induction cs as [|j l IHl]; cbn [map one_of flat_map b_field b_ranges].
          - cbn. tauto.
          - rewrite in_app_iff. unfold one_of in IHl. rewrite IHl.
            destruct (ckeqb j k) eqn:E; cbn [In].
            + apply ckeqb_eq in E. subst. intuition auto.
            + apply ckeqb_neq in E. intuition auto. }
        assert (Ta : all_of tn = []). { unfold tn. clear. induction cs; cbn; auto. }
        exists (ts ++ tn). split.
        { apply frep_app; auto. replace (map (fun k => enc_field (FOne k) [r]) cs) with (map enc_tomb tn).
          - apply (pack_frep tn []); auto. unfold tn. rewrite Forall_map. eapply Forall_impl; [|exact Kcs].
            intros k Hk. split; [|split; auto]. cbn. pose proof max_ranges_pos. lia. constructor; auto.
          - unfold tn. rewrite map_map. reflexivity. }
        { apply (add_fok (dl h) _ _ _ _ r cs); auto. unfold tn. rewrite Forall_map. cbn. auto. }
    + destruct Hb as (Ri&Rn).
      assert (Mv : moved (h ++ [BMove r]) = moved h ++ [r]). { rewrite moved_app. reflexivity. }
      assert (Dv : forall k, dl (h ++ [BMove r]) k = dl h k).
      { intros k. unfold dl. rewrite deleted_app. cbn. rewrite app_nil_r. auto. }
      assert (O2 : okL (dl h) (moved h ++ [r])).
      { destruct O as [Oa Ob]. rewrite Mv in *. split; auto. intros k. rewrite <- Dv. apply Oa. }
      unfold t_prepare. cbn [fst]. rewrite Tm. cbn [app].
      set (c := c_compact (c_insert (t_cache s) FAll r)).
      assert (Gd : good (dl h) (moved h ++ [r]) c).
      { apply compact_good; auto. apply insert_all_good; auto. }
      destruct (good_save order order_perm _ _ _ Gd) as [Fs Ts].
      assert (Fr' : frep (c_save order c) (save_tombs order c)).
      { rewrite save_pack. apply (pack_frep (save_tombs order c) []); auto. }
      assert (Ex : forall L1 L2 A1, (forall k, L1 k = L2 k) -> fok L1 A1 (save_tombs order c) -> fok L2 A1 (save_tombs order c)).
      { intros L1 L2 A1 E [K1 K2 K3 K4 K5]. split; auto; intros k; rewrite <- E; auto. }
      assert (Fk' : fok (dl (h ++ [BMove r])) (moved (h ++ [BMove r])) (save_tombs order c)).
      { rewrite Mv. eapply Ex; [|exact Fs]. intros k. symmetry. apply Dv. }
      unfold t_install. cbn [t_tmp]. split; [|split; auto]; cbn [t_cache t_file].
      * rewrite (load_frep _ _ Fr'). apply load_good; auto.
      * exists (save_tombs order c). auto.
    + assert (Mv : moved (h ++ [BReopen]) = moved h). { rewrite moved_app. cbn. apply app_nil_r. }
      assert (Dv : forall k, dl (h ++ [BReopen]) k = dl h k).
      { intros k. unfold dl. rewrite deleted_app. cbn. rewrite app_nil_r. auto. }
      assert (Fk' : fok (dl (h ++ [BReopen])) (moved (h ++ [BReopen])) ts).
      { rewrite Mv. destruct Fk as [K1 K2 K3 K4 K5]. split; auto; intros k; rewrite Dv; auto. }
      unfold t_reopen. split; [|split; auto]; cbn [t_cache t_file].
      * rewrite (load_frep _ _ Fr). apply load_good; auto.
      * exists ts. auto.
Qed.

Theorem hidden_exact h k tr t : Forall block_ok h -> (forall k, no_gap (deleted k h ++ moved h)) -> bloom (fst k) = true -> instants tr t ->
  (hidden (brun h) k tr t <-> instants_of (deleted k h) t \/ instants_of (moved h) t).
Proof.
  intros F N B T.
  assert (O : okL (dl h) (moved h)).
  { split.
    - intros j. unfold dl. destruct (bloom (fst j)); auto. eapply no_gap_incl; [|apply (N k)]. cbn. apply incl_appr, incl_refl.
    - eapply no_gap_incl; [|apply (N k)]. apply incl_appr, incl_refl. }
  destruct (run_inv h F O) as ([G1 G2 G3 G4 G5 G6]&_&_).
  assert (E : dl h k = deleted k h). { unfold dl. rewrite B. auto. }
  unfold hidden. transitivity (bin (col_get (c_cols (t_cache (brun h))) k) t \/ bin (c_all (t_cache (brun h))) t).
  - rewrite <- !ranges_in. unfold c_col_ranges, c_all_ranges, instants_of, instants in *.
    assert (Ov : forall r, tmin r <= t <= tmax r -> tr_overlaps r tr = true). { intros r Hr. unfold tr_overlaps. lia. }
    split.
    + intros (r&Hr&Ht). apply in_app_or in Hr as [Hr|Hr]; apply filter_In in Hr as [Hr _]; [left|right]; exists r; auto.
    + intros [(r&Hr&Ht)|(r&Hr&Ht)]; exists r; (split; [apply in_or_app|auto]); [left|right]; apply filter_In; auto.
  - split.
    + intros [H|H].
      * apply (f_in _ _ (G5 k)) in H. rewrite E in H. apply instants_of_app in H. auto.
      * apply (f_in _ _ G3) in H. auto.
    + intros [H|H]; auto. apply G6. rewrite E. auto.
Qed.
End Run.

Lemma old_record_read series column from til :
  0 <= series < 2 ^ 32 -> 0 <= column < 2 ^ 32 -> is_i64 from -> is_i64 til ->
  dec_v1 (old_record series column from til) = TB (FOne (series, column)) [TR from til].
Proof.
  intros A B C D. unfold dec_v1, old_record.
  change (be_bytes 8 (from mod 2 ^ 64)) with (enc_i64 from). change (be_bytes 8 (til mod 2 ^ 64)) with (enc_i64 til).
  rewrite firstn_exact by apply be_bytes_length. rewrite (skipn_exact (be_bytes 4 series)) by apply be_bytes_length.
  rewrite firstn_exact by apply be_bytes_length. rewrite !of_be32 by auto.
  rewrite app_assoc. rewrite (skipn_exact (be_bytes 4 series ++ be_bytes 4 column)) by (rewrite app_length, !be_bytes_length; auto).
  rewrite dec_enc_i64 by auto. rewrite app_assoc.
  rewrite (skipn_exact ((be_bytes 4 series ++ be_bytes 4 column) ++ enc_i64 from)) by (rewrite !app_length, !be_bytes_length; auto).
  rewrite <- (app_nil_r (enc_i64 til)). rewrite dec_enc_i64 by auto. reflexivity.
Qed.
