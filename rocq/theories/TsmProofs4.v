From Verif Require Import Prelude TimeRangeModel TimeRangeSpec TsmModel TsmSpec TsmProofs TsmProofs2 TsmProofs3.

(** ** rewriting the metadata *)
Definition put_all (es : list (Z * tchunk)) (s : specs) : specs := fold_left (fun s e => put2 (tc_table (snd e)) (tc_sid (snd e)) (snd e) s) es s.
Lemma put_all_nodup es : forall s, NoDup (map fst s) -> NoDup (map fst (put_all es s)).
Proof. unfold put_all. induction es as [|e es IH]; cbn; intros s N; auto. apply IH. apply put2_nodup; auto. Qed.
Lemma put_all_inner es : forall s, NoDup (map fst s) -> (forall t m, In (t, m) s -> NoDup (map fst m)) -> forall t m, In (t, m) (put_all es s) -> NoDup (map fst m).
Proof.
  unfold put_all. induction es as [|e es IH]; cbn; intros s N H; auto. apply IH. { apply put2_nodup; auto. } apply put2_inner; auto.
Qed.
Lemma put_all_tab es : forall s t, In t (map fst (put_all es s)) <-> In t (map fst s) \/ exists e, In e es /\ tc_table (snd e) = t.
Proof.
  unfold put_all. induction es as [|e es IH]; cbn; intros s t. { split; auto. intros [H|(x & [] & _)]; auto. }
  rewrite IH, put2_tab. split.
  - intros [[->|H]|(x & I & Q)]; eauto.
  - intros [H|(x & [<-|I] & Q)]; eauto.
Qed.
Lemma put_all_get es t sid : (forall e, In e es -> tc_sid (snd e) = fst e) -> NoDup (map fst es) -> forall s,
  get2 t sid (put_all es s) = match aget sid es with Some c => if tc_table c =? t then Some c else get2 t sid s | None => get2 t sid s end.
Proof.
  unfold put_all. induction es as [|[a c] es IH]; cbn; intros H N s; auto. apply NoDup_cons_iff in N. destruct N as [N1 N2].
  rewrite IH by auto. specialize (H (a, c) (or_introl eq_refl)). cbn in H. rewrite H, get2_put2, (Z.eqb_sym t).
  destruct (Z.eqb_spec sid a) as [->|D].
  - apply aget_none in N1. rewrite N1. rewrite andb_true_r. auto.
  - rewrite andb_false_r. auto.
Qed.
Definition rn (keys : list (Z * Z)) (e : Z * tchunk) : Z * tchunk := match aget (fst e) keys with
  | Some k => let c := snd e in (fst e, TC (tc_tr c) (tc_table c) (tc_sid c) k (tc_next c) (tc_groups c)) | None => e end.
Lemma rn_fst keys e : fst (rn keys e) = fst e. Proof. unfold rn. destruct (aget (fst e) keys); auto. Qed.
Lemma rn_sid keys e : tc_sid (snd (rn keys e)) = tc_sid (snd e). Proof. unfold rn. destruct (aget (fst e) keys); auto. Qed.
Lemma rn_table keys e : tc_table (snd (rn keys e)) = tc_table (snd e). Proof. unfold rn. destruct (aget (fst e) keys); auto. Qed.
Lemma rename_get keys cs sid : aget sid (rename keys cs) = option_map (fun c => snd (rn keys (sid, c))) (aget sid cs).
Proof.
  unfold rename. fold (rn keys). change (fun e => match aget (fst e) keys with Some k => let c := snd e in (fst e, TC (tc_tr c) (tc_table c) (tc_sid c) k (tc_next c) (tc_groups c)) | None => e end) with (rn keys).
  induction cs as [|[a c] cs IH]; cbn [map aget option_map]; auto. destruct (rn keys (a, c)) as [a' c'] eqn:Q. pose proof (rn_fst keys (a, c)) as F. rewrite Q in F. cbn in F. subst a'.
  destruct (Z.eqb_spec sid a) as [->|D]; auto. cbn [option_map]. rewrite Q. auto.
Qed.
Lemma rename_fst keys cs : map fst (rename keys cs) = map fst cs.
Proof. unfold rename. rewrite map_map. apply map_ext. intros e. apply (rn_fst keys e). Qed.
Definition new_key (keys : list (Z * Z)) (key : Z -> Z -> Z) (sid k : Z) : Z := match aget sid keys with Some k' => k' | None => key sid k end.
Lemma rn_chunk keys key out t sid xs c : chunk_ok key out t sid xs c -> chunk_ok (new_key keys key) out t sid xs (snd (rn keys (sid, c))).
Proof.
  intros [A B [x [D1 D2]] F G H]. unfold rn, new_key. cbn. destruct (aget sid keys) as [k|] eqn:Q; constructor; cbn; auto; exists x; split; auto; rewrite Q; auto.
Qed.
Definition put_schemas (m : list (Z * gwspec)) (s : list (Z * tschema)) := fold_left (fun m g => insert_schema (gw_schema (snd g)) m) m s.
Lemma put_schemas_get m : (forall t g, In (t, g) m -> sc_name (gw_schema g) = t) -> NoDup (map fst m) -> forall s t, (forall t, In t (map fst m) -> aget t s = None) ->
  aget t (put_schemas m s) = match aget t m with Some g => Some (gw_schema g) | None => aget t s end.
Proof.
  unfold put_schemas. induction m as [|[a g] m IH]; cbn; intros H N s t Z0; auto. apply NoDup_cons_iff in N. destruct N as [N1 N2].
  assert (A : sc_name (gw_schema g) = a) by (apply H; auto).
  assert (I : insert_schema (gw_schema g) s = aput a (gw_schema g) s) by (unfold insert_schema; rewrite A, (Z0 a) by auto; auto).
  rewrite I, IH; auto.
  - rewrite aget_aput. destruct (Z.eqb_spec t a) as [->|D]; auto. apply aget_none in N1. rewrite N1. auto.
  - intros t' I'. rewrite aget_aput. destruct (Z.eqb_spec t' a) as [->|D]; auto. contradiction.
Qed.

Section U.
  Context (E : tsm_env) (key : Z -> Z -> Z) (ws : list wr) (w : tw) (C : Core key ws w) (OT : one_table ws) (b : bytes) (r : treader) (O : opened E w b r).
  Context (keys : list (Z * Z)) (c : bool).
  Lemma cut_out : w_out (cut_writer r keys c) = w_out w.
  Proof. cbn. rewrite (o_file _ _ _ _ O), (o_coff _ _ _ _ O). destruct (o_pre _ _ _ _ O) as [tl ->]. rewrite firstn_app, Nat.sub_diag, firstn_all. cbn. apply app_nil_r. Qed.
  Lemma cut_get t sid : get2 t sid (w_specs (cut_writer r keys c)) = option_map (fun ch => snd (rn keys (sid, ch))) (get2 t sid (w_specs w)).
  Proof.
    cbn [w_specs cut_writer]. fold (put_all (rename keys (r_chunks r)) []). rewrite put_all_get.
    - rewrite rename_get, (o_chunks _ _ _ _ O). destruct (aget sid (all_chunks (w_specs w))) as [ch|] eqn:G; cbn [option_map].
      + rewrite rn_table. cbn [snd]. pose proof G as G'. apply (all_get key ws w C OT) in G'. destruct G' as (t0 & G0).
        destruct (chunk_of key ws w C _ _ _ G0) as (x & xs & _ & K). rewrite (ch_table _ _ _ _ _ _ K). destruct (Z.eqb_spec t0 t) as [->|D]. { rewrite G0. auto. }
        destruct (get2 t sid (w_specs w)) as [c2|] eqn:G2; auto. assert (X : aget sid (all_chunks (w_specs w)) = Some c2) by (apply (all_get key ws w C OT); eauto).
        rewrite G in X. injection X as <-. destruct (chunk_of key ws w C _ _ _ G2) as (y & ys & _ & L). exfalso. apply D. rewrite <- (ch_table _ _ _ _ _ _ K). apply L.
      + destruct (get2 t sid (w_specs w)) as [c2|] eqn:G2; auto. assert (X : aget sid (all_chunks (w_specs w)) = Some c2) by (apply (all_get key ws w C OT); eauto). congruence.
    - intros e I. unfold rename in I. apply in_map_iff in I. destruct I as ([sid' ch] & <- & I). change (tc_sid (snd (rn keys (sid', ch))) = fst (rn keys (sid', ch))). rewrite rn_sid, rn_fst. cbn.
      rewrite (o_chunks _ _ _ _ O) in I. apply in_all in I. destruct I as (t' & m & I1 & I2). assert (G : get2 t' sid' (w_specs w) = Some ch) by (apply (get_in key ws w C); eauto).
      destruct (chunk_of key ws w C _ _ _ G) as (x & xs & _ & K). apply K.
    - rewrite rename_fst, (o_chunks _ _ _ _ O). apply (sids_nodup key ws w C OT).
  Qed.
  Lemma core_update : Core (new_key keys key) ws (cut_writer r keys c).
  Proof.
    assert (GS : forall t, aget t (w_schemas (cut_writer r keys c)) = option_map gw_schema (aget t (r_meta r))).
    { intros t. cbn [w_schemas cut_writer]. fold (put_schemas (r_meta r) []). assert (N : forall t' g, In (t', g) (r_meta r) -> sc_name (gw_schema g) = t') by (intros t' g I; apply (o_schema _ _ _ _ O _ _ I)).
      rewrite (put_schemas_get (r_meta r) N (meta_nodup E key ws w C b r O) [] t); [|auto]. cbn. destruct (aget t (r_meta r)); auto. }
    constructor.
    - cbn [w_specs cut_writer]. apply (put_all_nodup (rename keys (r_chunks r)) []). constructor.
    - cbn [w_specs cut_writer]. apply (put_all_inner (rename keys (r_chunks r)) []). { constructor. } intros t m [].
    - intros t sid. rewrite cut_get, cut_out. pose proof (c_get _ _ _ C t sid) as H. destruct (get2 t sid (w_specs w)) as [ch|]; cbn [option_map]; auto. apply rn_chunk; auto.
    - intros t. cbn [w_specs cut_writer]. rewrite (put_all_tab (rename keys (r_chunks r)) [] t). cbn. split.
      + intros [[]|(e & I & Q)]. unfold rename in I. apply in_map_iff in I. destruct I as ([sid ch] & <- & I). change (tc_table (snd (rn keys (sid, ch))) = t) in Q. rewrite rn_table in Q. cbn in Q.
        rewrite (o_chunks _ _ _ _ O) in I. apply in_all in I. destruct I as (t' & m & I1 & I2). assert (G : get2 t' sid (w_specs w) = Some ch) by (apply (get_in key ws w C); eauto).
        destruct (chunk_of key ws w C _ _ _ G) as (x & xs & _ & K). rewrite (ch_table _ _ _ _ _ _ K) in Q. subst t'. apply (c_tab _ _ _ C). exact (in_map fst _ _ I1).
      + intros I. right. apply in_map_iff in I. destruct I as (x & <- & I). destruct (all_get_x key ws w C OT x I) as (ch & G & A).
        exists (rn keys (x_sid x, ch)). split. { apply aget_in in A. rewrite (o_chunks _ _ _ _ O). exact (in_map (rn keys) _ _ A). }
        rewrite rn_table. destruct (chunk_of key ws w C _ _ _ G) as (y & ys & _ & K). apply K.
    - intros t s. rewrite GS. destruct (aget t (r_meta r)) as [g|] eqn:G; [|discriminate]. intros [= <-]. apply aget_in in G. destruct (o_schema _ _ _ _ O _ _ G) as [A _]. exact (c_sc _ _ _ C _ _ A).
    - intros x I. rewrite GS. destruct (aget (tname x) (r_meta r)) as [g|] eqn:G; [discriminate|]. apply aget_none in G. rewrite (o_tables _ _ _ _ O) in G. exfalso. apply G. apply (c_tab _ _ _ C). apply in_map; auto.
  Qed.
End U.

(** ** a file and its updates *)
Definition good_file (E : tsm_env) (key : Z -> Z -> Z) (ws : list wr) (b : bytes) : Prop :=
  exists w r, Core key ws w /\ tsm_open E b = Ok r /\ opened E w b r.
Lemma file_good E c ws b : env_ok E -> Forall (write_ok E) ws -> one_table ws -> write_file E c ws = Some b -> good_file E kid ws b.
Proof.
  intros OK F OT. unfold write_file. destruct (writes_inv E c ws F) as [A B]. destruct (ordered_dec ws) as [T|T]. 2:{ rewrite B by auto. discriminate. }
  destruct (A T) as (w & -> & V). intros Q. destruct (core_open E kid ws w (v_core _ _ _ V) OT OK) as (b' & r & Q' & R & O). { rewrite (v_v2 _ _ _ V), (v_comp _ _ _ V). auto. }
  rewrite Q' in Q. injection Q as <-. exists w, r. split; [apply V|auto].
Qed.
Lemma update_good E key ws b keys : env_ok E -> one_table ws -> good_file E key ws b -> exists b', update_file E keys false b = Ok b' /\ good_file E (new_key keys key) ws b'.
Proof.
  intros OK OT (w & r & C & R & O). unfold update_file. rewrite R. cbn [rbind].
  pose proof (core_update E key ws w C OT b r O keys false) as C2.
  destruct (core_open E _ ws _ C2 OT OK) as (b' & r' & Q & R' & O'). { reflexivity. }
  rewrite Q. exists b'. split; auto. exists (cut_writer r keys false), r'. auto.
Qed.
Lemma updates_good E kss ws : env_ok E -> one_table ws -> forall key b, good_file E key ws b -> exists b', updates E kss b = Ok b' /\
  good_file E (fun sid k => key_after kss sid (key sid k)) ws b'.
Proof.
  intros OK OT. induction kss as [|ks kss IH]; cbn; intros key b G. { exists b. split; auto. }
  destruct (update_good E key ws b ks OK OT G) as (b1 & -> & G1). cbn. destruct (IH _ _ G1) as (b' & Q & G'). exists b'. split; auto.
Qed.
Lemma good_gives E key ws b : env_ok E -> Forall (write_ok E) ws -> one_table ws -> good_file E key ws b -> exists r, tsm_open E b = Ok r /\ gives_back E r ws key.
Proof. intros OK F OT (w & r & C & R & O). exists r. split; auto. exact (core_gives E key ws w C OT b r O F). Qed.
Lemma write_file_some E c ws : env_ok E -> Forall (write_ok E) ws -> one_table ws -> time_ordered ws -> exists b, write_file E c ws = Some b.
Proof.
  intros OK F OT T. unfold write_file. destruct (writes_inv E c ws F) as [A _]. destruct (A T) as (w & -> & V).
  destruct (core_open E kid ws w (v_core _ _ _ V) OT OK) as (b' & r & Q' & R & O). { rewrite (v_v2 _ _ _ V), (v_comp _ _ _ V). auto. } eauto.
Qed.

(** ** compressed metadata under a footer of version 1 *)
Lemma open_short E out body mb ft : env_ok E -> f_v2 ft = false -> f_coff ft = length out -> (exists l, f_bloom ft = bloom E l) -> (length body < f_goff ft + f_gsize ft)%nat -> mb = body ->
  tsm_open E (out ++ mb ++ e_foot E ft) = Panic.
Proof.
  intros OK V Co [l Bl] L ->. pose proof (ok_size _ OK ft l Bl) as Lf.
  assert (Len : length (out ++ body ++ e_foot E ft) = (length out + length body + foot_size E)%nat) by (rewrite !app_length; lia).
  unfold tsm_open, read_footer. rewrite Len. replace (_ <? _)%nat with false by (symmetry; apply Nat.ltb_ge; lia).
  replace (length out + length body + foot_size E - foot_size E)%nat with (length (out ++ body)) by (rewrite app_length; lia).
  rewrite app_assoc, skipn_app, skipn_all, Nat.sub_diag. cbn [app skipn]. rewrite (ok_foot _ OK). cbn [or_err rbind]. unfold read_meta_buffer. rewrite <- app_assoc, Len, Co.
  replace (_ <? _)%nat with false by (symmetry; apply Nat.ltb_ge; lia).
  replace (length out + length body + foot_size E - foot_size E - length out)%nat with (length body) by lia. rewrite slice_exact. cbn [or_err rbind]. rewrite V. cbn [rbind].
  unfold slice. replace (_ <=? _)%nat with false by (symmetry; apply Nat.leb_gt; lia). auto.
Qed.
Lemma finish_shape E w b : finish E w = Some b -> exists buf ft, b = w_out w ++ (if w_comp w then comp E buf else buf) ++ e_foot E ft /\ f_v2 ft = w_v2 w /\ f_coff ft = length (w_out w) /\
  (exists l, f_bloom ft = bloom E l) /\ (f_goff ft + f_gsize ft = length buf)%nat /\
  forall c', finish E (TW (w_out w) (w_schemas w) (w_specs w) (w_state w) (w_v2 w) c') = Some (w_out w ++ (if c' then comp E buf else buf) ++ e_foot E ft).
Proof.
  unfold finish. cbn [w_out w_schemas w_specs w_state w_v2 w_comp]. destruct (lay_chunks E (w_specs w) []) as [buf gs]. destruct (lay_groups E gs (w_schemas w) buf []) as [[b1 meta]|]; [|discriminate].
  intros [= <-]. eexists. eexists. split; [reflexivity|]. cbn [f_v2 f_coff f_bloom f_goff f_gsize]. split; auto. split; auto. split; eauto. split; auto. rewrite app_length. auto.
Qed.
Lemma compressed_panic E keys b b0 b1 : env_ok E -> update_file E keys false b = Ok b0 -> update_file E keys true b = Ok b1 -> (length b1 < length b0)%nat -> tsm_open E b1 = Panic.
Proof.
  intros OK. unfold update_file. destruct (tsm_open E b) as [r| |]; try discriminate. cbn [rbind].
  destruct (finish E (cut_writer r keys false)) as [x|] eqn:Q; [|discriminate]. cbn [or_panic]. intros [= ->]. destruct (finish_shape _ _ _ Q) as (buf & ft & -> & V & Co & Bl & L & H).
  specialize (H true). change (TW _ _ _ _ _ true) with (cut_writer r keys true) in H. rewrite H. cbn [or_panic]. intros [= <-]. cbn [w_comp cut_writer] in *. rewrite !app_length. intros Lt.
  apply (open_short E _ (comp E buf) _ ft); auto. rewrite L. cbn [w_out cut_writer] in Lt. lia.
Qed.
