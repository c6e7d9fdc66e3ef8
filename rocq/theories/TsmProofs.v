From Verif Require Import Prelude TimeRangeModel TimeRangeSpec TsmModel TsmSpec.

(** ** maps *)
Lemma aget_aput {V} k k' (v : V) l : aget k (aput k' v l) = if k =? k' then Some v else aget k l.
Proof.
  induction l as [|[a b] l IH]; cbn.
  - destruct (k =? k'); auto.
  - destruct (Z.eqb_spec k' a) as [->|N]; cbn.
    + destruct (k =? a); auto.
    + rewrite IH. destruct (Z.eqb_spec k a) as [->|]; auto. destruct (Z.eqb_spec a k'); congruence.
Qed.
Lemma aput_keys {V} k (v : V) l x : In x (map fst (aput k v l)) <-> x = k \/ In x (map fst l).
Proof.
  induction l as [|[a b] l IH]; cbn. { intuition. } destruct (Z.eqb_spec k a) as [->|N]; cbn. { intuition. } rewrite IH. intuition.
Qed.
Lemma aput_nodup {V} k (v : V) l : NoDup (map fst l) -> NoDup (map fst (aput k v l)).
Proof.
  induction l as [|[a b] l IH]; cbn; intros N. { constructor; auto. } apply NoDup_cons_iff in N. destruct N as [N1 N2].
  destruct (Z.eqb_spec k a) as [->|D]; cbn; constructor; auto. rewrite aput_keys. intros [->|I]; auto.
Qed.
Lemma aput_new {V} k (v : V) l : ~ In k (map fst l) -> aput k v l = l ++ [(k, v)].
Proof.
  induction l as [|[a b] l IH]; cbn; intros N; auto. destruct (Z.eqb_spec k a) as [->|D]. { exfalso; auto. } rewrite IH; auto.
Qed.
Lemma aget_in {V} k (v : V) l : aget k l = Some v -> In (k, v) l.
Proof. induction l as [|[a b] l IH]; cbn; [discriminate|]. destruct (Z.eqb_spec k a) as [->|D]; auto. intros [= ->]; auto. Qed.
Lemma aget_none {V} k (l : list (Z * V)) : aget k l = None <-> ~ In k (map fst l).
Proof.
  induction l as [|[a b] l IH]; cbn; [tauto|]. destruct (Z.eqb_spec k a) as [->|D]. { split; [discriminate|]. intros N. exfalso; auto. }
  rewrite IH. intuition.
Qed.
Lemma in_aget {V} k (v : V) l : NoDup (map fst l) -> In (k, v) l -> aget k l = Some v.
Proof.
  induction l as [|[a b] l IH]; cbn; intros N I; [destruct I|]. apply NoDup_cons_iff in N. destruct N as [N1 N2].
  destruct I as [[= -> ->]|I]. { rewrite Z.eqb_refl; auto. } destruct (Z.eqb_spec k a) as [->|D]; auto. exfalso. apply N1. exact (in_map fst _ _ I).
Qed.
Lemma get2_put2 t sid t' sid' c s : get2 t sid (put2 t' sid' c s) = if (t =? t') && (sid =? sid') then Some c else get2 t sid s.
Proof.
  unfold get2, put2. rewrite aget_aput. destruct (Z.eqb_spec t t') as [->|D]; cbn [andb]; auto. rewrite aget_aput.
  destruct (sid =? sid'); auto. destruct (aget t' s); auto.
Qed.

(** ** slices *)
Lemma skipn_skipn {A} n m (l : list A) : skipn n (skipn m l) = skipn (m + n) l.
Proof. revert l. induction m; cbn; intros [|a l]; auto. destruct n; auto. Qed.
Lemma slice_exact a b c : slice (a ++ b ++ c) (length a) (length b) = Some b.
Proof.
  unfold slice. rewrite !app_length. replace (_ <=? _)%nat with true by (symmetry; apply Nat.leb_le; lia).
  rewrite skipn_app, skipn_all, Nat.sub_diag. cbn. rewrite firstn_app, Nat.sub_diag, firstn_all. cbn. rewrite app_nil_r. auto.
Qed.
Lemma slice_more a b p n x : slice a p n = Some x -> slice (a ++ b) p n = Some x.
Proof.
  unfold slice. destruct (Nat.leb_spec (p + n) (length a)) as [L|L]; [|discriminate]. intros [= <-]. rewrite app_length.
  replace (_ <=? _)%nat with true by (symmetry; apply Nat.leb_le; lia). f_equal. rewrite skipn_app, firstn_app, skipn_length.
  replace (n - (length a - p))%nat with 0%nat by lia. cbn. apply app_nil_r.
Qed.
Lemma slice_zero b p : (p <= length b)%nat -> slice b p 0 = Some [].
Proof. intros L. unfold slice. replace (_ <=? _)%nat with true by (symmetry; apply Nat.leb_le; lia). auto. Qed.
Lemma slice_join b p n x m y : slice b p n = Some x -> slice b (p + n) m = Some y -> slice b p (n + m) = Some (x ++ y).
Proof.
  unfold slice. destruct (Nat.leb_spec (p + n) (length b)); [|discriminate]. intros [= <-].
  destruct (Nat.leb_spec (p + n + m) (length b)); [|discriminate]. intros [= <-].
  replace (p + (n + m) <=? length b)%nat with true by (symmetry; apply Nat.leb_le; lia). f_equal.
  rewrite <- (firstn_skipn n (firstn (n + m) (skipn p b))). f_equal.
  - rewrite firstn_firstn. f_equal. lia.
  - rewrite skipn_firstn_comm. replace (n + m - n)%nat with m by lia. rewrite skipn_skipn. auto.
Qed.

Section E.
  Context (E : tsm_env) (OK : env_ok E).
  (** ** layout of the metadata *)
  Definition at_spec (buf : bytes) (e : Z * tchunk) (c : cwspec) : Prop :=
    cw_sid c = fst e /\ cw_tr c = tc_tr (snd e) /\ slice buf (cw_off c) (cw_size c) = Some (e_chunk E (snd e)).
  Lemma at_more a b e c : at_spec a e c -> at_spec (a ++ b) e c.
  Proof. intros (A & B & C). split; auto. split; auto. apply slice_more; auto. Qed.
  Lemma lay_series_ok : forall m buf buf' l, lay_series E m buf = (buf', l) -> (exists tl, buf' = buf ++ tl) /\ Forall2 (at_spec buf') m l.
  Proof.
    induction m as [|[sid c] m IH]; cbn; intros buf buf' l H. { injection H as <- <-. split; [exists []; rewrite app_nil_r; auto|constructor]. }
    destruct (lay_series E m (buf ++ e_chunk E c)) as [b2 l2] eqn:Q. injection H as <- <-. destruct (IH _ _ _ Q) as [[tl T] F].
    split. { exists (e_chunk E c ++ tl). rewrite T, app_assoc. auto. } constructor; auto. split; auto. split; auto. cbn.
    rewrite T, <- app_assoc. apply slice_exact.
  Qed.
  Definition at_table (buf : bytes) (s : Z * list (Z * tchunk)) (g : Z * list cwspec) : Prop := fst g = fst s /\ Forall2 (at_spec buf) (snd s) (snd g).
  Lemma at_table_more a b s g : at_table a s g -> at_table (a ++ b) s g.
  Proof. intros [A B]. split; auto. clear A. induction B; constructor; auto. apply at_more; auto. Qed.
  Lemma lay_chunks_ok : forall s buf buf' gs, lay_chunks E s buf = (buf', gs) -> (exists tl, buf' = buf ++ tl) /\ Forall2 (at_table buf') s gs.
  Proof.
    induction s as [|[t m] s IH]; cbn; intros buf buf' gs H. { injection H as <- <-. split; [exists []; rewrite app_nil_r; auto|constructor]. }
    destruct (lay_series E m buf) as [b1 l] eqn:Q1. destruct (lay_chunks E s b1) as [b2 r] eqn:Q2. injection H as <- <-.
    destruct (lay_series_ok _ _ _ _ Q1) as [[t1 T1] F1]. destruct (IH _ _ _ Q2) as [[t2 T2] F2].
    split. { exists (t1 ++ t2). rewrite T2, T1, app_assoc. auto. } constructor; auto. split; auto. cbn. rewrite T2.
    clear - F1. induction F1; constructor; auto. apply at_more; auto.
  Qed.
  Definition at_group (buf : bytes) (schemas : list (Z * tschema)) (g : Z * list cwspec) (m : Z * gwspec) : Prop :=
    fst m = fst g /\ aget (fst g) schemas = Some (gw_schema (snd m)) /\ sc_name (gw_schema (snd m)) = fst g /\ gw_tr (snd m) = group_range (snd g) /\
    slice buf (gw_off (snd m)) (gw_size (snd m)) = Some (e_group E (snd g)).
  Lemma at_group_more a b sc g m : at_group a sc g m -> at_group (a ++ b) sc g m.
  Proof. intros (A & B & C & D & F). repeat (split; auto). apply slice_more; auto. Qed.
  Lemma lay_groups_ok sc : forall gs buf meta, NoDup (map fst meta ++ map fst gs) ->
    (forall t, In t (map fst gs) -> exists s, aget t sc = Some s /\ sc_name s = t) ->
    exists buf' r, lay_groups E gs sc buf meta = Some (buf', meta ++ r) /\ (exists tl, buf' = buf ++ tl) /\ Forall2 (at_group buf' sc) gs r.
  Proof.
    induction gs as [|[t l] gs IH]; cbn; intros buf meta N H.
    { exists buf, []. rewrite app_nil_r. split; auto. split; [exists []; rewrite app_nil_r; auto|constructor]. }
    destruct (H t (or_introl eq_refl)) as (s & A & B). rewrite A.
    assert (Nt : ~ In t (map fst meta)). { intros I. apply NoDup_remove_2 in N. apply N. apply in_or_app; auto. }
    rewrite aput_new by (rewrite B; auto).
    destruct (IH (buf ++ e_group E l) (meta ++ [(sc_name s, GW s (length buf) (length (e_group E l)) (group_range l))])) as (b2 & r & Q & [tl T] & F).
    - rewrite map_app. cbn. rewrite B, <- app_assoc. auto.
    - intros t' I. apply H. auto.
    - exists b2, ((sc_name s, GW s (length buf) (length (e_group E l)) (group_range l)) :: r). rewrite Q, <- app_assoc. split; auto.
      split. { exists (e_group E l ++ tl). rewrite T, app_assoc. auto. } constructor; auto. cbn. split; auto. split; auto. split; auto. split; auto.
      rewrite T, <- app_assoc. apply slice_exact.
  Qed.

  (** ** reading the metadata *)
  Lemma read_groups_ok buf sc : forall gs meta acc, Forall2 (at_group buf sc) gs meta -> NoDup (map fst acc ++ map fst gs) ->
    read_groups E buf meta acc = Ok (acc ++ gs).
  Proof.
    intros gs meta acc F. revert acc. induction F as [|[t l] [t' g] gs meta (A & B & C & D & S) F IH]; cbn; intros acc N. { rewrite app_nil_r; auto. }
    cbn in *. rewrite S. cbn. rewrite (ok_group _ OK). cbn. rewrite C. rewrite aput_new. 2:{ intros I. apply NoDup_remove_2 in N. apply N. apply in_or_app; auto. }
    rewrite IH. { rewrite <- app_assoc. auto. } rewrite map_app, <- app_assoc. auto.
  Qed.
  Lemma read_in_ok buf : forall m l acc, Forall2 (at_spec buf) m l -> NoDup (map fst acc ++ map fst m) -> read_chunks_in E buf l acc = Ok (acc ++ m).
  Proof.
    intros m l acc F. revert acc. induction F as [|[sid c] w m l (A & B & S) F IH]; cbn; intros acc N. { rewrite app_nil_r; auto. }
    cbn in *. rewrite S. cbn. rewrite (ok_chunk _ OK). cbn. rewrite A. rewrite aput_new. 2:{ intros I. apply NoDup_remove_2 in N. apply N. apply in_or_app; auto. }
    rewrite IH. { rewrite <- app_assoc. auto. } rewrite map_app, <- app_assoc. auto.
  Qed.
  Definition all_chunks (s : specs) : list (Z * tchunk) := concat (map snd s).
  Lemma nodup_l {A} (a b : list A) : NoDup (a ++ b) -> NoDup a.
  Proof. induction a as [|x a IH]; cbn; intros N; [constructor|]. apply NoDup_cons_iff in N. destruct N as [N1 N2]. constructor; auto.
    intros I. apply N1. apply in_or_app; auto. Qed.
  Lemma read_chunks_ok buf : forall s gs acc, Forall2 (at_table buf) s gs -> NoDup (map fst acc ++ map fst (all_chunks s)) ->
    read_chunks E buf gs acc = Ok (acc ++ all_chunks s).
  Proof.
    intros s gs acc F. revert acc. induction F as [|[t m] [t' l] s gs [A B] F IH]; cbn; intros acc N. { unfold all_chunks; cbn; rewrite app_nil_r; auto. }
    unfold all_chunks in *. cbn in *. rewrite map_app in N. rewrite (read_in_ok buf m l acc B).
    2:{ rewrite app_assoc in N. exact (nodup_l _ _ N). } cbn. rewrite IH. { rewrite <- app_assoc. auto. } rewrite map_app, <- app_assoc. auto.
  Qed.

  (** ** finish, then open *)
  Lemma forall2_more (b tl : bytes) s gs : Forall2 (at_table b) s gs -> Forall2 (at_table (b ++ tl)) s gs.
  Proof. induction 1; constructor; auto. apply at_table_more; auto. Qed.
  Lemma tables_fst buf s gs : Forall2 (at_table buf) s gs -> map fst gs = map fst s.
  Proof. induction 1 as [|a b s gs [A _] F IH]; cbn; auto. f_equal; auto. Qed.
  Lemma sids_eq buf s gs : Forall2 (at_table buf) s gs -> concat (map (fun g => map cw_sid (snd g)) gs) = map fst (all_chunks s).
  Proof.
    unfold all_chunks. induction 1 as [|a b s gs [A B] F IH]; cbn; auto. rewrite map_app. f_equal; auto.
    clear - B. induction B as [|e c m l (P & _) F IH]; cbn; auto. f_equal; auto.
  Qed.
  Lemma tail_ok sc : forall (buf1 mb : bytes) gs r, Forall2 (at_group buf1 sc) gs r -> Forall2 (at_group (buf1 ++ mb) sc) gs r.
  Proof. intros buf1 mb gs r F. induction F; constructor; auto. apply at_group_more; auto. Qed.

  Record opened (w : tw) (b : bytes) (r : treader) : Prop := OPN {
    o_file : r_file r = b; o_coff : f_coff (r_foot r) = length (w_out w); o_pre : exists tl, b = w_out w ++ tl;
    o_chunks : r_chunks r = all_chunks (w_specs w);
    o_tables : map fst (r_meta r) = map fst (w_specs w);
    o_schema : forall t g, In (t, g) (r_meta r) -> aget t (w_schemas w) = Some (gw_schema g) /\ sc_name (gw_schema g) = t;
    o_bloom : f_bloom (r_foot r) = bloom E (map fst (all_chunks (w_specs w)));
    o_range : exists gs, Forall2 (fun s g => map cw_tr g = map (fun e => tc_tr (snd e)) (snd s)) (w_specs w) gs /\
              map (fun m => gw_tr (snd m)) (r_meta r) = map group_range gs /\ f_tr (r_foot r) = fold_left tr_merge (map group_range gs) tr_none }.
  Lemma fold_map {A B C} (f : A -> B -> A) (g : C -> B) l a : fold_left (fun x y => f x (g y)) l a = fold_left f (map g l) a.
  Proof. revert a. induction l; cbn; auto. Qed.
  Lemma finish_some w : NoDup (map fst (w_specs w)) -> (forall t, In t (map fst (w_specs w)) -> exists s, aget t (w_schemas w) = Some s /\ sc_name s = t) ->
    exists buf gs buf1 meta, lay_chunks E (w_specs w) [] = (buf, gs) /\ lay_groups E gs (w_schemas w) buf [] = Some (buf1, meta) /\ Forall2 (at_table buf) (w_specs w) gs /\
      (exists tl, buf1 = buf ++ tl) /\ Forall2 (at_group buf1 (w_schemas w)) gs meta.
  Proof.
    intros N H. destruct (lay_chunks E (w_specs w) []) as [buf gs] eqn:L. destruct (lay_chunks_ok _ _ _ _ L) as [_ F].
    pose proof (tables_fst _ _ _ F) as T.
    destruct (lay_groups_ok (w_schemas w) gs buf []) as (buf1 & r & Q & X & G).
    { cbn. rewrite T. auto. } { rewrite T. auto. }
    exists buf, gs, buf1, r. auto.
  Qed.
  Lemma finish_open w : NoDup (map fst (w_specs w)) -> (forall t, In t (map fst (w_specs w)) -> exists s, aget t (w_schemas w) = Some s /\ sc_name s = t) ->
    NoDup (map fst (all_chunks (w_specs w))) -> w_comp w = w_v2 w -> exists b r, finish E w = Some b /\ tsm_open E b = Ok r /\ opened w b r.
  Proof.
    intros N H Ns C. destruct (finish_some w N H) as (buf & gs & buf1 & meta & L & Q & F & [tl T] & G).
    unfold finish. rewrite L, Q.
    set (mb := e_meta E meta). set (buf2 := buf1 ++ mb).
    set (ft := FT (w_v2 w) (fold_left (fun r g => tr_merge r (gw_tr (snd g))) meta tr_none) (length buf1) (length mb) (bloom E (concat (map (fun g => map cw_sid (snd g)) gs))) (length (w_out w)) (length buf)).
    set (body := if w_comp w then comp E buf2 else buf2).
    exists (w_out w ++ body ++ e_foot E ft). eexists. split; [reflexivity|].
    assert (Lf : length (e_foot E ft) = foot_size E) by (apply (ok_size _ OK ft _ eq_refl)).
    assert (Len : length (w_out w ++ body ++ e_foot E ft) = (length (w_out w) + length body + foot_size E)%nat) by (rewrite !app_length; lia).
    assert (R1 : read_footer E (w_out w ++ body ++ e_foot E ft) = Ok ft).
    { unfold read_footer. rewrite Len. replace (_ <? _)%nat with false by (symmetry; apply Nat.ltb_ge; lia).
      replace (length (w_out w) + length body + foot_size E - foot_size E)%nat with (length (w_out w ++ body)) by (rewrite app_length; lia).
      rewrite app_assoc, skipn_app, skipn_all, Nat.sub_diag. cbn. rewrite (ok_foot _ OK). auto. }
    assert (R2 : read_meta_buffer E (w_out w ++ body ++ e_foot E ft) ft = Ok body).
    { unfold read_meta_buffer. rewrite Len. cbn [f_coff ft]. replace (_ <? _)%nat with false by (symmetry; apply Nat.ltb_ge; lia).
      replace (length (w_out w) + length body + foot_size E - foot_size E - length (w_out w))%nat with (length body) by lia. rewrite slice_exact. auto. }
    assert (R3 : (if f_v2 ft then or_err (decomp E body) else Ok body) = Ok buf2).
    { cbn [f_v2 ft]. unfold body. rewrite C. destruct (w_v2 w); auto. rewrite (ok_comp _ OK). auto. }
    assert (R4 : slice buf2 (f_goff ft) (f_gsize ft) = Some mb).
    { cbn [f_goff f_gsize ft]. unfold buf2. replace (buf1 ++ mb) with (buf1 ++ mb ++ []) by (rewrite app_nil_r; auto). apply slice_exact. }
    pose proof (tail_ok (w_schemas w) buf1 mb gs meta G) as G2.
    assert (F2 : Forall2 (at_table buf2) (w_specs w) gs). { unfold buf2. rewrite T, <- app_assoc. apply forall2_more; auto. }
    pose proof (tables_fst _ _ _ F) as Tb.
    assert (R5 : read_groups E buf2 meta [] = Ok gs). { rewrite (read_groups_ok buf2 (w_schemas w) gs meta []); auto. cbn. rewrite Tb. auto. }
    assert (R6 : read_chunks E buf2 gs [] = Ok (all_chunks (w_specs w))). { rewrite (read_chunks_ok buf2 (w_specs w) gs []); auto. }
    unfold tsm_open. rewrite R1. cbn [rbind]. rewrite R2. cbn [rbind]. rewrite R3. cbn [rbind]. rewrite R4. cbn [rbind or_panic].
    unfold mb at 1. rewrite (ok_meta _ OK). cbn [rbind or_err]. rewrite R5. cbn [rbind]. rewrite R6. cbn [rbind]. split; [reflexivity|].
    constructor; cbn [r_file r_foot r_meta r_groups r_chunks f_coff f_bloom f_tr ft]; auto.
    - eexists; reflexivity.
    - rewrite <- Tb. clear - G. induction G as [|g m gs meta (A & _) G IH]; cbn; auto. f_equal; auto.
    - intros t g I. clear - G I. induction G as [|g' m gs meta (A & B & C & _) G IH]; [destruct I|]. destruct I as [->|I]; auto. cbn in *. rewrite <- A in *. auto.
    - f_equal. exact (sids_eq _ _ _ F).
    - exists (map snd gs). split. { clear - F. induction F as [|s g ss gs [A B] F IH]; cbn; constructor; auto.
        clear - B. induction B as [|e c m l (P & Q & _) F IH]; cbn; auto. f_equal; auto. }
      assert (X : map (fun m => gw_tr (snd m)) meta = map group_range (map snd gs)).
      { clear - G. induction G as [|g m gs meta (A & B & C & D & _) G IH]; cbn; auto. f_equal; auto. }
      split; auto. rewrite <- X. apply (fold_map tr_merge (fun m => gw_tr (snd m))).
  Qed.
End E.
