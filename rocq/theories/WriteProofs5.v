(** The history of a table's schema: what an id means does not change (C57). *)
From Verif Require Import Prelude PrecisionModel WriteModel WriteSpec WriteProofs WriteProofs2 WriteProofs3 WriteProofs4.

Definition wf (s : schema) : Prop := good s /\ forall c, In c (s_cols s) -> t_id c < s_next s.
(** [s2] came later than [s1] *)
Definition rel (names : bool) (s1 s2 : schema) : Prop :=
  s_next s1 <= s_next s2 /\ forall c2, In c2 (s_cols s2) -> t_id c2 < s_next s1 ->
    exists c1, In c1 (s_cols s1) /\ t_id c1 = t_id c2 /\ t_kind c1 = t_kind c2 /\ (names = true -> t_name c1 = t_name c2).
Lemma rel_refl b s : rel b s s. Proof. split; [lia|]. intros c I _. exists c. auto. Qed.
Lemma rel_trans b s1 s2 s3 : rel b s1 s2 -> rel b s2 s3 -> rel b s1 s3.
Proof.
  intros [A1 B1] [A2 B2]. split; [lia|]. intros c3 I L. destruct (B2 c3 I) as (c2 & I2 & E2 & K2 & N2); [lia|].
  destruct (B1 c2 I2) as (c1 & I1 & E1 & K1 & N1); [lia|]. exists c1. split; [exact I1|]. split; [congruence|]. split; [congruence|].
  intros ->. rewrite N1, N2; reflexivity.
Qed.
Lemma rel_weak b s1 s2 : rel true s1 s2 -> rel b s1 s2.
Proof. intros [A B]. split; [exact A|]. intros c I L. destruct (B c I L) as (c1 & I1 & E & K & N). exists c1. auto 6. Qed.
Lemma wf_ver v s : wf s -> wf (SCH v (s_next s) (s_cols s)).
Proof. intros [[A B] C]. split; [split; assumption|exact C]. Qed.
Lemma rel_ver b v s1 s2 : rel b s1 s2 -> rel b s1 (SCH v (s_next s2) (s_cols s2)).
Proof. intros H. exact H. Qed.

Lemma col_of_none s n : col_of s n = None <-> ~ In n (map t_name (s_cols s)).
Proof.
  unfold col_of. split.
  - intros H I. apply in_map_iff in I as (c & <- & I). rewrite in_rev in I. pose proof (find_none _ _ H c I) as Q. cbn in Q.
    rewrite str_eqb_refl in Q. discriminate.
  - intros H. destruct (find (fun c => str_eqb (t_name c) n) (rev (s_cols s))) as [c|] eqn:E; [|reflexivity].
    apply find_some in E as [I E]. apply str_eqb_eq in E. exfalso. apply H. rewrite <- E. apply in_map. rewrite in_rev. exact I.
Qed.
Lemma add_column_ok s c : wf s -> t_id c = s_next s -> wf (add_column s c) /\ rel true s (add_column s c)
   /\ (forall c', In c' (s_cols s) -> In c' (s_cols (add_column s c))).
Proof.
  intros [[A B] C] E. unfold add_column. destruct (col_of s (t_name c)) as [c0|] eqn:X.
  - split; [|split].
    + split; [split; assumption|]. cbn [s_cols s_next]. intros c' I. specialize (C c' I). lia.
    + split; cbn [s_cols s_next]; [lia|]. intros c2 I _. exists c2. auto.
    + cbn [s_cols]. auto.
  - apply col_of_none in X. split; [|split].
    + split; [split|]; cbn [s_cols s_next].
      * rewrite map_app. apply nodup_cat; [exact A|repeat constructor; intros []|]. intros x I [<-|[]].
        apply in_map_iff in I as (c' & Q & I). specialize (C c' I). lia.
      * rewrite map_app. apply nodup_cat; [exact B|repeat constructor; intros []|]. intros x I [<-|[]]. contradiction.
      * intros c' I. apply in_app_or in I as [I|[<-|[]]]; [specialize (C c' I)|]; lia.
    + split; cbn [s_cols s_next]; [lia|]. intros c2 I L. apply in_app_or in I as [I|[<-|[]]]; [exists c2; auto|lia].
    + cbn [s_cols]. intros c' I. apply in_or_app. auto.
Qed.
Lemma ext_ok fb : forall s s', wf s -> ext s fb = Ok s' ->
  wf s' /\ rel true s s' /\ s_ver s' = s_ver s /\ (forall c, In c (s_cols s) -> In c (s_cols s'))
  /\ (forall n k, In (n, k) fb -> has s' n k) /\ (changed s fb = false -> s' = s).
Proof.
  induction fb as [|[n k] fb IH]; intros s s' W H; cbn [ext] in H.
  - injection H as <-. split; [exact W|]. split; [apply rel_refl|]. split; [reflexivity|]. split; [auto|]. split; [intros n k []|reflexivity].
  - unfold bind in H. destruct (ext_one s (n, k)) as [s1| |] eqn:E; try discriminate.
    unfold ext_one in E. cbn [fst snd] in E. destruct (col_of s n) as [c|] eqn:X.
    + destruct (kind_eqb (t_kind c) k) eqn:K; [|discriminate]. injection E as <-. apply kind_eqb_eq in K.
      apply col_of_spec in X as [I Q]; [|apply W]. destruct (IH _ _ W H) as (A1 & A2 & A3 & A4 & A5 & A6).
      split; [exact A1|]. split; [exact A2|]. split; [exact A3|]. split; [exact A4|]. split.
      * intros n' k' [Y|Y]; [injection Y as <- <-; exists c; auto|auto].
      * intros Y. apply A6. cbn in Y. apply orb_false_iff in Y. tauto.
    + injection E as <-. destruct (add_column_ok s (TC (s_next s) n k) W eq_refl) as (B1 & B2 & B3).
      destruct (IH _ _ B1 H) as (A1 & A2 & A3 & A4 & A5 & A6).
      split; [exact A1|]. split; [exact (rel_trans _ _ _ _ B2 A2)|]. split; [rewrite A3; reflexivity|]. split; [auto|]. split.
      * intros n' k' [Y|Y]; [|auto]. injection Y as <- <-. exists (TC (s_next s) n k). split; [|auto]. apply A4.
        unfold add_column. cbn [t_name]. rewrite X. cbn [s_cols]. apply in_or_app. right. left. reflexivity.
      * intros Y. cbn [changed existsb fst] in Y. rewrite X in Y. discriminate.
Qed.
Lemma new_wf : wf new_schema.
Proof.
  split; [split; vm_compute; repeat constructor; intros []|]. intros c [<-|[]]. vm_compute. reflexivity.
Qed.
Lemma drop_ok s n : wf s -> wf (drop_column s n) /\ rel true s (drop_column s n).
Proof.
  intros [[A B] C]. unfold drop_column. split.
  - split; [split; cbn [s_cols]; apply nodup_filter_map; assumption|]. cbn [s_cols s_next]. intros c I. apply filter_In in I as [I _]. auto.
  - split; cbn [s_cols s_next]; [lia|]. intros c I _. apply filter_In in I as [I _]. exists c. auto.
Qed.
Lemma rename_ok s a b : wf s -> ~ In b (map t_name (s_cols s)) -> wf (rename_column s a b) /\ rel false s (rename_column s a b).
Proof.
  intros [[A B] C] NB. unfold rename_column. split.
  - split; [split|]; cbn [s_cols s_next].
    + rewrite map_map. erewrite map_ext; [exact A|]. intros c. cbn beta. destruct (str_eqb (t_name c) a); reflexivity.
    + clear A C. induction (s_cols s) as [|c l IH]; [constructor|]. inversion B as [|? ? N ND]; subst. cbn [map] in *.
      constructor; [|apply IH; [exact ND|intros I; apply NB; right; exact I]].
      rewrite map_map. intros I. apply in_map_iff in I as (c' & Q & I). cbn beta in Q.
      assert (IN : In (t_name c') (map t_name l)) by (apply in_map; exact I).
      destruct (str_eqb (t_name c') a) eqn:E1; destruct (str_eqb (t_name c) a) eqn:E2; cbn [t_name] in Q.
      * apply str_eqb_eq in E1. apply str_eqb_eq in E2. apply N. rewrite E2, <- E1. exact IN.
      * apply NB. left. symmetry. exact Q.
      * apply NB. right. rewrite <- Q. exact IN.
      * apply N. rewrite <- Q. exact IN.
    + intros c I. apply in_map_iff in I as (c' & <- & I). specialize (C c' I). destruct (str_eqb (t_name c') a); exact C.
  - split; cbn [s_cols s_next]; [lia|]. intros c I _. apply in_map_iff in I as (c' & <- & I). exists c'. split; [exact I|].
    destruct (str_eqb (t_name c') a); cbn; split; try reflexivity; split; try reflexivity; intros X; discriminate.
Qed.

(** *** Histories *)
Definition hinv (names : bool) (m : meta) : Prop :=
  m_now m = hd_error (m_past m) /\ Forall wf (m_past m)
  /\ StronglySorted (fun a b => s_ver b < s_ver a /\ rel names b a) (m_past m).
Lemma hinv0 names : hinv names meta0. Proof. split; [reflexivity|]. split; constructor. Qed.
Lemma ss_in {A} (R : A -> A -> Prop) l x y : StronglySorted R l -> In x l -> In y l -> x = y \/ R x y \/ R y x.
Proof.
  induction 1 as [|z l S IH F]; [intros []|]. rewrite Forall_forall in F. intros [<-|I] [<-|J]; auto.
Qed.
Lemma hinv_store names m v s : hinv names m -> m_now m = Some v -> s_ver s = s_ver v + 1 -> wf s -> rel names v s -> hinv names (store m s).
Proof.
  intros (H1 & H2 & H3) N V W R. unfold store. split; [reflexivity|]. cbn [m_past]. split; [constructor; assumption|].
  constructor; [exact H3|]. rewrite N in H1. destruct (m_past m) as [|v' l]; [discriminate|]. injection H1 as <-.
  inversion H3 as [|? ? S F]; subst. constructor; [split; [lia|exact R]|]. rewrite Forall_forall in F. apply Forall_forall. intros x I.
  destruct (F x I) as [A B]. split; [lia|exact (rel_trans _ _ _ _ B R)].
Qed.
Lemma hinv_first names s : wf s -> hinv names (store meta0 s).
Proof. intros W. split; [reflexivity|]. cbn. split; [constructor; [exact W|constructor]|repeat constructor]. Qed.
Lemma hinv_now names m e : hinv names m -> In e (m_past m) -> exists v, m_now m = Some v /\ In v (m_past m).
Proof. intros (H1 & _) I. destruct (m_past m) as [|v l]; [destruct I|]. exists v. split; [exact H1|left; reflexivity]. Qed.
Lemma hinv_ver names m e v : hinv names m -> In e (m_past m) -> In v (m_past m) -> s_ver e = s_ver v -> e = v.
Proof. intros (_ & _ & H3) I J E. destruct (ss_in _ _ _ _ H3 I J) as [A|[[A _]|[A _]]]; [exact A|lia|lia]. Qed.
(** an update made from a schema of the past is accepted only if that is the current one *)
Lemma accept_update names m e s s' : hinv names m -> In e (m_past m) -> accept (m_now m) (RUpdate s) = Some s' -> s_ver s = s_ver e + 1 ->
  m_now m = Some e /\ s' = s.
Proof.
  intros H I A V. destruct (hinv_now _ _ _ H I) as (v & N & J). rewrite N in A. cbn in A.
  destruct (Z.eqb_spec (s_ver v + 1) (s_ver s)) as [Q|Q]; [|discriminate]. injection A as <-.
  assert (e = v) by (apply (hinv_ver names m); auto; lia). subst v. auto.
Qed.
Lemma attempt_some s0 fb s r : attempt (Some s0) fb = Ok (s, r) ->
  exists x, ext s0 fb = Ok x /\ ((changed s0 fb = true /\ s = bump x /\ r = Some (RUpdate s)) \/ (changed s0 fb = false /\ s = s0 /\ r = None)).
Proof.
  cbn [attempt]. unfold bind. destruct (ext s0 fb) as [x| |] eqn:E; try discriminate. intros H. exists x. split; [reflexivity|].
  destruct (changed s0 fb); injection H as <- <-; auto.
Qed.
Lemma attempt_none fb s r : attempt None fb = Ok (s, r) -> exists x, ext new_schema fb = Ok x /\ s = SCH 0 (s_next x) (s_cols x) /\ r = Some (RCreate s).
Proof.
  cbn [attempt]. unfold bind. destruct (ext new_schema fb) as [x| |] eqn:E; try discriminate. intros H. injection H as <- <-. exists x. auto.
Qed.
(** what an accepted write request stores *)
Lemma attempt_stored names m seen fb s r s' : hinv names m -> cached m seen -> attempt seen fb = Ok (s, Some r) ->
  accept (m_now m) r = Some s' -> s' = s /\ hinv names (store m s').
Proof.
  intros H C A X. destruct seen as [s0|]; cbn [cached] in C.
  - apply attempt_some in A as (x & E & [(CH & -> & Q)|(CH & -> & Q)]); [|discriminate]. injection Q as ->.
    pose proof (proj1 (Forall_forall _ _) (proj1 (proj2 H)) s0 C) as W.
    destruct (ext_ok _ _ _ W E) as (A1 & A2 & A3 & _ & _ & _).
    destruct (accept_update _ _ s0 _ _ H C X) as [N ->]; [cbn; lia|]. split; [reflexivity|].
    apply (hinv_store names m s0); [exact H|exact N|cbn; lia|apply wf_ver; exact A1|apply rel_ver; apply rel_weak; exact A2].
  - apply attempt_none in A as (x & E & -> & Q). injection Q as ->. destruct (ext_ok _ _ _ new_wf E) as (A1 & _).
    destruct (m_now m) as [v|] eqn:N; cbn [accept] in X; [discriminate|]. injection X as <-. split; [reflexivity|].
    destruct m as [nw past]. destruct H as (H1 & _). cbn in H1, N. subst nw. destruct past; [|discriminate].
    exact (hinv_first names _ (wf_ver 0 x A1)).
Qed.
Lemma change_inv names m m' : hinv names m -> change true names m m' -> hinv names m'.
Proof.
  intros H X. pose proof (proj1 (Forall_forall _ _) (proj1 (proj2 H))) as WF.
  destruct X as [seen fb s r s' C A X|p e n k r s' I J SA K A X|p e n r s' I J SA A X|p e a b r s' NM I J SA A X].
  - exact (proj2 (attempt_stored _ _ _ _ _ _ _ H C A X)).
  - specialize (SA eq_refl). subst e. unfold alter_add in A. destruct (col_of p n) eqn:E; [discriminate|]. injection A as <-.
    destruct (accept_update _ _ p _ _ H I X) as [N ->]; [reflexivity|].
    destruct (add_column_ok p (TC (s_next p) n k) (WF p I) eq_refl) as (B1 & B2 & _).
    apply (hinv_store names m p); [exact H|exact N|reflexivity|apply wf_ver; exact B1|apply rel_ver; apply rel_weak; exact B2].
  - specialize (SA eq_refl). subst e. unfold alter_drop in A. destruct (col_of p n) as [c|]; [|discriminate].
    destruct (is_field c && _); [|discriminate]. injection A as <-.
    destruct (accept_update _ _ p _ _ H I X) as [N ->]; [reflexivity|].
    destruct (drop_ok p n (WF p I)) as (B1 & B2).
    apply (hinv_store names m p); [exact H|exact N|reflexivity|apply wf_ver; exact B1|apply rel_ver; apply rel_weak; exact B2].
  - specialize (SA eq_refl). subst e. unfold alter_rename in A. destruct (col_of p a) as [c|]; [|discriminate].
    destruct (col_of p b) eqn:E; [discriminate|]. destruct (kind_eqb (t_kind c) KTime); [discriminate|]. injection A as <-.
    destruct (accept_update _ _ p _ _ H I X) as [N ->]; [reflexivity|].
    destruct (rename_ok p a b (WF p I)) as (B1 & B2); [apply col_of_none; exact E|]. subst names.
    apply (hinv_store false m p); [exact H|exact N|reflexivity|apply wf_ver; exact B1|apply rel_ver; exact B2].
Qed.
Lemma changes_inv names m m' : hinv names m -> changes true names m m' -> hinv names m'.
Proof. intros H X. induction X as [|m1 m2 m3 X IH C]; [exact H|]. exact (change_inv _ _ _ (IH H) C). Qed.
Lemma reach_inv names m : reachable true names m -> hinv names m.
Proof. apply changes_inv. apply hinv0. Qed.
Lemma change_past same names m m' s : change same names m m' -> In s (m_past m) -> In s (m_past m').
Proof. intros [] I; right; exact I. Qed.
Lemma changes_past same names m m' s : changes same names m m' -> In s (m_past m) -> In s (m_past m').
Proof. induction 1 as [|m1 m2 m3 X IH C]; [auto|]. intros I. apply (change_past _ _ _ _ _ C). auto. Qed.
Lemma changes_trans same names a b c : changes same names a b -> changes same names b c -> changes same names a c.
Proof. intros X Y. induction Y as [|m1 m2 m3 Y IH C]; [exact X|]. apply (chs_step _ _ _ m2); [auto|exact C]. Qed.
Lemma cached_past same names m m' seen : changes same names m m' -> cached m seen -> cached m' seen.
Proof. destruct seen as [s|]; cbn; [|auto]. apply changes_past. Qed.

(** *** What the theorems say *)
Lemma ids_ok names m s1 s2 c1 c2 : reachable true names m -> In s1 (m_past m) -> In s2 (m_past m) ->
  In c1 (s_cols s1) -> In c2 (s_cols s2) -> t_id c1 = t_id c2 -> t_kind c1 = t_kind c2 /\ (names = true -> t_name c1 = t_name c2).
Proof.
  intros R I1 I2 J1 J2 E. apply reach_inv in R as (_ & WF & SS). rewrite Forall_forall in WF.
  assert (G : forall s1 s2 c1 c2, In s1 (m_past m) -> In c1 (s_cols s1) -> In c2 (s_cols s2) -> t_id c1 = t_id c2 -> rel names s1 s2 ->
     t_kind c1 = t_kind c2 /\ (names = true -> t_name c1 = t_name c2)).
  { clear - WF. intros s1 s2 c1 c2 I1 J1 J2 E [_ R]. destruct (WF s1 I1) as [[ND _] LT]. destruct (R c2 J2) as (c & A & B & C & D).
    - rewrite <- E. apply LT. exact J1.
    - assert (c = c1) as -> by (apply (nodup_map_inj t_id (s_cols s1)); auto; congruence). auto. }
  destruct (ss_in _ _ _ _ SS I1 I2) as [<-|[[_ Q]|[_ Q]]].
  - apply (G s1 s1); auto. apply rel_refl.
  - destruct (G s2 s1 c2 c1 I2 J2 J1 (eq_sym E) Q) as [A B]. split; [congruence|]. intros N. rewrite (B N). reflexivity.
  - apply (G s1 s2); auto.
Qed.
Lemma past_good names m s : reachable true names m -> In s (m_past m) -> good s.
Proof. intros R I. apply reach_inv in R as (_ & WF & _). rewrite Forall_forall in WF. apply WF. exact I. Qed.
Lemma now_past names m s : reachable true names m -> m_now m = Some s -> In s (m_past m).
Proof. intros R N. apply reach_inv in R as (H & _). rewrite N in H. destruct (m_past m); [discriminate|]. injection H as <-. left. reflexivity. Qed.
Lemma call_past same names fb seen m m' b s : call same names fb seen m m' b s -> reachable same names m -> reachable same names m'.
Proof.
  intros X. induction X as [seen m s C A|seen m m1 s r s' C A X AC|seen m m1 m2 m3 s r b s2 C A X1 AC X2 X3 IH]; intros R.
  - exact R.
  - apply (chs_step _ _ _ m1); [exact (changes_trans _ _ _ _ _ R X)|].
    apply (ch_write _ _ _ seen fb s r s'); [exact (cached_past _ _ _ _ _ X C)|exact A|exact AC].
  - apply IH. exact (changes_trans _ _ _ _ _ (changes_trans _ _ _ _ _ R X1) X2).
Qed.
Lemma accepted_ok names fb seen m m' s : reachable true names m -> call true names fb seen m m' true s ->
  In s (m_past m') /\ forall n k, In (n, k) fb -> has s n k.
Proof.
  intros R X. inversion X as [seen' m0 s0 C A|seen' m0 m1 s0 r s' C A Y AC|]; subst.
  - destruct seen as [v|]; [|apply attempt_none in A as (x & _ & _ & Q); discriminate]. cbn in C.
    apply attempt_some in A as (x & E & [(CH & -> & Q)|(CH & -> & Q)]); [discriminate|]. split; [exact C|].
    pose proof (past_good _ _ _ R C) as G. apply reach_inv in R as (_ & WF & _). rewrite Forall_forall in WF.
    destruct (ext_ok _ _ _ (WF v C) E) as (_ & _ & _ & _ & H & S). rewrite <- (S CH). exact H.
  - assert (R1 : reachable true names m1) by exact (changes_trans _ _ _ _ _ R Y).
    pose proof (cached_past _ _ _ _ _ Y C) as C1.
    destruct (attempt_stored _ _ _ _ _ _ _ (reach_inv _ _ R1) C1 A AC) as [-> _]. split; [left; reflexivity|].
    destruct seen as [v|].
    + apply attempt_some in A as (x & E & [(CH & -> & Q)|(CH & -> & Q)]); [|discriminate]. cbn in C1.
      apply reach_inv in R1 as (_ & WF & _). rewrite Forall_forall in WF. destruct (ext_ok _ _ _ (WF v C1) E) as (_ & _ & _ & _ & H & _). exact H.
    + apply attempt_none in A as (x & E & -> & Q). destruct (ext_ok _ _ _ new_wf E) as (_ & _ & _ & _ & H & _). exact H.
Qed.
(** whatever happens to the first request, the columns are in a stored schema at the end *)
Lemma columns_ok names fb seen m m' b s : reachable true names m -> call true names fb seen m m' b s ->
  exists s', In s' (m_past m') /\ forall n k, In (n, k) fb -> has s' n k.
Proof.
  intros R X. induction X as [seen m s C A|seen m m1 s r s' C A X AC|seen m m1 m2 m3 s r b s2 C A X1 AC X2 X3 IH].
  - exists s. exact (accepted_ok names fb seen m m s R (call_known _ _ _ _ _ _ C A)).
  - exists s. exact (accepted_ok names fb seen m (store m1 s') s R (call_stored _ _ _ _ _ _ _ _ _ C A X AC)).
  - apply IH. exact (changes_trans _ _ _ _ _ (changes_trans _ _ _ _ _ R X1) X2).
Qed.

(** the columns a request asks for are the names its points use *)
Lemma asked_ok ls t fb : clean ls -> asked ls t fb -> forall l n k, In l ls -> l_table l = t -> uses l n k -> k <> KTime -> In (n, k) fb.
Proof.
  intros CL (bs & b & E & I & F) l n k J ET U NK. destruct (batches_ok ls CL) as (bs' & E' & ND & HB & HT). rewrite E in E'. injection E' as <-.
  destruct (HB _ _ I) as [CF _]. assert (J' : In l (of_table t ls)) by (apply of_table_In; auto). apply In_nth_error in J' as [i NE].
  assert (NL : nth_error (rows_of t ls) i = Some (line_cells l)) by (unfold rows_of; apply map_nth_error; exact NE).
  pose proof (row_cell (rows_of t ls) (b_cols b) i l CF NL (clean_nodup _ _ CL J)) as RC.
  apply uses_cells in U as [v U]. apply RC in U as (c & C1 & C2 & C3 & _).
  unfold fb_cols in F. destruct (negb _); [discriminate|].
  set (ft := map (fun c => (c_name c, c_kind c)) (filter (fun c => kind_eqb (c_kind c) KTag) (b_cols b))) in *.
  set (ff := map (fun c => (c_name c, c_kind c)) (filter (fun c => match c_kind c with KField _ => true | _ => false end) (b_cols b))) in *.
  assert (FB : fb = ft ++ ff) by (destruct ff; [discriminate|]; injection F as <-; reflexivity). rewrite FB. apply in_or_app.
  destruct k as [|ty|]; [left; unfold ft|right; unfold ff|congruence]; apply in_map_iff; exists c; rewrite C2, C3;
    (split; [reflexivity|]); apply filter_In; (split; [exact C1|]); rewrite C3; reflexivity.
Qed.

Theorem read_later from prec sid sch (before after later : str -> meta) (seen : str -> option schema) (mt : str -> schema) ls :
  clean ls -> (forall a b, sid a = sid b -> a = b) -> (forall l, In l ls -> timestamp_convert from prec (l_ts l) <> None) ->
  (forall l, In l ls -> exists fb s, asked ls (l_table l) fb /\ reachable true true (before (l_table l))
      /\ call true true fb (seen (l_table l)) (before (l_table l)) (after (l_table l)) true s
      /\ sch (l_table l) = Ok s
      /\ changes true true (after (l_table l)) (later (l_table l)) /\ m_now (later (l_table l)) = Some (mt (l_table l))
      /\ not_dropped s (mt (l_table l)) l) ->
  exists gs out, write from prec sid sch ls = Ok gs /\ NoDup (map fst gs) /\ (forall x g, In (x, g) gs -> x = sid (g_key g))
    /\ Permutation out (stored gs) /\ Forall2 (fun kr l => reads from prec (mt (l_table l)) kr l) out ls.
Proof.
  intros CL INJ TC H. apply write_ok; try assumption. intros l I.
  destruct (H l I) as (fb & s & AS & R & X & SC & CH & NW & ND). exists s. split; [exact SC|].
  destruct (accepted_ok _ _ _ _ _ _ R X) as [IP HS]. pose proof (call_past _ _ _ _ _ _ _ _ X R) as R1.
  assert (R2 : reachable true true (later (l_table l))) by exact (changes_trans _ _ _ _ _ R1 CH).
  pose proof (changes_past _ _ _ _ _ CH IP) as IP2. pose proof (now_past _ _ _ R2 NW) as INW.
  split; [exact (past_good _ _ _ R2 IP2)|]. split; [exact (past_good _ _ _ R2 INW)|].
  intros n k U NK. destruct (HS n k) as (c & C1 & C2 & C3).
  { apply (asked_ok ls (l_table l)) with (l := l); auto. }
  destruct (ND c C1) as (c' & D1 & D2); [rewrite C2, C3; exact U|congruence|].
  exists c, c'. split; [exact C1|]. split; [exact D1|]. split; [exact C2|]. split; [exact C3|]. split; [exact D2|].
  destruct (ids_ok true _ s (mt (l_table l)) c c' R2 IP2 INW C1 D1 (eq_sym D2)) as [_ NM]. rewrite <- (NM eq_refl). exact C2.
Qed.
(** even when columns have been dropped, no value shows up under another name *)
Theorem no_other from prec later s nw k r l :
  reachable true true later -> In s (m_past later) -> m_now later = Some nw -> reads from prec s (k, s, r) l ->
  forall n v, In (n, v) (named nw (values s r)) -> In (n, v) (l_fields l).
Proof.
  intros R I NW (_ & _ & _ & P) n v J. apply (Permutation_in _ P). apply named_In in J as (id & J & E). apply named_In. exists id. split; [exact J|].
  assert (F : In id (field_ids s)).
  { unfold values in J. apply in_flat_map in J as ([i o] & A & B). cbn in B. destruct o as [w|]; [|destruct B].
    destruct B as [B|[]]. injection B as -> ->. exact (in_combine_l _ _ _ _ A). }
  apply field_ids_In in F as (c & C1 & _ & C2). pose proof (now_past _ _ _ R NW) as INW.
  apply (name_of_spec nw id n (past_good _ _ _ R INW)) in E as (c' & D1 & D2 & D3).
  apply (name_of_spec s id n (past_good _ _ _ R I)). exists c. split; [exact C1|]. split; [exact C2|].
  destruct (ids_ok true later s nw c c' R I INW C1 D1) as [_ NM]; [congruence|]. rewrite NM by reflexivity. exact D3.
Qed.

(** an injective numbering of series keys, for the examples *)
From Coq Require Cantor.
Definition zn (x : Z) : nat := if x <? 0 then (2 * Z.to_nat (- x) + 1)%nat else (2 * Z.to_nat x)%nat.
Lemma zn_inj x y : zn x = zn y -> x = y.
Proof. unfold zn. destruct (x <? 0) eqn:A, (y <? 0) eqn:B; apply Z.ltb_lt in A || apply Z.ltb_ge in A; apply Z.ltb_lt in B || apply Z.ltb_ge in B; lia. Qed.
Fixpoint ln {A} (f : A -> nat) (l : list A) : nat := match l with [] => O | x :: l' => S (Cantor.to_nat (f x, ln f l')) end.
Lemma ln_inj {A} (f : A -> nat) : (forall x y, f x = f y -> x = y) -> forall l l', ln f l = ln f l' -> l = l'.
Proof.
  intros F. induction l as [|x l IH]; intros [|y l'] H; cbn [ln] in H; try discriminate; [reflexivity|].
  apply Nat.succ_inj in H. apply Cantor.to_nat_inj in H. pose proof (f_equal fst H) as E1. pose proof (f_equal snd H) as E2. cbn [fst snd] in E1, E2.
  rewrite (F _ _ E1), (IH _ E2). reflexivity.
Qed.
Definition number (k : skey) : Z :=
  Z.of_nat (Cantor.to_nat (ln zn (k_table k), ln (fun iv => Cantor.to_nat (zn (fst iv), ln zn (snd iv))) (k_tags k))).
Lemma number_inj a b : number a = number b -> a = b.
Proof.
  unfold number. intros H. apply Nat2Z.inj in H. apply Cantor.to_nat_inj in H. pose proof (f_equal fst H) as A. pose proof (f_equal snd H) as B.
  cbn [fst snd] in A, B. destruct a as [t1 g1], b as [t2 g2]. cbn [k_table k_tags] in *. f_equal; [exact (ln_inj _ zn_inj _ _ A)|].
  refine (ln_inj _ _ _ _ B). intros [i u] [j w] Q. apply Cantor.to_nat_inj in Q.
  pose proof (f_equal fst Q) as C. pose proof (f_equal snd Q) as D. cbn [fst snd] in C, D. rewrite (zn_inj _ _ C), (ln_inj _ zn_inj _ _ D). reflexivity.
Qed.
