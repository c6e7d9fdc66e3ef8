(** Proofs about routing: the rows a history leaves in all replica sets. *)
From Verif Require Import Prelude WriteModel WriteSpec BucketModel RouteModel RouteSpec RouteProofs.

(** ** Placing rows of one table *)
Record pl := PL { p_repl : Z; p_key : list (str * str); p_ts : Z; p_fs : list (str * cell) }.
Definition doit (T : str) (rows : list srow) (p : pl) : list srow := place (p_repl p) T (p_key p) (p_ts p) (p_fs p) rows.
Definition at_ (T : str) (p : pl) (o : srow) : Prop :=
  o_repl o = p_repl p /\ o_table o = T /\ o_tags o = p_key p /\ o_ts o = p_ts p.
Definition hitb (r : Z) (t : str) (k : list (str * str)) (ts : Z) (o : srow) : bool :=
  (o_repl o =? r) && str_eqb (o_table o) t && tags_eqb (o_tags o) k && (o_ts o =? ts).
Lemma hitb_eq r t k ts o : hitb r t k ts o = true <-> o_repl o = r /\ o_table o = t /\ o_tags o = k /\ o_ts o = ts.
Proof.
  unfold hitb. rewrite !andb_true_iff, !Z.eqb_eq, str_eqb_eq, tags_eqb_eq. tauto.
Qed.
Definition loc (o : srow) : Z * str * list (str * str) * Z := (o_repl o, o_table o, o_tags o, o_ts o).

Lemma place_loc r t k ts fs rows x : In x (map loc (place r t k ts fs rows)) <-> x = (r, t, k, ts) \/ In x (map loc rows).
Proof.
  induction rows as [|o rows IH]; cbn [place map].
  - cbn. intuition.
  - fold (hitb r t k ts o). destruct (hitb r t k ts o) eqn:E; cbn [map In].
    + apply hitb_eq in E as (<- & <- & <- & <-). unfold loc at 1 3. cbn. intuition.
    + rewrite IH. intuition.
Qed.
Lemma place_nodup r t k ts fs rows : NoDup (map loc rows) -> NoDup (map loc (place r t k ts fs rows)).
Proof.
  induction rows as [|o rows IH]; cbn [place map]; intros ND.
  - constructor; [intros []|constructor].
  - fold (hitb r t k ts o). inversion ND as [|? ? N1 N2]; subst. destruct (hitb r t k ts o) eqn:E; cbn [map].
    + apply hitb_eq in E as (<- & <- & <- & <-). exact ND.
    + constructor; [|auto]. intros I. apply place_loc in I as [I|I]; [|exact (N1 I)].
      unfold loc in I. injection I as A B C D.
      assert (hitb r t k ts o = true) by (apply hitb_eq; auto). congruence.
Qed.
(** fields *)
Lemma field_put f l n : field_value (put_field f l) n = if str_eqb (fst f) n then Some (snd f) else field_value l n.
Proof.
  induction l as [|g l IH]; cbn [put_field field_value]; [reflexivity|].
  destruct (str_eqb (fst g) (fst f)) eqn:E; cbn [field_value].
  - apply str_eqb_eq in E. rewrite E. destruct (str_eqb (fst f) n); reflexivity.
  - rewrite IH. destruct (str_eqb (fst g) n) eqn:A, (str_eqb (fst f) n) eqn:B; try reflexivity.
    apply str_eqb_eq in A, B. apply str_eqb_neq in E. congruence.
Qed.
Lemma field_notin l n : ~ In n (map fst l) -> field_value l n = None.
Proof.
  induction l as [|x l IH]; cbn; intros H; [reflexivity|]. destruct (str_eqb (fst x) n) eqn:E.
  - apply str_eqb_eq in E. exfalso. apply H. left. exact E.
  - apply IH. intros I. apply H. right. exact I.
Qed.
Lemma fields_put fs : forall l n, NoDup (map fst fs) ->
  field_value (put_fields fs l) n = match field_value fs n with Some v => Some v | None => field_value l n end.
Proof.
  unfold put_fields. induction fs as [|f fs IH]; intros l n ND; cbn [fold_left field_value]; [reflexivity|].
  cbn in ND. inversion ND as [|? ? N1 N2]; subst. rewrite IH by exact N2. rewrite field_put.
  destruct (str_eqb (fst f) n) eqn:E; [|reflexivity].
  apply str_eqb_eq in E. subst. rewrite field_notin by exact N1. reflexivity.
Qed.

(** the value placements leave in a field of one row *)
Fixpoint pick_last (r : Z) (k : list (str * str)) (ts : Z) (f : str) (acc : option cell) (ps : list pl) : option cell :=
  match ps with
  | [] => acc
  | p :: ps' =>
      pick_last r k ts f
        (if (p_repl p =? r) && tags_eqb (p_key p) k && (p_ts p =? ts)
         then match field_value (p_fs p) f with Some v => Some v | None => acc end else acc) ps'
  end.
Lemma place_fields r t k ts fs rows o f : NoDup (map loc rows) -> NoDup (map fst fs) ->
  In o (place r t k ts fs rows) ->
  if hitb r t k ts o
  then exists old, (In (SR r t k ts old) rows \/ (old = [] /\ ~ In (r, t, k, ts) (map loc rows)))
       /\ field_value (o_fields o) f = match field_value fs f with Some v => Some v | None => field_value old f end
  else In o rows.
Proof.
  intros ND NF. induction rows as [|x rows IH]; cbn [place]; intros I.
  - destruct I as [<-|[]]. replace (hitb _ _ _ _ _) with true by (symmetry; apply hitb_eq; cbn; auto).
    exists []. split; [right; split; [reflexivity|intros []]|]. cbn [o_fields]. apply fields_put, NF.
  - cbn [map] in ND. inversion ND as [|? ? N1 N2]; subst. fold (hitb r t k ts x) in I.
    destruct (hitb r t k ts x) eqn:E.
    + apply hitb_eq in E as (E1 & E2 & E3 & E4). destruct I as [<-|I].
      * replace (hitb _ _ _ _ _) with true by (symmetry; apply hitb_eq; cbn; auto).
        exists (o_fields x). split; [left; left; destruct x; cbn in *; subst; reflexivity|].
        cbn [o_fields]. apply fields_put, NF.
      * destruct (hitb r t k ts o) eqn:F; [|right; exact I]. exfalso. apply N1.
        apply hitb_eq in F as (F1 & F2 & F3 & F4).
        assert (loc x = loc o) as -> by (unfold loc; congruence). apply in_map, I.
    + destruct I as [<-|I]; [rewrite E; left; reflexivity|].
      specialize (IH N2 I). destruct (hitb r t k ts o).
      * destruct IH as (old & [A|[A B]] & V); exists old; (split; [|exact V]); [left; right; exact A|].
        right. split; [exact A|]. intros [C|C]; [|exact (B C)].
        unfold loc in C. injection C as C1 C2 C3 C4.
        assert (hitb r t k ts x = true) by (apply hitb_eq; auto). congruence.
      * right. exact IH.
Qed.
Lemma pick_app r k ts f acc ps p : pick_last r k ts f acc (ps ++ [p]) =
  (if (p_repl p =? r) && tags_eqb (p_key p) k && (p_ts p =? ts)
   then match field_value (p_fs p) f with Some v => Some v | None => pick_last r k ts f acc ps end
   else pick_last r k ts f acc ps).
Proof. revert acc. induction ps as [|q ps IH]; intros acc; cbn; [reflexivity|]. apply IH. Qed.
Lemma pick_none r k ts f ps : (forall p, In p ps -> ~ (p_repl p = r /\ p_key p = k /\ p_ts p = ts)) ->
  pick_last r k ts f None ps = None.
Proof.
  induction ps as [|p ps IH]; cbn [pick_last]; intros H; [reflexivity|].
  destruct ((p_repl p =? r) && tags_eqb (p_key p) k && (p_ts p =? ts)) eqn:E.
  - exfalso. apply (H p); [left; reflexivity|]. rewrite !andb_true_iff, !Z.eqb_eq, tags_eqb_eq in E. tauto.
  - apply IH. intros q Hq. apply H. right. exact Hq.
Qed.

Definition all_in (T : str) (rows : list srow) (ps : list pl) : Prop :=
  NoDup (map loc rows)
  /\ (forall x, In x (map loc rows) <-> exists p, In p ps /\ x = (p_repl p, T, p_key p, p_ts p))
  /\ (forall o f, In o rows -> field_value (o_fields o) f = pick_last (o_repl o) (o_tags o) (o_ts o) f None ps).
Lemma placed T ps : (forall p, In p ps -> NoDup (map fst (p_fs p))) -> all_in T (fold_left (doit T) ps []) ps.
Proof.
  induction ps as [|p ps IH] using rev_ind; intros NF.
  - split; [constructor|]. split; [|intros ? ? []]. intros x. cbn. split; [intros []|intros (p & [] & _)].
  - rewrite fold_left_app. cbn [fold_left]. destruct IH as (A & B & C). { intros q Hq. apply NF, in_app_iff. auto. }
    set (rows := fold_left (doit T) ps []) in *. unfold doit. split; [apply place_nodup, A|]. split.
    + intros x. rewrite place_loc. split.
      * intros [->|I]; [exists p; split; [apply in_app_iff; cbn; auto|reflexivity]|].
        apply B in I as (q & Hq & ->). exists q. split; [apply in_app_iff; auto|reflexivity].
      * intros (q & Hq & ->). apply in_app_iff in Hq as [Hq|[<-|[]]]; [right; apply B; eauto|left; reflexivity].
    + intros o f I. rewrite pick_app.
      assert (TT : o_table o = T).
      { assert (X : In (loc o) (map loc (place (p_repl p) T (p_key p) (p_ts p) (p_fs p) rows))) by apply in_map, I.
        apply place_loc in X as [X|X]; [unfold loc in X; injection X; auto|].
        apply B in X as (q & _ & X). unfold loc in X. injection X. auto. }
      apply (place_fields _ _ _ _ _ _ _ f) in I; [|exact A|apply NF, in_app_iff; cbn; auto].
      destruct (hitb (p_repl p) T (p_key p) (p_ts p) o) eqn:H.
      * apply hitb_eq in H as (H1 & H2 & H3 & H4). destruct I as (old & Hold & V).
        replace ((p_repl p =? o_repl o) && tags_eqb (p_key p) (o_tags o) && (p_ts p =? o_ts o)) with true.
        2:{ symmetry. rewrite !andb_true_iff, !Z.eqb_eq, tags_eqb_eq. auto. }
        rewrite V. destruct (field_value (p_fs p) f); [reflexivity|].
        destruct Hold as [Hold|[-> Hold]].
        -- specialize (C _ f Hold). cbn [o_fields o_repl o_tags o_ts] in C. rewrite C, H1, H3, H4. reflexivity.
        -- cbn. symmetry. apply pick_none. intros q Hq (Q1 & Q2 & Q3). apply Hold, B.
           exists q. split; [exact Hq|]. congruence.
      * replace ((p_repl p =? o_repl o) && tags_eqb (p_key p) (o_tags o) && (p_ts p =? o_ts o)) with false.
        2:{ symmetry. apply not_true_iff_false. rewrite !andb_true_iff, !Z.eqb_eq, tags_eqb_eq.
            intros [[Q1 Q2] Q3]. apply not_true_iff_false in H. apply H. apply hitb_eq. auto. }
        apply C, I.
Qed.

(** ** The rows of a table are those placements of the history leave *)
Lemma select_place d tg T r t k ts fs :
  select (DB tg (place r t k ts fs (d_rows d))) T
  = if str_eqb t T then place r T k ts fs (select d T) else select d T.
Proof.
  unfold select. cbn [d_rows]. induction (d_rows d) as [|o rows IH].
  - cbn [place filter o_table]. destruct (str_eqb t T) eqn:E; [apply str_eqb_eq in E; subst; reflexivity|reflexivity].
  - cbn [place]. fold (hitb r t k ts o). destruct (hitb r t k ts o) eqn:H.
    + apply hitb_eq in H as (H1 & H2 & H3 & H4). cbn [filter o_table]. rewrite H2.
      destruct (str_eqb t T) eqn:E; [|reflexivity]. apply str_eqb_eq in E. subst T.
      cbn [place]. fold (hitb r t k ts o).
      replace (hitb r t k ts o) with true by (symmetry; apply hitb_eq; auto). reflexivity.
    + cbn [filter]. destruct (str_eqb (o_table o) T) eqn:F; [|exact IH].
      rewrite IH. destruct (str_eqb t T) eqn:E; [|reflexivity]. apply str_eqb_eq in E. subst T.
      cbn [place]. fold (hitb r t k ts o). rewrite H. reflexivity.
Qed.
Definition place_of (bs : list bucket) (d : dbase) (T : str) (e : event) : list pl :=
  match e with
  | ELine v t tags ts fs =>
      if str_eqb t T then match locate bs (line_hash v t tags) ts with Some r => [PL r (line_key v tags) ts fs] | None => [] end
      else []
  | EInsert t vals ts fs =>
      if str_eqb t T then
        match fs with
        | [] => []
        | _ => match locate bs (record_hash t (combine (tags_of d t) vals)) ts with
               | Some r => [PL r (record_key (combine (tags_of d t) vals)) ts fs] | None => [] end
        end
      else []
  | _ => []
  end.
Definition leaves (T : str) (e : event) : Prop := match e with ERename t _ _ | EUpdate t _ _ => t <> T | _ => True end.
Lemma filter_map_other (f : srow -> srow) (g : srow -> bool) T l :
  (forall o, g o = true -> o_table o <> T /\ o_table (f o) = o_table o) ->
  filter (fun o => str_eqb (o_table o) T) (map (fun o => if g o then f o else o) l) = filter (fun o => str_eqb (o_table o) T) l.
Proof.
  intros H. induction l as [|o l IH]; [reflexivity|]. cbn. destruct (g o) eqn:G; rewrite IH; [|reflexivity].
  destruct (H o G) as [A B]. rewrite B. apply str_eqb_neq in A. rewrite A. reflexivity.
Qed.
Lemma select_step bs d T e : leaves T e -> select (step bs d e) T = fold_left (doit T) (place_of bs d T e) (select d T).
Proof.
  destruct e as [v t tags ts fs|t vals ts fs|t n|t old new|t old new]; cbn [leaves step place_of]; intros L.
  - destruct (locate bs (line_hash v t tags) ts) as [r|].
    + rewrite select_place. destruct (str_eqb t T) eqn:E; reflexivity.
    + destruct (str_eqb t T); reflexivity.
  - destruct fs as [|f fs]; [destruct (str_eqb t T); reflexivity|].
    destruct (locate bs _ ts) as [r|].
    + rewrite select_place. destruct (str_eqb t T) eqn:E; reflexivity.
    + destruct (str_eqb t T); reflexivity.
  - reflexivity.
  - unfold select. cbn [d_rows fold_left].
    apply (filter_map_other (fun o => SR (o_repl o) t (sort_tags (map (fun t => (rename_str old new (fst t), snd t)) (o_tags o))) (o_ts o) (o_fields o))
             (fun o => str_eqb (o_table o) t)).
    intros o G. apply str_eqb_eq in G. cbn. rewrite G. auto.
  - cbn [fold_left]. destruct (clash _ _ _ _); [reflexivity|]. unfold select. cbn [d_rows].
    apply (filter_map_other (fun o => SR (o_repl o) t (sort_tags new) (o_ts o) (o_fields o))
             (fun o => str_eqb (o_table o) t && tags_eqb (o_tags o) (sort_tags old))).
    intros o G. apply andb_true_iff in G as [G _]. apply str_eqb_eq in G. cbn. rewrite G. auto.
Qed.
Fixpoint places (bs : list bucket) (d : dbase) (T : str) (es : list event) : list pl :=
  match es with [] => [] | e :: es' => place_of bs d T e ++ places bs (step bs d e) T es' end.
Lemma select_run bs T es : forall d, (forall e, In e es -> leaves T e) ->
  select (run bs d es) T = fold_left (doit T) (places bs d T es) (select d T).
Proof.
  induction es as [|e es IH]; intros d L; [reflexivity|]. cbn [places]. rewrite fold_left_app.
  rewrite <- select_step by (apply L; left; reflexivity). apply IH. intros x Hx. apply L. right. exact Hx.
Qed.
