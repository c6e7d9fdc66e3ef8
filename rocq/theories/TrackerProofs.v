From Verif Require Import Prelude TrackerModel TrackerSpec.
Open Scope Z_scope.

(** ** Maps *)
Lemma get_del {V} (l : list (Z * V)) j i : get (del l j) i = if j =? i then None else get l i.
Proof.
  unfold del. induction l as [|[k v] l IH]; cbn.
  - now destruct (j =? i).
  - destruct (k =? j) eqn:A; cbn.
    + rewrite IH. destruct (j =? i) eqn:B; [reflexivity|].
      destruct (k =? i) eqn:C; [|reflexivity]. apply Z.eqb_eq in A, C. apply Z.eqb_neq in B. congruence.
    + destruct (k =? i) eqn:C; rewrite ?IH; destruct (j =? i) eqn:B; try reflexivity.
      apply Z.eqb_eq in C, B. apply Z.eqb_neq in A. congruence.
Qed.
Lemma get_put {V} (l : list (Z * V)) j v i : get (put l j v) i = if j =? i then Some v else get l i.
Proof. unfold put. cbn. destruct (j =? i) eqn:A; [reflexivity|]. rewrite get_del, A. reflexivity. Qed.
Lemma get_in {V} (l : list (Z * V)) i v : get l i = Some v -> In (i, v) l.
Proof.
  induction l as [|[k w] l IH]; cbn; [discriminate|].
  destruct (k =? i) eqn:A; intros H.
  - apply Z.eqb_eq in A. injection H as ->. left. congruence.
  - right. now apply IH.
Qed.
Lemma in_get {V} (l : list (Z * V)) i v : NoDup (map fst l) -> In (i, v) l -> get l i = Some v.
Proof.
  induction l as [|[k w] l IH]; cbn; intros N H; [contradiction|]. inversion N as [|? ? A B]; subst.
  destruct H as [H|H].
  - injection H as -> ->. now rewrite Z.eqb_refl.
  - destruct (k =? i) eqn:E; [|now apply IH].
    apply Z.eqb_eq in E. subst. exfalso. apply A. apply (in_map fst) in H. exact H.
Qed.
Lemma in_get_any {V} (l : list (Z * V)) i v : In (i, v) l -> exists w, get l i = Some w.
Proof.
  induction l as [|[k w] l IH]; cbn; intros H; [contradiction|].
  destruct (k =? i) eqn:E; [eauto|]. destruct H as [H|H]; [|now apply IH].
  injection H as -> ->. rewrite Z.eqb_refl in E. discriminate.
Qed.
Lemma filter_map_nodup {V} (f : Z * V -> bool) l : NoDup (map fst l) -> NoDup (map fst (filter f l)).
Proof.
  induction l as [|p l IH]; cbn; intros N; [constructor|]. inversion N as [|? ? A B]; subst.
  destruct (f p); cbn; [|now apply IH]. constructor; [|now apply IH].
  intros H. apply A. apply in_map_iff in H as (q & E & H). apply filter_In in H as (H & _).
  apply in_map_iff. exists q. now split.
Qed.
Lemma del_nodup {V} (l : list (Z * V)) j : NoDup (map fst l) -> NoDup (map fst (del l j)).
Proof. apply filter_map_nodup. Qed.
Lemma put_nodup {V} (l : list (Z * V)) j v : NoDup (map fst l) -> NoDup (map fst (put l j v)).
Proof.
  intros N. unfold put. cbn. constructor; [|now apply del_nodup].
  intros H. apply in_map_iff in H as ([k w] & E & H). cbn in E. subst. unfold del in H.
  apply filter_In in H as (_ & H). cbn in H. now rewrite Z.eqb_refl in H.
Qed.
Lemma filter_length {T} (f : T -> bool) l : (length (filter f l) <= length l)%nat.
Proof. induction l as [|a l IH]; cbn; [lia|]. destruct (f a); cbn; lia. Qed.
Lemma del_length {V} (l : list (Z * V)) j : (length (del l j) <= length l)%nat.
Proof. apply filter_length. Qed.
Lemma del_none {V} (l : list (Z * V)) j : get l j = None -> del l j = l.
Proof.
  unfold del. induction l as [|[k w] l IH]; cbn; intros H; [reflexivity|].
  destruct (k =? j) eqn:E; [discriminate|]. cbn. f_equal. now apply IH.
Qed.
Lemma mem_in l i : mem l i = true <-> In i l.
Proof.
  unfold mem. rewrite existsb_exists. split.
  - intros (x & H & E). apply Z.eqb_eq in E. now subst.
  - intros H. exists i. split; [exact H|apply Z.eqb_refl].
Qed.
Lemma mem_false l i : mem l i = false -> ~ In i l.
Proof. intros E H. apply mem_in in H. congruence. Qed.
Lemma rm_in l j i : In i (rm l j) <-> In i l /\ i <> j.
Proof.
  unfold rm. rewrite filter_In. split; intros (A & B); split; try exact A.
  - intros ->. now rewrite Z.eqb_refl in B.
  - apply Bool.negb_true_iff, Z.eqb_neq. exact B.
Qed.
Lemma rm_nodup l j : NoDup l -> NoDup (rm l j).
Proof. apply NoDup_filter. Qed.

(** ** The invariant *)
Record inv (limit : nat) (s : state) : Prop := INV {
  i_dup : NoDup (map fst (tracked s));
  i_len : (length (tracked s) <= limit)%nat;
  i_xdup : NoDup (map fst (execs s));
  i_tododup : NoDup (todo s);
  i_saveddup : NoDup (saved s);
  i_todo : forall i, In i (todo s) -> get (tracked s) i = None /\ get (execs s) i = None /\ ~ In i (removing s);
  i_usedt : forall i k, get (tracked s) i = Some k -> In i (used s);
  i_usedx : forall i x, get (execs s) i = Some x -> In i (used s);
  i_useds : forall i, In i (saved s) \/ In i (removing s) \/ In i (todo s) -> In i (used s);
  i_kind : forall i x k, get (execs s) i = Some x -> get (tracked s) i = Some k -> x_kind x = k /\ x_phase x <> PArrived;
  i_rem : forall i k, get (tracked s) i = Some k -> ~ In i (removing s);
  i_arr : forall i x, get (execs s) i = Some x -> x_phase x = PArrived -> ~ In i (removing s);
  i_save : forall i x k, get (execs s) i = Some x -> get (tracked s) i = Some k -> x_kind x = KStream ->
           x_phase x <> PTracked -> In i (saved s)
}.
Definition res (s : state) : Prop :=
  forall i x, get (execs s) i = Some x -> x_phase x = PResident -> x_kind x = KStream /\ get (tracked s) i <> None.

Lemma expire_tracked s j i : get (tracked (expire s j)) i = if j =? i then None else get (tracked s) i.
Proof.
  unfold expire. destruct (get (tracked s) j) eqn:G; cbn [tracked].
  - apply get_del.
  - destruct (j =? i) eqn:E; [|reflexivity]. apply Z.eqb_eq in E. congruence.
Qed.
Lemma expire_execs s j : execs (expire s j) = execs s.
Proof. unfold expire. now destruct (get (tracked s) j). Qed.
Lemma expire_saved s j : saved (expire s j) = saved s.
Proof. unfold expire. now destruct (get (tracked s) j). Qed.
Lemma expire_todo s j : todo (expire s j) = todo s.
Proof. unfold expire. now destruct (get (tracked s) j). Qed.
Lemma expire_used s j : used (expire s j) = used s.
Proof. unfold expire. now destruct (get (tracked s) j). Qed.
Lemma expire_removing s j i : In i (removing (expire s j)) -> In i (removing s) \/ (i = j /\ get (tracked s) j <> None).
Proof.
  unfold expire. destruct (get (tracked s) j) eqn:G; cbn [removing]; [|tauto].
  destruct (need_persist k); [|tauto]. intros [H|H]; [right; split; congruence|now left].
Qed.
Lemma expire_dup s j : NoDup (map fst (tracked s)) -> NoDup (map fst (tracked (expire s j))).
Proof. unfold expire. destruct (get (tracked s) j); cbn [tracked]; [apply del_nodup|easy]. Qed.
Lemma expire_len s j : (length (tracked (expire s j)) <= length (tracked s))%nat.
Proof. unfold expire. destruct (get (tracked s) j); cbn [tracked]; [apply del_length|lia]. Qed.

Lemma expire_inv limit s j : inv limit s -> inv limit (expire s j).
Proof.
  intros I. constructor.
  - apply expire_dup, (i_dup _ _ I).
  - pose proof (expire_len s j). pose proof (i_len _ _ I). lia.
  - rewrite expire_execs. apply (i_xdup _ _ I).
  - rewrite expire_todo. apply (i_tododup _ _ I).
  - rewrite expire_saved. apply (i_saveddup _ _ I).
  - rewrite expire_todo, expire_execs. intros i H. destruct (i_todo _ _ I i H) as (A & B & C).
    rewrite expire_tracked. split; [|split]; [destruct (j =? i); auto|exact B|].
    intros D. apply expire_removing in D as [D|(-> & D)]; contradiction.
  - intros i k. rewrite expire_tracked, expire_used. destruct (j =? i); [discriminate|]. apply (i_usedt _ _ I).
  - rewrite expire_execs, expire_used. apply (i_usedx _ _ I).
  - rewrite expire_saved, expire_todo, expire_used. intros i [H|[H|H]].
    + apply (i_useds _ _ I). now left.
    + apply expire_removing in H as [H|(-> & H)].
      * apply (i_useds _ _ I). right. now left.
      * destruct (get (tracked s) j) eqn:G; [|contradiction]. now apply (i_usedt _ _ I j k).
    + apply (i_useds _ _ I). right. now right.
  - rewrite expire_execs. intros i x k X. rewrite expire_tracked. destruct (j =? i); [discriminate|].
    now apply (i_kind _ _ I).
  - intros i k. rewrite expire_tracked. destruct (j =? i) eqn:E; [discriminate|]. intros T H.
    apply Z.eqb_neq in E. apply expire_removing in H as [H|(-> & H)]; [|congruence].
    now apply (i_rem _ _ I i k).
  - rewrite expire_execs. intros i x X P H. apply expire_removing in H as [H|(-> & H)].
    + now apply (i_arr _ _ I i x).
    + destruct (get (tracked s) j) eqn:G; [|contradiction]. now apply (i_kind _ _ I j x k X G).
  - rewrite expire_execs, expire_saved. intros i x k X. rewrite expire_tracked. destruct (j =? i); [discriminate|].
    now apply (i_save _ _ I i x k X).
Qed.
Lemma expire_res s j : res s -> (forall x, get (execs s) j = Some x -> x_phase x <> PResident) -> res (expire s j).
Proof.
  intros R N i x. rewrite expire_execs, expire_tracked. intros X P.
  destruct (j =? i) eqn:E; [|now apply (R i x)]. apply Z.eqb_eq in E. subst. now apply N in X.
Qed.

(** Execs shrink or change to a state that keeps the clauses *)
Lemma execs_inv limit s l : inv limit s -> NoDup (map fst l) ->
  (forall i x, get l i = Some x -> exists y, get (execs s) i = Some y /\ x_kind y = x_kind x /\
     (x_phase x = PArrived -> x_phase y = PArrived) /\ (x_phase y = PTracked -> x_phase x = PTracked) /\
     (x_phase y = PArrived -> x_phase x = PArrived)) ->
  inv limit (with_execs s l).
Proof.
  intros I N H. constructor; cbn [with_execs execs tracked saved removing todo used].
  - apply (i_dup _ _ I).
  - apply (i_len _ _ I).
  - exact N.
  - apply (i_tododup _ _ I).
  - apply (i_saveddup _ _ I).
  - intros i T. destruct (i_todo _ _ I i T) as (A & B & C). split; [exact A|]. split; [|exact C].
    destruct (get l i) eqn:G; [|reflexivity]. apply H in G as (y & G & _). congruence.
  - apply (i_usedt _ _ I).
  - intros i x X. apply H in X as (y & X & _). now apply (i_usedx _ _ I i y).
  - apply (i_useds _ _ I).
  - intros i x k X T. apply H in X as (y & X & K & P & _). destruct (i_kind _ _ I i y k X T) as (A & B).
    split; [congruence|]. intros C. apply B, P, C.
  - apply (i_rem _ _ I).
  - intros i x X P. apply H in X as (y & X & _ & Q & _). apply (i_arr _ _ I i y X), Q, P.
  - intros i x k X T K P. apply H in X as (y & X & L & _ & Q & _).
    apply (i_save _ _ I i y k X T); [congruence|]. intros C. now apply P, Q.
Qed.
Lemma gone_inv limit s j : inv limit s -> inv limit (with_execs s (del (execs s) j)).
Proof.
  intros I. apply execs_inv; [exact I|apply del_nodup, (i_xdup _ _ I)|].
  intros i x. rewrite get_del. destruct (j =? i); [discriminate|]. intros X. exists x. auto.
Qed.
Lemma move_inv limit s j k p q a b : inv limit s -> get (execs s) j = Some (EX k p a) -> p <> PArrived -> q <> PArrived ->
  (p = PTracked -> q = PTracked) -> inv limit (with_execs s (put (execs s) j (EX k q b))).
Proof.
  intros I G P Q R. apply execs_inv; [exact I|apply put_nodup, (i_xdup _ _ I)|].
  intros i x. rewrite get_put. destruct (j =? i) eqn:E.
  - apply Z.eqb_eq in E. subst. intros H. injection H as <-. exists (EX k p a). cbn. repeat split; auto; congruence.
  - intros X. exists x. auto.
Qed.
Lemma gone_res s j : res s -> res (with_execs s (del (execs s) j)).
Proof. intros R i x. cbn [with_execs execs tracked]. rewrite get_del. destruct (j =? i); [discriminate|]. apply R. Qed.
Lemma move_res s j x : res s -> x_phase x <> PResident -> res (with_execs s (put (execs s) j x)).
Proof.
  intros R P i y. cbn [with_execs execs tracked]. rewrite get_put. destruct (j =? i); [|apply R].
  intros H. injection H as <-. contradiction.
Qed.

Lemma cancel_inv limit s j : inv limit s -> inv limit (cancel s j).
Proof.
  intros I. unfold cancel. destruct (get (execs s) j) as [[k p a]|] eqn:G; [|exact I].
  destruct k, p; try exact I.
  - now apply (move_inv limit s j KSql PStarted PStarted a true).
  - now apply gone_inv.
Qed.
Lemma cancel_tracked s j : tracked (cancel s j) = tracked s.
Proof. unfold cancel. destruct (get (execs s) j) as [[[] [] ?]|]; reflexivity. Qed.
Lemma cancel_used s j : used (cancel s j) = used s.
Proof. unfold cancel. destruct (get (execs s) j) as [[[] [] ?]|]; reflexivity. Qed.
Lemma cancel_todo s j : todo (cancel s j) = todo s.
Proof. unfold cancel. destruct (get (execs s) j) as [[[] [] ?]|]; reflexivity. Qed.
Lemma cancel_saved s j : saved (cancel s j) = saved s.
Proof. unfold cancel. destruct (get (execs s) j) as [[[] [] ?]|]; reflexivity. Qed.
Lemma cancel_execs s j i x : get (execs (cancel s j)) i = Some x ->
  exists y, get (execs s) i = Some y /\ x_kind y = x_kind x /\ x_phase y = x_phase x /\
    ~ (i = j /\ x_kind y = KStream /\ x_phase y = PResident).
Proof.
  unfold cancel. destruct (get (execs s) j) as [[k p a]|] eqn:G.
  - assert (D : get (execs s) i = Some x -> ~ (k = KStream /\ p = PResident) ->
      exists y, get (execs s) i = Some y /\ x_kind y = x_kind x /\ x_phase y = x_phase x /\
        ~ (i = j /\ x_kind y = KStream /\ x_phase y = PResident)).
    { intros H N. exists x. repeat split; auto. intros (-> & A & B). apply N. rewrite G in H. injection H as <-. now split. }
    destruct k, p; try (intros H; apply D; [exact H|intros (? & ?); discriminate]);
      cbn [with_execs execs]; rewrite ?get_put, ?get_del; destruct (j =? i) eqn:E; try discriminate.
    + apply Z.eqb_eq in E. subst. intros H. injection H as <-. exists (EX KSql PStarted a). cbn. repeat split; auto.
      intros (_ & ? & _). discriminate.
    + intros H. apply D; [exact H|]. intros (? & ?). discriminate.
    + apply Z.eqb_neq in E. intros H. exists x. repeat split; auto. intros (? & _). congruence.
  - intros H. exists x. repeat split; auto. intros (-> & _). congruence.
Qed.
Lemma kill_res s t : res s -> res (cancel (expire s t) t).
Proof.
  intros R i x X P. apply cancel_execs in X as (y & X & K & Q & N). rewrite expire_execs in X.
  rewrite cancel_tracked, expire_tracked. rewrite <- Q in P. destruct (R i y X P) as (A & B).
  rewrite <- K. split; [exact A|]. destruct (t =? i) eqn:E; [|exact B].
  apply Z.eqb_eq in E. subst. exfalso. now apply N.
Qed.

Lemma arrive_inv limit s i k : inv limit s -> get (tracked s) i = None -> get (execs s) i = None ->
  ~ In i (todo s) -> ~ In i (removing s) -> In i (used s) -> inv limit (fst (arrive limit s i k)).
Proof.
  intros I A B C D U. unfold arrive. destruct (Nat.leb _ _); [exact I|].
  constructor; cbn [fst with_execs execs tracked saved removing todo used]; try apply I.
  - apply put_nodup, (i_xdup _ _ I).
  - intros j H. destruct (i_todo _ _ I j H) as (E & F & G). rewrite get_put.
    destruct (i =? j) eqn:Q; [|auto]. apply Z.eqb_eq in Q. congruence.
  - intros j x. rewrite get_put. destruct (i =? j) eqn:Q; [|apply (i_usedx _ _ I)].
    apply Z.eqb_eq in Q. now subst.
  - intros j x l. rewrite get_put. destruct (i =? j) eqn:Q; [|apply (i_kind _ _ I)].
    apply Z.eqb_eq in Q. congruence.
  - intros j x. rewrite get_put. destruct (i =? j) eqn:Q; [|apply (i_arr _ _ I)].
    apply Z.eqb_eq in Q. now subst.
  - intros j x l. rewrite get_put. destruct (i =? j) eqn:Q; [|apply (i_save _ _ I)].
    apply Z.eqb_eq in Q. congruence.
Qed.
Lemma arrive_res limit s i k : res s -> res (fst (arrive limit s i k)).
Proof.
  intros R. unfold arrive. destruct (Nat.leb _ _); [exact R|]. cbn [fst]. apply move_res; [exact R|discriminate].
Qed.

Lemma insert_inv limit s i k a : inv limit s -> get (execs s) i = Some (EX k PArrived a) ->
  inv limit (fst (insert limit s i k)).
Proof.
  intros I G. unfold insert. destruct (Nat.leb _ _) eqn:L; [now apply gone_inv|].
  apply Nat.leb_gt in L. assert (T : get (tracked s) i = None).
  { destruct (get (tracked s) i) eqn:T; [|reflexivity]. destruct (i_kind _ _ I i _ _ G T) as (_ & N). now cbn in N. }
  set (p := if need_persist k then PTracked else PReady).
  assert (P : p <> PArrived) by (unfold p; destruct (need_persist k); discriminate).
  constructor; cbn [fst with_execs execs tracked saved removing todo used]; try apply I.
  - apply put_nodup, (i_dup _ _ I).
  - unfold put. cbn [length]. pose proof (del_length (tracked s) i). lia.
  - apply put_nodup, (i_xdup _ _ I).
  - intros j H. destruct (i_todo _ _ I j H) as (E & F & C). rewrite !get_put.
    destruct (i =? j) eqn:Q; [|auto]. apply Z.eqb_eq in Q. congruence.
  - intros j l. rewrite get_put. destruct (i =? j) eqn:Q; [|apply (i_usedt _ _ I)].
    apply Z.eqb_eq in Q. subst. intros _. apply (i_usedx _ _ I j _ G).
  - intros j x. rewrite get_put. destruct (i =? j) eqn:Q; [|apply (i_usedx _ _ I)].
    apply Z.eqb_eq in Q. subst. intros _. apply (i_usedx _ _ I j _ G).
  - intros j x l. rewrite !get_put. destruct (i =? j) eqn:Q; [|apply (i_kind _ _ I)].
    intros H K. injection H as <-. injection K as <-. now split.
  - intros j l. rewrite get_put. destruct (i =? j) eqn:Q; [|apply (i_rem _ _ I)].
    apply Z.eqb_eq in Q. subst. intros _. now apply (i_arr _ _ I j _ G).
  - intros j x. rewrite get_put. destruct (i =? j) eqn:Q; [|apply (i_arr _ _ I)].
    intros H. injection H as <-. cbn. congruence.
  - intros j x l. rewrite !get_put. destruct (i =? j) eqn:Q; [|apply (i_save _ _ I)].
    intros H K. injection H as <-. injection K as <-. cbn [x_kind x_phase]. intros -> N. now destruct N.
Qed.
Lemma insert_res limit s i k : res s -> res (fst (insert limit s i k)).
Proof.
  intros R. unfold insert. destruct (Nat.leb _ _); [now apply gone_res|].
  intros j x. cbn [fst execs tracked]. rewrite !get_put. destruct (i =? j); [|apply R].
  intros H. injection H as <-. cbn. destruct (need_persist k); discriminate.
Qed.
Lemma save_in l i j : In j (if mem l i then l else l ++ [i]) <-> In j l \/ j = i.
Proof.
  destruct (mem l i) eqn:M.
  - apply mem_in in M. split; [tauto|]. intros [H|H]; [exact H|now subst].
  - rewrite in_app_iff. cbn. intuition congruence.
Qed.
Lemma save_nodup l i : NoDup l -> NoDup (if mem l i then l else l ++ [i]).
Proof.
  intros N. destruct (mem l i) eqn:M; [exact N|]. apply mem_false in M.
  eapply Permutation_NoDup; [apply Permutation_cons_append|]. now constructor.
Qed.
Lemma persist_inv limit s i a ok : inv limit s -> get (execs s) i = Some (EX KStream PTracked a) ->
  inv limit (fst (persist s i ok)).
Proof.
  intros I G. unfold persist. destruct ok; [|now apply gone_inv].
  constructor; cbn [fst with_execs execs tracked saved removing todo used]; try apply I.
  - apply put_nodup, (i_xdup _ _ I).
  - apply save_nodup, (i_saveddup _ _ I).
  - intros j H. destruct (i_todo _ _ I j H) as (E & F & C). rewrite !get_put.
    destruct (i =? j) eqn:Q; [|auto]. apply Z.eqb_eq in Q. congruence.
  - intros j x. rewrite get_put. destruct (i =? j) eqn:Q; [|apply (i_usedx _ _ I)].
    apply Z.eqb_eq in Q. subst. intros _. apply (i_usedx _ _ I j _ G).
  - intros j [H|H]; [|apply (i_useds _ _ I); now right]. apply save_in in H as [H|H].
    + apply (i_useds _ _ I). now left.
    + subst. apply (i_usedx _ _ I i _ G).
  - intros j x l. rewrite !get_put. destruct (i =? j) eqn:Q; [|apply (i_kind _ _ I)].
    apply Z.eqb_eq in Q. subst. intros H K. injection H as <-. cbn.
    destruct (i_kind _ _ I j _ _ G K) as (A & _). split; [exact A|discriminate].
  - intros j x. rewrite get_put. destruct (i =? j) eqn:Q; [|apply (i_arr _ _ I)].
    intros H. injection H as <-. discriminate.
  - intros j x l. rewrite !get_put. intros X T K P. apply save_in. destruct (i =? j) eqn:Q.
    + right. apply Z.eqb_eq in Q. congruence.
    + left. apply (i_save _ _ I j x l X T K P).
Qed.
Lemma persist_res s i ok : res s -> res (fst (persist s i ok)).
Proof.
  intros R. unfold persist. destruct ok; [|now apply gone_res].
  intros j x. cbn [fst execs tracked]. rewrite get_put. destruct (i =? j); [|apply R].
  intros H. injection H as <-. discriminate.
Qed.

Lemma result_inv limit s i x o s' r : inv limit s -> res s -> get (execs s) i = Some x -> x_phase x = PStarted ->
  result s i x o = Some (s', r) -> inv limit s' /\ res s'.
Proof.
  intros I R G P. destruct x as [k p a]. cbn in P. subst p.
  assert (GI := gone_inv _ _ i I). assert (GR := gone_res _ i R).
  assert (NI : forall b y, get (execs (with_execs b (del (execs s) i))) i = Some y -> x_phase y <> PResident).
  { intros b y. cbn [with_execs execs]. rewrite get_del, Z.eqb_refl. discriminate. }
  unfold result. cbn [x_kind x_abort]. destruct k as [| |t|], o; try discriminate; intros H.
  - destruct a; [discriminate|]. injection H as <- <-. split.
    + now apply (move_inv limit s i KSql PStarted POpen false false).
    + now apply move_res.
  - injection H as <- <-. split; [now apply expire_inv|]. apply expire_res; [exact GR|apply NI].
  - injection H as <- <-. split.
    + now apply (move_inv limit s i KDdl PStarted POpen a false).
    + now apply move_res.
  - injection H as <- <-. split; [now apply expire_inv|]. apply expire_res; [exact GR|apply NI].
  - injection H as <- <-. split; [now apply expire_inv|]. apply expire_res; [exact GR|apply NI].
  - destruct (get (tracked s) t); injection H as <- <-.
    + split; [now apply expire_inv, cancel_inv, expire_inv|]. apply expire_res; [now apply kill_res|].
      intros y Y. apply cancel_execs in Y as (z & Y & _ & Q & _). rewrite expire_execs in Y.
      rewrite <- Q. now apply (NI s z).
    + split; [now apply expire_inv|]. apply expire_res; [exact GR|apply NI].
  - injection H as <- <-. destruct (get (tracked s) i) eqn:T; [|now split]. split.
    + now apply (move_inv limit s i KStream PStarted PResident a false).
    + intros j y. cbn [with_execs execs tracked]. rewrite get_put. destruct (i =? j) eqn:E; [|apply R].
      apply Z.eqb_eq in E. subst. intros H. injection H as <-. intros _. split; [reflexivity|congruence].
  - injection H as <- <-. now split.
Qed.

Lemma step_inv limit s e s' r : inv limit s -> res s -> step limit s e = Some (s', r) -> inv limit s' /\ res s'.
Proof.
  intros I R. destruct e as [i k|i|i ok|i|i o|i|i|i| | |]; cbn [step].
  - destruct (mem (used s) i) eqn:M; [discriminate|]. apply mem_false in M. intros H.
    set (s1 := ST _ _ _ _ _ _) in H.
    assert (I1 : inv limit s1).
    { constructor; cbn [s1 execs tracked saved removing todo used]; try apply I.
      - intros j l H1. right. now apply (i_usedt _ _ I j l).
      - intros j x H1. right. now apply (i_usedx _ _ I j x).
      - intros j H1. right. now apply (i_useds _ _ I). }
    assert (A : inv limit (fst (arrive limit s1 i k))).
    { apply arrive_inv; [exact I1| | | | |]; cbn [s1 execs tracked saved removing todo used].
      - destruct (get (tracked s) i) eqn:T; [|reflexivity]. exfalso. apply M, (i_usedt _ _ I i _ T).
      - destruct (get (execs s) i) eqn:T; [|reflexivity]. exfalso. apply M, (i_usedx _ _ I i _ T).
      - intros T. apply M, (i_useds _ _ I). right. now right.
      - intros T. apply M, (i_useds _ _ I). right. now left.
      - now left. }
    assert (B : res (fst (arrive limit s1 i k))) by (apply arrive_res; exact R).
    injection H as H. rewrite H in A, B. now split.
  - destruct (get (execs s) i) as [[k p a]|] eqn:G; [|discriminate]. destruct p; try discriminate. intros H.
    pose proof (insert_inv limit s i k a I G) as A. pose proof (insert_res limit s i k R) as B.
    injection H as H. rewrite H in A, B. now split.
  - destruct (get (execs s) i) as [[k p a]|] eqn:G; [|discriminate]. destruct k, p; try discriminate. intros H.
    pose proof (persist_inv limit s i a ok I G) as A. pose proof (persist_res s i ok R) as B.
    injection H as H. rewrite H in A, B. now split.
  - destruct (get (execs s) i) as [[k p a]|] eqn:G; [|discriminate]. destruct p; try discriminate. intros H.
    injection H as <- <-. split.
    + now apply (move_inv limit s i k PReady PStarted a a).
    + now apply move_res.
  - destruct (get (execs s) i) as [x|] eqn:G; [|discriminate]. destruct (x_phase x) eqn:P; try discriminate.
    now apply result_inv.
  - destruct (get (execs s) i) as [x|] eqn:G; [|discriminate]. unfold drop.
    assert (GI := gone_inv _ _ i I). assert (GR := gone_res _ i R).
    destruct (x_phase x) eqn:P; try discriminate; intros H; injection H as <- <-; try (now split).
    split; [now apply expire_inv|]. apply expire_res; [exact GR|].
    intros y. cbn [with_execs execs]. rewrite get_del, Z.eqb_refl. discriminate.
  - destruct (mem (removing s) i) eqn:M; [|discriminate]. apply mem_in in M. intros H. injection H as <- <-.
    split; [|exact R]. constructor; cbn [execs tracked saved removing todo used]; try apply I.
    + apply rm_nodup, (i_saveddup _ _ I).
    + intros j H. destruct (i_todo _ _ I j H) as (A & B & C). repeat split; auto. intros D. apply C. apply rm_in in D. apply D.
    + intros j H. apply (i_useds _ _ I). rewrite !rm_in in H. tauto.
    + intros j k T H. apply rm_in in H as (H & _). now apply (i_rem _ _ I j k).
    + intros j x X P H. apply rm_in in H as (H & _). now apply (i_arr _ _ I j x).
    + intros j x k X T K P. apply rm_in. split; [now apply (i_save _ _ I j x k)|].
      intros ->. now apply (i_rem _ _ I i k).
  - destruct (mem (removing s) i) eqn:M; [|discriminate]. intros H. injection H as <- <-.
    split; [|exact R]. constructor; cbn [execs tracked saved removing todo used]; try apply I.
    + intros j H. destruct (i_todo _ _ I j H) as (A & B & C). repeat split; auto. intros D. apply C. apply rm_in in D. apply D.
    + intros j H. apply (i_useds _ _ I). rewrite !rm_in in H. tauto.
    + intros j k T H. apply rm_in in H as (H & _). now apply (i_rem _ _ I j k).
    + intros j x X P H. apply rm_in in H as (H & _). now apply (i_arr _ _ I j x).
  - intros H. injection H as <- <-. split.
    + constructor; cbn [execs tracked saved removing todo used map length get]; try discriminate; try (now constructor).
      * lia.
      * apply (i_saveddup _ _ I).
      * apply (i_saveddup _ _ I).
      * intros j H. apply (i_useds _ _ I). cbn in H. tauto.
    + intros j x. cbn. discriminate.
  - destruct (todo s) as [|i t] eqn:T; [discriminate|]. intros H.
    set (s1 := ST _ _ _ _ _ _) in H.
    pose proof (i_tododup _ _ I) as N. rewrite T in N. inversion N as [|? ? N1 N2]; subst.
    assert (I1 : inv limit s1).
    { constructor; cbn [s1 execs tracked saved removing todo used]; try apply I; try exact N2.
      - intros j H1. apply (i_todo _ _ I). rewrite T. now right.
      - intros j H1. apply (i_useds _ _ I). rewrite T. cbn. tauto. }
    destruct (i_todo _ _ I i) as (A1 & A2 & A3). { rewrite T. now left. }
    assert (A : inv limit (fst (arrive limit s1 i KStream))).
    { apply arrive_inv; [exact I1| | | | |]; cbn [s1 execs tracked saved removing todo used]; auto.
      apply (i_useds _ _ I). rewrite T. right. right. now left. }
    assert (B : res (fst (arrive limit s1 i KStream))) by (apply arrive_res; exact R).
    injection H as H. rewrite H in A, B. now split.
  - destruct (todo s) as [|i t] eqn:T; [discriminate|]. intros H. injection H as <- <-. split; [|exact R].
    pose proof (i_tododup _ _ I) as N. rewrite T in N. inversion N as [|? ? N1 N2]; subst.
    constructor; cbn [execs tracked saved removing todo used]; try apply I; try exact N2.
    + intros j H1. apply (i_todo _ _ I). rewrite T. now right.
    + intros j H1. apply (i_useds _ _ I). rewrite T. cbn. tauto.
Qed.

Lemma run_inv limit h : forall s s', inv limit s -> res s -> run limit s h = Some s' -> inv limit s' /\ res s'.
Proof.
  induction h as [|e h IH]; cbn; intros s s' I R H.
  - injection H as <-. now split.
  - destruct (step limit s e) as [[s1 r]|] eqn:E; [|discriminate].
    destruct (step_inv _ _ _ _ _ I R E) as (I1 & R1). now apply (IH s1).
Qed.
Lemma start_inv limit : inv limit start.
Proof. constructor; cbn; try discriminate; try (now constructor); try lia; try contradiction. all: intros i [H|[H|H]]; contradiction. Qed.
Lemma reached_inv limit s : reached limit s -> inv limit s /\ res s.
Proof. intros (h & H). apply (run_inv limit h start s); [apply start_inv|intros i x; discriminate|exact H]. Qed.

(** ** The limit *)
Lemma listed_get s i : listed s i <-> get (tracked s) i <> None.
Proof.
  split.
  - intros (k & H). apply in_get_any in H as (w & H). congruence.
  - destruct (get (tracked s) i) as [k|] eqn:G; [|congruence]. intros _. exists k. now apply get_in.
Qed.
Lemma executing_get limit s i k p : inv limit s -> executing s i k p <-> exists a, get (execs s) i = Some (EX k p a).
Proof.
  intros I. split; intros (a & H); exists a.
  - apply in_get; [apply (i_xdup _ _ I)|exact H].
  - now apply get_in.
Qed.

Lemma result_not_refused s i x o s' r : result s i x o = Some (s', r) -> r <> ARefused /\ r <> ASlot.
Proof.
  unfold result. destruct (x_kind x), o; try discriminate.
  - destruct (x_abort x); [discriminate|]. intros H. injection H as _ <-. split; discriminate.
  - intros H. injection H as _ <-. split; discriminate.
  - intros H. injection H as _ <-. split; discriminate.
  - intros H. injection H as _ <-. split; discriminate.
  - intros H. injection H as _ <-. split; discriminate.
  - destruct (get (tracked s) target); intros H; injection H as _ <-; split; discriminate.
  - intros H. injection H as _ <-. split; discriminate.
  - intros H. injection H as _ <-. split; discriminate.
Qed.

Lemma asks_step limit s e i s' r : inv limit s -> step limit s e = Some (s', r) -> asks s e i ->
  ((limit <= slots s)%nat -> r = ARefused /\ tracked s' = tracked s /\ saved s' = saved s /\
     forall k p, ~ executing s' i k p) /\
  ((slots s < limit)%nat -> r <> ARefused /\
     (r = ASlot -> ~ listed s i /\ exists k, tracked s' = (i, k) :: tracked s)).
Proof.
  intros I E A. unfold slots.
  assert (AR : forall s0 k, inv limit s0 -> get (execs s0) i = None -> length (tracked s0) = length (tracked s) ->
    arrive limit s0 i k = (s', r) -> tracked s0 = tracked s -> saved s0 = saved s ->
    ((limit <= length (tracked s))%nat -> r = ARefused /\ tracked s' = tracked s /\ saved s' = saved s /\
       forall k p, ~ executing s' i k p) /\
    ((length (tracked s) < limit)%nat -> r <> ARefused /\
       (r = ASlot -> ~ listed s i /\ exists k, tracked s' = (i, k) :: tracked s))).
  { intros s0 k I0 N0 L H T S. unfold arrive in H. rewrite L in H. destruct (Nat.leb limit _) eqn:Q; injection H as <- <-.
    - apply Nat.leb_le in Q. split; [|lia]. intros _. repeat split; auto.
      intros k' p C. apply (executing_get limit) in C as (a & C); [|exact I0]. congruence.
    - apply Nat.leb_gt in Q. split; [lia|]. intros _. split; discriminate. }
  destruct e as [j k|j|j ok|j|j o|j|j|j| | |]; cbn [asks] in A; try contradiction; cbn [step] in E.
  - subst j. destruct (mem (used s) i) eqn:M; [discriminate|]. apply mem_false in M. injection E as E.
    assert (G : get (execs s) i = None).
    { destruct (get (execs s) i) eqn:T; [|reflexivity]. exfalso. apply M, (i_usedx _ _ I i _ T). }
    refine (AR _ k _ _ _ E _ _); try reflexivity; [|exact G].
    constructor; cbn [execs tracked saved removing todo used]; try apply I.
    + intros a l H1. right. now apply (i_usedt _ _ I a l).
    + intros a x H1. right. now apply (i_usedx _ _ I a x).
    + intros a H1. right. now apply (i_useds _ _ I).
  - subst j. destruct (get (execs s) i) as [[k p a]|] eqn:G; [|discriminate]. destruct p; try discriminate.
    assert (T : get (tracked s) i = None).
    { destruct (get (tracked s) i) eqn:T; [|reflexivity]. destruct (i_kind _ _ I i _ _ G T) as (_ & N). now cbn in N. }
    injection E as E. unfold insert in E. destruct (Nat.leb limit _) eqn:Q; injection E as <- <-.
    + apply Nat.leb_le in Q. split; [|lia]. intros _. repeat split; auto.
      intros k' p C. apply (executing_get limit) in C as (b & C); [|now apply gone_inv].
      cbn [with_execs execs] in C. rewrite get_del, Z.eqb_refl in C. discriminate.
    + apply Nat.leb_gt in Q. split; [lia|]. intros _. split; [discriminate|]. intros _. split.
      * intros L. apply listed_get in L. contradiction.
      * exists k. cbn [tracked]. unfold put. now rewrite del_none.
  - destruct A as (t & A). rewrite A in E. injection E as E.
    destruct (i_todo _ _ I i) as (A1 & A2 & A3). { rewrite A. now left. }
    refine (AR _ KStream _ _ _ E _ _); try reflexivity; [|exact A2].
    pose proof (i_tododup _ _ I) as N. rewrite A in N. inversion N as [|? ? N1 N2]; subst.
    constructor; cbn [execs tracked saved removing todo used]; try apply I; try exact N2.
    + intros j H1. apply (i_todo _ _ I). rewrite A. now right.
    + intros j H1. apply (i_useds _ _ I). rewrite A. cbn. tauto.
Qed.
Lemma refused_asks limit s e s' r : step limit s e = Some (s', r) -> r = ARefused -> exists i, asks s e i.
Proof.
  intros E ->. destruct e as [j k|j|j ok|j|j o|j|j|j| | |]; cbn [asks]; cbn [step] in E; eauto.
  - exfalso. destruct (get (execs s) j) as [[[] [] ?]|]; try discriminate. unfold persist in E. destruct ok; discriminate.
  - exfalso. destruct (get (execs s) j) as [[? [] ?]|]; discriminate.
  - exfalso. destruct (get (execs s) j) as [x|]; [|discriminate]. destruct (x_phase x); try discriminate.
    now apply result_not_refused in E as (E & _).
  - exfalso. destruct (get (execs s) j) as [x|]; [|discriminate]. unfold drop in E. destruct (x_phase x); discriminate.
  - exfalso. destruct (mem _ _); discriminate.
  - exfalso. destruct (mem _ _); discriminate.
  - discriminate.
  - destruct (todo s); [discriminate|]. eauto.
  - exfalso. destruct (todo s); discriminate.
Qed.

(** ** Slots are given back *)
Lemma expire_listed s j i : listed (expire s j) i <-> listed s i /\ i <> j.
Proof.
  rewrite !listed_get, expire_tracked. destruct (j =? i) eqn:E.
  - apply Z.eqb_eq in E. subst. split; [congruence|tauto].
  - apply Z.eqb_neq in E. split; [intros H; split; [exact H|congruence]|tauto].
Qed.
Lemma free_result limit s i k o s' r : inv limit s -> executing s i k PStarted -> k <> KStream ->
  step limit s (EResult i o) = Some (s', r) -> r = AData \/ ~ listed s' i.
Proof.
  intros I X K E. apply (executing_get limit) in X as (a & X); [|exact I]. cbn [step] in E. rewrite X in E.
  cbn [x_phase] in E. unfold result in E. cbn [x_kind x_abort] in E.
  destruct k as [| |t|], o; try discriminate; try contradiction.
  - destruct a; [discriminate|]. injection E as _ <-. now left.
  - injection E as <- _. right. rewrite expire_listed. tauto.
  - injection E as _ <-. now left.
  - injection E as <- _. right. rewrite expire_listed. tauto.
  - injection E as <- _. right. rewrite expire_listed. tauto.
  - destruct (get (tracked s) t); injection E as <- _; right; rewrite expire_listed; tauto.
Qed.
Lemma free_drop limit s i k s' r : inv limit s -> executing s i k POpen ->
  step limit s (EDrop i) = Some (s', r) -> r = AEnd /\ ~ listed s' i.
Proof.
  intros I X E. apply (executing_get limit) in X as (a & X); [|exact I]. cbn [step] in E. rewrite X in E.
  unfold drop in E. cbn [x_phase] in E. injection E as <- <-. split; [reflexivity|]. rewrite expire_listed. tauto.
Qed.

(** ** A slot without an execution *)
Lemma step_live limit s e i s' r : inv limit s -> res s -> step limit s e = Some (s', r) -> listed s' i ->
  get (execs s') i <> None \/ (listed s i /\ (get (execs s) i = None \/ broken_off [e] i)).
Proof.
  intros I R E L. destruct (get (execs s') i) eqn:X; [left; discriminate|]. right.
  destruct e as [j k|j|j ok|j|j o|j|j|j| | |]; cbn [step] in E.
  - destruct (mem (used s) j); [discriminate|]. injection E as E. unfold arrive in E.
    destruct (Nat.leb _ _); injection E as <- _; cbn [with_execs execs tracked] in *.
    + split; [exact L|]. now left.
    + rewrite get_put in X. destruct (j =? i); [discriminate|]. split; [exact L|]. now left.
  - destruct (get (execs s) j) as [[k p a]|] eqn:G; [|discriminate]. destruct p; try discriminate.
    injection E as E. unfold insert in E. destruct (Nat.leb _ _); injection E as <- _; cbn [with_execs execs tracked] in *.
    + rewrite get_del in X. destruct (j =? i) eqn:Q; [|split; [exact L|now left]].
      apply Z.eqb_eq in Q. subst. exfalso. apply listed_get in L. cbn [with_execs tracked] in L.
      destruct (get (tracked s) i) eqn:T; [|contradiction]. destruct (i_kind _ _ I i _ _ G T) as (_ & N). now cbn in N.
    + rewrite get_put in X. destruct (j =? i) eqn:Q; [discriminate|]. split; [|now left].
      rewrite listed_get in *. cbn [tracked] in L. now rewrite get_put, Q in L.
  - destruct (get (execs s) j) as [[k p a]|] eqn:G; [|discriminate]. destruct k, p; try discriminate.
    injection E as E. unfold persist in E. destruct ok; injection E as <- _; cbn [with_execs execs tracked] in *.
    + rewrite get_put in X. destruct (j =? i) eqn:Q; [discriminate|]. split; [exact L|now left].
    + rewrite get_del in X. split; [exact L|]. destruct (j =? i) eqn:Q; [|now left].
      apply Z.eqb_eq in Q. subst. right. right. left. now left.
  - destruct (get (execs s) j) as [[k p a]|] eqn:G; [|discriminate]. destruct p; try discriminate.
    injection E as <- _. cbn [with_execs execs] in X. rewrite get_put in X. destruct (j =? i); [discriminate|].
    split; [exact L|now left].
  - destruct (get (execs s) j) as [[k p a]|] eqn:G; [|discriminate]. cbn [x_phase] in E. destruct p; try discriminate.
    unfold result in E. cbn [x_kind x_abort] in E. destruct k as [| |t|], o; try discriminate.
    + destruct a; [discriminate|]. injection E as <- _. cbn [with_execs execs] in X. rewrite get_put in X.
      destruct (j =? i); [discriminate|]. split; [exact L|now left].
    + injection E as <- _. apply expire_listed in L as (L & N). rewrite expire_execs in X. cbn [with_execs execs] in X.
      rewrite get_del in X. destruct (j =? i) eqn:Q; [apply Z.eqb_eq in Q; congruence|]. split; [exact L|now left].
    + injection E as <- _. cbn [with_execs execs] in X. rewrite get_put in X.
      destruct (j =? i); [discriminate|]. split; [exact L|now left].
    + injection E as <- _. apply expire_listed in L as (L & N). rewrite expire_execs in X. cbn [with_execs execs] in X.
      rewrite get_del in X. destruct (j =? i) eqn:Q; [apply Z.eqb_eq in Q; congruence|]. split; [exact L|now left].
    + injection E as <- _. apply expire_listed in L as (L & N). rewrite expire_execs in X. cbn [with_execs execs] in X.
      rewrite get_del in X. destruct (j =? i) eqn:Q; [apply Z.eqb_eq in Q; congruence|]. split; [exact L|now left].
    + destruct (get (tracked s) t) eqn:T; injection E as <- _; apply expire_listed in L as (L & N); rewrite expire_execs in X.
      * rewrite listed_get, cancel_tracked, <- listed_get in L. apply expire_listed in L as (L & M).
        split; [exact L|]. left. unfold cancel in X. rewrite expire_execs in X. cbn [with_execs execs] in X.
        assert (D : forall l : list (Z * exec), get (del l j) i = get l i).
        { intros l. rewrite get_del. destruct (j =? i) eqn:Q; [apply Z.eqb_eq in Q; congruence|reflexivity]. }
        destruct (get (del (execs s) j) t) as [[k2 p2 a2]|];
          [|rewrite expire_execs in X; cbn [with_execs execs] in X; now rewrite D in X].
        destruct k2, p2; cbn [with_execs execs] in X; rewrite ?expire_execs in X; cbn [with_execs execs] in X;
          try (now rewrite D in X).
        -- rewrite get_put in X. destruct (t =? i); [discriminate|]. now rewrite D in X.
        -- rewrite get_del in X. destruct (t =? i) eqn:Q; [apply Z.eqb_eq in Q; congruence|]. now rewrite D in X.
      * cbn [with_execs execs] in X. rewrite get_del in X.
        destruct (j =? i) eqn:Q; [apply Z.eqb_eq in Q; congruence|]. split; [exact L|now left].
    + injection E as <- _. destruct (get (tracked s) j) eqn:T; cbn [with_execs execs] in X.
      * rewrite get_put in X. destruct (j =? i); [discriminate|]. split; [exact L|now left].
      * rewrite get_del in X. destruct (j =? i) eqn:Q; [|split; [exact L|now left]].
        apply Z.eqb_eq in Q. subst. exfalso. apply listed_get in L. cbn [with_execs tracked] in L. contradiction.
    + injection E as <- _. cbn [with_execs execs] in X. rewrite get_del in X. split; [exact L|].
      destruct (j =? i) eqn:Q; [|now left]. apply Z.eqb_eq in Q. subst. right. right. right. now left.
  - destruct (get (execs s) j) as [[k p a]|] eqn:G; [|discriminate]. unfold drop in E. cbn [x_phase] in E.
    assert (B : j = i -> broken_off [EDrop j] i) by (intros ->; left; now left).
    destruct p; try discriminate; injection E as <- _; rewrite ?expire_execs in X; cbn [with_execs execs] in X;
      rewrite get_del in X; try apply expire_listed in L as (L & _);
      (split; [exact L|]); destruct (j =? i) eqn:Q; try (now left); right; apply B; now apply Z.eqb_eq.
  - destruct (mem _ _); [|discriminate]. injection E as <- _. split; [exact L|now left].
  - destruct (mem _ _); [|discriminate]. injection E as <- _. split; [exact L|now left].
  - injection E as <- _. destruct L as (k & []).
  - destruct (todo s) as [|j t]; [discriminate|]. injection E as E. unfold arrive in E.
    destruct (Nat.leb _ _); injection E as <- _; cbn [with_execs execs tracked] in *.
    + split; [exact L|]. now left.
    + rewrite get_put in X. destruct (j =? i); [discriminate|]. split; [exact L|]. now left.
  - destruct (todo s) as [|j t]; [discriminate|]. injection E as <- _. split; [exact L|now left].
Qed.
Lemma broken_app a b i : broken_off a i \/ broken_off b i -> broken_off (a ++ b) i.
Proof. unfold broken_off. rewrite !in_app_iff. tauto. Qed.
Lemma run_live limit h : forall s pre s', inv limit s -> res s -> run limit s h = Some s' ->
  (forall i, listed s i -> get (execs s) i <> None \/ broken_off pre i) ->
  forall i, listed s' i -> get (execs s') i <> None \/ broken_off (pre ++ h) i.
Proof.
  induction h as [|e h IH]; cbn [run]; intros s pre s' I R E P i L.
  - injection E as <-. rewrite app_nil_r. now apply P.
  - destruct (step limit s e) as [[s1 r]|] eqn:S1; [|discriminate].
    destruct (step_inv _ _ _ _ _ I R S1) as (I1 & R1).
    change (e :: h) with ([e] ++ h). rewrite app_assoc. refine (IH s1 (pre ++ [e]) s' I1 R1 E _ i L).
    intros j Lj. destruct (step_live _ _ _ _ _ _ I R S1 Lj) as [A|(A & B)]; [now left|].
    destruct (P j A) as [C|C].
    + destruct B as [B|B]; [contradiction|]. right. apply broken_app. now right.
    + right. apply broken_app. now left.
Qed.

(** ** KILL QUERY *)
Lemma kill_step limit s k t s' r : inv limit s -> res s -> executing s k (KKill t) PStarted ->
  step limit s (EResult k ONil) = Some (s', r) ->
  ((r = ANil /\ listed s t) \/ (r = ANotFound /\ ~ listed s t)) /\ ~ listed s' t /\ ~ streaming s' t /\
  forall i, i <> t -> i <> k -> (listed s' i <-> listed s i) /\ (forall q p, executing s' i q p <-> executing s i q p).
Proof.
  intros I R X E. assert (E' := E). apply (executing_get limit) in X as (a & X); [|exact I].
  destruct (step_inv _ _ _ _ _ I R E) as (I' & R').
  cbn [step] in E. rewrite X in E. cbn [x_phase] in E. unfold result in E. cbn [x_kind x_abort] in E.
  assert (NS : ~ listed s' t -> ~ streaming s' t).
  { intros N S. apply (executing_get limit) in S as (b & S); [|exact I']. destruct (R' _ _ S) as (_ & Q); [reflexivity|].
    now apply N, listed_get. }
  destruct (get (tracked s) t) eqn:T; injection E as <- <-.
  - assert (N : ~ listed (expire (cancel (expire (with_execs s (del (execs s) k)) t) t) k) t).
    { rewrite expire_listed, listed_get, cancel_tracked, <- listed_get, expire_listed. tauto. }
    split; [left; split; [reflexivity|]; apply listed_get; congruence|]. split; [exact N|]. split; [now apply NS|].
    intros i A B. split.
    + rewrite expire_listed, listed_get, cancel_tracked, <- listed_get, expire_listed.
      rewrite (listed_get (with_execs _ _)), (listed_get s). cbn [with_execs tracked]. tauto.
    + intros q p. rewrite (executing_get limit _ i q p I'), (executing_get limit s i q p I).
      rewrite expire_execs.
      assert (C : get (execs (cancel (expire (with_execs s (del (execs s) k)) t) t)) i = get (execs s) i).
      { unfold cancel. rewrite expire_execs. cbn [with_execs execs].
        assert (D : get (del (execs s) k) i = get (execs s) i).
        { rewrite get_del. destruct (k =? i) eqn:Q; [apply Z.eqb_eq in Q; congruence|reflexivity]. }
        assert (F : t =? i = false) by (apply Z.eqb_neq; congruence).
        destruct (get (del (execs s) k) t) as [[k2 p2 a2]|];
          [|rewrite expire_execs; exact D].
        destruct k2, p2; cbn [with_execs execs]; rewrite ?expire_execs; cbn [with_execs execs];
          rewrite ?get_put, ?(get_del (del (execs s) k) t), ?F; exact D. }
      rewrite C. tauto.
  - assert (N0 : ~ listed s t) by (rewrite listed_get; congruence).
    assert (N : ~ listed (expire (with_execs s (del (execs s) k)) k) t).
    { rewrite expire_listed, listed_get. cbn [with_execs tracked]. tauto. }
    split; [right; now split|]. split; [exact N|]. split; [now apply NS|].
    intros i A B. split.
    + rewrite expire_listed, !listed_get. cbn [with_execs tracked]. tauto.
    + intros q p. rewrite (executing_get limit _ i q p I'), (executing_get limit s i q p I).
      rewrite expire_execs. cbn [with_execs execs]. rewrite get_del.
      destruct (k =? i) eqn:Q; [apply Z.eqb_eq in Q; congruence|]. tauto.
Qed.

(** A killed query cannot come back without a restart *)
Definition dead (t : Z) (s : state) : Prop :=
  In t (used s) /\ get (tracked s) t = None /\ ~ In t (todo s) /\
  (forall x, get (execs s) t = Some x -> x_phase x <> PArrived).
Definition buried (t : Z) (s : state) : Prop :=
  In t (used s) /\ get (tracked s) t = None /\ ~ In t (todo s) /\ get (execs s) t = None.

Lemma dead_put t s j x : dead t s -> (j = t -> x_phase x <> PArrived) -> dead t (with_execs s (put (execs s) j x)).
Proof.
  intros (A & B & C & D) P. split; [exact A|]. split; [exact B|]. split; [exact C|].
  intros y. cbn [with_execs execs]. rewrite get_put. destruct (j =? t) eqn:Q; [|apply D].
  apply Z.eqb_eq in Q. intros H. injection H as <-. now apply P.
Qed.
Lemma dead_del t s j : dead t s -> dead t (with_execs s (del (execs s) j)).
Proof.
  intros (A & B & C & D). split; [exact A|]. split; [exact B|]. split; [exact C|].
  intros y. cbn [with_execs execs]. rewrite get_del. destruct (j =? t); [discriminate|apply D].
Qed.
Lemma dead_expire t s j : dead t s -> dead t (expire s j).
Proof.
  intros (A & B & C & D). unfold dead. rewrite expire_used, expire_tracked, expire_todo, expire_execs.
  split; [exact A|]. split; [now destruct (j =? t)|]. now split.
Qed.
Lemma dead_cancel t s j : dead t s -> dead t (cancel s j).
Proof.
  intros D. unfold cancel. destruct (get (execs s) j) as [[[] [] a]|]; try exact D.
  - apply dead_put; [exact D|]. discriminate.
  - now apply dead_del.
Qed.
Lemma step_dead limit s e s' r t : dead t s -> e <> ECrash -> step limit s e = Some (s', r) -> dead t s'.
Proof.
  intros D N E. destruct e as [j k|j|j ok|j|j o|j|j|j| | |]; cbn [step] in E.
  - destruct (mem (used s) j) eqn:M; [discriminate|]. apply mem_false in M. injection E as E. unfold arrive in E.
    destruct D as (A & B & C & D). assert (J : j <> t) by congruence.
    destruct (Nat.leb _ _); injection E as <- _.
    + split; [now right|]. now split.
    + apply (dead_put t (ST (execs s) (tracked s) (saved s) (removing s) (todo s) (j :: used s))); [|contradiction].
      split; [now right|]. now split.
  - destruct (get (execs s) j) as [[k p a]|] eqn:G; [|discriminate]. destruct p; try discriminate.
    injection E as E. unfold insert in E. destruct (Nat.leb _ _); injection E as <- _; [now apply dead_del|].
    assert (J : j <> t). { intros ->. destruct D as (_ & _ & _ & D). now apply (D _ G). }
    apply Z.eqb_neq in J. destruct D as (A & B & C & D). split; [exact A|]. cbn [tracked todo execs]. rewrite !get_put, J.
    split; [exact B|]. now split.
  - destruct (get (execs s) j) as [[k p a]|] eqn:G; [|discriminate]. destruct k, p; try discriminate.
    injection E as E. unfold persist in E. destruct ok; injection E as <- _; [|now apply dead_del].
    destruct D as (A & B & C & D). split; [exact A|]. split; [exact B|]. split; [exact C|]. cbn [execs].
    intros x. rewrite get_put. destruct (j =? t); [|apply D]. intros H. injection H as <-. discriminate.
  - destruct (get (execs s) j) as [[k p a]|] eqn:G; [|discriminate]. destruct p; try discriminate.
    injection E as <- _. apply dead_put; [exact D|]. discriminate.
  - destruct (get (execs s) j) as [[k p a]|] eqn:G; [|discriminate]. cbn [x_phase] in E. destruct p; try discriminate.
    unfold result in E. cbn [x_kind x_abort] in E. destruct k as [| |u|], o; try discriminate.
    + destruct a; [discriminate|]. injection E as <- _. apply dead_put; [exact D|discriminate].
    + injection E as <- _. now apply dead_expire, dead_del.
    + injection E as <- _. apply dead_put; [exact D|discriminate].
    + injection E as <- _. now apply dead_expire, dead_del.
    + injection E as <- _. now apply dead_expire, dead_del.
    + destruct (get (tracked s) u); injection E as <- _.
      * now apply dead_expire, dead_cancel, dead_expire, dead_del.
      * now apply dead_expire, dead_del.
    + injection E as <- _. destruct (get (tracked s) j); [apply dead_put; [exact D|discriminate]|now apply dead_del].
    + injection E as <- _. now apply dead_del.
  - destruct (get (execs s) j) as [[k p a]|] eqn:G; [|discriminate]. unfold drop in E. cbn [x_phase] in E.
    destruct p; try discriminate; injection E as <- _; try now apply dead_del. now apply dead_expire, dead_del.
  - destruct (mem _ _); [|discriminate]. injection E as <- _. exact D.
  - destruct (mem _ _); [|discriminate]. injection E as <- _. exact D.
  - contradiction.
  - destruct (todo s) as [|j l] eqn:T; [discriminate|]. injection E as E. unfold arrive in E.
    destruct D as (A & B & C & D). rewrite T in C.
    assert (D1 : dead t (ST (execs s) (tracked s) (saved s) (removing s) l (used s))).
    { split; [exact A|]. split; [exact B|]. split; [|exact D]. intros H. apply C. now right. }
    destruct (Nat.leb _ _); injection E as <- _; [exact D1|].
    apply (dead_put t (ST (execs s) (tracked s) (saved s) (removing s) l (used s))); [exact D1|].
    intros ->. exfalso. apply C. now left.
  - destruct (todo s) as [|j l] eqn:T; [discriminate|]. injection E as <- _.
    destruct D as (A & B & C & D). rewrite T in C. split; [exact A|]. split; [exact B|]. split; [|exact D].
    intros H. apply C. now right.
Qed.
Lemma run_dead limit h t : forall s s', dead t s -> no_crash h -> run limit s h = Some s' -> dead t s'.
Proof.
  induction h as [|e h IH]; cbn [run]; intros s s' D N E.
  - now injection E as <-.
  - destruct (step limit s e) as [[s1 r]|] eqn:S1; [|discriminate]. apply (IH s1 s').
    + apply (step_dead limit s e s1 r); [exact D| |exact S1]. intros ->. apply N. now left.
    + intros H. apply N. now right.
    + exact E.
Qed.
Lemma kill_dead limit s k t s' r : inv limit s -> res s -> executing s k (KKill t) PStarted ->
  step limit s (EResult k ONil) = Some (s', r) -> r = ANil -> dead t s'.
Proof.
  intros I R X E Q. destruct (kill_step limit s k t s' r I R X E) as (A & B & C & _).
  assert (L : listed s t). { destruct A as [(_ & A)|(A & _)]; [exact A|congruence]. }
  destruct (step_inv _ _ _ _ _ I R E) as (I' & R').
  apply listed_get in L. destruct (get (tracked s) t) as [q|] eqn:T; [|contradiction].
  apply (executing_get limit) in X as (a & X); [|exact I].
  cbn [step] in E. rewrite X in E. cbn [x_phase] in E. unfold result in E. cbn [x_kind x_abort] in E. rewrite T in E.
  injection E as <- _. unfold dead. rewrite expire_used, expire_todo. 
  assert (U : used (cancel (expire (with_execs s (del (execs s) k)) t) t) = used s /\
              todo (cancel (expire (with_execs s (del (execs s) k)) t) t) = todo s).
  { rewrite cancel_used, cancel_todo, expire_used, expire_todo. split; reflexivity. }
  destruct U as (U1 & U2). rewrite U1, U2. split; [now apply (i_usedt _ _ I t q)|]. split.
  { rewrite listed_get in B. destruct (get _ t); [|reflexivity]. exfalso. apply B. discriminate. }
  split.
  - intros H. destruct (i_todo _ _ I t H) as (H1 & _). congruence.
  - intros x. rewrite expire_execs. intros Y. apply cancel_execs in Y as (y & Y & Y1 & Y2 & _).
    rewrite expire_execs in Y. cbn [with_execs execs] in Y. rewrite get_del in Y. destruct (k =? t); [discriminate|].
    rewrite <- Y2. now apply (i_kind _ _ I t y q Y T).
Qed.

Lemma run_app limit a b s : run limit s (a ++ b) = match run limit s a with Some s1 => run limit s1 b | None => None end.
Proof.
  revert s. induction a as [|e a IH]; intros s; [reflexivity|]. cbn [app run].
  destruct (step limit s e) as [[s1 r]|]; [apply IH|reflexivity].
Qed.

(** Once it is removed from the meta service too, not even a restart brings it back *)
Lemma buried_dead t s : buried t s -> dead t s.
Proof. intros (A & B & C & D). split; [exact A|]. split; [exact B|]. split; [exact C|]. intros x X. congruence. Qed.
Lemma step_buried limit s e s' r t : inv limit s -> res s -> buried t s -> ~ In t (saved s) ->
  step limit s e = Some (s', r) -> buried t s' /\ ~ In t (saved s').
Proof.
  intros I R B NS E. destruct (step_inv _ _ _ _ _ I R E) as (I' & R').
  assert (DE : e <> ECrash -> dead t s').
  { intros N. apply (step_dead limit s e s' r); [now apply buried_dead|exact N|exact E]. }
  destruct B as (B1 & B2 & B3 & B4).
  assert (G : e <> ECrash -> get (execs s') t = None /\ ~ In t (saved s') -> buried t s' /\ ~ In t (saved s')).
  { intros N (H1 & H2). destruct (DE N) as (D1 & D2 & D3 & _). split; [|exact H2]. now repeat split. }
  destruct e as [j k|j|j ok|j|j o|j|j|j| | |];
    try (apply G; [discriminate|]); cbn [step] in E.
  - destruct (mem (used s) j) eqn:M; [discriminate|]. apply mem_false in M. injection E as E. unfold arrive in E.
    assert (J : j =? t = false) by (apply Z.eqb_neq; congruence).
    destruct (Nat.leb _ _); injection E as <- _; [now split|]. cbn [with_execs execs saved]. rewrite get_put, J. now split.
  - destruct (get (execs s) j) as [[k p a]|] eqn:X; [|discriminate]. destruct p; try discriminate.
    assert (J : j =? t = false) by (apply Z.eqb_neq; congruence).
    injection E as E. unfold insert in E. destruct (Nat.leb _ _); injection E as <- _; cbn [with_execs execs saved];
      rewrite ?get_put, ?get_del, J; now split.
  - destruct (get (execs s) j) as [[k p a]|] eqn:X; [|discriminate]. destruct k, p; try discriminate.
    assert (J0 : j <> t) by congruence. assert (J : j =? t = false) by (now apply Z.eqb_neq).
    injection E as E. unfold persist in E. destruct ok; injection E as <- _; cbn [with_execs execs saved];
      rewrite ?get_put, ?get_del, J; split; auto. rewrite save_in. intros [H|H]; congruence.
  - destruct (get (execs s) j) as [[k p a]|] eqn:X; [|discriminate]. destruct p; try discriminate.
    assert (J : j =? t = false) by (apply Z.eqb_neq; congruence).
    injection E as <- _. cbn [with_execs execs saved]. rewrite get_put, J. now split.
  - destruct (get (execs s) j) as [[k p a]|] eqn:X; [|discriminate]. cbn [x_phase] in E. destruct p; try discriminate.
    assert (J : j =? t = false) by (apply Z.eqb_neq; congruence).
    unfold result in E. cbn [x_kind x_abort] in E. destruct k as [| |u|], o; try discriminate.
    + destruct a; [discriminate|]. injection E as <- _. cbn [with_execs execs saved]. rewrite get_put, J. now split.
    + injection E as <- _. rewrite expire_execs, expire_saved. cbn [with_execs execs saved]. rewrite get_del, J. now split.
    + injection E as <- _. cbn [with_execs execs saved]. rewrite get_put, J. now split.
    + injection E as <- _. rewrite expire_execs, expire_saved. cbn [with_execs execs saved]. rewrite get_del, J. now split.
    + injection E as <- _. rewrite expire_execs, expire_saved. cbn [with_execs execs saved]. rewrite get_del, J. now split.
    + destruct (get (tracked s) u); injection E as <- _; rewrite expire_execs, expire_saved.
      * split.
        -- destruct (get (execs (cancel _ u)) t) as [x|] eqn:Y; [|reflexivity]. apply cancel_execs in Y as (y & Y & _).
           rewrite expire_execs in Y. cbn [with_execs execs] in Y. rewrite get_del, J in Y. congruence.
        -- rewrite cancel_saved, expire_saved. exact NS.
      * cbn [with_execs execs saved]. rewrite get_del, J. now split.
    + injection E as <- _. destruct (get (tracked s) j); cbn [with_execs execs saved]; rewrite ?get_put, ?get_del, J; now split.
    + injection E as <- _. cbn [with_execs execs saved]. rewrite get_del, J. now split.
  - destruct (get (execs s) j) as [[k p a]|] eqn:X; [|discriminate]. unfold drop in E. cbn [x_phase] in E.
    assert (J : j =? t = false) by (apply Z.eqb_neq; congruence).
    destruct p; try discriminate; injection E as <- _; rewrite ?expire_execs, ?expire_saved;
      cbn [with_execs execs saved]; rewrite get_del, J; now split.
  - destruct (mem _ _); [|discriminate]. injection E as <- _. split; [exact B4|]. cbn [saved]. rewrite rm_in. tauto.
  - destruct (mem _ _); [|discriminate]. injection E as <- _. now split.
  - injection E as <- _. split; [|exact NS]. now repeat split.
  - destruct (todo s) as [|j l] eqn:T; [discriminate|]. injection E as E. unfold arrive in E.
    assert (J : j =? t = false). { apply Z.eqb_neq. intros ->. apply B3. now left. }
    destruct (Nat.leb _ _); injection E as <- _; [now split|]. cbn [with_execs execs saved]. rewrite get_put, J. now split.
  - destruct (todo s) as [|j l] eqn:T; [discriminate|]. injection E as <- _. now split.
Qed.
Lemma run_buried limit h t : forall s s', inv limit s -> res s -> buried t s -> ~ In t (saved s) ->
  run limit s h = Some s' -> buried t s' /\ ~ In t (saved s').
Proof.
  induction h as [|e h IH]; cbn [run]; intros s s' I R B N E.
  - injection E as <-. now split.
  - destruct (step limit s e) as [[s1 r]|] eqn:S1; [|discriminate].
    destruct (step_inv _ _ _ _ _ I R S1) as (I1 & R1). destruct (step_buried _ _ _ _ _ _ I R B N S1) as (B1 & N1).
    now apply (IH s1 s').
Qed.
(** [buried] without the meta service holds from the kill of a running stream on *)
Lemma step_buried0 limit s e s' r t : buried t s -> e <> ECrash -> step limit s e = Some (s', r) -> buried t s'.
Proof.
  intros B N E. pose proof (step_dead _ _ _ _ _ _ (buried_dead _ _ B) N E) as (D1 & D2 & D3 & _).
  destruct B as (B1 & B2 & B3 & B4). repeat split; auto.
  destruct e as [j k|j|j ok|j|j o|j|j|j| | |]; cbn [step] in E.
  - destruct (mem (used s) j) eqn:M; [discriminate|]. apply mem_false in M. injection E as E. unfold arrive in E.
    assert (J : j =? t = false) by (apply Z.eqb_neq; congruence).
    destruct (Nat.leb _ _); injection E as <- _; [exact B4|]. cbn [with_execs execs]. now rewrite get_put, J.
  - destruct (get (execs s) j) as [[k p a]|] eqn:X; [|discriminate]. destruct p; try discriminate.
    assert (J : j =? t = false) by (apply Z.eqb_neq; congruence).
    injection E as E. unfold insert in E. destruct (Nat.leb _ _); injection E as <- _; cbn [with_execs execs];
      now rewrite ?get_put, ?get_del, J.
  - destruct (get (execs s) j) as [[k p a]|] eqn:X; [|discriminate]. destruct k, p; try discriminate.
    assert (J : j =? t = false) by (apply Z.eqb_neq; congruence).
    injection E as E. unfold persist in E. destruct ok; injection E as <- _; cbn [with_execs execs];
      now rewrite ?get_put, ?get_del, J.
  - destruct (get (execs s) j) as [[k p a]|] eqn:X; [|discriminate]. destruct p; try discriminate.
    assert (J : j =? t = false) by (apply Z.eqb_neq; congruence).
    injection E as <- _. cbn [with_execs execs]. now rewrite get_put, J.
  - destruct (get (execs s) j) as [[k p a]|] eqn:X; [|discriminate]. cbn [x_phase] in E. destruct p; try discriminate.
    assert (J : j =? t = false) by (apply Z.eqb_neq; congruence).
    unfold result in E. cbn [x_kind x_abort] in E. destruct k as [| |u|], o; try discriminate.
    + destruct a; [discriminate|]. injection E as <- _. cbn [with_execs execs]. now rewrite get_put, J.
    + injection E as <- _. rewrite expire_execs. cbn [with_execs execs]. now rewrite get_del, J.
    + injection E as <- _. cbn [with_execs execs]. now rewrite get_put, J.
    + injection E as <- _. rewrite expire_execs. cbn [with_execs execs]. now rewrite get_del, J.
    + injection E as <- _. rewrite expire_execs. cbn [with_execs execs]. now rewrite get_del, J.
    + destruct (get (tracked s) u); injection E as <- _; rewrite expire_execs.
      * destruct (get (execs (cancel _ u)) t) as [x|] eqn:Y; [|reflexivity]. apply cancel_execs in Y as (y & Y & _).
        rewrite expire_execs in Y. cbn [with_execs execs] in Y. rewrite get_del, J in Y. congruence.
      * cbn [with_execs execs]. now rewrite get_del, J.
    + injection E as <- _. destruct (get (tracked s) j); cbn [with_execs execs]; now rewrite ?get_put, ?get_del, J.
    + injection E as <- _. cbn [with_execs execs]. now rewrite get_del, J.
  - destruct (get (execs s) j) as [[k p a]|] eqn:X; [|discriminate]. unfold drop in E. cbn [x_phase] in E.
    assert (J : j =? t = false) by (apply Z.eqb_neq; congruence).
    destruct p; try discriminate; injection E as <- _; rewrite ?expire_execs;
      cbn [with_execs execs]; now rewrite get_del, J.
  - destruct (mem _ _); [|discriminate]. now injection E as <- _.
  - destruct (mem _ _); [|discriminate]. now injection E as <- _.
  - contradiction.
  - destruct (todo s) as [|j l] eqn:T; [discriminate|]. injection E as E. unfold arrive in E.
    assert (J : j =? t = false). { apply Z.eqb_neq. intros ->. apply B3. now left. }
    destruct (Nat.leb _ _); injection E as <- _; [exact B4|]. cbn [with_execs execs]. now rewrite get_put, J.
  - destruct (todo s) as [|j l] eqn:T; [discriminate|]. now injection E as <- _.
Qed.
Lemma run_buried0 limit h t : forall s s', buried t s -> no_crash h -> run limit s h = Some s' -> buried t s'.
Proof.
  induction h as [|e h IH]; cbn [run]; intros s s' B N E.
  - now injection E as <-.
  - destruct (step limit s e) as [[s1 r]|] eqn:S1; [|discriminate]. apply (IH s1 s').
    + apply (step_buried0 limit s e s1 r); [exact B| |exact S1]. intros ->. apply N. now left.
    + intros H. apply N. now right.
    + exact E.
Qed.
Lemma kill_buried limit s k t s' r : inv limit s -> res s -> executing s k (KKill t) PStarted -> streaming s t ->
  step limit s (EResult k ONil) = Some (s', r) -> buried t s'.
Proof.
  intros I R X S E. assert (S' := S). apply (executing_get limit) in S' as (b & S'); [|exact I].
  destruct (R _ _ S') as (_ & L); [reflexivity|].
  assert (Q : r = ANil). { destruct (kill_step limit s k t s' r I R X E) as ([(A & _)|(_ & A)] & _); [exact A|].
    exfalso. now apply A, listed_get. }
  destruct (kill_dead limit s k t s' r I R X E Q) as (D1 & D2 & D3 & _). repeat split; auto.
  apply (executing_get limit) in X as (a & X); [|exact I]. assert (KT : k <> t) by (intros ->; congruence).
  cbn [step] in E. rewrite X in E. cbn [x_phase] in E. unfold result in E. cbn [x_kind x_abort] in E.
  destruct (get (tracked s) t) as [q|] eqn:T; [|contradiction]. injection E as <- _.
  rewrite expire_execs. unfold cancel. rewrite expire_execs. cbn [with_execs execs]. apply Z.eqb_neq in KT.
  rewrite get_del, KT, S'. cbn [with_execs execs]. now rewrite get_del, Z.eqb_refl.
Qed.

(** ** Restart *)
Lemma again_run limit s i l : todo s = i :: l -> (length (tracked s) < limit)%nat -> get (tracked s) i = None ->
  exists s1, run limit s (again i) = Some s1 /\ todo s1 = l /\ length (tracked s1) = S (length (tracked s)) /\
    get (execs s1) i = Some (EX KStream PResident false) /\ get (tracked s1) i = Some KStream /\
    (forall j, j <> i -> get (execs s1) j = get (execs s) j /\ get (tracked s1) j = get (tracked s) j).
Proof.
  intros T L N. unfold again.
  assert (Q : Nat.leb limit (length (tracked s)) = false) by (apply Nat.leb_gt; exact L).
  set (s1 := ST (put (execs s) i (EX KStream PArrived false)) (tracked s) (saved s) (removing s) l (used s)).
  assert (E1 : step limit s ERecover = Some (s1, AWait)).
  { cbn [step]. rewrite T. unfold arrive. cbn [tracked]. now rewrite Q. }
  set (s2 := ST (put (execs s1) i (EX KStream PTracked false)) (put (tracked s1) i KStream) (saved s1) (removing s1) (todo s1) (used s1)).
  assert (E2 : step limit s1 (EInsert i) = Some (s2, ASlot)).
  { cbn [step]. unfold s1 at 1. cbn [execs]. rewrite get_put, Z.eqb_refl. unfold insert.
    change (tracked s1) with (tracked s) at 1. now rewrite Q. }
  set (s3 := ST (put (execs s2) i (EX KStream PReady false)) (tracked s2)
        (if mem (saved s2) i then saved s2 else saved s2 ++ [i]) (removing s2) (todo s2) (used s2)).
  assert (E3 : step limit s2 (EPersist i true) = Some (s3, AWait)).
  { cbn [step]. unfold s2 at 1. cbn [execs]. now rewrite get_put, Z.eqb_refl. }
  set (s4 := with_execs s3 (put (execs s3) i (EX KStream PStarted false))).
  assert (E4 : step limit s3 (EBegin i) = Some (s4, AWait)).
  { cbn [step]. unfold s3 at 1. cbn [execs]. now rewrite get_put, Z.eqb_refl. }
  set (s5 := with_execs s4 (put (execs s4) i (EX KStream PResident false))).
  assert (T4 : tracked s4 = put (tracked s) i KStream) by reflexivity.
  assert (E5 : step limit s4 (EResult i OData) = Some (s5, AData)).
  { cbn [step]. unfold s4 at 1. cbn [with_execs execs]. rewrite get_put, Z.eqb_refl. cbn [x_phase].
    unfold result. cbn [x_kind]. rewrite T4, get_put, Z.eqb_refl. reflexivity. }
  exists s5. split; [cbn [run]; rewrite E1, E2, E3, E4, E5; reflexivity|].
  change (tracked s5) with (put (tracked s) i KStream).
  split; [reflexivity|]. split; [unfold put; cbn [length]; now rewrite del_none|].
  split; [unfold s5; cbn [with_execs execs]; now rewrite get_put, Z.eqb_refl|].
  split; [now rewrite get_put, Z.eqb_refl|].
  intros j J. assert (F : i =? j = false) by (apply Z.eqb_neq; congruence). split; [|now rewrite get_put, F].
  unfold s5, s4, s3, s2, s1. cbn [with_execs execs]. now rewrite !get_put, F.
Qed.
Lemma again_all limit l : forall s, inv limit s -> res s -> todo s = l -> (length (tracked s) + length l <= limit)%nat ->
  exists s1, run limit s (flat_map again l) = Some s1 /\
    (forall j, In j l -> get (execs s1) j = Some (EX KStream PResident false) /\ get (tracked s1) j = Some KStream) /\
    (forall j, ~ In j l -> get (execs s1) j = get (execs s) j /\ get (tracked s1) j = get (tracked s) j).
Proof.
  induction l as [|i l IH]; intros s I R T L.
  - exists s. cbn. repeat split; auto; contradiction.
  - cbn [length] in L. destruct (i_todo _ _ I i) as (A & _). { rewrite T. now left. }
    destruct (again_run limit s i l T) as (s1 & R1 & T1 & L1 & X1 & K1 & O1); [lia|exact A|].
    destruct (run_inv limit _ s s1 I R R1) as (I1 & Q1).
    destruct (IH s1 I1 Q1 T1) as (s2 & R2 & X2 & O2); [lia|].
    pose proof (i_tododup _ _ I) as N. rewrite T in N. inversion N as [|? ? N1 N2]; subst.
    exists s2. split; [|split].
    + cbn [flat_map]. rewrite run_app, R1. exact R2.
    + intros j [H|H]; [|now apply X2]. subst j. destruct (O2 i N1) as (E1 & E2). rewrite E1, E2. now split.
    + intros j H. assert (J : j <> i) by (intros ->; apply H; now left).
      destruct (O2 j) as (E1 & E2). { intros C. apply H. now right. }
      destruct (O1 j J) as (F1 & F2). rewrite E1, E2, F1, F2. now split.
Qed.

(** ** A node without free slots *)
Definition stuck (limit : nat) (s : state) : Prop :=
  execs s = [] /\ todo s = [] /\ removing s = [] /\ (limit <= length (tracked s))%nat.
Lemma step_stuck limit s e s' r : stuck limit s -> e <> ECrash -> step limit s e = Some (s', r) -> stuck limit s' /\ r = ARefused.
Proof.
  intros (A & B & C & D) N E. destruct e as [j k|j|j ok|j|j o|j|j|j| | |]; cbn [step] in E;
    rewrite ?A, ?B, ?C in E; cbn [get mem existsb] in E; try discriminate.
  - destruct (mem (used s) j); [discriminate|]. unfold arrive in E. cbn [tracked] in E.
    assert (Q : Nat.leb limit (length (tracked s)) = true) by (apply Nat.leb_le; exact D). rewrite Q in E.
    injection E as <- <-. split; [|reflexivity]. now repeat split.
  - contradiction.
Qed.
Lemma run_stuck limit h : forall s s', stuck limit s -> no_crash h -> run limit s h = Some s' -> stuck limit s'.
Proof.
  induction h as [|e h IH]; cbn [run]; intros s s' K N E.
  - now injection E as <-.
  - destruct (step limit s e) as [[s1 r]|] eqn:S1; [|discriminate]. apply (IH s1 s').
    + apply (step_stuck limit s e s1 r); [exact K| |exact S1]. intros ->. apply N. now left.
    + intros H. apply N. now right.
    + exact E.
Qed.
Definition give_up (i : Z) : list event := [EArrive i KSql; EInsert i; EBegin i; EDrop i].
Lemma give_up_run limit s i : execs s = [] -> ~ In i (used s) -> (length (tracked s) < limit)%nat -> get (tracked s) i = None ->
  run limit s (give_up i) = Some (ST [] ((i, KSql) :: tracked s) (saved s) (removing s) (todo s) (i :: used s)).
Proof.
  intros A B L N. unfold give_up.
  assert (Q : Nat.leb limit (length (tracked s)) = false) by (apply Nat.leb_gt; exact L).
  set (s1 := ST (put (execs s) i (EX KSql PArrived false)) (tracked s) (saved s) (removing s) (todo s) (i :: used s)).
  assert (E1 : step limit s (EArrive i KSql) = Some (s1, AWait)).
  { cbn [step]. destruct (mem (used s) i) eqn:M; [apply mem_in in M; contradiction|].
    unfold arrive. cbn [tracked]. now rewrite Q. }
  set (s2 := ST (put (execs s1) i (EX KSql PReady false)) (put (tracked s1) i KSql) (saved s1) (removing s1) (todo s1) (used s1)).
  assert (E2 : step limit s1 (EInsert i) = Some (s2, ASlot)).
  { cbn [step]. unfold s1 at 1. cbn [execs]. rewrite get_put, Z.eqb_refl. unfold insert.
    change (tracked s1) with (tracked s) at 1. now rewrite Q. }
  set (s3 := with_execs s2 (put (execs s2) i (EX KSql PStarted false))).
  assert (E3 : step limit s2 (EBegin i) = Some (s3, AWait)).
  { cbn [step]. unfold s2 at 1. cbn [execs]. now rewrite get_put, Z.eqb_refl. }
  assert (E4 : step limit s3 (EDrop i) = Some (with_execs s3 (del (execs s3) i), AGone)).
  { cbn [step]. unfold s3 at 1. cbn [with_execs execs]. now rewrite get_put, Z.eqb_refl. }
  cbn [run]. rewrite E1, E2, E3, E4. unfold s3, s2, s1. cbn [with_execs execs tracked saved removing todo used].
  rewrite A. unfold put. rewrite (del_none (tracked s) i N). unfold del. cbn [filter fst].
  repeat (rewrite Z.eqb_refl; cbn [negb filter fst]). reflexivity.
Qed.
Lemma give_up_all limit n : forall s b, execs s = [] -> todo s = [] -> removing s = [] ->
  (length (tracked s) + n = limit)%nat -> (forall i, In i (used s) \/ get (tracked s) i <> None -> i < b) ->
  exists s1, run limit s (flat_map give_up (map (fun j => b + Z.of_nat j) (seq 0 n))) = Some s1 /\ stuck limit s1.
Proof.
  induction n as [|n IH]; intros s b A T M L U.
  - exists s. split; [reflexivity|]. repeat split; auto. lia.
  - cbn [seq map flat_map]. rewrite run_app. change (Z.of_nat 0) with 0. rewrite Z.add_0_r.
    assert (NU : ~ In b (used s)) by (intros H; assert (b < b) by (apply U; now left); lia).
    assert (NT : get (tracked s) b = None).
    { destruct (get (tracked s) b) eqn:G; [|reflexivity]. assert (b < b) by (apply U; right; congruence). lia. }
    rewrite (give_up_run limit s b A NU); [|lia|exact NT].
    destruct (IH (ST [] ((b, KSql) :: tracked s) (saved s) (removing s) (todo s) (b :: used s)) (b + 1)) as (s1 & R1 & K1); auto.
    + cbn [tracked length]. lia.
    + cbn [used tracked get]. intros i [[H|H]|H].
      * lia.
      * assert (i < b) by (apply U; now left). lia.
      * destruct (b =? i) eqn:Q; [lia|]. assert (i < b) by (apply U; now right). lia.
    + exists s1. split; [|exact K1]. rewrite <- R1. f_equal. f_equal. rewrite <- seq_shift, map_map.
      apply map_ext. intros j. lia.
Qed.

(** ** A killed query that is starting ends with an error *)
Definition aborted (t : Z) (s : state) : Prop :=
  In t (used s) /\ ~ In t (todo s) /\ (forall x, get (execs s) t = Some x -> x = EX KSql PStarted true).
Lemma aborted_put t s j x : aborted t s -> j <> t -> aborted t (with_execs s (put (execs s) j x)).
Proof.
  intros (A & B & C) J. apply Z.eqb_neq in J. split; [exact A|]. split; [exact B|]. intros y. cbn [with_execs execs].
  rewrite get_put, J. apply C.
Qed.
Lemma aborted_del t s j : aborted t s -> aborted t (with_execs s (del (execs s) j)).
Proof.
  intros (A & B & C). split; [exact A|]. split; [exact B|]. intros y. cbn [with_execs execs].
  rewrite get_del. destruct (j =? t); [discriminate|apply C].
Qed.
Lemma aborted_expire t s j : aborted t s -> aborted t (expire s j).
Proof. unfold aborted. now rewrite expire_used, expire_todo, expire_execs. Qed.
Lemma aborted_cancel t s j : aborted t s -> aborted t (cancel s j).
Proof.
  intros (A & B & C). unfold aborted. rewrite cancel_used, cancel_todo. split; [exact A|]. split; [exact B|].
  intros x. unfold cancel. destruct (get (execs s) j) as [[k p a]|] eqn:G; [|apply C].
  destruct k, p; try apply C; cbn [with_execs execs]; rewrite ?get_put, ?get_del; destruct (j =? t); try apply C; try discriminate.
  intros H. now injection H as <-.
Qed.
Lemma step_aborted limit s e s' r t : aborted t s -> e <> ECrash -> step limit s e = Some (s', r) ->
  aborted t s' /\ (forall o, e = EResult t o -> r = AErr).
Proof.
  intros D N E. assert (D' := D). destruct D' as (A & B & C).
  destruct e as [j k|j|j ok|j|j o|j|j|j| | |]; cbn [step] in E; try (split; [|discriminate]).
  - destruct (mem (used s) j) eqn:M; [discriminate|]. apply mem_false in M. injection E as E. unfold arrive in E.
    assert (J : j <> t) by congruence.
    assert (D1 : aborted t (ST (execs s) (tracked s) (saved s) (removing s) (todo s) (j :: used s))).
    { split; [now right|]. now split. }
    destruct (Nat.leb _ _); injection E as <- _; [exact D1|]. now apply (aborted_put t (ST _ _ _ _ _ _)).
  - destruct (get (execs s) j) as [[k p a]|] eqn:G; [|discriminate]. destruct p; try discriminate.
    assert (J : j <> t). { intros ->. apply C in G. discriminate. }
    injection E as E. unfold insert in E. destruct (Nat.leb _ _); injection E as <- _; [now apply aborted_del|].
    split; [exact A|]. split; [exact B|]. cbn [execs]. apply Z.eqb_neq in J. rewrite get_put, J. exact C.
  - destruct (get (execs s) j) as [[k p a]|] eqn:G; [|discriminate]. destruct k, p; try discriminate.
    assert (J : j <> t). { intros ->. apply C in G. discriminate. }
    injection E as E. unfold persist in E. destruct ok; injection E as <- _; [|now apply aborted_del].
    split; [exact A|]. split; [exact B|]. cbn [execs]. apply Z.eqb_neq in J. rewrite get_put, J. exact C.
  - destruct (get (execs s) j) as [[k p a]|] eqn:G; [|discriminate]. destruct p; try discriminate.
    assert (J : j <> t). { intros ->. apply C in G. discriminate. }
    injection E as <- _. now apply aborted_put.
  - destruct (get (execs s) j) as [[k p a]|] eqn:G; [|discriminate]. cbn [x_phase] in E. destruct p; try discriminate.
    destruct (Z.eq_dec j t) as [->|J].
    + apply C in G. injection G as -> ->. unfold result in E. cbn [x_kind x_abort] in E. destruct o; try discriminate.
      injection E as <- <-. split; [now apply aborted_expire, aborted_del|]. reflexivity.
    + split; [|congruence]. unfold result in E. cbn [x_kind x_abort] in E. destruct k as [| |u|], o; try discriminate.
      * destruct a; [discriminate|]. injection E as <- _. now apply aborted_put.
      * injection E as <- _. now apply aborted_expire, aborted_del.
      * injection E as <- _. now apply aborted_put.
      * injection E as <- _. now apply aborted_expire, aborted_del.
      * injection E as <- _. now apply aborted_expire, aborted_del.
      * destruct (get (tracked s) u); injection E as <- _.
        -- now apply aborted_expire, aborted_cancel, aborted_expire, aborted_del.
        -- now apply aborted_expire, aborted_del.
      * injection E as <- _. destruct (get (tracked s) j); [now apply aborted_put|now apply aborted_del].
      * injection E as <- _. now apply aborted_del.
  - destruct (get (execs s) j) as [[k p a]|] eqn:G; [|discriminate]. unfold drop in E. cbn [x_phase] in E.
    destruct p; try discriminate; injection E as <- _; try now apply aborted_del. now apply aborted_expire, aborted_del.
  - destruct (mem _ _); [|discriminate]. injection E as <- _. exact D.
  - destruct (mem _ _); [|discriminate]. injection E as <- _. exact D.
  - contradiction.
  - destruct (todo s) as [|j l] eqn:T; [discriminate|]. injection E as E. unfold arrive in E.
    assert (J : j <> t). { intros ->. apply B. now left. }
    assert (D1 : aborted t (ST (execs s) (tracked s) (saved s) (removing s) l (used s))).
    { split; [exact A|]. split; [|exact C]. intros H. apply B. now right. }
    destruct (Nat.leb _ _); injection E as <- _; [exact D1|]. now apply (aborted_put t (ST _ _ _ _ _ _)).
  - destruct (todo s) as [|j l] eqn:T; [discriminate|]. injection E as <- _.
    split; [exact A|]. split; [|exact C]. intros H. apply B. now right.
Qed.
Lemma run_aborted limit h t : forall s s', aborted t s -> no_crash h -> run limit s h = Some s' -> aborted t s'.
Proof.
  induction h as [|e h IH]; cbn [run]; intros s s' D N E.
  - now injection E as <-.
  - destruct (step limit s e) as [[s1 r]|] eqn:S1; [|discriminate]. apply (IH s1 s').
    + apply (step_aborted limit s e s1 r); [exact D| |exact S1]. intros ->. apply N. now left.
    + intros H. apply N. now right.
    + exact E.
Qed.
Lemma kill_aborted limit s k t s' r : inv limit s -> res s -> executing s k (KKill t) PStarted ->
  executing s t KSql PStarted -> step limit s (EResult k ONil) = Some (s', r) -> r = ANil -> aborted t s'.
Proof.
  intros I R X S E Q. destruct (kill_dead limit s k t s' r I R X E Q) as (D1 & _ & D3 & _).
  split; [exact D1|]. split; [exact D3|]. apply (executing_get limit) in X as (a & X); [|exact I].
  apply (executing_get limit) in S as (b & S); [|exact I].
  cbn [step] in E. rewrite X in E. cbn [x_phase] in E. unfold result in E. cbn [x_kind x_abort] in E.
  destruct (get (tracked s) t); injection E as <- <-; [|discriminate].
  intros x. rewrite expire_execs. unfold cancel. rewrite expire_execs. cbn [with_execs execs].
  rewrite (get_del (execs s) k t). destruct (k =? t) eqn:KT.
  - rewrite expire_execs. cbn [with_execs execs]. rewrite get_del, KT. discriminate.
  - rewrite S. cbn [with_execs execs]. rewrite get_put, Z.eqb_refl. intros H. now injection H as <-.
Qed.
