(** Proofs about requests on replica sets. *)
From Verif Require Import Prelude CoordModel CoordSpec.

Lemma ins_by_perm k x l : Permutation (ins_by k x l) (x :: l).
Proof.
  induction l as [|y l IH]; cbn; [reflexivity|]. destruct (k y <? k x); [|reflexivity]. rewrite IH. apply perm_swap.
Qed.
Lemma sort_perm k l : Permutation (sort_by_key k l) l.
Proof. unfold sort_by_key. induction l as [|x l IH]; cbn; [reflexivity|]. rewrite ins_by_perm. constructor. exact IH. Qed.
Lemma ins_by_sorted k x l : StronglySorted (fun a b => k a <= k b) l -> StronglySorted (fun a b => k a <= k b) (ins_by k x l).
Proof.
  induction l as [|y l IH]; cbn; intros H; [repeat constructor|]. inversion H as [|? ? H1 H2]; subst.
  destruct (k y <? k x) eqn:E.
  - apply Z.ltb_lt in E. constructor; [auto|].
    eapply Permutation_Forall; [apply Permutation_sym, ins_by_perm|]. constructor; [lia|exact H2].
  - apply Z.ltb_ge in E. constructor; [exact H|]. constructor; [lia|]. eapply Forall_impl; [|exact H2]. cbn. intros; lia.
Qed.
Lemma sort_sorted k l : StronglySorted (fun a b => k a <= k b) (sort_by_key k l).
Proof. unfold sort_by_key. induction l as [|x l IH]; cbn; [constructor|]. apply ins_by_sorted, IH. Qed.

Section exec.
  Variable net : nat -> Z -> result * bool.
  Variable lk : nat -> Z -> option Z.
  Hypothesis R : replies_ok net.

  Lemma reply_cases n node r x : net n node = (r, x) ->
    match r with Ok => x = true | Pre | Forward _ => x = false | Fail => True | NoReplica => False end.
  Proof. intros E. destruct (R n node) as [A B]. rewrite E in A, B. cbn in B. destruct r; auto. Qed.

  Lemma loop_ok leader vs : forall n last cs us, loop net lk leader vs n last = (Ok, cs, us) -> last <> Ok ->
    exists pre c, cs = pre ++ [c] /\ k_result c = Ok /\ k_executed c = true.
  Proof.
    induction vs as [|v vs IH]; intros n last cs us; cbn [loop]; [intros H NE; congruence|].
    destruct (net n (v_node v)) as [r x] eqn:E. apply reply_cases in E. intros H NE.
    destruct r as [| |nl| |].
    - injection H as <- <-. exists [], (CALL (v_node v) false Ok x). auto.
    - destruct (loop net lk leader vs (S n) Pre) as [[r' cs'] us'] eqn:L. injection H as -> <- <-.
      destruct (IH _ _ _ _ L) as (pre & c & -> & A & B); [discriminate|].
      exists (CALL (v_node v) false Pre x :: pre), c. auto.
    - destruct (lk n nl) as [node|].
      + destruct (net (S n) node) as [r2 x2] eqn:E2. apply reply_cases in E2. destruct r2 as [| |nl2| |].
        * injection H as <- <-. exists [CALL (v_node v) false (Forward nl) x], (CALL node true Ok x2). auto.
        * destruct (loop net lk leader vs (S (S n)) Pre) as [[r' cs'] us'] eqn:L. injection H as -> <- <-.
          destruct (IH _ _ _ _ L) as (pre & c & -> & A & B); [discriminate|]. eexists (_ :: _ :: pre), c; split; [reflexivity|auto].
        * destruct (loop net lk leader vs (S (S n)) (Forward nl2)) as [[r' cs'] us'] eqn:L. injection H as -> <- <-.
          destruct (IH _ _ _ _ L) as (pre & c & -> & A & B); [discriminate|]. eexists (_ :: _ :: pre), c; split; [reflexivity|auto].
        * destruct (loop net lk leader vs (S (S n)) Fail) as [[r' cs'] us'] eqn:L. injection H as -> <- <-.
          destruct (IH _ _ _ _ L) as (pre & c & -> & A & B); [discriminate|]. eexists (_ :: _ :: pre), c; split; [reflexivity|auto].
        * destruct E2.
      + destruct (loop net lk leader vs (S n) Fail) as [[r' cs'] us'] eqn:L. injection H as -> <- <-.
        destruct (IH _ _ _ _ L) as (pre & c & -> & A & B); [discriminate|]. eexists (_ :: pre), c; split; [reflexivity|auto].
    - discriminate.
    - discriminate.
  Qed.

  (** with good redirects only the last call takes effect, and only when it is a success or a direct failure *)
  Lemma loop_effects leader vs : forall n last r cs us, loop net lk leader vs n last = (r, cs, us) -> last <> Ok ->
    redirects_ok cs ->
    (effects cs <= 1)%nat /\ (not_started r -> effects cs = 0%nat).
  Proof.
    assert (CONS : forall c cs, k_executed c = false -> effects (c :: cs) = effects cs).
    { intros c cs E. unfold effects. cbn. rewrite E. reflexivity. }
    induction vs as [|v vs IH]; intros n last r cs us; cbn [loop].
    { intros H NE _. injection H as <- <- <-. unfold effects. cbn. lia. }
    destruct (net n (v_node v)) as [r1 x] eqn:E. apply reply_cases in E. intros H NE RO.
    destruct r1 as [| |nl| |].
    - injection H as <- <- <-. subst x. unfold effects. cbn. split; [lia|intros []].
    - destruct (loop net lk leader vs (S n) Pre) as [[r' cs'] us'] eqn:L. injection H as <- <- <-. subst x.
      rewrite CONS by reflexivity. apply (IH _ _ _ _ _ L); [discriminate|]. intros c I. apply RO. right. exact I.
    - subst x. destruct (lk n nl) as [node|].
      + destruct (net (S n) node) as [r2 x2] eqn:E2. apply reply_cases in E2.
        destruct r2 as [| |nl2| |]; [| | | |destruct E2].
        * injection H as <- <- <-. subst x2. unfold effects. cbn. split; [lia|intros []].
        * destruct (loop net lk leader vs (S (S n)) Pre) as [[r' cs'] us'] eqn:L. injection H as <- <- <-. subst x2.
          rewrite !CONS by reflexivity. apply (IH _ _ _ _ _ L); [discriminate|]. intros c I. apply RO. right. right. exact I.
        * destruct (loop net lk leader vs (S (S n)) (Forward nl2)) as [[r' cs'] us'] eqn:L. injection H as <- <- <-. subst x2.
          rewrite !CONS by reflexivity. apply (IH _ _ _ _ _ L); [discriminate|]. intros c I. apply RO. right. right. exact I.
        * destruct (loop net lk leader vs (S (S n)) Fail) as [[r' cs'] us'] eqn:L. injection H as <- <- <-.
          assert (X : x2 = false).
          { apply (RO (CALL node true Fail x2)); [right; left; reflexivity|reflexivity|discriminate]. }
          subst x2. rewrite !CONS by reflexivity. apply (IH _ _ _ _ _ L); [discriminate|]. intros c I. apply RO. right. right. exact I.
      + destruct (loop net lk leader vs (S n) Fail) as [[r' cs'] us'] eqn:L. injection H as <- <- <-.
        rewrite CONS by reflexivity. apply (IH _ _ _ _ _ L); [discriminate|]. intros c I. apply RO. right. exact I.
    - injection H as <- <- <-. unfold effects. cbn. destruct x; cbn; split; try lia; intros [].
    - destruct E.
  Qed.
  Lemma loop_bound leader vs : forall n last r cs us, loop net lk leader vs n last = (r, cs, us) ->
    (length cs <= 2 * length vs)%nat.
  Proof.
    induction vs as [|v vs IH]; intros n last r cs us; cbn [loop]; [intros H; injection H as <- <- <-; cbn; lia|].
    destruct (net n (v_node v)) as [r1 x]. destruct r1 as [| |nl| |].
    - intros H. injection H as <- <- <-. cbn. lia.
    - destruct (loop net lk leader vs (S n) Pre) as [[r' cs'] us'] eqn:L. intros H. injection H as <- <- <-.
      apply IH in L. cbn. lia.
    - destruct (lk n nl) as [node|].
      + destruct (net (S n) node) as [r2 x2].
        destruct r2 as [| |nl2| |]; [intros H; injection H as <- <- <-; cbn; lia|..];
          match goal with |- context [loop net lk leader vs ?m ?l] => destruct (loop net lk leader vs m l) as [[r' cs'] us'] eqn:L end;
          intros H; injection H as <- <- <-; apply IH in L; cbn; lia.
      + destruct (loop net lk leader vs (S n) Fail) as [[r' cs'] us'] eqn:L. intros H. injection H as <- <- <-.
        apply IH in L. cbn. lia.
    - intros H. injection H as <- <- <-. cbn. lia.
    - intros H. injection H as <- <- <-. cbn. lia.
  Qed.
End exec.
(** every replica is asked before a request that did not start is given up *)
Lemma loop_all net lk leader vs : forall n last r cs us, loop net lk leader vs n last = (r, cs, us) ->
  (forall c, In c cs -> k_result c = Pre) -> map k_node cs = map v_node vs.
Proof.
  induction vs as [|v vs IH]; intros n last r cs us; cbn [loop]; [intros H; injection H as <- <- <-; reflexivity|].
  destruct (net n (v_node v)) as [r1 x]. destruct r1 as [| |nl| |].
  - intros H. injection H as <- <- <-. intros A. specialize (A _ (or_introl eq_refl)). discriminate.
  - destruct (loop net lk leader vs (S n) Pre) as [[r' cs'] us'] eqn:L. intros H. injection H as <- <- <-. intros A.
    cbn. f_equal. eapply IH; [exact L|]. intros c I. apply A. right. exact I.
  - destruct (lk n nl) as [node|].
    + destruct (net (S n) node) as [r2 x2].
      destruct r2 as [| |nl2| |]; [intros H; injection H as <- <- <-; intros A; specialize (A _ (or_introl eq_refl)); discriminate|..];
        match goal with |- context [loop net lk leader vs ?m ?l] => destruct (loop net lk leader vs m l) as [[r' cs'] us'] eqn:L end;
        intros H; injection H as <- <- <-; intros A; specialize (A _ (or_introl eq_refl)); discriminate.
    + destruct (loop net lk leader vs (S n) Fail) as [[r' cs'] us'] eqn:L. intros H. injection H as <- <- <-. intros A.
      specialize (A _ (or_introl eq_refl)). discriminate.
  - intros H. injection H as <- <- <-. intros A. specialize (A _ (or_introl eq_refl)). discriminate.
  - intros H. injection H as <- <- <-. intros A. specialize (A _ (or_introl eq_refl)). discriminate.
Qed.
(** a reachable leader gets the request exactly once *)
Lemma loop_led net lk node vid leader vs : led_by net lk node vid -> forall n last,
  (exists v, In v vs /\ v_node v = node) ->
  let '(r, cs, _) := loop net lk leader vs n last in r = Ok /\ effects cs = 1%nat.
Proof.
  intros (A & B & C). induction vs as [|v vs IH]; intros n last (w & I & E); [destruct I|]. cbn [loop].
  destruct (Z.eq_dec (v_node v) node) as [Q|Q].
  - rewrite Q, A. split; reflexivity.
  - assert (J : exists v, In v vs /\ v_node v = node). { destruct I as [->|I]; [contradiction|eauto]. }
    destruct (C n (v_node v) Q) as [D|D]; rewrite D.
    + specialize (IH (S n) Pre J). destruct (loop net lk leader vs (S n) Pre) as [[r cs] us]. destruct IH as [-> F].
      split; [reflexivity|exact F].
    + rewrite B, A. split; reflexivity.
Qed.
Lemma head_sorted (k : vnode -> Z) l v : In v l -> (forall w, In w l -> k v <= k w) ->
  exists w l', sort_by_key k l = w :: l' /\ In w l /\ k w = k v.
Proof.
  intros I M. pose proof (sort_sorted k l) as S. pose proof (sort_perm k l) as P.
  destruct (sort_by_key k l) as [|w l'] eqn:E; [apply Permutation_nil in P; subst; destruct I|].
  exists w, l'. split; [reflexivity|].
  assert (IW : In w l) by (eapply Permutation_in; [exact P|left; reflexivity]). split; [exact IW|].
  apply Z.le_antisymm; [|apply M, IW].
  apply (Permutation_in _ (Permutation_sym P)) in I as [->|I]; [lia|].
  inversion S as [|? ? _ F]; subst. rewrite Forall_forall in F. apply (F _ I).
Qed.
Lemma first_call net lk g v c cs us r : do_request net lk g = (r, c :: cs, us) ->
  In v (g_vnodes g) -> v_node v = g_leader_node g -> k_node c = g_leader_node g.
Proof.
  unfold do_request. intros H I E. set (k := fun v => if v_node v =? g_leader_node g then 0 else 1) in *.
  destruct (head_sorted k (g_vnodes g) v I) as (w & l' & S & _ & K).
  { intros w _. unfold k. rewrite E, Z.eqb_refl. destruct (_ =? _); lia. }
  rewrite S in H. unfold k in K. rewrite E, Z.eqb_refl in K. destruct (v_node w =? g_leader_node g) eqn:Q; [|discriminate].
  apply Z.eqb_eq in Q. rewrite <- Q. cbn [loop] in H. destruct (net 0%nat (v_node w)) as [r1 x]. destruct r1 as [| |nl| |].
  - injection H as _ <- _. reflexivity.
  - destruct (loop net lk (g_leader_node g) l' 1 Pre) as [[? ?] ?]. injection H as _ <- _. reflexivity.
  - destruct (lk 0%nat nl) as [node|].
    + destruct (net 1%nat node) as [r2 x2].
      destruct r2; [injection H as _ <- _; reflexivity|..];
        match type of H with context [loop net lk ?a l' ?m ?l] => destruct (loop net lk a l' m l) as [[? ?] ?] end;
        injection H as _ <- _; reflexivity.
    + destruct (loop net lk (g_leader_node g) l' 1 Fail) as [[? ?] ?]. injection H as _ <- _. reflexivity.
  - injection H as _ <- _. reflexivity.
  - injection H as _ <- _. reflexivity.
Qed.

(** ** Reading *)
Lemma candidates_readable g v : In v (candidates g) -> readable g v.
Proof.
  unfold candidates. intros I.
  assert (J : In v (filter (fun v => negb (is_broken v)) (sort_by_key (score g) (g_vnodes g)))).
  { revert I. generalize (filter (fun v => negb (is_broken v)) (sort_by_key (score g) (g_vnodes g))).
    intros l. rewrite <- (firstn_skipn 2 l) at 2. intros I. apply in_app_iff. left. exact I. }
  apply filter_In in J as [J B]. split; [eapply Permutation_in; [apply sort_perm|exact J]|].
  unfold is_broken in B. destruct (v_status v); cbn in B; congruence.
Qed.
Lemma open_one_spec store open limit rest : forall v,
  (open_one store open limit v rest = ANS [] Failed None)
  \/ exists w, In w (v :: rest) /\ (exists f, open (v_id w) = Opened f) /\
     prefix_of (a_batches (open_one store open limit v rest)) (content store w)
     /\ (a_end (open_one store open limit v rest) = Done -> a_batches (open_one store open limit v rest) = content store w)
     /\ (forall id, a_broken (open_one store open limit v rest) = Some id -> id = v_id w /\ a_end (open_one store open limit v rest) = Failed /\ exists n, open id = Opened (Some (n, true))).
Proof.
  assert (SC : forall w f, prefix_of (a_batches (scan store limit w f)) (content store w)
     /\ (a_end (scan store limit w f) = Done -> a_batches (scan store limit w f) = content store w)
     /\ (forall id, a_broken (scan store limit w f) = Some id -> id = v_id w /\ a_end (scan store limit w f) = Failed /\ exists n, f = Some (n, true))).
  { intros w f. unfold scan. destruct (min_opt _ f) as [[n b]|] eqn:EM; cbn [a_batches a_end a_broken].
    - destruct (n <=? length (content store w))%nat; cbn [a_batches a_end a_broken].
      + split; [exists (skipn n (content store w)); symmetry; apply firstn_skipn|]. split; [discriminate|].
        intros id H. destruct b; [injection H as <-; split; [auto|split; [auto|]]|discriminate].
        unfold min_opt in EM. destruct (match limit with Some _ => _ | None => None end); [|eauto]. destruct f as [[k c]|]; [|discriminate].
        destruct (_ <? k)%nat; [discriminate|]. injection EM as -> ->. eauto.
      + split; [exists []; symmetry; apply app_nil_r|]. split; [reflexivity|discriminate].
    - split; [exists []; symmetry; apply app_nil_r|]. split; [reflexivity|discriminate]. }
  induction rest as [|v' rest IH]; intros v; cbn [open_one].
  - destruct (open (v_id v)) as [| |f] eqn:O; [left; reflexivity|left; reflexivity|]. right. exists v.
    split; [left; reflexivity|]. split; [eauto|]. destruct (SC v f) as (A & B & C). split; [exact A|]. split; [exact B|].
    intros id H. destruct (C id H) as (-> & F & n & ->). split; [reflexivity|]. split; [exact F|]. eauto.
  - destruct (open (v_id v)) as [| |f] eqn:O; [|left; reflexivity|].
    + destruct (IH v') as [H|(w & I & H)]; [left; exact H|]. right. exists w. split; [right; exact I|exact H].
    + right. exists v. split; [left; reflexivity|]. split; [eauto|]. destruct (SC v f) as (A & B & C). split; [exact A|]. split; [exact B|].
      intros id H. destruct (C id H) as (-> & F & n & ->). split; [reflexivity|]. split; [exact F|]. eauto.
Qed.
Lemma read_spec store open limit admit g :
  (read_set store open limit admit g = ANS [] Failed None)
  \/ exists w, In w (candidates g) /\ (exists f, open (v_id w) = Opened f) /\
     prefix_of (a_batches (read_set store open limit admit g)) (content store w)
     /\ (a_end (read_set store open limit admit g) = Done -> a_batches (read_set store open limit admit g) = content store w)
     /\ (forall id, a_broken (read_set store open limit admit g) = Some id -> id = v_id w /\ a_end (read_set store open limit admit g) = Failed /\ exists n, open id = Opened (Some (n, true))).
Proof.
  unfold read_set. destruct admit; [|left; reflexivity]. destruct (candidates g) as [|v rest]; [left; reflexivity|].
  apply open_one_spec.
Qed.
Lemma filter_sorted {A} (R : A -> A -> Prop) f l : StronglySorted R l -> StronglySorted R (filter f l).
Proof.
  induction 1 as [|x l S IH F]; cbn; [constructor|]. destruct (f x); [|exact IH]. constructor; [exact IH|].
  rewrite Forall_forall in *. intros y I. apply filter_In in I as [I _]. auto.
Qed.
Lemma leader_first g v : distinct_vnodes g -> readable g v -> v_id v = g_leader_vnode g ->
  exists rest, candidates g = v :: rest.
Proof.
  intros D [I B] L. unfold candidates. set (l := filter (fun v => negb (is_broken v)) (sort_by_key (score g) (g_vnodes g))).
  assert (IL : In v l).
  { apply filter_In. split; [eapply Permutation_in; [apply Permutation_sym, sort_perm|exact I]|].
    unfold is_broken. destruct (v_status v); [reflexivity..|contradiction]. }
  assert (SL : StronglySorted (fun a b => score g a <= score g b) l) by apply filter_sorted, sort_sorted.
  assert (SUB : forall w, In w l -> In w (g_vnodes g)).
  { intros w J. apply filter_In in J as [J _]. eapply Permutation_in; [apply sort_perm|exact J]. }
  assert (Z0 : forall w, In w l -> score g w <= 0 -> w = v).
  { intros w J K. assert (E : v_id w = v_id v).
    { unfold score in K. destruct (v_id w =? g_leader_vnode g) eqn:E; [apply Z.eqb_eq in E; congruence|].
      destruct (v_status w); lia. }
    apply SUB in J. clear - D I J E. unfold distinct_vnodes in D. induction (g_vnodes g) as [|x xs IH]; [destruct I|].
    cbn in D. inversion D as [|? ? N1 N2]; subst. destruct I as [->|I], J as [->|J]; auto.
    - exfalso. apply N1. rewrite <- E. apply in_map, J.
    - exfalso. apply N1. rewrite E. apply in_map, I. }
  destruct l as [|w l']; [destruct IL|]. assert (w = v).
  { destruct IL as [->|IL]; [reflexivity|]. inversion SL as [|? ? _ F]; subst. rewrite Forall_forall in F.
    specialize (F _ IL). apply Z0; [left; reflexivity|].
    replace (score g v) with 0 in F; [exact F|]. unfold score. rewrite L, Z.eqb_refl. reflexivity. }
  subst w. exists (firstn 1 l'). reflexivity.
Qed.
(** a replica being copied is asked only when there are not two others *)
Lemma copying_last g v w1 w2 : distinct_vnodes g -> In v (candidates g) -> v_status v = Copying -> v_id v <> g_leader_vnode g ->
  readable g w1 -> readable g w2 -> v_status w1 = Running -> v_status w2 = Running -> w1 = w2.
Proof.
  intros D I C NL [I1 B1] [I2 B2] R1 R2. unfold candidates in I.
  set (l := filter (fun v => negb (is_broken v)) (sort_by_key (score g) (g_vnodes g))) in *.
  assert (SL : StronglySorted (fun a b => score g a <= score g b) l) by apply filter_sorted, sort_sorted.
  assert (J : forall w, In w (g_vnodes g) -> v_status w = Running -> In w l).
  { intros w Hw S. apply filter_In. split; [eapply Permutation_in; [apply Permutation_sym, sort_perm|exact Hw]|].
    unfold is_broken. rewrite S. reflexivity. }
  assert (S2 : score g v = 2). { unfold score. destruct (v_id v =? g_leader_vnode g) eqn:E; [apply Z.eqb_eq in E; contradiction|]. rewrite C. reflexivity. }
  assert (S1 : forall w, v_status w = Running -> score g w <= 1).
  { intros w Hw. unfold score. rewrite Hw. destruct (_ =? _); lia. }
  pose proof (J _ I1 R1) as J1. pose proof (J _ I2 R2) as J2. pose proof (S1 _ R1) as T1. pose proof (S1 _ R2) as T2.
  destruct l as [|a [|b l']]; cbn in I; [destruct I| |].
  - destruct J1 as [<-|[]], J2 as [<-|[]]. reflexivity.
  - inversion SL as [|? ? SL' F]; subst. inversion SL' as [|? ? _ F']; subst. rewrite Forall_forall in F, F'.
    destruct I as [<-|[<-|[]]].
    + exfalso. destruct J1 as [<-|J1]; [rewrite R1 in C; discriminate|]. specialize (F _ J1). lia.
    + assert (X : forall w, In w (a :: b :: l') -> score g w <= 1 -> w = a).
      { intros w [<-|[<-|Hw]] Q; [reflexivity|lia|]. specialize (F' _ Hw). lia. }
      rewrite (X _ J1 T1), (X _ J2 T2). reflexivity.
Qed.
Lemma marked_gone id g : ~ In id (map v_id (candidates (mark_broken id g))).
Proof.
  intros I. apply in_map_iff in I as (v & E & I). apply candidates_readable in I as [I B]. cbn in I.
  apply in_map_iff in I as (w & Q & _). destruct (v_id w =? id) eqn:F; [subst v; apply B; reflexivity|].
  subst w. rewrite E, Z.eqb_refl in F. discriminate.
Qed.
Lemma query_rows store rows open limit admit gs out :
  (forall g v, In g gs -> In v (candidates g) -> in_sync store rows g v) ->
  query (read_set store open limit admit) gs = Some out -> Permutation out (concat (map rows gs)).
Proof.
  unfold query. intros S H. destruct (forallb _ gs) eqn:F; [|discriminate]. injection H as <-.
  rewrite forallb_forall in F. induction gs as [|g gs IH]; cbn; [constructor|]. apply Permutation_app.
  - specialize (F g (or_introl eq_refl)). destruct (read_spec store open limit admit g) as [E|(w & I & _ & _ & D & _)].
    + rewrite E in F. discriminate.
    + destruct (a_end (read_set store open limit admit g)); [|discriminate]. rewrite (D eq_refl).
      destruct (S g w (or_introl eq_refl) I) as (bs & Q & P). unfold content. rewrite Q. exact P.
  - apply IH; [intros h v Hh; apply S; right; exact Hh|]. intros h Hh. apply F. right. exact Hh.
Qed.
(** one unreachable replica does not make a read fail *)
Lemma NoDup_map_inv_ids {A B} (f : A -> B) l : NoDup (map f l) -> NoDup l.
Proof.
  induction l as [|x l IH]; cbn; intros H; [constructor|]. inversion H as [|? ? H1 H2]; subst. constructor; [|auto].
  intros I. apply H1, in_map, I.
Qed.
Lemma one_unreachable store open g v w1 w2 : distinct_vnodes g -> readable g w1 -> readable g w2 -> w1 <> w2 ->
  (forall w, readable g w -> w <> v -> open (v_id w) = Opened None) ->
  (open (v_id v) = Unreachable \/ open (v_id v) = Opened None) ->
  a_end (read_set store open None true g) = Done.
Proof.
  intros D [I1 B1] [I2 B2] NE O V. unfold read_set.
  pose proof (candidates_readable g) as CR. unfold candidates in *.
  set (l := filter (fun v => negb (is_broken v)) (sort_by_key (score g) (g_vnodes g))) in *.
  assert (J : forall w, In w (g_vnodes g) -> v_status w <> Broken -> In w l).
  { intros w Hw S. apply filter_In. split; [eapply Permutation_in; [apply Permutation_sym, sort_perm|exact Hw]|].
    unfold is_broken. destruct (v_status w); [reflexivity..|contradiction]. }
  assert (N : NoDup l).
  { apply NoDup_filter. eapply Permutation_NoDup; [apply Permutation_sym, sort_perm|]. apply (NoDup_map_inv_ids v_id), D. }
  pose proof (J _ I1 B1) as J1. pose proof (J _ I2 B2) as J2.
  destruct l as [|a [|b l']]; [destruct J1|destruct J1 as [<-|[]], J2 as [<-|[]]; contradiction|].
  cbn [firstn] in *. cbn [open_one].
  assert (AB : a <> b). { inversion N as [|? ? N1 _]; subst. intros ->. apply N1. left. reflexivity. }
  assert (DEC : {a = v} + {a <> v}) by (repeat decide equality).
  destruct DEC as [->|NA].
  - destruct V as [->| ->]; [|reflexivity]. rewrite (O b (CR b (or_intror (or_introl eq_refl)))) by congruence. reflexivity.
  - rewrite (O a (CR a (or_introl eq_refl)) NA). reflexivity.
Qed.
