(** Proofs about STATE_AGG. *)
From Verif Require Import Prelude AggSpec AggProofs StateAggModel StateAggSpec.
From Coq Require Import Permutation.

(** ** Maps *)
Lemma look_add_dur m s d s' : look (add_dur s d m) s' = if s =? s' then Some (match look m s with Some x => x + d | None => d end) else look m s'.
Proof.
  induction m as [|[k v] m IH]; cbn [add_dur look]; [destruct (s =? s'); reflexivity|]. destruct (Z.eqb_spec k s) as [->|N]; cbn [look].
  - destruct (Z.eqb_spec s s'); reflexivity.
  - rewrite IH. destruct (Z.eqb_spec k s') as [->|]; [destruct (Z.eqb_spec s s'); [congruence|reflexivity]|reflexivity].
Qed.
Lemma look_add_per m s p s' : look (add_per s p m) s' = if s =? s' then Some (match look m s with Some x => x ++ [p] | None => [p] end) else look m s'.
Proof.
  induction m as [|[k v] m IH]; cbn [add_per look]; [destruct (s =? s'); reflexivity|]. destruct (Z.eqb_spec k s) as [->|N]; cbn [look].
  - destruct (Z.eqb_spec s s'); reflexivity.
  - rewrite IH. destruct (Z.eqb_spec k s') as [->|]; [destruct (Z.eqb_spec s s'); [congruence|reflexivity]|reflexivity].
Qed.
Lemma add_per_keys s p m k : In k (map fst (add_per s p m)) <-> k = s \/ In k (map fst m).
Proof. induction m as [|[a v] m IH]; cbn [add_per map fst In]; [intuition congruence|]. destruct (Z.eqb_spec a s) as [->|N]; cbn [map fst In]; [intuition congruence|]. rewrite IH. tauto. Qed.
Lemma add_per_nodup s p m : NoDup (map fst m) -> NoDup (map fst (add_per s p m)).
Proof.
  induction m as [|[a v] m IH]; cbn [add_per map fst]; intro N; [constructor; [intros []|constructor]|]. inversion N; subst. destruct (Z.eqb_spec a s) as [->|Q]; cbn [map fst]; [now constructor|].
  constructor; [|auto]. rewrite add_per_keys. intuition congruence.
Qed.
Lemma look_in {A} (m : list (Z * A)) s v : NoDup (map fst m) -> (In (s, v) m <-> look m s = Some v).
Proof.
  induction m as [|[k w] m IH]; cbn [look map fst In]; intro N; [split; [intros []|discriminate]|]. inversion N; subst. destruct (Z.eqb_spec k s) as [->|Q].
  - split; [intros [[= ->]|I]; [reflexivity|exfalso; apply H1, in_map_iff; now exists (s, v)]|]. intros [= ->]. now left.
  - rewrite <- (IH H2). split; [intros [[= ? ?]|I]; [congruence|exact I]|tauto].
Qed.

(** ** The stretches between adjacent rows *)
Fixpoint segs (l : list (Z * Z)) : list (Z * Z * Z) :=
  match l with (t, s) :: (((t', _) :: _) as l') => (t, t', s) :: segs l' | _ => [] end.
Definition lo (g : Z * Z * Z) : Z := fst (fst g).
Definition hi (g : Z * Z * Z) : Z := snd (fst g).
Definition of_state (s : Z) (g : Z * Z * Z) : bool := snd g =? s.
Definition mine (l : list (Z * Z)) (s : Z) : list (Z * Z) := map fst (filter (of_state s) (segs l)).
Lemma segs_snoc l t s t' s' : segs ((l ++ [(t, s)]) ++ [(t', s')]) = segs (l ++ [(t, s)]) ++ [(t, t', s)].
Proof.
  induction l as [|[a b] l IH]; [reflexivity|]. destruct l as [|[c d] l]; [reflexivity|]. cbn [app] in *. change (segs ((a, b) :: (c, d) :: (l ++ [(t, s)]) ++ [(t', s')])) with ((a, c, b) :: segs ((c, d) :: (l ++ [(t, s)]) ++ [(t', s')])).
  rewrite IH. reflexivity.
Qed.
Lemma mine_snoc l t s t' s' x : mine ((l ++ [(t, s)]) ++ [(t', s')]) x = mine (l ++ [(t, s)]) x ++ (if s =? x then [(t, t')] else []).
Proof. unfold mine. rewrite segs_snoc, filter_app, map_app. cbn [filter of_state snd]. unfold of_state at 2. cbn [snd]. destruct (s =? x); reflexivity. Qed.
Definition sum (l : list (Z * Z)) : Z := fold_left (fun n p => n + (snd p - fst p)) l 0.
Lemma sum_snoc l p : sum (l ++ [p]) = sum l + (snd p - fst p).
Proof. unfold sum. now rewrite fold_left_app. Qed.
Definition lastr (l : list (Z * Z)) : option (Z * Z) := match rev l with [] => None | r :: _ => Some r end.
Lemma lastr_snoc l r : lastr (l ++ [r]) = Some r. Proof. unfold lastr. now rewrite rev_app_distr. Qed.
Definition okd (d : durs) (l : list (Z * Z)) : Prop :=
  ds_last d = lastr l /\ forall s, look (ds_map d) s = match mine l s with [] => None | _ => Some (sum (mine l s)) end.
Definition okp (p : pers) (l : list (Z * Z)) : Prop :=
  ps_last p = lastr l /\ NoDup (map fst (ps_map p)) /\ forall s, look (ps_map p) s = match mine l s with [] => None | _ => Some (mine l s) end.
Lemma snoc_cases {A} (l : list A) : l = [] \/ exists l' x, l = l' ++ [x].
Proof. induction l as [|x l IH] using rev_ind; [now left|]. right. eauto. Qed.
Lemma okd_step d l r : okd d l -> okd (dur_record d r) (l ++ [r]).
Proof.
  intros [A B]. split; [rewrite lastr_snoc; unfold dur_record; destruct (ds_last d) as [[? ?]|]; reflexivity|]. intro s. unfold dur_record. rewrite A. destruct (snoc_cases l) as [->|(l' & [t ls] & ->)].
  - cbn [lastr rev ds_map]. rewrite B. destruct r. reflexivity.
  - rewrite lastr_snoc. cbn [ds_map]. destruct r as [t' s']. cbn [fst]. rewrite look_add_dur, mine_snoc. destruct (Z.eqb_spec ls s) as [->|N]; [|rewrite app_nil_r; apply B].
    rewrite B. rewrite sum_snoc. cbn [fst snd]. destruct (mine (l' ++ [(t, s)]) s) as [|p m]; cbn [app]; [unfold sum; cbn; f_equal|reflexivity].
Qed.
Lemma okp_step p l r : okp p l -> okp (per_record p r) (l ++ [r]).
Proof.
  intros (A & N & B). split; [rewrite lastr_snoc; unfold per_record; destruct (ps_last p) as [[? ?]|]; reflexivity|]. unfold per_record. rewrite A. destruct (snoc_cases l) as [->|(l' & [t ls] & ->)].
  - cbn [lastr rev ps_map]. split; [exact N|]. intro s. rewrite B. destruct r. reflexivity.
  - rewrite lastr_snoc. cbn [ps_map]. split; [now apply add_per_nodup|]. intro s. destruct r as [t' s']. cbn [fst]. rewrite look_add_per, mine_snoc. destruct (Z.eqb_spec ls s) as [->|Q]; [|rewrite app_nil_r; apply B].
    rewrite B. destruct (mine (l' ++ [(t, s)]) s) as [|x m]; reflexivity.
Qed.
Lemma run_ok compact rows : forall d l, okd (sd_durs d) l -> (compact = false -> okp (sd_pers d) l) ->
  okd (sd_durs (fold_left (record compact) rows d)) (l ++ rows) /\ (compact = false -> okp (sd_pers (fold_left (record compact) rows d)) (l ++ rows)).
Proof.
  induction rows as [|r rows IH]; intros d l D P; cbn [fold_left]; [rewrite app_nil_r; tauto|]. replace (l ++ r :: rows) with ((l ++ [r]) ++ rows) by now rewrite <- app_assoc. apply IH.
  - now apply okd_step.
  - intros ->. cbn [record sd_pers]. apply okp_step. auto.
Qed.
Lemma fin_look d s : match look (ds_map (finalize d)) s with Some x => x | None => 0 end = match look (ds_map d) s with Some x => x | None => 0 end.
Proof.
  unfold finalize. destruct (ds_last d) as [[t k]|]; [|reflexivity]. cbn [ds_map]. destruct (look (ds_map d) k) eqn:E; [reflexivity|].
  revert E. generalize (ds_map d) as m. induction m as [|[a v] m IH]; cbn [app look]; [destruct (k =? s); reflexivity|]. destruct (a =? k) eqn:Q; [discriminate|]. intro E. destruct (a =? s); [reflexivity|]. now apply IH.
Qed.
Lemma new_ok : okd (sd_durs sd_new) [] /\ okp (sd_pers sd_new) [].
Proof. split; [split; [reflexivity|intro; reflexivity]|]. split; [reflexivity|]. split; [constructor|intro; reflexivity]. Qed.
Lemma whole_ok sort compact rows s : whole (evaluate sort compact rows) s = sum (mine (sort rows) s).
Proof.
  unfold whole, evaluate. cbv zeta. cbn [sd_durs]. rewrite fin_look. destruct (run_ok compact (sort rows) sd_new [] (proj1 new_ok) (fun _ => proj2 new_ok)) as [[_ D] _]. cbn [app] in D. rewrite D. destruct (mine (sort rows) s); reflexivity.
Qed.
Lemma pers_ok sort rows : okp (sd_pers (evaluate sort false rows)) (sort rows).
Proof. unfold evaluate. cbv zeta. cbn [sd_pers]. exact (proj2 (run_ok false (sort rows) sd_new [] (proj1 new_ok) (fun _ => proj2 new_ok)) eq_refl). Qed.

(** ** Instants *)
Definition zrange (a b : Z) : list Z := map (fun i => a + Z.of_nat i) (seq 0 (Z.to_nat (b - a))).
Lemma zrange_in a b u : In u (zrange a b) <-> a <= u < b.
Proof. unfold zrange. rewrite in_map_iff. split; [intros (i & <- & I); apply in_seq in I; lia|]. intro H. exists (Z.to_nat (u - a)). split; [lia|]. apply in_seq. lia. Qed.
Lemma zrange_nodup a b : NoDup (zrange a b).
Proof. unfold zrange. apply FinFun.Injective_map_NoDup; [intros x y E; lia|apply seq_NoDup]. Qed.
Lemma zrange_len a b : Z.of_nat (length (zrange a b)) = Z.max 0 (b - a).
Proof. unfold zrange. rewrite map_length, seq_length. lia. Qed.

(** in the sorted rows the stretches follow each other *)
Inductive chain : list (Z * Z * Z) -> Prop :=
| ch_nil : chain []
| ch_cons g l : lo g <= hi g -> Forall (fun h => hi g <= lo h) l -> chain l -> chain (g :: l).
Lemma segs_ge l : forall t, Forall (fun r : Z * Z => t <= fst r) l -> Forall (fun g => t <= lo g) (segs l).
Proof.
  induction l as [|[a b] l IH]; intros t F; [constructor|]. destruct l as [|[c d] l]; [constructor|]. change (segs ((a, b) :: (c, d) :: l)) with ((a, c, b) :: segs ((c, d) :: l)). inversion F; subst. constructor; [assumption|now apply IH].
Qed.
Lemma segs_chain l : in_time_order l -> chain (segs l).
Proof.
  unfold in_time_order. induction l as [|[a b] l IH]; intro O; [constructor|]. apply StronglySorted_inv in O. destruct O as [O F]. destruct l as [|[c d] l]; [constructor|]. change (segs ((a, b) :: (c, d) :: l)) with ((a, c, b) :: segs ((c, d) :: l)).
  constructor; [inversion F; subst; assumption| |now apply IH]. apply segs_ge. apply StronglySorted_inv in O. destruct O as [_ O]. constructor; [apply Z.le_refl|]. eapply Forall_impl; [|exact O]. intros x H. exact H.
Qed.
Lemma chain_filter f l : chain l -> chain (filter f l).
Proof.
  induction 1 as [|g l H F C IH]; cbn [filter]; [constructor|]. destruct (f g); [|exact IH]. constructor; [exact H| |exact IH]. apply Forall_forall. intros h I. apply filter_In in I. rewrite Forall_forall in F. now apply F.
Qed.
(** the instants of a list of stretches, within [from, to) *)
Definition instants (from to : Z) (l : list (Z * Z * Z)) : list Z := concat (map (fun g => zrange (Z.max (lo g) from) (Z.min (hi g) to)) l).
Lemma instants_in from to l u : In u (instants from to l) <-> (from <= u < to) /\ exists g, In g l /\ lo g <= u < hi g.
Proof.
  unfold instants. rewrite in_concat. split.
  - intros (r & I & J). apply in_map_iff in I. destruct I as (g & <- & I). apply zrange_in in J. split; [lia|]. exists g. split; [exact I|lia].
  - intros (H & g & I & J). eexists. split; [apply in_map_iff; exists g; split; [reflexivity|exact I]|]. apply zrange_in. lia.
Qed.
Lemma instants_nodup from to l : chain l -> NoDup (instants from to l).
Proof.
  induction 1 as [|g l H F C IH]; [constructor|]. unfold instants in *. cbn [map concat]. apply nodup_app_join; [apply zrange_nodup|exact IH|]. intros u I J. apply zrange_in in I. fold (instants from to l) in J. apply instants_in in J. destruct J as (_ & h & K & L).
  rewrite Forall_forall in F. specialize (F h K). lia.
Qed.
Lemma instants_len from to l : Z.of_nat (length (instants from to l)) = fold_right (fun g n => Z.max 0 (Z.min (hi g) to - Z.max (lo g) from) + n) 0 l.
Proof. unfold instants. induction l as [|g l IH]; [reflexivity|]. cbn [map concat fold_right]. rewrite app_length, Nat2Z.inj_add, IH, zrange_len. reflexivity. Qed.

(** ** The stretches are where the states hold *)
Lemma segs_holds l s u : NoDup (map fst l) -> in_time_order l -> (holds l s u <-> exists g, In g (segs l) /\ snd g = s /\ lo g <= u < hi g).
Proof.
  intros N O. split.
  - intros (t & I & H1 & H2 & t' & s' & J & H3). induction l as [|[a b] l IH]; [destruct I|]. destruct l as [|[c d] l].
    + destruct I as [[= -> ->]|[]], J as [[= <- <-]|[]]. lia.
    + pose proof O as O'. apply StronglySorted_inv in O. destruct O as [O F]. change (segs ((a, b) :: (c, d) :: l)) with ((a, c, b) :: segs ((c, d) :: l)). destruct (Z_lt_le_dec u c) as [L|L].
      * exists (a, c, b). split; [now left|]. unfold lo, hi. cbn. assert (E : t = a).
        { destruct I as [[= -> ->]|I]; [reflexivity|]. exfalso. apply StronglySorted_inv in O. destruct O as [_ O]. destruct I as [[= -> ->]|I]; [lia|]. rewrite Forall_forall in O. specialize (O _ I). cbn in O. lia. }
        subst t. split; [|lia]. destruct I as [[= ->]|I]; [reflexivity|]. exfalso. cbn [map] in N. inversion N; subst. apply H4. exact (in_map fst _ _ I).
      * assert (G : exists g, In g (segs ((c, d) :: l)) /\ snd g = s /\ lo g <= u < hi g); [|destruct G as (g & G1 & G2); exists g; split; [now right|exact G2]]. apply IH.
        -- cbn [map] in N |- *. now inversion N.
        -- exact O.
        -- destruct I as [[= -> ->]|I]; [|exact I]. exfalso. specialize (H2 c d (or_intror (or_introl eq_refl)) L). inversion F; subst. cbn in *. assert (t = c) by lia. subst. cbn [map] in N. inversion N; subst. apply H6. now left.
        -- intros t2 s2 K. apply (H2 t2 s2). now right.
        -- destruct J as [[= -> ->]|J]; [|exact J]. inversion F; subst. cbn in *. lia.
  - intros (g & I & <- & H). induction l as [|[a b] l IH]; [destruct I|]. destruct l as [|[c d] l]; [destruct I|]. change (segs ((a, b) :: (c, d) :: l)) with ((a, c, b) :: segs ((c, d) :: l)) in I.
    apply StronglySorted_inv in O. destruct O as [O F]. destruct I as [<-|I].
    + unfold lo, hi in H. cbn in H. exists a. cbn [snd]. split; [now left|]. split; [lia|]. split; [|exists c, d; split; [right; now left|lia]].
      intros t' s' [[= -> ->]|[[= -> ->]|K]] L; [lia|lia|]. apply StronglySorted_inv in O. destruct O as [_ O]. rewrite Forall_forall in O. specialize (O _ K). cbn in O. lia.
    + cbn [map] in N. inversion N; subst. destruct (IH H3 O I) as (t & J1 & J2 & J3 & t' & s' & J4 & J5). exists t. split; [now right|]. split; [exact J2|]. split; [|exists t', s'; split; [now right|exact J5]].
      intros t2 s2 [[= -> ->]|K] L; [|eauto]. rewrite Forall_forall in F. specialize (F _ J1). exact F.
Qed.
Lemma holds_perm l l' s u : Permutation l l' -> holds l s u -> holds l' s u.
Proof.
  intros P (t & I & H1 & H2 & t' & s' & J & H3). exists t. split; [exact (Permutation_in _ P I)|]. split; [exact H1|]. split; [|exists t', s'; split; [exact (Permutation_in _ P J)|exact H3]].
  intros t2 s2 K. apply (H2 t2 s2). exact (Permutation_in _ (Permutation_sym P) K).
Qed.
Lemma time_bounds (rows : list (Z * Z)) : exists a b, forall r, In r rows -> a <= fst r /\ fst r < b.
Proof.
  induction rows as [|r rs (a & b & H)]; [exists 0, 0; intros r []|]. exists (Z.min a (fst r)), (Z.max b (fst r + 1)). intros x [<-|I]; [lia|]. specialize (H x I). lia.
Qed.
Section SORT.
  Variable sort : list (Z * Z) -> list (Z * Z).
  Hypothesis Hs : sorts sort.
  Variable rows : list (Z * Z).
  Hypothesis Nd : NoDup (map fst rows).
  Let l := sort rows.
  Lemma l_nodup : NoDup (map fst l).
  Proof. eapply Permutation_NoDup; [apply Permutation_map; exact (proj1 (Hs rows))|exact Nd]. Qed.
  Lemma l_holds s u : holds rows s u <-> exists g, In g (filter (of_state s) (segs l)) /\ lo g <= u < hi g.
  Proof.
    transitivity (holds l s u); [split; apply holds_perm; [exact (proj1 (Hs rows))|exact (Permutation_sym (proj1 (Hs rows)))]|]. rewrite (segs_holds l s u l_nodup (proj2 (Hs rows))).
    split; intros (g & I & H).
    - exists g. split; [apply filter_In; split; [exact I|]; unfold of_state; apply Z.eqb_eq; exact (proj1 H)|exact (proj2 H)].
    - apply filter_In in I. destruct I as [I E]. unfold of_state in E. apply Z.eqb_eq in E. exists g. tauto.
  Qed.
  Lemma l_chain s : chain (filter (of_state s) (segs l)).
  Proof. apply chain_filter, segs_chain, Hs. Qed.
  Lemma meas s from to : measures (fun u => holds rows s u /\ from <= u < to) (fold_right (fun g n => Z.max 0 (Z.min (hi g) to - Z.max (lo g) from) + n) 0 (filter (of_state s) (segs l))).
  Proof.
    exists (instants from to (filter (of_state s) (segs l))). split; [apply instants_nodup, l_chain|]. split; [|symmetry; apply instants_len]. intro u. rewrite instants_in, l_holds. tauto.
  Qed.
  Lemma sum_fold (f : Z * Z -> Z) (p : list (Z * Z)) : forall a, fold_left (fun n x => n + f x) p a = a + fold_right (fun x n => f x + n) 0 p.
  Proof. induction p as [|x p IH]; intro a; cbn [fold_left fold_right]; [lia|]. rewrite IH. lia. Qed.
  Lemma sum_clip s from to (f : Z * Z -> Z) (keep : Z * Z -> bool) : (forall p, fst p <= snd p -> (if keep p then f p else 0) = Z.max 0 (Z.min (snd p) to - Z.max (fst p) from)) ->
    fold_left (fun n p => n + f p) (filter keep (mine l s)) 0 = fold_right (fun g n => Z.max 0 (Z.min (hi g) to - Z.max (lo g) from) + n) 0 (filter (of_state s) (segs l)).
  Proof.
    intro H. rewrite sum_fold. rewrite Z.add_0_l. unfold mine. induction (l_chain s) as [|g gs G F C IH]; [reflexivity|]. cbn [map filter fold_right]. specialize (H (fst g) G). fold (lo g) in H. fold (hi g) in H.
    destruct (keep (fst g)); cbn [fold_right]; rewrite IH; rewrite <- H; lia.
  Qed.
  (** bounds that no row passes *)
  Lemma all_bounds : exists a b, forall u s, holds rows s u -> a <= u < b.
  Proof.
    pose proof (time_bounds rows) as B.
    destruct B as (a & b & B). exists a, b. intros u s (t & I & H1 & _ & t' & s' & J & H2). pose proof (B _ I). pose proof (B _ J). cbn in *. lia.
  Qed.
  Lemma measures_ext P Q n : (forall u, P u <-> Q u) -> measures P n -> measures Q n.
  Proof. intros E (x & A & B & C). exists x. split; [exact A|]. split; [|exact C]. intro u. rewrite B. apply E. Qed.
  Lemma whole_meas compact s : measures (holds rows s) (whole (evaluate sort compact rows) s).
  Proof.
    rewrite whole_ok. fold l. destruct all_bounds as (a & b & B).
    pose proof (l_chain s) as C. assert (X : exists lo' hi', Forall (fun g => lo' <= lo g /\ hi g <= hi') (filter (of_state s) (segs l))).
    { clear. induction (filter (of_state s) (segs l)) as [|g gs (x & y & F)]; [exists 0, 0; constructor|]. exists (Z.min x (lo g)), (Z.max y (hi g)). constructor; [lia|]. eapply Forall_impl; [|exact F]. cbn. intros. lia. }
    destruct X as (x & y & X). eapply measures_ext; [|replace (sum (mine l s)) with (fold_right (fun g n => Z.max 0 (Z.min (hi g) (Z.max y b) - Z.max (lo g) (Z.min x a)) + n) 0 (filter (of_state s) (segs l))); [apply meas|]].
    - intro u. split; [tauto|]. intro H. split; [exact H|]. apply B in H. lia.
    - unfold sum. rewrite (sum_fold (fun p => snd p - fst p)). rewrite Z.add_0_l. unfold mine. revert C X. generalize (filter (of_state s) (segs l)) as gs. induction gs as [|g gs IH]; intros C X; [reflexivity|]. inversion C; subst. inversion X; subst.
      cbn [map fold_right]. rewrite <- IH by assumption. fold (lo g). fold (hi g). lia.
  Qed.
  Lemma pers_look s : look (ps_map (sd_pers (evaluate sort false rows))) s = match mine l s with [] => None | _ => Some (mine l s) end.
  Proof. exact (proj2 (proj2 (pers_ok sort rows)) s). Qed.
  Lemma within_meas s start fin : start <= fin -> measures (fun u => holds rows s u /\ start <= u < fin) (within (evaluate sort false rows) s start fin).
  Proof.
    intro H. replace (within (evaluate sort false rows) s start fin) with (fold_right (fun g n => Z.max 0 (Z.min (hi g) fin - Z.max (lo g) start) + n) 0 (filter (of_state s) (segs l))); [apply meas|].
    unfold within. rewrite pers_look. rewrite <- (sum_clip s start fin (clip start fin) (fun p => (snd p >? start) && (fst p <? fin))).
    - destruct (mine l s); reflexivity.
    - intros [a b] L. unfold clip. cbn [fst snd] in *. rewrite !Z.gtb_ltb. destruct (Z.ltb_spec start b), (Z.ltb_spec a fin), (Z.ltb_spec a start), (Z.ltb_spec fin b); cbn [andb]; lia.
  Qed.
  Lemma since_meas s start : measures (fun u => holds rows s u /\ start <= u) (since (evaluate sort false rows) s start).
  Proof.
    destruct all_bounds as (a & b & B).
    assert (X : exists hi', Forall (fun g => hi g <= hi') (filter (of_state s) (segs l))).
    { clear. induction (filter (of_state s) (segs l)) as [|g gs (y & F)]; [exists 0; constructor|]. exists (Z.max y (hi g)). constructor; [lia|]. eapply Forall_impl; [|exact F]. cbn. intros. lia. }
    destruct X as (y & X). eapply measures_ext; [|replace (since (evaluate sort false rows) s start) with (fold_right (fun g n => Z.max 0 (Z.min (hi g) (Z.max y b) - Z.max (lo g) start) + n) 0 (filter (of_state s) (segs l))); [apply meas|]].
    - intro u. cbn beta. split; [tauto|]. intros [H1 H2]. split; [exact H1|]. apply B in H1. lia.
    - unfold since. rewrite pers_look. transitivity (fold_left (fun n p => n + (if fst p <? start then snd p - start else snd p - fst p)) (filter (fun p => snd p >? start) (mine l s)) 0); [|destruct (mine l s); reflexivity].
      symmetry. rewrite (sum_fold (fun p => if fst p <? start then snd p - start else snd p - fst p)). rewrite Z.add_0_l. unfold mine. pose proof (l_chain s) as C. revert C X. generalize (filter (of_state s) (segs l)) as gs. induction gs as [|g gs IH]; intros C X; [reflexivity|]. inversion C; subst. inversion X; subst.
      cbn [map filter fold_right]. fold (lo g). fold (hi g). rewrite Z.gtb_ltb. destruct (Z.ltb_spec start (hi g)); cbn [fold_right]; rewrite IH by assumption; [|lia]. fold (lo g). fold (hi g). destruct (Z.ltb_spec (lo g) start); lia.
  Qed.
  Lemma mine_in s p : In p (mine l s) <-> In (fst p, snd p, s) (segs l).
  Proof.
    unfold mine. rewrite in_map_iff. split.
    - intros (g & <- & I). apply filter_In in I. destruct I as [I E]. unfold of_state in E. apply Z.eqb_eq in E. destruct g as [[a b] c]. cbn in *. now subst.
    - intro I. exists (fst p, snd p, s). split; [now destruct p|]. apply filter_In. split; [exact I|]. unfold of_state. cbn. apply Z.eqb_refl.
  Qed.
  Lemma walk_ok entries : forall t, match walk entries t with
    | Some s => exists ps p, In (s, ps) entries /\ In p ps /\ fst p <= t < snd p
    | None => forall s ps p, In (s, ps) entries -> In p ps -> ~ fst p <= t < snd p end.
  Proof.
    induction entries as [|[s ps] e IH]; intro t; cbn [walk]; [intros s ps p []|]. destruct (filter (fun p => (fst p <=? t) && (t <? snd p)) ps) as [|p r] eqn:E.
    - specialize (IH t). destruct (walk e t) as [x|].
      + destruct IH as (ps' & p & I & J). exists ps', p. split; [now right|exact J].
      + intros s' ps' p [Q|I] J Hu; [injection Q as <- <-|exact (IH _ _ _ I J Hu)]. assert (K : In p (filter (fun p => (fst p <=? t) && (t <? snd p)) ps)) by (apply filter_In; split; [exact J|]; apply andb_true_intro; split; [apply Z.leb_le; lia|apply Z.ltb_lt; lia]). rewrite E in K. destruct K.
    - assert (K : In p (filter (fun p => (fst p <=? t) && (t <? snd p)) ps)) by (rewrite E; now left). apply filter_In in K. destruct K as [K1 K2]. apply andb_prop in K2. destruct K2 as [K2 K3]. apply Z.leb_le in K2. apply Z.ltb_lt in K3.
      exists ps, p. split; [now left|]. split; [exact K1|lia].
  Qed.
  Lemma entries_segs s ps p : In (s, ps) (ps_map (sd_pers (evaluate sort false rows))) -> In p ps -> In (fst p, snd p, s) (segs l).
  Proof.
    intros I J. apply (look_in _ _ _ (proj1 (proj2 (pers_ok sort rows)))) in I. rewrite pers_look in I. destruct (mine l s) as [|q m] eqn:E; [discriminate|]. injection I as <-. rewrite <- E in J. now apply mine_in.
  Qed.
  Lemma segs_entries a b s : In (a, b, s) (segs l) -> exists ps, In (s, ps) (ps_map (sd_pers (evaluate sort false rows))) /\ In (a, b) ps.
  Proof.
    intro I. assert (J : In (a, b) (mine l s)) by (now apply mine_in). exists (mine l s). split; [|exact J]. apply (look_in _ _ _ (proj1 (proj2 (pers_ok sort rows)))). rewrite pers_look. destruct (mine l s); [destruct J|reflexivity].
  Qed.
  Lemma at_ok (order : list (Z * list (Z * Z)) -> list (Z * list (Z * Z))) t : reorders order ->
    match walk (order (ps_map (sd_pers (evaluate sort false rows)))) t with Some s => holds rows s t | None => forall s, ~ holds rows s t end.
  Proof.
    intro R. pose proof (R (ps_map (sd_pers (evaluate sort false rows)))) as P. pose proof (walk_ok (order (ps_map (sd_pers (evaluate sort false rows)))) t) as W. destruct (walk _ t) as [s|].
    - destruct W as (ps & p & I & J & Hu). apply (Permutation_in _ (Permutation_sym P)) in I. apply l_holds. exists (fst p, snd p, s). split; [apply filter_In; split; [exact (entries_segs s ps p I J)|unfold of_state; cbn; apply Z.eqb_refl]|exact Hu].
    - intros s H0. apply l_holds in H0. destruct H0 as ([[a b] c] & I & Hu). apply filter_In in I. destruct I as [I E]. unfold of_state in E. cbn in E. apply Z.eqb_eq in E. subst c. destruct (segs_entries a b s I) as (ps & K1 & K2). apply (W s ps (a, b)); [exact (Permutation_in _ P K1)|exact K2|exact Hu].
  Qed.
  Lemma not_compact : (2 <= length rows)%nat -> seems_compact (evaluate sort false rows) = false.
  Proof.
    intro H. unfold seems_compact. destruct (ps_map (sd_pers (evaluate sort false rows))) as [|e es] eqn:E; [|reflexivity]. exfalso.
    assert (L : (2 <= length l)%nat) by (unfold l; now rewrite <- (Permutation_length (proj1 (Hs rows)))). pose proof segs_entries as SE. rewrite E in SE. destruct l as [|[a b] [|[c d] m]]; cbn [length] in L; try lia.
    destruct (SE a c b) as (ps & [] & _). now left.
  Qed.
End SORT.
(** ** Partitions *)
Lemma collected parts rows : two_stage [] sa_update (fun s : list (Z * Z) => s) sa_merge parts rows -> Permutation rows (all_rows parts).
Proof.
  intros (arr & P & ->). assert (E1 : forall a (s : list (Z * Z)), fold_left sa_merge a s = s ++ concat (concat a)) by (unfold sa_merge; induction a as [|x a IH]; intro s; cbn [fold_left concat]; [now rewrite app_nil_r|]; rewrite IH, concat_app, app_assoc; reflexivity).
  rewrite E1. cbn [app]. assert (E2 : map (fun p => partition [] sa_update p) parts = map (fun p => concat p) parts).
  { apply map_ext. intro p. unfold partition. assert (G : forall q (s : list (Z * Z)), fold_left sa_update q s = s ++ concat q) by (unfold sa_update; induction q as [|x q IH]; intro s; cbn [fold_left concat]; [now rewrite app_nil_r|]; rewrite IH, app_assoc; reflexivity). now rewrite G. }
  rewrite E2 in P. unfold all_rows. clear - P. induction P as [|x l l' P IH|x y l|l a b P1 IH1 P2 IH2]; cbn [concat]; [constructor|now apply Permutation_app_head|rewrite !app_assoc; apply Permutation_app_tail, Permutation_app_comm|eapply Permutation_trans; eassumption].
Qed.
Lemma holds_iff l l' s u : Permutation l l' -> (holds l s u <-> holds l' s u).
Proof. intro P. split; apply holds_perm; [exact P|exact (Permutation_sym P)]. Qed.
