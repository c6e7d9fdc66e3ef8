(** The groups of a whole request. *)
From Verif Require Import Prelude PrecisionModel WriteModel WriteSpec WriteProofs WriteProofs2 WriteProofs3.

Lemma mapM_ok {A B} (f : A -> res B) (g : A -> B) l : (forall x, In x l -> f x = Ok (g x)) -> mapM f l = Ok (map g l).
Proof.
  induction l as [|x l IH]; cbn; intros H; [reflexivity|]. rewrite (H x (or_introl eq_refl)). cbn.
  rewrite IH by (intros y I; apply H; right; exact I). reflexivity.
Qed.

(** *** Rows by series *)
Definition flat (m : list (Z * (skey * list nat))) : list (nat * skey) :=
  flat_map (fun e => map (fun i => (i, fst (snd e))) (snd (snd e))) m.
Section SID.
Variable sid : skey -> Z.
Hypothesis INJ : forall a b, sid a = sid b -> a = b.
Definition tagged (m : list (Z * (skey * list nat))) : Prop := NoDup (map fst m) /\ forall x k is, In (x, (k, is)) m -> x = sid k.
Lemma put_idx_In x k is y k' i m : In (x, (k, is)) (put_idx y k' i m) ->
  (x, k) = (y, k') \/ exists is', In (x, (k, is')) m.
Proof.
  induction m as [|[z [k2 is2]] m IH]; cbn.
  - intros [H|[]]. injection H as <- <- <-. auto.
  - destruct (Z.eqb_spec z y) as [->|NE]; cbn.
    + intros [H|H]; [injection H as <- <- <-|]; right; eauto.
    + intros [H|H]; [injection H as <- <- <-; right; eauto|]. destruct (IH H) as [A|(is' & A)]; [auto|right; eauto].
Qed.
Lemma put_idx_fst y k i m : map fst (put_idx y k i m) = map fst m ++ (if existsb (Z.eqb y) (map fst m) then [] else [y]).
Proof.
  induction m as [|[z [k2 is2]] m IH]; cbn; [reflexivity|]. rewrite Z.eqb_sym.
  destruct (Z.eqb_spec y z) as [->|NE]; cbn; [rewrite app_nil_r; reflexivity|]. rewrite IH. reflexivity.
Qed.
Lemma put_idx_flat k i m : (forall x k' is, In (x, (k', is)) m -> x = sid k') ->
  Permutation (flat (put_idx (sid k) k i m)) ((i, k) :: flat m).
Proof.
  induction m as [|[z [k2 is2]] m IH]; cbn [put_idx]; intros H; [reflexivity|].
  pose proof (H _ _ _ (or_introl eq_refl)) as ->. destruct (Z.eqb_spec (sid k2) (sid k)) as [E|NE].
  - apply INJ in E. subst k2. unfold flat. cbn [flat_map fst snd]. rewrite map_app. cbn [map].
    rewrite <- app_assoc. cbn [app]. symmetry. apply Permutation_middle.
  - unfold flat in *. cbn [flat_map fst snd]. rewrite IH by (intros x k' is I; apply (H x k' is); right; exact I).
    symmetry. apply Permutation_middle.
Qed.
Lemma put_idx_tagged k i m : tagged m -> tagged (put_idx (sid k) k i m).
Proof.
  intros [ND H]. split.
  - rewrite put_idx_fst. destruct (existsb (Z.eqb (sid k)) (map fst m)) eqn:X; [rewrite app_nil_r; exact ND|].
    apply nodup_cat; [exact ND|repeat constructor; intros []|]. intros x I [<-|[]].
    assert (existsb (Z.eqb (sid k)) (map fst m) = true); [|congruence]. apply existsb_exists. exists (sid k). split; [exact I|apply Z.eqb_refl].
  - intros x k' is I. apply put_idx_In in I as [Q|(is' & I)]; [injection Q as -> ->; reflexivity|exact (H _ _ _ I)].
Qed.
Lemma by_sid_gen ps : forall m, tagged m ->
  let m' := fold_left (fun m ik => put_idx (sid (snd ik)) (snd ik) (fst ik) m) ps m in
  tagged m' /\ Permutation (flat m') (ps ++ flat m).
Proof.
  induction ps as [|[i k] ps IH]; intros m T; cbn [fold_left fst snd].
  - split; [exact T|reflexivity].
  - destruct (IH _ (put_idx_tagged k i m T)) as [A B]. split; [exact A|]. cbn zeta in *. rewrite B.
    rewrite (put_idx_flat k i m (proj2 T)). symmetry. apply Permutation_middle.
Qed.
Lemma by_sid_ok keys : tagged (by_sid sid keys) /\ Permutation (flat (by_sid sid keys)) (combine (seq 0 (length keys)) keys).
Proof.
  destruct (by_sid_gen (combine (seq 0 (length keys)) keys) []) as [A B].
  - split; [constructor|intros x k is []].
  - split; [exact A|]. unfold by_sid. cbn zeta in B. rewrite B. cbn. rewrite app_nil_r. reflexivity.
Qed.
Lemma combine_map_r {A B} (f : A -> B) (l : list A) : combine l (map f l) = map (fun x => (x, f x)) l.
Proof. induction l as [|x l IH]; cbn; [reflexivity|]. rewrite IH. reflexivity. Qed.

Section TABLE.
Variables (from prec : precision) (s : schema) (t : str) (b : batch) (n : nat) (keyf : nat -> skey) (rowf : nat -> row).
Hypothesis BN : b_rows b = n.
Hypothesis HK : forall i, (i < n)%nat -> build_key t s (b_cols b) i = Ok (keyf i).
Hypothesis HR : forall i, (i < n)%nat -> to_row from prec s (b_cols b) i = Ok (rowf i).
Hypothesis KT : forall i, (i < n)%nat -> k_table (keyf i) = t.
Lemma table_groups : exists gs, build_table from prec sid s (t, b) = Ok gs
  /\ NoDup (map fst gs) /\ (forall x g, In (x, g) gs -> x = sid (g_key g) /\ k_table (g_key g) = t)
  /\ Permutation (stored gs) (map (fun i => (keyf i, s, rowf i)) (seq 0 n)).
Proof.
  unfold build_table. cbn [fst snd]. rewrite BN.
  rewrite (mapM_ok _ keyf) by (intros i I; apply HK; apply in_seq in I; lia). cbn [bind].
  set (keys := map keyf (seq 0 n)). destruct (by_sid_ok keys) as [[ND TG] P].
  assert (LK : length keys = n) by (unfold keys; rewrite map_length, seq_length; reflexivity).
  rewrite LK in P. unfold keys in P at 2. rewrite combine_map_r in P.
  assert (IDX : forall x k is i, In (x, (k, is)) (by_sid sid keys) -> In i is -> (i < n)%nat /\ k = keyf i).
  { intros x k is i I J. assert (F : In (i, k) (flat (by_sid sid keys))).
    { apply in_flat_map. exists (x, (k, is)). split; [exact I|]. cbn. apply in_map_iff. eauto. }
    apply (Permutation_in _ P) in F. apply in_map_iff in F as (j & Q & F). injection Q as -> <-. apply in_seq in F. split; [lia|reflexivity]. }
  rewrite (mapM_ok _ (fun e => (fst e, GR (fst (snd e)) s (map rowf (snd (snd e)))))).
  2:{ intros [x [k is]] I. cbn [fst snd]. rewrite (mapM_ok _ rowf); [reflexivity|].
      intros i J. apply HR. exact (proj1 (IDX _ _ _ _ I J)). }
  eexists. split; [reflexivity|]. split; [|split].
  - rewrite map_map. cbn [fst]. exact ND.
  - assert (NEB : forall x k is, In (x, (k, is)) (by_sid sid keys) -> is <> []).
    { unfold by_sid. generalize (combine (seq 0 (length keys)) keys) as ps.
      assert (G : forall ps m, (forall x k is, In (x, (k, is)) m -> is <> []) ->
        forall x k is, In (x, (k, is)) (fold_left (fun m ik => put_idx (sid (snd ik)) (snd ik) (fst ik) m) ps m) -> is <> []).
      { induction ps as [|[i k] ps IH]; intros m H; [exact H|]. cbn [fold_left fst snd]. apply IH. clear IH.
        intros x k' is I. induction m as [|[z [k2 is2]] m IH]; cbn in I.
        - destruct I as [I|[]]. injection I as <- <- <-. discriminate.
        - destruct (z =? sid k).
          + destruct I as [I|I]; [injection I as <- <- <-; destruct is2; discriminate|apply (H x k' is); right; exact I].
          + destruct I as [I|I]; [apply (H x k' is); left; exact I|]. apply IH; [|exact I]. intros x0 k0 is0 I0. apply (H x0 k0 is0). right. exact I0. }
      intros ps. apply G. intros x k is []. }
    intros x g I. apply in_map_iff in I as ([y [k is]] & Q & I). cbn in Q. injection Q as <- <-. cbn [g_key].
    split; [exact (TG _ _ _ I)|]. destruct is as [|i is]; [destruct (NEB _ _ _ I eq_refl)|].
    destruct (IDX _ _ _ i I (or_introl eq_refl)) as [J ->]. apply KT. exact J.
  - unfold stored. rewrite flat_map_concat_map, map_map, <- flat_map_concat_map. cbn [fst snd g_key g_schema g_rows].
    assert (E : forall m, (forall x k is, In (x, (k, is)) m -> True) ->
       flat_map (fun x : Z * (skey * list nat) => map (fun r => (fst (snd x), s, r)) (map rowf (snd (snd x)))) m
       = map (fun ik => (snd ik, s, rowf (fst ik))) (flat m)).
    { induction m as [|[x [k is]] m IH]; intros _; [reflexivity|]. unfold flat in *. cbn [flat_map fst snd].
      rewrite map_app, !map_map. cbn [fst snd]. rewrite IH by auto. reflexivity. }
    rewrite E by auto. rewrite P, map_map. reflexivity.
Qed.
End TABLE.

Lemma put_group_new x g m : ~ In x (map fst m) -> put_group x g m = m ++ [(x, g)].
Proof.
  induction m as [|[y h] m IH]; cbn; intros N; [reflexivity|]. destruct (Z.eqb_spec y x) as [->|]; [exfalso; auto|].
  rewrite IH by auto. reflexivity.
Qed.
Lemma put_groups_new gs : forall m, NoDup (map fst gs) -> (forall x, In x (map fst gs) -> ~ In x (map fst m)) ->
  put_groups gs m = m ++ gs.
Proof.
  induction gs as [|[x g] gs IH]; intros m ND D; cbn [put_groups]; [rewrite app_nil_r; reflexivity|].
  inversion ND as [|? ? NI ND']; subst. rewrite put_group_new by (apply D; left; reflexivity). rewrite IH.
  - rewrite <- app_assoc. reflexivity.
  - exact ND'.
  - intros y I. rewrite map_app, in_app_iff. cbn [map fst In]. intros [J|[<-|[]]]; [exact (D y (or_intror I) J)|contradiction].
Qed.

Lemma groups_ok from prec sch (good_t : str -> list (skey * schema * row)) tbs : forall m,
  NoDup (map fst tbs) ->
  (forall x g, In (x, g) m -> x = sid (g_key g) /\ ~ In (k_table (g_key g)) (map fst tbs)) -> NoDup (map fst m) ->
  (forall t b, In (t, b) tbs -> exists fb s gs, fb_cols b = Ok fb /\ sch t = Ok s /\ build_table from prec sid s (t, b) = Ok gs
       /\ NoDup (map fst gs) /\ (forall x g, In (x, g) gs -> x = sid (g_key g) /\ k_table (g_key g) = t)
       /\ Permutation (stored gs) (good_t t)) ->
  exists gs, build_group from prec sid sch tbs m = Ok gs /\ NoDup (map fst gs)
    /\ (forall x g, In (x, g) gs -> x = sid (g_key g))
    /\ Permutation (stored gs) (stored m ++ flat_map good_t (map fst tbs)).
Proof.
  induction tbs as [|[t b] tbs IH]; intros m ND HM NM H; cbn [build_group map flat_map fst snd].
  - exists m. split; [reflexivity|]. split; [exact NM|]. split; [intros x g I; apply HM; exact I|]. rewrite app_nil_r. reflexivity.
  - inversion ND as [|? ? NI ND']; subst.
    destruct (H _ _ (or_introl eq_refl)) as (fb & s & gs & E1 & E2 & E3 & E4 & E5 & E6).
    rewrite E1. cbn [bind]. rewrite E2. cbn [bind]. rewrite E3. cbn [bind].
    assert (DJ : forall x, In x (map fst gs) -> ~ In x (map fst m)).
    { intros x I J. apply in_map_iff in I as ((x1 & g1) & Q1 & I). apply in_map_iff in J as ((x2 & g2) & Q2 & J). cbn in Q1, Q2. subst x1 x2.
      destruct (E5 _ _ I) as [A1 A2]. destruct (HM _ _ J) as [B1 B2]. apply B2. left.
      rewrite A1 in B1. apply INJ in B1. rewrite <- B1. cbn. congruence. }
    rewrite put_groups_new by assumption.
    destruct (IH (m ++ gs)) as (gs' & F1 & F2 & F3 & F4).
    + exact ND'.
    + intros x g I. apply in_app_or in I as [I|I].
      * destruct (HM _ _ I) as [A B]. split; [exact A|]. intros J. apply B. right. exact J.
      * destruct (E5 _ _ I) as [A B]. split; [exact A|]. rewrite B. exact NI.
    + rewrite map_app. apply nodup_cat; [exact NM|exact E4|]. intros x I J. exact (DJ x J I).
    + intros t' b' I. apply H. right. exact I.
    + exists gs'. split; [exact F1|]. split; [exact F2|]. split; [exact F3|]. rewrite F4. unfold stored. rewrite flat_map_app.
      rewrite <- app_assoc. apply Permutation_app_head. apply Permutation_app_tail. exact E6.
Qed.
End SID.

(** *** The request *)
Lemma Forall2_seq {A B} (R : A -> B -> Prop) (f : nat -> A) l : (forall i x, nth_error l i = Some x -> R (f i) x) ->
  Forall2 R (map f (seq 0 (length l))) l.
Proof.
  assert (G : forall k, (forall i x, nth_error l i = Some x -> R (f (k + i)%nat) x) -> Forall2 R (map f (seq k (length l))) l).
  { induction l as [|x l IH]; intros k H; cbn; constructor.
    - rewrite <- (Nat.add_0_r k). apply H. reflexivity.
    - apply IH. intros i y E. rewrite Nat.add_succ_comm. apply H. exact E. }
  intros H. apply (G O). exact H.
Qed.
Lemma Forall2_perm_r {A B} (R : A -> B -> Prop) l l' : Permutation l l' -> forall a, Forall2 R a l ->
  exists a', Permutation a a' /\ Forall2 R a' l'.
Proof.
  induction 1 as [|x l l' P IH|x y l|l1 l2 l3 P1 IH1 P2 IH2]; intros a F.
  - exists a. auto.
  - inversion F as [|a0 ? a1 ? H F']; subst. destruct (IH _ F') as (a' & Q & G). exists (a0 :: a'). split; [constructor; exact Q|constructor; assumption].
  - inversion F as [|a0 ? a1 ? H F']; subst. inversion F' as [|b0 ? b1 ? H' F'']; subst. exists (b0 :: a0 :: b1).
    split; [apply perm_swap|repeat constructor; assumption].
  - destruct (IH1 _ F) as (a1 & Q1 & G1). destruct (IH2 _ G1) as (a2 & Q2 & G2). exists a2. split; [rewrite Q1; exact Q2|exact G2].
Qed.
Lemma by_tables ls ts : NoDup ts -> (forall t, In t ts <-> In t (map l_table ls)) -> Permutation (flat_map (fun t => of_table t ls) ts) ls.
Proof.
  revert ts. induction ls as [|l ls IH]; intros ts ND H.
  - assert (ts = []) as -> by (destruct ts as [|t ts]; [reflexivity|exfalso; exact (proj1 (H t) (or_introl eq_refl))]). reflexivity.
  - assert (I : In (l_table l) ts) by (apply H; left; reflexivity).
    assert (G : forall ts, NoDup ts -> In (l_table l) ts -> Permutation (flat_map (fun t => of_table t (l :: ls)) ts) (l :: flat_map (fun t => of_table t ls) ts)).
    { clear. induction ts as [|t ts IH]; intros ND I; [destruct I|]. inversion ND as [|? ? NI ND']; subst. cbn [flat_map].
      unfold of_table at 1. cbn [filter]. destruct (str_eqb t (l_table l)) eqn:E.
      - apply str_eqb_eq in E. subst t. cbn [app]. constructor. apply Permutation_app_head.
        assert (X : forall ts, ~ In (l_table l) ts -> flat_map (fun t => of_table t (l :: ls)) ts = flat_map (fun t => of_table t ls) ts).
        { clear. induction ts as [|t ts IH]; intros NI; [reflexivity|]. cbn [flat_map]. rewrite IH by (intros I; apply NI; right; exact I).
          f_equal. unfold of_table. cbn [filter]. destruct (str_eqb t (l_table l)) eqn:E; [|reflexivity].
          apply str_eqb_eq in E. exfalso. apply NI. left. exact E. }
        rewrite X by exact NI. reflexivity.
      - apply str_eqb_neq in E. destruct I as [I|I]; [contradiction|]. rewrite (IH ND' I). fold (of_table t ls). symmetry. apply Permutation_middle. }
    rewrite (G ts ND I). constructor.
    destruct (in_dec (list_eq_dec Z.eq_dec) (l_table l) (map l_table ls)) as [J|J].
    + apply IH; [exact ND|]. intros t. rewrite H. cbn. split; [intros [<-|K]; [exact J|exact K]|auto].
    + apply in_split in I as (t1 & t2 & ->). apply (Permutation_trans (l' := flat_map (fun t => of_table t ls) (l_table l :: t1 ++ t2))).
      * apply Permutation_flat_map. symmetry. apply Permutation_middle.
      * cbn [flat_map]. assert (E : of_table (l_table l) ls = []).
        { clear - J. induction ls as [|x ls IH]; [reflexivity|]. unfold of_table in *. cbn [filter] in *. cbn in J.
          destruct (str_eqb (l_table l) (l_table x)) eqn:E; [apply str_eqb_eq in E; exfalso; apply J; left; congruence|].
          apply IH. intros I. apply J. right. exact I. }
        rewrite E. cbn [app]. apply IH; [apply NoDup_remove_1 in ND; exact ND|]. intros t. split.
        -- intros K. assert (M : In t (t1 ++ l_table l :: t2)) by (apply in_app_iff in K; apply in_app_iff; cbn; tauto).
           apply H in M as [M|M]; [|exact M]. subst t. apply NoDup_remove_2 in ND. contradiction.
        -- intros K. assert (M : In t (t1 ++ l_table l :: t2)) by (apply H; right; exact K).
           apply in_app_iff in M. apply in_app_iff. destruct M as [M|[M|M]]; [auto|subst t; contradiction|auto].
Qed.
Lemma Forall2_flat_map {A B C} (R : B -> C -> Prop) (f : A -> list B) (g : A -> list C) l :
  (forall x, In x l -> Forall2 R (f x) (g x)) -> Forall2 R (flat_map f l) (flat_map g l).
Proof.
  induction l as [|x l IH]; cbn; intros H; [constructor|]. apply Forall2_app; [apply H; auto|apply IH; auto].
Qed.

Theorem write_ok from prec sid sch (mt : str -> schema) ls :
  clean ls -> (forall a b, sid a = sid b -> a = b) ->
  (forall l, In l ls -> exists s, sch (l_table l) = Ok s /\ good s /\ good (mt (l_table l)) /\ known s (mt (l_table l)) l) ->
  (forall l, In l ls -> timestamp_convert from prec (l_ts l) <> None) ->
  exists gs out, write from prec sid sch ls = Ok gs /\ NoDup (map fst gs) /\ (forall x g, In (x, g) gs -> x = sid (g_key g))
    /\ Permutation out (stored gs) /\ Forall2 (fun kr l => reads from prec (mt (l_table l)) kr l) out ls.
Proof.
  intros CL INJ SC TC. destruct (batches_ok ls CL) as (bs & E & ND & HB & HT).
  pose (sof := fun t => match sch t with Ok s => s | _ => SCH 0 0 [] end).
  pose (bof := fun t => match find (fun tb : str * batch => str_eqb (fst tb) t) bs with Some tb => snd tb | None => MB [] 0 end).
  pose (keyf := fun t i => match build_key t (sof t) (b_cols (bof t)) i with Ok k => k | _ => SK [] [] end).
  pose (rowf := fun t i => match to_row from prec (sof t) (b_cols (bof t)) i with Ok r => r | _ => RW 0 [] end).
  pose (out := fun t => map (fun i => (keyf t i, sof t, rowf t i)) (seq 0 (length (of_table t ls)))).
  assert (BOF : forall t b, In (t, b) bs -> bof t = b).
  { intros t b I. unfold bof. destruct (find (fun tb : str * batch => str_eqb (fst tb) t) bs) as [[t' b']|] eqn:F.
    - apply find_some in F as [J Q]. cbn in Q. apply str_eqb_eq in Q. subst t'.
      assert (X : (t, b') = (t, b)) by (apply (nodup_map_inj fst bs); auto). injection X as ->. reflexivity.
    - pose proof (find_none _ _ F _ I) as Q. cbn in Q. rewrite str_eqb_refl in Q. discriminate. }
  assert (ROW : forall t b i l, In (t, b) bs -> nth_error (of_table t ls) i = Some l ->
     build_key t (sof t) (b_cols b) i = Ok (keyf t i) /\ to_row from prec (sof t) (b_cols b) i = Ok (rowf t i)
     /\ k_table (keyf t i) = t /\ reads from prec (mt t) (keyf t i, sof t, rowf t i) l).
  { intros t b i l I NE. destruct (HB _ _ I) as [CF _]. pose proof (nth_error_In _ _ NE) as J. apply of_table_In in J as [J ET].
    destruct (SC l J) as (s & ES & G1 & G2 & KN). rewrite ET in *.
    assert (SO : sof t = s) by (unfold sof; rewrite ES; reflexivity).
    assert (NL : nth_error (rows_of t ls) i = Some (line_cells l)) by (unfold rows_of; apply map_nth_error; exact NE).
    assert (TM : forall n v r, In r (rows_of t ls) -> lookup n r = Some (KTime, v) -> n = TIME).
    { intros n v r K Q. unfold rows_of in K. apply in_map_iff in K as (l' & <- & K). apply of_table_In in K as [K _].
      apply lookup_In in Q; [|apply (clean_nodup ls); assumption]. apply (any_time_cell l' n v). exact Q. }
    pose proof (clean_nodup _ _ CL J) as NDC. pose proof (proj1 CL l J) as LCl.
    destruct (key_ok s (mt t) (rows_of t ls) (b_cols b) i l G1 G2 CF NL NDC LCl KN t) as (k & K1 & K2 & K3).
    destruct (timestamp_convert from prec (l_ts l)) as [ts|] eqn:ETS; [|destruct (TC l J ETS)].
    destruct (row_ok s (mt t) (rows_of t ls) (b_cols b) i l G1 G2 CF NL NDC LCl KN TM from prec ts ETS) as (r & R1 & R2 & R3).
    unfold keyf, rowf. rewrite (BOF _ _ I), SO, K1, R1. split; [reflexivity|]. split; [reflexivity|]. split; [exact K2|].
    unfold reads. split; [congruence|]. split; [congruence|]. split; assumption. }
  assert (LEN : forall t, length (rows_of t ls) = length (of_table t ls)) by (intros t; unfold rows_of; apply map_length).
  assert (NTH : forall t i, (i < length (of_table t ls))%nat -> exists l, nth_error (of_table t ls) i = Some l).
  { intros t i H. destruct (nth_error (of_table t ls) i) as [l|] eqn:X; [eauto|]. apply nth_error_None in X. lia. }
  destruct (groups_ok sid INJ from prec sch out bs []) as (gs & F1 & F2 & F3 & F4).
  - exact ND.
  - intros x g [].
  - constructor.
  - intros t b I. destruct (HB _ _ I) as [CF BR]. rewrite LEN in BR.
    assert (IT : In t (map l_table ls)) by (apply HT; change t with (fst (t, b)); apply in_map; exact I).
    apply in_map_iff in IT as (l & ET & J). destruct (SC l J) as (s & ES & _). rewrite ET in ES.
    assert (SO : sof t = s) by (unfold sof; rewrite ES; reflexivity).
    assert (FB : exists fb, fb_cols b = Ok fb).
    { assert (J' : In l (of_table t ls)) by (apply of_table_In; auto). apply In_nth_error in J' as [i NE].
      assert (NL : nth_error (rows_of t ls) i = Some (line_cells l)) by (unfold rows_of; apply map_nth_error; exact NE).
      pose proof (row_cell (rows_of t ls) (b_cols b) i l CF NL (clean_nodup _ _ CL J)) as RC.
      unfold fb_cols. destruct (proj1 (RC _ _ _) (time_cell l)) as (c & C1 & _ & C2 & _).
      assert (X : existsb (fun c => kind_eqb (c_kind c) KTime) (b_cols b) = true).
      { apply existsb_exists. exists c. rewrite C2. auto. }
      rewrite X. cbn [negb]. destruct (l_fields l) as [|[n v] r] eqn:EF; [destruct (proj2 (proj2 (proj1 CL l J)) EF)|].
      assert (IF : In (n, v) (l_fields l)) by (rewrite EF; left; reflexivity).
      apply field_cell in IF. apply RC in IF as (c' & D1 & _ & D2 & _).
      assert (Y : In (c_name c', c_kind c') (map (fun c => (c_name c, c_kind c)) (filter (fun c => match c_kind c with KField _ => true | _ => false end) (b_cols b)))).
      { apply in_map_iff. exists c'. split; [reflexivity|]. apply filter_In. rewrite D2. auto. }
      destruct (map (fun c => (c_name c, c_kind c)) (filter (fun c => match c_kind c with KField _ => true | _ => false end) (b_cols b))); [destruct Y|eauto]. }
    destruct FB as [fb FB].
    destruct (table_groups sid INJ from prec s t b (length (of_table t ls)) (keyf t) (rowf t)) as (gs & G1 & G2 & G3 & G4).
    + exact BR.
    + intros i H. destruct (NTH t i H) as [l0 NE]. rewrite <- SO. apply (ROW _ _ _ _ I NE).
    + intros i H. destruct (NTH t i H) as [l0 NE]. rewrite <- SO. apply (ROW _ _ _ _ I NE).
    + intros i H. destruct (NTH t i H) as [l0 NE]. apply (ROW _ _ _ _ I NE).
    + exists fb, s, gs. split; [exact FB|]. split; [exact ES|]. split; [exact G1|]. split; [exact G2|]. split; [exact G3|].
      unfold out. rewrite SO. exact G4.
  - assert (FO : Forall2 (fun kr l => reads from prec (mt (l_table l)) kr l) (flat_map out (map fst bs)) (flat_map (fun t => of_table t ls) (map fst bs))).
    { apply Forall2_flat_map. intros t I. apply in_map_iff in I as ((t' & b) & Q & I). cbn in Q. subst t'. unfold out.
      apply Forall2_seq. intros i l NE. pose proof (nth_error_In _ _ NE) as J. apply of_table_In in J as [J ET]. rewrite ET.
      apply (ROW _ _ _ _ I NE). }
    destruct (Forall2_perm_r _ _ _ (by_tables ls (map fst bs) ND HT) _ FO) as (a & P & FA).
    exists gs, a. unfold write. rewrite E. cbn [bind]. split; [exact F1|]. split; [exact F2|]. split; [exact F3|].
    split; [|exact FA]. rewrite <- P, F4. reflexivity.
Qed.
