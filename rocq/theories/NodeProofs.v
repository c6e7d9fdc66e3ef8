From Verif Require Import Prelude Bytes RecordModel RecordSpec RecordProofs RingModel RingProofs WalModel WalSpec WalProofs NodeModel NodeSpec.

Section Node.
Variable crc : list Z -> Z.
Hypothesis Hcrc : crc32_like crc.
Context {E : Type}.
Variables (e_index e_type : E -> Z) (enc : E -> list Z) (dec : list Z -> option E) (max_size : Z).
Notation nstep := (nstep crc e_index e_type enc dec max_size).
Notation nop_ok := (nop_ok crc e_index e_type enc dec).
Notation Inv := (Inv crc e_index e_type enc dec).

Definition above (p : option Z) (l : list E) : Prop := match p with None => True | Some k => forall e, In e l -> k < e_index e end.
Definition NInv (n : node E) (l : list E) : Prop := above (n_purged n) l /\ exists p c, Inv (n_log n) (Log p l c).

Lemma above_filter p l f : above p l -> above p (filter f l).
Proof. destruct p; cbn; auto. intros H e He. apply filter_In in He as [He _]. auto. Qed.
Definition range (a b : Z) (l : list E) : list E := filter (fun e => (a <=? e_index e) && (e_index e <? b))%bool l.

Lemma nsim n l o : NInv n l -> nop_ok n o -> exists a n' l', nstep n o = Some (a, n') /\ NInv n' l' /\
  match o with
  | NAppend [] => a = NOk /\ l' = l
  | NAppend (e :: es) => a = NOk /\ l' = filter (fun x => e_index x <? e_index e) l ++ e :: es
  | NTruncate k => a = NOk /\ l' = filter (fun e => e_index e <? k) l
  | NPurge k => a = NOk /\ l' = filter (fun e => k <? e_index e) l /\ n_purged n' = Some k
  | NGet x y => a = NEntries (range x y l) /\ l' = l
  | NState => l' = l /\ exists last, a = NLogState (n_purged n) last /\ (last = n_purged n \/ exists e, In e l /\ last = Some (e_index e))
  end.
Proof.
  intros (HA&p&c&HI) [HF HO]. destruct o as [es|k|k|a b|]; cbn [NodeModel.nstep].
  - destruct es as [|e es]; [exists NOk, n, l; split; [auto|split; [split; eauto|auto]]|]. destruct HO as (O1&O2&O3&O4&[O5 O6]).
    destruct (max_seq_inv crc e_index e_type enc dec _ _ HI) as (MX&_&i&I0&IU&IF). cbn [l_entries] in *.
    unfold log_step. cbn [step]. destruct (del_after_ok crc e_index e_type enc dec (n_log n) _ (e_index e) HI O5 O6 HF) as (s1&E1&I1). rewrite E1. cbn [l_purged l_entries l_cached] in I1.
    destruct (append_ok crc e_index e_type enc dec max_size (e :: es) s1 _ I1 O1 O2) as (s2&E2&I2).
    { cbn [l_entries]. destruct l as [|x l0] eqn:El; [left; auto|]. rewrite (from_last e_index i) in MX by (auto; discriminate).
      destruct O3 as [O3|O3]; [lia|]. rewrite <- El in *. destruct (Z.le_gt_cases (e_index e) i) as [H|H].
      - left. apply (from_filter_lt e_index i); auto.
      - right. rewrite MX in O3. pose proof (from_split_len e_index e_type enc dec i l (e_index e) IF ltac:(lia)) as HL.
        pose proof IF as JF. rewrite (from_split e_index i l (e_index e) IF) in JF. apply from_app in JF as [JF _].
        rewrite (from_last e_index i); auto; [lia|]. intros X. rewrite X in HL. change (zlen (@nil E)) with 0 in HL. lia. }
    rewrite E2. do 3 eexists. split; [reflexivity|]. cbn [l_purged l_entries l_cached] in I2. split; [|split; [reflexivity|reflexivity]].
    split; [|eauto]. cbn [n_purged]. destruct (n_purged n) as [k|]; cbn [above]; auto. intros x Hx. apply in_app_or in Hx as [Hx|Hx]; [apply filter_In in Hx as [Hx _]; apply HA; auto|].
    destruct O2 as (j&_&_&JF). pose proof (from_in e_index _ _ _ JF Hx). destruct JF as [JF _]. lia.
  - unfold log_step. cbn [step]. destruct HO as [O1 O2]. destruct (del_after_ok crc e_index e_type enc dec (n_log n) _ k HI O1 O2 HF) as (s1&E1&I1). rewrite E1. cbn [l_purged l_entries l_cached] in I1.
    do 3 eexists. split; [reflexivity|]. split; [split; [|eauto]|split; reflexivity]. apply above_filter. exact HA.
  - unfold log_step. cbn [step]. destruct HO as [O1 O2]. destruct (del_before_ok crc e_index e_type enc dec (n_log n) _ (k + 1) HI) as (s1&E1&I1); auto; [lia|]. rewrite E1. cbn [l_purged l_entries l_cached] in I1.
    do 3 eexists. split; [reflexivity|]. split; [split; [|eauto]|split; [reflexivity|split; [|reflexivity]]].
    + cbn [n_purged above]. intros e He. apply filter_In in He as [_ He]. lia.
    + apply filter_ext. intros e. lia.
  - unfold log_step. cbn [step]. destruct (read_entries_ok crc Hcrc e_index e_type enc dec (n_log n) _ a b HI) as (s1&E1&I1). rewrite E1. cbn [l_purged l_entries l_cached] in *.
    do 3 eexists. split; [reflexivity|]. split; [split; [|eauto]|split; reflexivity]. exact HA.
  - unfold log_step. cbn [step]. do 3 eexists. split; [reflexivity|]. split; [split; [exact HA|eauto]|]. split; [reflexivity|]. eexists. split; [reflexivity|].
    rewrite (last_ok crc e_index e_type enc dec _ _ HI). cbn [l_purged l_entries l_cached]. destruct (c =? 0)%nat; auto. unfold last_of. destruct (rev l) as [|x r] eqn:ER; auto.
    right. exists x. split; auto. apply in_rev. rewrite ER. left. auto.
Qed.
Lemma nrun_inv n tr n' : nruns crc e_index e_type enc dec max_size n tr n' -> forall l, NInv n l -> exists l', NInv n' l'.
Proof.
  induction 1 as [n|n o a n1 tr n2 HO HS _ IH]; intros l HI; eauto. destruct (nsim n l o HI HO) as (a'&n'&l'&E1&E2&_). rewrite HS in E1. injection E1 as <- <-. eauto.
Qed.
Lemma new_ninv : NInv (node_new crc) [].
Proof. split; [exact I|]. do 2 eexists. apply init_inv. Qed.
End Node.
