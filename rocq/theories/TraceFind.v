From Coq Require Import Ascii String.
From Coq Require Import List Sorted.
From Verif Require Import Prelude LogModel LogSpec LogProofs TraceModel TraceSpec TraceProofs TraceEvents.
Open Scope list_scope.
Open Scope Z_scope.
Opaque dec.

(** * One trace *)
Lemma Forall2_length {A B : Type} (R : A -> B -> Prop) l1 l2 : Forall2 R l1 l2 -> length l1 = length l2.
Proof. induction 1; cbn [length]; auto. Qed.
Lemma spans_total : forall bs, Forall (fun b => exists w, one_row b w) bs -> exists js, batch_spans bs = Some js /\
  Forall2 (fun b j => exists w, b_rows b = [w] /\ to_jspan (b_cols b) w = Some j) bs js.
Proof.
  induction 1 as [|b bs (w & W & X) _ (js & IH & F)]; [exists []; split; [reflexivity|constructor]|]. cbn [batch_spans]. rewrite W, IH.
  destruct (readable (b_cols b) w X) as (j & Q). rewrite Q. exists (j :: js). split; [reflexivity|]. constructor; eauto.
Qed.
Lemma number_spec : forall js i, number i js = map (fun x => with_process (snd x) (112 :: dec (fst x))) (combine (run i (length js)) js).
Proof. induction js as [|j js IH]; intros i; cbn [number length run combine map]; [reflexivity|]. rewrite IH. reflexivity. Qed.
Lemma number_nth : forall js i n j, nth_error js n = Some j -> nth_error (number i js) n = Some (with_process j (112 :: dec (i + Z.of_nat n))).
Proof.
  induction js as [|a js IH]; intros i [|n] j Q; try discriminate; cbn [number nth_error] in *.
  - injection Q as ->. replace (i + Z.of_nat 0) with i by lia. reflexivity.
  - rewrite (IH (i + 1) n j Q). replace (i + 1 + Z.of_nat n) with (i + Z.of_nat (S n)) by lia. reflexivity.
Qed.
Lemma number_length : forall js i, length (number i js) = length js.
Proof. induction js as [|a js IH]; intros i; cbn [number length]; auto. Qed.
Lemma run_in : forall k i x, In x (run i k) <-> i <= x < i + Z.of_nat k.
Proof.
  induction k as [|k IH]; intros i x; cbn [run In]; [lia|]. rewrite IH. lia.
Qed.
Lemma pid_nodup : forall js i, 0 <= i -> i + Z.of_nat (length js) < 2 ^ 64 -> NoDup (map j_pid (number i js)).
Proof.
  induction js as [|a js IH]; intros i B1 B2; cbn [number map length] in *; constructor; [|apply IH; lia]. cbn [j_pid set_pid]. intros I.
  rewrite number_spec, map_map in I. apply in_map_iff in I. destruct I as ([x j] & Q & I). cbn [j_pid with_process fst snd] in Q. injection Q as Q.
  apply in_combine_l in I. apply run_in in I. apply dec_inj in Q; lia.
Qed.
Lemma proc_put_new k p m : ~ In k (map fst m) -> proc_put k p m = m ++ [(k, p)].
Proof.
  induction m as [|[a q] m IH]; cbn [proc_put map fst app]; [reflexivity|]. intros H. rewrite eqb_false by (intros ->; apply H; left; auto). rewrite IH; [reflexivity|]. intros I. apply H. right. auto.
Qed.
Lemma procs_spec : forall js i (m : list (str * process)), 0 <= i -> i + Z.of_nat (length js) < 2 ^ 64 -> (forall k, In k (map fst m) -> exists x, 0 <= x < i /\ k = 112 :: dec x) ->
  number_procs i js m = m ++ map (fun x : Z * jspan => ((112 :: dec (fst x) : str), j_process (snd x))) (combine (run i (length js)) js).
Proof.
  induction js as [|j js IH]; intros i m B1 B2 K; cbn [number_procs length run combine map] in *; [rewrite app_nil_r; reflexivity|].
  rewrite proc_put_new. 2:{ intros I. apply K in I. destruct I as (x & BX & Q). injection Q as Q. apply dec_inj in Q; lia. }
  rewrite IH; [|lia|lia|].
  2:{ intros k I. rewrite map_app in I. apply in_app_iff in I. destruct I as [I|[<-|[]]]; [destruct (K k I) as (x & BX & ->); exists x; split; [lia|auto]|]. exists i. split; [lia|reflexivity]. }
  rewrite <- app_assoc. reflexivity.
Qed.
Lemma procs_nodup : forall (js : list jspan) i, 0 <= i -> i + Z.of_nat (length js) < 2 ^ 64 ->
  NoDup (map fst (map (fun x : Z * jspan => ((112 :: dec (fst x) : str), j_process (snd x))) (combine (run i (length js)) js))).
Proof.
  induction js as [|j js IH]; intros i B1 B2; cbn [length run combine map fst snd] in *; constructor; [|apply IH; lia]. intros I.
  rewrite map_map in I. apply in_map_iff in I. destruct I as ([x q] & Q & I). cbn [fst snd] in Q. injection Q as Q. apply in_combine_l in I. apply run_in in I. apply dec_inj in Q; lia.
Qed.
Lemma combine_nth : forall (js : list jspan) i n j, nth_error js n = Some j -> In (i + Z.of_nat n, j) (combine (run i (length js)) js).
Proof.
  induction js as [|a js IH]; intros i [|n] j Q; try discriminate; cbn [length run combine nth_error In] in *.
  - injection Q as ->. left. f_equal. lia.
  - right. replace (i + Z.of_nat (S n)) with (i + 1 + Z.of_nat n) by lia. apply IH. exact Q.
Qed.
Theorem trace_ok id bs : Z.of_nat (length bs) < 2 ^ 64 -> Forall (fun b => exists w, one_row b w) bs -> exists t, get_trace id bs = Some t /\
  length (t_spans t) = length bs /\ NoDup (map j_pid (t_spans t)) /\ NoDup (map fst (t_procs t)) /\ (bs <> [] -> t_id t = id) /\
  forall i b w, nth_error bs i = Some b -> b_rows b = [w] -> exists j p, to_jspan (b_cols b) w = Some j /\
    nth_error (t_spans t) i = Some (with_process j p) /\ In (p, j_process j) (t_procs t).
Proof.
  intros B F. destruct (spans_total bs F) as (js & E & F2). unfold get_trace. rewrite E. pose proof (Forall2_length _ _ _ F2) as LEN.
  pose proof (procs_spec js 0 [] ltac:(lia) ltac:(lia)) as PS. cbn [app] in PS. specialize (PS (fun k I => match I with end)).
  exists (Trace (match js with [] => [] | _ => id end) (number 0 js) (number_procs 0 js [])). split; [reflexivity|]. cbn [t_spans t_procs t_id]. rewrite number_length. rewrite PS.
  split; [auto|]. split; [apply pid_nodup; lia|]. split; [apply procs_nodup; lia|]. split.
  { intros NE. destruct js; [destruct bs; [congruence|discriminate]|reflexivity]. }
  intros i b w Q W. assert (exists j, nth_error js i = Some j /\ to_jspan (b_cols b) w = Some j) as (j & Q1 & Q2).
  { clear E LEN B F PS. revert i Q. induction F2 as [|b' j bs js (w' & W1 & W2) F2 IH]; intros [|i] Q; try discriminate.
    - injection Q as ->. rewrite W in W1. injection W1 as ->. exists j. auto.
    - apply (IH i Q). }
  exists j, (112 :: dec (0 + Z.of_nat i)). split; [exact Q2|]. split; [apply number_nth; exact Q1|].
  apply in_map_iff. exists (0 + Z.of_nat i, j). split; [reflexivity|]. apply combine_nth. exact Q1.
Qed.

(** * Search *)
Lemma put_ids id j : forall m, map t_id (search_put id j m) = if in_dec (list_eq_dec Z.eq_dec) id (map t_id m) then map t_id m else map t_id m ++ [id].
Proof.
  induction m as [|t m IH]; cbn [search_put map]; [reflexivity|]. destruct (str_eqb_spec id (t_id t)) as [Q|Q].
  - cbn [map t_id]. destruct (in_dec (list_eq_dec Z.eq_dec) id (t_id t :: map t_id m)) as [I|I]; [reflexivity|]. exfalso. apply I. left. auto.
  - cbn [map]. rewrite IH. destruct (in_dec (list_eq_dec Z.eq_dec) id (map t_id m)) as [I|I]; destruct (in_dec (list_eq_dec Z.eq_dec) id (t_id t :: map t_id m)) as [J|J]; try reflexivity.
    + exfalso. apply J. right. auto.
    + destruct J as [J|J]; [congruence|contradiction].
Qed.
(** span [s] is in the trace [id] *)
Definition holds (m : list trace) (id : str) (s : jspan) : Prop := exists t, In t m /\ t_id t = id /\ In s (t_spans t).
Lemma put_new id j : forall m, exists p, holds (search_put id j m) id (with_process j p).
Proof.
  induction m as [|t m (p & t' & I & E & H)]; cbn [search_put].
  - exists (txt "p1"). eexists. split; [left; reflexivity|]. split; [reflexivity|]. left. reflexivity.
  - destruct (str_eqb_spec id (t_id t)) as [Q|Q].
    + eexists. eexists. split; [left; reflexivity|]. cbn [t_id t_spans]. split; [auto|]. apply in_app_iff. right. left. reflexivity.
    + exists p, t'. split; [right; auto|auto].
Qed.
Lemma put_old id j i s : forall m, holds m i s -> holds (search_put id j m) i s.
Proof.
  induction m as [|t m IH]; intros (t' & I & E & H); [destruct I|]. cbn [search_put]. destruct (str_eqb_spec id (t_id t)) as [Q|Q].
  - destruct I as [->|I]; [|exists t'; split; [right; auto|auto]]. eexists. split; [left; reflexivity|]. cbn [t_id t_spans]. split; [auto|]. apply in_app_iff. left. auto.
  - destruct I as [->|I]; [exists t'; split; [left; auto|auto]|]. destruct IH as (t2 & I2 & Q2); [exists t'; auto|]. exists t2. split; [right; auto|auto].
Qed.
Lemma put_only id j i s : forall m, holds (search_put id j m) i s -> holds m i s \/ i = id /\ exists p, s = with_process j p.
Proof.
  induction m as [|t m IH]; intros (t' & I & E & H); cbn [search_put] in I.
  - destruct I as [<-|[]]. cbn [t_id t_spans] in *. destruct H as [<-|[]]. right. split; [auto|]. eexists. reflexivity.
  - destruct (str_eqb_spec id (t_id t)) as [Q|Q].
    + destruct I as [<-|I].
      * cbn [t_id t_spans] in *. apply in_app_iff in H. destruct H as [H|[<-|[]]]; [left; exists t; split; [left; auto|auto]|]. right. split; [congruence|]. eexists. reflexivity.
      * left. exists t'. split; [right; auto|auto].
    + destruct I as [<-|I]; [left; exists t; split; [left; auto|auto]|]. destruct IH as [(t2 & I2 & Q2)|R]; [exists t'; auto| |auto]. left. exists t2. split; [right; auto|auto].
Qed.
Theorem search_ok_gen : forall bs m, Forall (fun b => exists w, one_row b w) bs -> NoDup (map t_id m) -> exists ts, search_loop bs m = Some ts /\ NoDup (map t_id ts) /\
  (forall i s, holds m i s -> holds ts i s) /\
  (forall b w, In b bs -> b_rows b = [w] -> exists j p, to_jspan (b_cols b) w = Some j /\ holds ts (str_at w TRACE_ID) (with_process j p)) /\
  (forall i s, holds ts i s -> holds m i s \/ exists b w j p, In b bs /\ b_rows b = [w] /\ to_jspan (b_cols b) w = Some j /\ i = str_at w TRACE_ID /\ s = with_process j p).
Proof.
  induction bs as [|b bs IH]; intros m F ND; cbn [search_loop].
  - exists m. split; [reflexivity|]. split; [auto|]. split; [auto|]. split; [intros ? ? []|auto].
  - inversion F as [|? ? (w & W & X) F']; subst. rewrite W. destruct (readable (b_cols b) w X) as (j & Q). rewrite Q.
    destruct (IH (search_put (str_at w TRACE_ID) j m) F') as (ts & E & N1 & K1 & K2 & K3).
    { rewrite put_ids. destruct (in_dec _ _ _) as [|NI]; auto. apply NoDup_rev in ND. rewrite <- (rev_involutive (map t_id m ++ _)). apply NoDup_rev. rewrite rev_app_distr. cbn [rev app].
      constructor; auto. rewrite <- in_rev. exact NI. }
    exists ts. split; [exact E|]. split; [exact N1|]. split; [|split].
    + intros i s H. apply K1, put_old, H.
    + intros b' w' [<-|I] W'; [|eauto]. rewrite W in W'. injection W' as <-. destruct (put_new (str_at w TRACE_ID) j m) as (p & H). exists j, p. split; [exact Q|]. apply K1, H.
    + intros i s H. destruct (K3 i s H) as [G|(b' & w' & j' & p & I & R)]; [|right; exists b', w', j', p; split; [right; exact I|exact R]].
      apply put_only in G. destruct G as [G|(-> & p & ->)]; [left; exact G|]. right. exists b, w, j, p. split; [left; auto|auto].
Qed.

(** * Checking the order of the columns *)
Fixpoint until_slash (s : str) : str := match s with [] => [] | c :: r => if c =? 47 then [] else c :: until_slash r end.
Definition number_in (p : str) (c : str) : option Z :=
  if starts p c then Some (fold_left (fun a d => 10 * a + (d - 48)) (until_slash (skipn (length p) c)) 0) else None.
Lemma until_slash_app d rest : ~ In 47 d -> until_slash (d ++ [47] ++ rest) = d.
Proof.
  induction d as [|c d IH]; intros N1; [reflexivity|]. cbn [app until_slash]. destruct (Z.eqb_spec c 47) as [->|]; [exfalso; apply N1; left; auto|]. f_equal. apply IH. intros I. apply N1. right. auto.
Qed.
Lemma number_in_ok p d n rest : decimal d n -> number_in p (p ++ d ++ [47] ++ rest) = Some n.
Proof.
  intros (D1 & D2 & _). unfold number_in. rewrite starts_app. rewrite skipn_app, skipn_all, Nat.sub_diag. cbn [app skipn]. change (47 :: rest) with ([47] ++ rest).
  rewrite until_slash_app; [f_equal; exact D2|]. intros I. rewrite Forall_forall in D1. apply D1 in I. lia.
Qed.
Fixpoint ascending (l : list (option Z)) : bool :=
  match l with [] => true | None :: r => ascending r | Some x :: r => forallb (fun o => match o with Some y => x <=? y | None => true end) r && ascending r end.
Lemma ascending_ok : forall l l1 x l2 y l3, ascending l = true -> l = l1 ++ Some x :: l2 ++ Some y :: l3 -> x <= y.
Proof.
  induction l as [|o l IH]; intros l1 x l2 y l3 A1 E; [destruct l1; discriminate|]. destruct l1 as [|o' l1]; cbn [app] in E; injection E as -> E.
  - cbn [ascending] in A1. apply andb_true_iff in A1. destruct A1 as [A1 _]. rewrite forallb_forall in A1. assert (In (Some y) l) as I by (rewrite E; apply in_app_iff; right; left; auto).
    apply A1 in I. lia.
  - apply (IH l1 x l2 y l3); auto. destruct o' as [z|]; cbn [ascending] in A1; [apply andb_true_iff in A1; apply A1|exact A1].
Qed.
Lemma in_turn_check (P : Z -> str -> Prop) p n cols : (forall x c, P x c -> number_in p c = Some x) -> ascending (map (number_in p) cols) = true ->
  forallb (fun o => match o with Some y => y <? Z.of_nat n | None => true end) (map (number_in p) cols) = true -> in_turn P n cols.
Proof.
  intros W A1 A2. split.
  - intros l1 a l2 b l3 x y E PX PY. apply W in PX, PY. subst cols. rewrite !map_app in A1. cbn [map] in A1. rewrite map_app in A1. cbn [map] in A1. rewrite PX, PY in A1.
    eapply ascending_ok; [exact A1|reflexivity].
  - intros c x I PX. apply W in PX. rewrite forallb_forall in A2. specialize (A2 (Some x)). cbv beta iota in A2. assert (x <? Z.of_nat n = true) as Q; [|lia].
    apply A2. rewrite <- PX. apply in_map. exact I.
Qed.
