(** Proofs about dump and restore. *)
From Coq Require Import Ascii String.
From Coq Require Import List.
From Verif Require Import Prelude DumpModel DumpSpec.
Open Scope list_scope.
Open Scope Z_scope.
Local Notation length := Datatypes.length.

(** * Basics *)
Lemma str_eqb_eq : forall a b, str_eqb a b = true <-> a = b.
Proof.
  induction a as [|x a IH]; intros [|y b]; cbn [str_eqb]; try (split; congruence).
  rewrite andb_true_iff, Z.eqb_eq, IH. split; [intros (-> & ->); auto|intros E; injection E; auto].
Qed.
Lemma str_eqb_refl a : str_eqb a a = true. Proof. apply str_eqb_eq; auto. Qed.
Lemma str_eqb_neq a b : str_eqb a b = false <-> a <> b.
Proof. rewrite <- str_eqb_eq. destruct (str_eqb a b); split; congruence. Qed.
Lemma eqb2_eq a b : eqb2 a b = true <-> a = b.
Proof. unfold eqb2. rewrite andb_true_iff, !str_eqb_eq. destruct a, b; cbn. split; [intros (-> & ->); auto|intros E; injection E; auto]. Qed.
Lemma eqb3_eq a b : eqb3 a b = true <-> a = b.
Proof. unfold eqb3. rewrite andb_true_iff, eqb2_eq, str_eqb_eq. destruct a, b; cbn. split; [intros (-> & ->); auto|intros E; injection E; auto]. Qed.
Lemma has_iff {K V} (eqb : K -> K -> bool) (E : forall a b, eqb a b = true <-> a = b) k (l : list (K * V)) :
  has eqb k l = true <-> exists v, In (k, v) l.
Proof.
  unfold has. rewrite existsb_exists. split.
  - intros ([k' v] & I & Q). apply E in Q. cbn in Q. subst. eauto.
  - intros (v & I). exists (k, v). split; auto. apply E. auto.
Qed.

Lemma same_char_lower x y : (if (65 <=? x) && (x <=? 90) then x + 32 else x) = (if (65 <=? y) && (y <=? 90) then y + 32 else y) ->
  same_char x y.
Proof.
  unfold same_char. destruct (Z.leb_spec 65 x), (Z.leb_spec x 90), (Z.leb_spec 65 y), (Z.leb_spec y 90); cbn [andb]; lia.
Qed.
Lemma ci_same a b : ci_eqb a b = true -> same_word a b.
Proof.
  unfold ci_eqb, same_word. intros Q. apply str_eqb_eq in Q. revert b Q. unfold lower. induction a as [|x a IH]; intros [|y b] Q; cbn [map] in Q.
  - constructor.
  - discriminate.
  - discriminate.
  - injection Q. intros Q2 Q1. constructor; [apply same_char_lower; exact Q1|apply IH; exact Q2].
Qed.

(** * White space and trimming *)
Lemma is_ws_white c : is_ws c = true <-> white c.
Proof.
  unfold is_ws, white. split.
  - rewrite !orb_true_iff, !andb_true_iff, !Z.eqb_eq, !Z.leb_le. cbn [In]. lia.
  - cbn [In]. intros H. repeat (destruct H as [<-|H]; [reflexivity|]). contradiction.
Qed.
Lemma not_ws c : ~ white c -> is_ws c = false.
Proof. intros N. destruct (is_ws c) eqn:Q; auto. apply is_ws_white in Q. contradiction. Qed.
Lemma trim_start_head c s : is_ws c = false -> trim_start (c :: s) = c :: s.
Proof. intros H. cbn [trim_start]. rewrite H. auto. Qed.
Lemma trim_end_last s c : is_ws c = false -> trim_end (s ++ [c]) = s ++ [c].
Proof. intros H. unfold trim_end. rewrite rev_app_distr. cbn [rev app]. rewrite trim_start_head by auto. cbn [rev]. rewrite rev_involutive. auto. Qed.
Lemma trim_end_space s c : is_ws c = false -> trim_end ((s ++ [c]) ++ [32]) = s ++ [c].
Proof.
  intros H. unfold trim_end. rewrite !rev_app_distr. cbn [rev app trim_start]. change (is_ws 32) with true. cbv iota.
  rewrite H. cbn [rev]. rewrite rev_involutive. auto.
Qed.
Lemma trim_start_in c s : is_ws c = false -> In c s -> In c (trim_start s).
Proof.
  intros H. induction s as [|x s IH]; intros I; [destruct I|]. cbn [trim_start]. destruct (is_ws x) eqn:Q; auto.
  destruct I as [<-|I]; [congruence|auto].
Qed.
Lemma trim_in c s : is_ws c = false -> In c s -> In c (trim s).
Proof. intros H I. unfold trim, trim_end. rewrite <- in_rev. apply trim_start_in; auto. rewrite <- in_rev. apply trim_start_in; auto. Qed.
Lemma trim_nonempty s : (exists c, In c s /\ ~ white c) -> trim s <> [].
Proof. intros (c & I & N) E. apply (trim_in c) in I; [|apply not_ws; auto]. rewrite E in I. destruct I. Qed.
Lemma name_fine_ok n : plain_name n -> name_fine n = true.
Proof.
  intros (_ & S & W). unfold name_fine. apply andb_true_intro; split; apply negb_true_iff.
  - apply not_true_is_false. rewrite existsb_exists. intros (x & I & E). apply Z.eqb_eq in E. subst. auto.
  - destruct (trim n) eqn:Q; auto. exfalso. eapply trim_nonempty; eauto.
Qed.

(** * Numbers *)
Definition numval (a : Z) (l : str) : Z := fold_left (fun a c => 10 * a + (c - 48)) l a.
Lemma digits_ok : forall k z, 0 <= z -> Forall (fun c => is_digit c = true) (digits k z).
Proof.
  induction k as [|k IH]; intros z P; cbn [digits]; auto. destruct (Z.ltb_spec z 10).
  - constructor; auto. unfold is_digit. apply andb_true_intro; split; apply Z.leb_le; lia.
  - apply Forall_app. split; [apply IH; apply Z.div_pos; lia|]. constructor; auto. pose proof (Z.mod_pos_bound z 10 ltac:(lia)).
    unfold is_digit. apply andb_true_intro; split; apply Z.leb_le; lia.
Qed.
Lemma digits_val : forall k z, 0 <= z < 10 ^ Z.of_nat k -> numval 0 (digits k z) = z.
Proof.
  induction k as [|k IH]; intros z B.
  - cbn [digits]. unfold numval. cbn [fold_left]. cbn in B. lia.
  - cbn [digits]. destruct (Z.ltb_spec z 10); [unfold numval; cbn [fold_left]; lia|]. unfold numval. rewrite fold_left_app. fold (numval 0 (digits k (z / 10))).
    rewrite IH; [cbn [fold_left]; pose proof (Z.div_mod z 10 ltac:(lia)); lia|]. rewrite Nat2Z.inj_succ, Z.pow_succ_r in B by lia.
    split; [apply Z.div_pos; lia|apply Z.div_lt_upper_bound; lia].
Qed.
Lemma digits_cons : forall k z, 0 <= z -> exists c u, digits (S k) z = c :: u.
Proof. intros k z P. cbn [digits]. destruct (z <? 10); [eauto|]. destruct (digits k (z / 10)); cbn [app]; eauto. Qed.

(** * Pieces of a statement *)
Inductive piece := PW (w : str) | PQ (n : str) | PS (s : str) | PN (z : Z) | PC (c : Z) | PB.
Definition ptext (p : piece) : str :=
  match p with PW w => w | PQ n => quoted n | PS s => literal s | PN z => dec z | PC c => [c] | PB => [32] end.
Definition ptoks (p : piece) : list token :=
  match p with PW w => [TWord w] | PQ n => [TQuoted n] | PS s => [TStr s] | PN z => [TNum z] | PC c => [TP c] | PB => [] end.
Definition sep (p : piece) : bool := match p with PC _ | PB => true | _ => false end.
Definition word_ok (w : str) : bool := match w with c :: r => ident_start c && forallb ident_part r | [] => false end.
Definition piece_ok (p : piece) : Prop :=
  match p with
  | PW w => word_ok w = true | PQ n => ~ In 34 n | PS _ => True | PN z => 0 <= z < 10 ^ 20 | PC c => punct c = true | PB => True
  end.
Fixpoint alt (l : list piece) : bool :=
  match l with
  | [] => true
  | p :: r => (sep p || match r with [] => true | q :: _ => sep q end) && alt r
  end.
Definition text (l : list piece) : str := flat_map ptext l.
Definition toks (l : list piece) : list token := flat_map ptoks l.
(** How the tokenizer stands after a piece. *)
Definition emode (p : piece) : mode :=
  match p with PW w => MWord w | PQ n => MIdEnd n | PS s => MStrEnd s | PN z => MNum z | PC c => MDone (TP c) | PB => MSpace end.
Definition pre (ts : list token) (o : option (list token)) : option (list token) := match o with Some r => Some (ts ++ r) | None => None end.

Lemma lex_word w rest : forall v, forallb ident_part w = true -> lex (MWord v) (w ++ rest) = lex (MWord (v ++ w)) rest.
Proof.
  induction w as [|c w IH]; intros v H; cbn [app].
  - rewrite app_nil_r. auto.
  - cbn [forallb] in H. apply andb_true_iff in H. destruct H as (H1 & H2). cbn [lex extend]. rewrite H1, IH by auto. rewrite <- app_assoc. auto.
Qed.
Lemma lex_id n rest : forall v, ~ In 34 n -> lex (MId v) (n ++ 34 :: rest) = lex (MIdEnd (v ++ n)) rest.
Proof.
  induction n as [|c n IH]; intros v H; cbn [app].
  - rewrite app_nil_r. cbn [lex extend]. rewrite Z.eqb_refl. auto.
  - cbn [lex extend]. replace (c =? 34) with false by (symmetry; apply Z.eqb_neq; intros ->; apply H; left; auto).
    rewrite IH by (intros I; apply H; right; auto). rewrite <- app_assoc. auto.
Qed.
Lemma lex_str s rest : forall v, lex (MStr v) (esc s ++ 39 :: rest) = lex (MStrEnd (v ++ s)) rest.
Proof.
  induction s as [|c s IH]; intros v; cbn [esc flat_map app].
  - rewrite app_nil_r. cbn [lex extend]. rewrite Z.eqb_refl. auto.
  - fold (esc s). destruct (Z.eqb_spec c 39) as [->|N]; cbn [app lex extend].
    + rewrite Z.eqb_refl. cbn [lex extend]. rewrite Z.eqb_refl, IH, <- app_assoc. auto.
    + apply Z.eqb_neq in N. rewrite N, IH, <- app_assoc. auto.
Qed.
Lemma lex_num d rest : forall v, Forall (fun c => is_digit c = true) d -> lex (MNum v) (d ++ rest) = lex (MNum (numval v d)) rest.
Proof.
  induction d as [|c d IH]; intros v H; cbn [app]; auto. inversion H; subst. cbn [lex extend]. rewrite H2, IH by auto. auto.
Qed.
Lemma start_ident c : ident_start c = true -> start c = Some (MWord [c]).
Proof.
  intros H. unfold start. replace ((c =? 32) || (c =? 9) || (c =? 10) || (c =? 13)) with false; [rewrite H; auto|]. symmetry. clear - H.
  unfold ident_start, is_letter in H. destruct (Z.eqb_spec c 32), (Z.eqb_spec c 9), (Z.eqb_spec c 10), (Z.eqb_spec c 13); subst; try discriminate H; auto.
Qed.
Lemma start_digit c : is_digit c = true -> start c = Some (MNum (c - 48)).
Proof.
  intros H. pose proof H as H0. unfold is_digit in H. apply andb_true_iff in H. rewrite !Z.leb_le in H. unfold start.
  replace ((c =? 32) || (c =? 9) || (c =? 10) || (c =? 13)) with false by (symmetry; rewrite !orb_false_iff, !Z.eqb_neq; lia).
  replace (ident_start c) with false; [rewrite H0; auto|]. symmetry. unfold ident_start, is_letter. rewrite !orb_false_iff, !andb_false_iff, !Z.eqb_neq, !Z.leb_gt. lia.
Qed.
Lemma punct_cases c : punct c = true -> c = 40 \/ c = 41 \/ c = 44 \/ c = 46 \/ c = 59 \/ c = 61.
Proof. unfold punct. rewrite !orb_true_iff, !Z.eqb_eq. lia. Qed.

Definition head_of (p : piece) : Z := hd 32 (ptext p).
Lemma lex_piece p m ts rest : piece_ok p -> flush m = Some ts -> extend m (head_of p) = None ->
  lex m (ptext p ++ rest) = pre ts (lex (emode p) rest).
Proof.
  intros K F E. unfold head_of in E. destruct p as [w|n|s|z|c|]; cbn [piece_ok ptext emode] in *.
  - destruct w as [|c w]; [discriminate K|]. cbn [word_ok] in K. apply andb_true_iff in K. destruct K as (K1 & K2). cbn [hd app] in E |- *.
    cbn [lex]. rewrite E, F, start_ident by auto. rewrite lex_word by auto. cbn [app]. destruct (lex _ rest); auto.
  - unfold quoted in *. cbn [hd app] in E |- *. cbn [lex]. rewrite E, F. change (start 34) with (Some (MId [])). rewrite <- app_assoc. cbn [app].
    rewrite lex_id by auto. cbn [app]. destruct (lex _ rest); auto.
  - unfold literal in *. cbn [hd app] in E |- *. cbn [lex]. rewrite E, F. change (start 39) with (Some (MStr [])). rewrite <- app_assoc. cbn [app].
    rewrite lex_str. cbn [app]. destruct (lex _ rest); auto.
  - unfold dec in *. destruct (digits_cons 19 z ltac:(lia)) as (c & u & Q). pose proof (digits_ok 20 z ltac:(lia)) as D. pose proof (digits_val 20 z ltac:(exact K)) as V.
    rewrite Q in *. cbn [hd app] in E |- *. inversion D as [|? ? D1 D2]. cbn [lex]. rewrite E, F, start_digit by auto. rewrite lex_num by auto.
    assert (W : numval (c - 48) u = z) by exact V. rewrite W. destruct (lex _ rest); auto.
  - cbn [hd app] in E |- *. cbn [lex]. rewrite E, F. replace (start c) with (Some (MDone (TP c))); [destruct (lex _ rest); auto|].
    destruct (punct_cases c K) as [->|[->|[->|[->|[->| ->]]]]]; reflexivity.
  - cbn [hd app] in E |- *. cbn [lex]. rewrite E, F. change (start 32) with (Some MSpace). cbv beta iota. destruct (lex MSpace rest); auto.
Qed.
Lemma emode_flush p : flush (emode p) = Some (ptoks p). Proof. destruct p; auto. Qed.
(** A separator ends any token; after a separator anything begins. *)
Lemma emode_sep p q : sep p || sep q = true -> piece_ok q -> extend (emode p) (head_of q) = None.
Proof.
  intros S K. destruct (sep p) eqn:Q; [destruct p; try discriminate Q; auto|]. cbn [orb] in S. unfold head_of.
  destruct q as [| | | |c|]; try discriminate S; cbn [ptext hd piece_ok] in *.
  - destruct (punct_cases c K) as [->|[->|[->|[->|[->| ->]]]]]; destruct p; try discriminate Q; reflexivity.
  - destruct p; try discriminate Q; reflexivity.
Qed.
Lemma lex_pieces : forall l m ts, flush m = Some ts -> Forall piece_ok l -> alt l = true ->
  match l with [] => True | p :: _ => extend m (head_of p) = None end -> lex m (text l) = Some (ts ++ toks l).
Proof.
  induction l as [|p l IH]; intros m ts F K A E; unfold text, toks; cbn [flat_map].
  - cbn [lex]. rewrite app_nil_r. auto.
  - inversion K as [|? ? K1 K2]; subst. cbn [alt] in A. apply andb_true_iff in A. destruct A as (A1 & A2).
    rewrite (lex_piece p m ts) by auto. fold (text l). rewrite (IH (emode p) (ptoks p)); auto using emode_flush.
    destruct l as [|q l]; auto. inversion K2; subst. apply emode_sep; auto.
Qed.
Lemma lex_text l : Forall piece_ok l -> alt l = true -> lex MSpace (text l) = Some (toks l).
Proof. intros K A. rewrite (lex_pieces l MSpace []); auto. destruct l; auto. Qed.

(** * Cutting at semicolons *)
Definition no_semi (p : piece) : Prop := match p with PC c => c <> 59 | _ => True end.
Lemma pieces_char c cur l : c <> 39 -> c <> 34 -> c <> 59 -> pieces false false cur (c :: l) = pieces false false (cur ++ [c]) l.
Proof. intros A B C. cbn [pieces]. apply Z.eqb_neq in A, B, C. rewrite A, B, C. auto. Qed.
Lemma pieces_chars w : forall cur l, Forall (fun c => c <> 39 /\ c <> 34 /\ c <> 59) w -> pieces false false cur (w ++ l) = pieces false false (cur ++ w) l.
Proof.
  induction w as [|c w IH]; intros cur l H; cbn [app]; [rewrite app_nil_r; auto|]. inversion H as [|? ? (A & B & C) H2]; subst.
  rewrite pieces_char by auto. rewrite IH by auto. rewrite <- app_assoc. auto.
Qed.
Lemma ident_chars c : ident_part c = true -> c <> 39 /\ c <> 34 /\ c <> 59.
Proof. intros H. repeat split; intros ->; discriminate H. Qed.
Lemma start_part c : ident_start c = true -> ident_part c = true.
Proof. intros H. unfold ident_part. rewrite H. auto. Qed.
Lemma pieces_in_id n : forall cur l, ~ In 34 n -> pieces false true cur (n ++ 34 :: l) = pieces false false (cur ++ n ++ [34]) l.
Proof.
  induction n as [|c n IH]; intros cur l H; cbn [app].
  - cbn [pieces]. change (34 =? 39) with false. change (34 =? 34) with true. cbv iota. auto.
  - cbn [pieces]. destruct (Z.eqb_spec c 39).
    + rewrite IH by (intros I; apply H; right; auto). rewrite <- app_assoc. auto.
    + replace (c =? 34) with false by (symmetry; apply Z.eqb_neq; intros ->; apply H; left; auto).
      cbn [negb]. rewrite andb_false_r. cbn [andb]. rewrite IH by (intros I; apply H; right; auto). rewrite <- app_assoc. auto.
Qed.
Lemma pieces_in_str s : forall cur l, pieces true false cur (esc s ++ 39 :: l) = pieces false false (cur ++ esc s ++ [39]) l.
Proof.
  induction s as [|c s IH]; intros cur l; cbn [esc flat_map app].
  - cbn [pieces]. change (39 =? 39) with true. cbv iota. auto.
  - fold (esc s). destruct (Z.eqb_spec c 39) as [->|N]; cbn [app pieces].
    + change (39 =? 39) with true. cbv iota. cbn [negb]. rewrite IH. rewrite <- !app_assoc. auto.
    + apply Z.eqb_neq in N. rewrite N. destruct (Z.eqb_spec c 34).
      * rewrite IH, <- app_assoc. auto.
      * cbn [negb andb]. rewrite andb_false_r, IH, <- app_assoc. auto.
Qed.
Lemma pieces_piece p cur l : piece_ok p -> no_semi p -> pieces false false cur (ptext p ++ l) = pieces false false (cur ++ ptext p) l.
Proof.
  intros K N. destruct p as [w|n|s|z|c|]; cbn [piece_ok ptext no_semi] in *.
  - apply pieces_chars. destruct w as [|c w]; [discriminate K|]. cbn [word_ok] in K. apply andb_true_iff in K. destruct K as (K1 & K2).
    constructor; [apply ident_chars, start_part; auto|]. apply Forall_forall. intros x I. apply ident_chars. rewrite forallb_forall in K2. auto.
  - unfold quoted. cbn [app pieces]. change (34 =? 39) with false. change (34 =? 34) with true. cbv iota. cbn [negb]. rewrite <- app_assoc. cbn [app].
    rewrite pieces_in_id by auto. rewrite <- app_assoc. auto.
  - unfold literal. cbn [app pieces]. change (39 =? 39) with true. cbv iota. cbn [negb]. rewrite <- app_assoc. cbn [app].
    rewrite pieces_in_str. rewrite <- app_assoc. auto.
  - apply pieces_chars. apply Forall_forall. intros x I. pose proof (digits_ok 20 z ltac:(lia)) as D. rewrite Forall_forall in D. apply D in I.
    unfold is_digit in I. apply andb_true_iff in I. rewrite !Z.leb_le in I. lia.
  - apply pieces_chars. constructor; auto. destruct (punct_cases c K) as [->|[->|[->|[->|[->| ->]]]]]; repeat split; try congruence.
  - apply pieces_chars. constructor; auto. repeat split; congruence.
Qed.
Lemma pieces_text l : forall cur r, Forall piece_ok l -> Forall no_semi l -> pieces false false cur (text l ++ r) = pieces false false (cur ++ text l) r.
Proof.
  induction l as [|p l IH]; intros cur r K N; unfold text; cbn [flat_map]; [cbn [app]; rewrite app_nil_r; auto|].
  inversion K; inversion N; subst. rewrite <- app_assoc, pieces_piece by auto. fold (text l). rewrite IH by auto. rewrite <- app_assoc. auto.
Qed.

(** * One line of the script is one statement *)
Definition fine (p : piece) : Prop := piece_ok p /\ no_semi p.
Lemma fine_ok l : Forall fine l -> Forall piece_ok l. Proof. apply Forall_impl. intros p H; apply H. Qed.
Lemma fine_ns l : Forall fine l -> Forall no_semi l. Proof. apply Forall_impl. intros p H; apply H. Qed.
Definition stmt_text (T : str) (s : stmt) : Prop :=
  exists w l, T = text (PW w :: l ++ [PC 59]) /\ Forall fine (PW w :: l) /\ alt (PW w :: l) = true /\ parse (toks (PW w :: l) ++ [TP 59]) = Some (Some s).
Lemma alt_end l : alt l = true -> alt (l ++ [PC 59]) = true.
Proof.
  induction l as [|p l IH]; intros A; [auto|]. cbn [app alt] in *. apply andb_true_iff in A. destruct A as (A1 & A2). rewrite IH by auto.
  rewrite andb_true_r. destruct l as [|q l]; cbn [app]; auto.
Qed.
Lemma text_app a b : text (a ++ b) = text a ++ text b. Proof. apply flat_map_app. Qed.
Lemma toks_app a b : toks (a ++ b) = toks a ++ toks b. Proof. apply flat_map_app. Qed.
Lemma start_not_ws c : ident_start c = true -> is_ws c = false.
Proof. intros H. destruct (is_ws c) eqn:Q; auto. apply is_ws_white in Q. unfold white in Q. cbn [In] in Q. repeat (destruct Q as [<-|Q]; [discriminate H|]). contradiction. Qed.

Section Reading.
Variables (dur_text size_text : Z -> str) (dur_read size_read : str -> option Z).
Notation request := (request dur_read size_read).
Notation exec := (exec dur_read size_read).
Notation line := (line dur_read size_read).

Lemma request_stmt T s f t c : stmt_text T s -> request f t T c = exec f t s c.
Proof.
  intros (w & l & -> & K & A & P). unfold DumpModel.request. change (PW w :: l ++ [PC 59]) with ((PW w :: l) ++ [PC 59]). rewrite lex_text.
  - rewrite toks_app. change (toks [PC 59]) with [TP 59]. rewrite P. auto.
  - apply Forall_app. split; [apply fine_ok; auto|]. apply Forall_cons; [reflexivity|apply Forall_nil].
  - apply alt_end. auto.
Qed.
Lemma line_stmt T s stop f t c c' : stmt_text T s -> exec f t s c = Some c' ->
  line stop f (Client t [] c true) T = Client t [] c' true.
Proof.
  intros K X. pose proof (request_stmt T s f t c K) as R. rewrite X in R. destruct K as (w & l & E & K & A & P).
  change (PW w :: l ++ [PC 59]) with ((PW w :: l) ++ [PC 59]) in E. rewrite text_app in E. change (text [PC 59]) with [59] in E. subst T.
  set (B := text (PW w :: l)) in *. unfold DumpModel.line. cbn [cl_ok cl_tenant cl_query cl_cat negb]. rewrite andb_false_r.
  assert (H : exists h r, B = h :: r /\ ident_start h = true).
  { inversion K as [|? ? (K1 & _) _]; subst. destruct w as [|h w]; [discriminate K1|]. cbn [piece_ok word_ok] in K1. apply andb_true_iff in K1. destruct K1 as (K1 & _).
    exists h, (w ++ text l). split; auto. }
  destruct H as (h & r & EB & Hh). pose proof (start_not_ws h Hh) as Hw.
  assert (T1 : trim_end (B ++ [59]) = B ++ [59]) by (apply trim_end_last; reflexivity).
  assert (T2 : trim (B ++ [59]) = B ++ [59]).
  { unfold trim. replace (trim_start (B ++ [59])) with (B ++ [59]); auto. rewrite EB. cbn [app]. rewrite trim_start_head; auto. }
  assert (N : h <> 45 /\ h <> 92) by (split; intros ->; discriminate Hh). destruct N as (N1 & N2). apply Z.eqb_neq in N1, N2. rewrite Z.eqb_sym in N1, N2.
  assert (S1 : starts_with (txt "--") (B ++ [59]) = false) by (rewrite EB; change (txt "--") with [45; 45]; cbn [app starts_with]; rewrite N1; auto).
  assert (S2 : starts_with CHANGE (B ++ [59]) = false) by (rewrite EB; change CHANGE with (92 :: tl CHANGE); cbn [app starts_with]; rewrite N2; auto).
  assert (S3 : starts_with (txt "\c") (B ++ [59]) = false) by (rewrite EB; change (txt "\c") with [92; 99]; cbn [app starts_with]; rewrite N2; auto).
  rewrite S1, T2, S2, S3, T1. cbv zeta. unfold ends_with_semi. rewrite rev_app_distr. cbn [rev app].
  unfold exec_and_print. assert (PT : pieces false false [] (B ++ [59]) = [B]).
  { unfold B. rewrite pieces_text by (first [apply fine_ok; exact K|apply fine_ns; exact K]). reflexivity. }
  rewrite PT.
  cbn [send]. replace (blank B) with false.
  - rewrite R. auto.
  - symmetry. unfold blank. destruct (trim B) eqn:Q; auto. exfalso. apply (trim_nonempty B); auto. exists h. rewrite EB. split; [left; auto|].
    intros W. apply is_ws_white in W. congruence.
Qed.

Definition W (s : string) : piece := PW (txt s).
Definition ine_p (i : bool) : list piece := if i then [W "if"; PB; W "not"; PB; W "exists"; PB] else [].
Ltac fine_tac := repeat (apply Forall_cons; [split; [first [reflexivity|exact I|eassumption]|first [exact I|cbn [no_semi]; congruence]]|]); try apply Forall_nil.

Lemma role_stmt n h : plain_name n -> stmt_text (role_text n h) (SCreateRole false n (option_map sysrole_text h)).
Proof.
  intros P. pose proof (name_fine_ok n P) as F. destruct P as ((Q & _) & _). unfold role_text.
  exists (txt "create"), ([PB; W "role"; PB; PQ n] ++ match h with Some h => [PB; W "inherit"; PB; PW (sysrole_text h)] | None => [] end).
  destruct h as [[]|]; cbn [app]; (split; [reflexivity|]); (split; [fine_tac|]); (split; [reflexivity|]).
  all: cbv -[name_fine]; rewrite F; reflexivity.
Qed.
Lemma grant_stmt d r p : ~ In 34 d -> ~ In 34 r -> stmt_text (grant_text d r p) (SGrant p d r).
Proof.
  intros D R. exists (txt "grant"), [PB; PW (priv_text p); PB; W "on"; PB; W "database"; PB; PQ d; PB; W "to"; PB; PQ r].
  destruct p; (split; [reflexivity|]); (split; [fine_tac|]); (split; [reflexivity|]); reflexivity.
Qed.
Lemma member_stmt t u r : ~ In 34 t -> ~ In 34 u -> ~ In 34 r -> stmt_text (member_text t u r) (SAddUser t u r).
Proof.
  intros A B C. exists (txt "alter"), [PB; W "tenant"; PB; PQ t; PB; W "add"; PB; W "user"; PB; PQ u; PB; W "as"; PB; PQ r].
  split; [reflexivity|]. split; [fine_tac|]. split; reflexivity.
Qed.

(** The trailing blank is cut off. *)
Lemma trim_text w l q : word_ok w = true -> match q with PS _ | PQ _ => True | _ => False end ->
  trim (text (PW w :: l ++ [q])) = text (PW w :: l ++ [q]) /\ trim (text (PW w :: l ++ [q; PB])) = text (PW w :: l ++ [q]).
Proof.
  intros K Q. destruct w as [|h w]; [discriminate K|]. cbn [word_ok] in K. apply andb_true_iff in K. destruct K as (K & _). apply start_not_ws in K.
  assert (E : exists m c, text (PW (h :: w) :: l ++ [q]) = h :: m ++ [c] /\ is_ws c = false).
  { change (PW (h :: w) :: l ++ [q]) with ((PW (h :: w) :: l) ++ [q]). rewrite text_app. unfold text. cbn [flat_map ptext app]. rewrite app_nil_r. destruct q; try destruct Q.
    - exists ((w ++ flat_map ptext l) ++ 34 :: n), 34. split; [|reflexivity]. unfold ptext, quoted. rewrite <- !app_assoc. reflexivity.
    - exists ((w ++ flat_map ptext l) ++ 39 :: esc s), 39. split; [|reflexivity]. unfold ptext, literal. rewrite <- !app_assoc. reflexivity. }
  destruct E as (m & c & E & C). replace (text (PW (h :: w) :: l ++ [q; PB])) with (text (PW (h :: w) :: l ++ [q]) ++ [32]).
  - rewrite E. split; unfold trim; cbn [app]; rewrite trim_start_head by auto.
    + change (h :: m ++ [c]) with ((h :: m) ++ [c]). apply trim_end_last. auto.
    + change (h :: (m ++ [c]) ++ [32]) with (((h :: m) ++ [c]) ++ [32]). rewrite trim_end_space by auto. auto.
  - change [32] with (text [PB]). rewrite <- text_app. cbn [app]. rewrite <- app_assoc. auto.
Qed.
Lemma trimmed w l q X : word_ok w = true -> match q with PS _ | PQ _ => True | _ => False end ->
  X = fold_right (fun p a => ptext p ++ a) (ptext q) (PW w :: l) \/ X = text (PW w :: l ++ [q; PB]) -> trim X ++ [59] = text (PW w :: (l ++ [q]) ++ [PC 59]).
Proof.
  intros K Q E. destruct (trim_text w l q K Q) as (T1 & T2). change (PW w :: (l ++ [q]) ++ [PC 59]) with ((PW w :: l ++ [q]) ++ [PC 59]). rewrite text_app.
  change (text [PC 59]) with [59]. f_equal. destruct E as [-> | ->]; auto.
  replace (fold_right (fun p a => ptext p ++ a) (ptext q) (PW w :: l)) with (text (PW w :: l ++ [q])); auto.
  change (PW w :: l ++ [q]) with ((PW w :: l) ++ [q]). generalize (PW w :: l). clear. induction l as [|p l IH]; unfold text in *; cbn [app flat_map fold_right];
    [apply app_nil_r|rewrite IH; auto].
Qed.
Definition t_stmt (o : topts) : list (str * str) :=
  match t_comment o with Some s => [(txt "comment", s)] | None => [] end ++ match t_drop o with Some z => [(txt "drop_after", dur_text z)] | None => [] end.
Lemma tenant_stmt i n o : tenant_ok dur_text dur_read n o ->
  stmt_text (tenant_text dur_text i n o) (SCreateTenant i n (t_stmt o)) /\ tenant_plan dur_read (t_stmt o) (TOpts None None None false) = Some o.
Proof.
  intros (P & _ & _ & R & L & H). pose proof (name_fine_ok n P) as F. destruct P as ((Q & _) & _). destruct o as [cm dr li hi]. cbn [t_limits t_hidden t_drop] in *. subst.
  split.
  - unfold tenant_text, tenant_opts, t_stmt. cbn [t_comment t_drop t_limits].
    exists (txt "create"), ([PB; W "tenant"; PB] ++ ine_p i ++ [PQ n] ++
       match cm, dr with
       | Some s, Some z => [PB; W "with"; PB; W "comment"; PC 61; PS s; PC 44; PB; W "drop_after"; PC 61; PS (dur_text z)]
       | Some s, None => [PB; W "with"; PB; W "comment"; PC 61; PS s]
       | None, Some z => [PB; W "with"; PB; W "drop_after"; PC 61; PS (dur_text z)]
       | None, None => []
       end).
    split; [|split; [|split]].
    + destruct i, cm as [s|], dr as [z|]; cbn [ine_p app].
      all: match goal with |- _ = text (PW ?w :: ?a :: ?b :: ?c :: ?l) => idtac end.
      all: first
        [ refine (trimmed _ [PB; W "tenant"; PB; W "if"; PB; W "not"; PB; W "exists"; PB; PQ n; PB; W "with"; PB; W "comment"; PC 61; PS s; PC 44; PB; W "drop_after"; PC 61] (PS (dur_text z)) _ _ _ _); [reflexivity|exact I|left; reflexivity]
        | refine (trimmed _ [PB; W "tenant"; PB; W "if"; PB; W "not"; PB; W "exists"; PB; PQ n; PB; W "with"; PB; W "comment"; PC 61] (PS s) _ _ _ _); [reflexivity|exact I|left; reflexivity]
        | refine (trimmed _ [PB; W "tenant"; PB; W "if"; PB; W "not"; PB; W "exists"; PB; PQ n; PB; W "with"; PB; W "drop_after"; PC 61] (PS (dur_text z)) _ _ _ _); [reflexivity|exact I|left; reflexivity]
        | refine (trimmed _ [PB; W "tenant"; PB; W "if"; PB; W "not"; PB; W "exists"; PB] (PQ n) _ _ _ _); [reflexivity|exact I|right; reflexivity]
        | refine (trimmed _ [PB; W "tenant"; PB; PQ n; PB; W "with"; PB; W "comment"; PC 61; PS s; PC 44; PB; W "drop_after"; PC 61] (PS (dur_text z)) _ _ _ _); [reflexivity|exact I|left; reflexivity]
        | refine (trimmed _ [PB; W "tenant"; PB; PQ n; PB; W "with"; PB; W "comment"; PC 61] (PS s) _ _ _ _); [reflexivity|exact I|left; reflexivity]
        | refine (trimmed _ [PB; W "tenant"; PB; PQ n; PB; W "with"; PB; W "drop_after"; PC 61] (PS (dur_text z)) _ _ _ _); [reflexivity|exact I|left; reflexivity]
        | refine (trimmed _ [PB; W "tenant"; PB] (PQ n) _ _ _ _); [reflexivity|exact I|right; reflexivity] ].
    + destruct i, cm as [s|], dr as [z|]; cbn [ine_p app]; fine_tac.
    + destruct i, cm as [s|], dr as [z|]; reflexivity.
    + destruct i, cm as [s|], dr as [z|]; cbv -[name_fine]; rewrite F; reflexivity.
  - unfold t_stmt. cbn [t_comment t_drop]. destruct cm as [s|], dr as [z|]; cbn [app tenant_plan]; auto.
    + change (str_eqb (txt "comment") (txt "comment")) with true. change (str_eqb (txt "drop_after") (txt "comment")) with false. cbv iota. destruct R as (R & _). rewrite R. auto.
    + change (str_eqb (txt "drop_after") (txt "comment")) with false. cbv iota. destruct R as (R & _). rewrite R. auto.
Qed.

Definition bool_v (b : bool) : value := VBool b.
Definition u_stmt (o : uopts) : list (str * value) :=
  match u_hash o with Some s => [(txt "hash_password", VStr s)] | None => [] end ++
  match u_comment o with Some s => [(txt "comment", VStr s)] | None => [] end ++
  match u_change o with Some b => [(txt "must_change_password", VBool b)] | None => [] end ++
  match u_key o with Some s => [(txt "rsa_public_key", VStr s)] | None => [] end ++
  match u_admin o with Some b => [(txt "granted_admin", VBool b)] | None => [] end.
(** Options in the text of a user. *)
Definition val_p (v : value) : piece := match v with VStr s => PS s | VBool b => PW (bool_text b) | VOther => PB end.
Fixpoint opts_p (os : list (str * value)) : list piece :=
  match os with
  | [] => []
  | [(k, v)] => [PW k; PC 61; val_p v]
  | (k, v) :: os => PW k :: PC 61 :: val_p v :: PC 44 :: PB :: opts_p os
  end.
Definition key_ok (os : list (str * value)) : Prop := Forall (fun x => word_ok (fst x) = true /\ lower (fst x) = fst x /\ snd x <> VOther) os.
Lemma opts_text os : join (txt ", ") (map (fun x => fst x ++ [61] ++ ptext (val_p (snd x))) os) = text (opts_p os).
Proof.
  induction os as [|(k, v) os IH]; auto. destruct os as [|(k', v') os].
  - cbn [map join opts_p]. unfold text. cbn [flat_map ptext fst snd]. rewrite app_nil_r. auto.
  - change (opts_p ((k, v) :: (k', v') :: os)) with (PW k :: PC 61 :: val_p v :: PC 44 :: PB :: opts_p ((k', v') :: os)).
    change (join (txt ", ") (map (fun x => fst x ++ [61] ++ ptext (val_p (snd x))) ((k, v) :: (k', v') :: os)))
      with ((k ++ [61] ++ ptext (val_p v)) ++ txt ", " ++ join (txt ", ") (map (fun x => fst x ++ [61] ++ ptext (val_p (snd x))) ((k', v') :: os))).
    rewrite IH. unfold text. cbn [flat_map ptext]. change (txt ", ") with [44; 32]. rewrite <- !app_assoc. auto.
Qed.
Lemma opts_read os : forall k, os <> [] -> key_ok os -> (length os <= k)%nat -> user_options k (toks (opts_p os) ++ [TP 59]) = Some (os, [TP 59]).
Proof.
  induction os as [|(n, v) os IH]; intros k N K L; [congruence|]. inversion K as [|? ? (K1 & K2 & K3) K4]; subst. cbn [fst snd] in *.
  destruct k as [|k]; [cbn [length] in L; lia|].
  assert (V : forall r, a_value (skip_eq (TP 61 :: ptoks (val_p v) ++ r)) = Some (v, r)).
  { intros r. destruct v as [s|[]|]; [reflexivity|reflexivity|reflexivity|congruence]. }
  destruct os as [|(n', v') os].
  - unfold toks. cbn [opts_p flat_map ptoks app]. cbn [user_options ident]. rewrite <- app_assoc. cbn [app]. rewrite V, K2. reflexivity.
  - change (opts_p ((n, v) :: (n', v') :: os)) with (PW n :: PC 61 :: val_p v :: PC 44 :: PB :: opts_p ((n', v') :: os)).
    unfold toks. cbn [flat_map ptoks app]. fold (toks (opts_p ((n', v') :: os))). cbn [user_options ident]. rewrite <- app_assoc. rewrite V, K2. cbn [app pun].
    change (44 =? 44) with true. cbv iota. rewrite IH; [auto|congruence|auto|cbn [length] in *; lia].
Qed.
Lemma opts_fine os : key_ok os -> Forall fine (opts_p os) /\ alt (opts_p os) = true /\ (forall p, hd_error (opts_p os) = Some p -> exists k, p = PW k).
Proof.
  induction os as [|(n, v) os IH]; intros K; [cbn; repeat split; auto; discriminate|]. inversion K as [|? ? (K1 & K2 & K3) K4]; subst. cbn [fst snd] in *.
  assert (V : fine (val_p v)) by (destruct v as [s|[]|]; split; cbn; auto; reflexivity).
  destruct os as [|(n', v') os].
  - cbn [opts_p]. split; [|split].
    + apply Forall_cons; [split; [exact K1|exact I]|]. apply Forall_cons; [split; [reflexivity|cbn; congruence]|]. apply Forall_cons; auto.
    + destruct v as [s|[]|]; reflexivity.
    + intros p E. injection E as <-. eauto.
  - change (opts_p ((n, v) :: (n', v') :: os)) with (PW n :: PC 61 :: val_p v :: PC 44 :: PB :: opts_p ((n', v') :: os)).
    destruct (IH K4) as (I1 & I2 & I3). split; [|split].
    + apply Forall_cons; [split; [exact K1|exact I]|]. apply Forall_cons; [split; [reflexivity|cbn; congruence]|]. apply Forall_cons; auto.
      apply Forall_cons; [split; [reflexivity|cbn; congruence]|]. apply Forall_cons; [split; exact I|]. auto.
    + cbn [alt sep orb]. rewrite I2, orb_true_r. auto.
    + intros p E. injection E as <-. eauto.
Qed.
Lemma user_opts_text o : user_opts o = map (fun x => fst x ++ [61] ++ ptext (val_p (snd x))) (u_stmt o).
Proof. destruct o as [[] [] [] [] []]; reflexivity. Qed.
Lemma u_stmt_keys o : key_ok (u_stmt o).
Proof.
  unfold key_ok, u_stmt. repeat (apply Forall_app; split).
  all: match goal with |- Forall _ (match ?x with _ => _ end) => destruct x end; repeat apply Forall_cons; try apply Forall_nil; repeat split; cbn [snd]; congruence.
Qed.
Lemma u_stmt_plan o : user_plan (u_stmt o) (UOpts None None None None None) = Some o.
Proof. destruct o as [[] [] [] [] []]; reflexivity. Qed.
Lemma user_stmt i n o : user_ok n o ->
  stmt_text (user_text i n o) (SCreateUser i n (u_stmt o)).
Proof.
  intros (P & _). pose proof (name_fine_ok n P) as F. destruct P as ((Q & _) & _). pose proof (u_stmt_keys o) as K. pose proof (opts_fine _ K) as (O1 & O2 & O3).
  unfold user_text. rewrite user_opts_text. unfold with_text. pose proof (opts_text (u_stmt o)) as T. pose proof (opts_read (u_stmt o)) as R.
  remember (u_stmt o) as os eqn:E. clear E. destruct os as [|x os].
  - cbn [map]. exists (txt "create"), ([PB; W "user"; PB] ++ ine_p i ++ [PQ n; PB]).
    destruct i; (split; [reflexivity|]); (split; [cbn [ine_p app]; fine_tac|]); (split; [reflexivity|]); cbv -[name_fine]; rewrite F; reflexivity.
  - exists (txt "create"), (([PB; W "user"; PB] ++ ine_p i ++ [PQ n; PB; W "with"; PB]) ++ opts_p (x :: os)).
    cbn [map] in T |- *. rewrite T. split; [|split; [|split]].
    + change (PW (txt "create") :: (([PB; W "user"; PB] ++ ine_p i ++ [PQ n; PB; W "with"; PB]) ++ opts_p (x :: os)) ++ [PC 59])
        with (((PW (txt "create") :: [PB; W "user"; PB] ++ ine_p i ++ [PQ n; PB; W "with"; PB]) ++ opts_p (x :: os)) ++ [PC 59]).
      rewrite !text_app. generalize (text (opts_p (x :: os))). intros tl. change (text [PC 59]) with [59]. rewrite <- app_assoc.
      replace ((txt "with " ++ tl) ++ [59]) with (txt "with " ++ tl ++ [59]) by (rewrite app_assoc; auto).
      destruct i; cbn [ine_p app]; unfold text; cbn [flat_map]; rewrite ?app_nil_r, <- ?app_assoc; reflexivity.
    + change (PW (txt "create") :: ([PB; W "user"; PB] ++ ine_p i ++ [PQ n; PB; W "with"; PB]) ++ opts_p (x :: os))
        with ((PW (txt "create") :: [PB; W "user"; PB] ++ ine_p i ++ [PQ n; PB; W "with"; PB]) ++ opts_p (x :: os)).
      apply Forall_app. split; auto. destruct i; cbn [ine_p app]; fine_tac.
    + destruct i; cbn [ine_p app alt sep orb andb W]; rewrite O2; destruct (opts_p (x :: os)); auto.
    + change (PW (txt "create") :: ([PB; W "user"; PB] ++ ine_p i ++ [PQ n; PB; W "with"; PB]) ++ opts_p (x :: os))
        with ((PW (txt "create") :: [PB; W "user"; PB] ++ ine_p i ++ [PQ n; PB; W "with"; PB]) ++ opts_p (x :: os)).
      rewrite toks_app, <- app_assoc. specialize (R (length (toks (opts_p (x :: os)) ++ [TP 59])) ltac:(congruence) K).
      remember (toks (opts_p (x :: os)) ++ [TP 59]) as tl eqn:ET.
      assert (S : user_options (length tl) tl = Some (x :: os, [TP 59])).
      { apply R. subst tl. clear. rewrite app_length. generalize (x :: os). intros l. induction l as [|(k, v) l IH]; cbn [length] in *; [lia|].
        destruct l as [|(k', v') l]; [cbn [opts_p length]; unfold toks; cbn [flat_map ptoks app length]; lia|].
        change (opts_p ((k, v) :: (k', v') :: l)) with (PW k :: PC 61 :: val_p v :: PC 44 :: PB :: opts_p ((k', v') :: l)).
        unfold toks in *. cbn [flat_map ptoks app length]. rewrite app_length. cbn [length] in *. lia. }
      clear - S F. destruct i; cbv -[name_fine user_options length]; rewrite F; rewrite S; reflexivity.
Qed.

Lemma esc_id s : ~ In 39 s -> esc s = s.
Proof.
  induction s as [|c s IH]; intros N; auto. unfold esc in *. cbn [flat_map]. rewrite IH by (intros X; apply N; right; auto).
  destruct (Z.eqb_spec c 39) as [->|_]; [exfalso; apply N; left; auto|auto].
Qed.
Lemma bool_no_quote b : ~ In 39 (bool_text b).
Proof. destruct b; cbn; intros H; repeat (destruct H as [H|H]; [discriminate H|]); contradiction. Qed.
Definition d_stmt (o : dopts) : dbast :=
  DbAst (Some (prec_text (d_prec o))) (Some (size_text (d_mem o))) (Some (d_parts o)) (Some (size_text (d_wal o))) (Some (bool_text (d_sync o)))
        (Some (bool_text (d_strict o))) (Some (d_readers o)) (Some (dur_text (d_ttl o))) (Some (d_shard o)) (Some (d_replica o)) (Some (dur_text (d_vnode o))).
Definition db_opts_p (o : dopts) : list piece :=
  [W "with"; PB; W "precision"; PB; PS (prec_text (d_prec o)); PB; W "max_memcache_size"; PB; PS (size_text (d_mem o)); PB;
   W "memcache_partitions"; PB; PN (d_parts o); PB; W "wal_max_file_size"; PB; PS (size_text (d_wal o)); PB; W "wal_sync"; PB; PS (bool_text (d_sync o)); PB;
   W "strict_write"; PB; PS (bool_text (d_strict o)); PB; W "max_cache_readers"; PB; PN (d_readers o); PB; W "ttl"; PB; PS (dur_text (d_ttl o)); PB;
   W "shard"; PB; PN (d_shard o); PB; W "replica"; PB; PN (d_replica o); PB; W "vnode_duration"; PB].
Lemma fine_n z : u64 z -> fine (PN z).
Proof. intros U. split; [|exact I]. cbn [piece_ok]. unfold u64 in U. assert (2 ^ 64 < 10 ^ 20) by reflexivity. lia. Qed.
Lemma db_read a : forall k ts a' ts', db_option a ts = DOk a' ts' -> db_options (S k) a ts = db_options k a' ts'.
Proof. intros k ts a' ts' E. cbn [db_options]. rewrite E. auto. Qed.
Lemma opt_n_ok k ok g z r : lower k = k -> u64 z -> ok z = true -> opt_n k ok g (TWord k :: TNum z :: r) = DOk (g z) r.
Proof.
  intros K U O. unfold opt_n, kw. rewrite K, str_eqb_refl. unfold skip_eq, pun, num_value. replace (z <? 2 ^ 64) with true by (symmetry; apply Z.ltb_lt; apply U).
  rewrite O. auto.
Qed.
Lemma nonzero_ok z : z <> 0 -> nonzero z = true. Proof. intros N. unfold nonzero. apply negb_true_iff, Z.eqb_neq; auto. Qed.
Lemma o_ttl p m n w y x c t s l v z r : db_option (DbAst p m n w y x c t s l v) (TWord (txt "ttl") :: TStr z :: r) = DOk (DbAst p m n w y x c (Some z) s l v) r. Proof. reflexivity. Qed.
Lemma o_shard p m n w y x c t s l v z r : u64 z -> z <> 0 -> db_option (DbAst p m n w y x c t s l v) (TWord (txt "shard") :: TNum z :: r) = DOk (DbAst p m n w y x c t (Some z) l v) r.
Proof. intros U N. unfold db_option. rewrite (opt_n_ok (txt "shard")) by (first [reflexivity|exact U|apply nonzero_ok; auto]). reflexivity. Qed.
Lemma o_vnode_duration p m n w y x c t s l v z r : db_option (DbAst p m n w y x c t s l v) (TWord (txt "vnode_duration") :: TStr z :: r) = DOk (DbAst p m n w y x c t s l (Some z)) r. Proof. reflexivity. Qed.
Lemma o_replica p m n w y x c t s l v z r : u64 z -> z <> 0 -> db_option (DbAst p m n w y x c t s l v) (TWord (txt "replica") :: TNum z :: r) = DOk (DbAst p m n w y x c t s (Some z) v) r.
Proof. intros U N. unfold db_option. rewrite (opt_n_ok (txt "replica")) by (first [reflexivity|exact U|apply nonzero_ok; auto]). reflexivity. Qed.
Lemma o_precision p m n w y x c t s l v z r : db_option (DbAst p m n w y x c t s l v) (TWord (txt "precision") :: TStr z :: r) = DOk (DbAst (Some z) m n w y x c t s l v) r. Proof. reflexivity. Qed.
Lemma o_max_memcache_size p m n w y x c t s l v z r : db_option (DbAst p m n w y x c t s l v) (TWord (txt "max_memcache_size") :: TStr z :: r) = DOk (DbAst p (Some z) n w y x c t s l v) r. Proof. reflexivity. Qed.
Lemma o_memcache_partitions p m n w y x c t s l v z r : u64 z -> db_option (DbAst p m n w y x c t s l v) (TWord (txt "memcache_partitions") :: TNum z :: r) = DOk (DbAst p m (Some z) w y x c t s l v) r.
Proof. intros U. unfold db_option. rewrite (opt_n_ok (txt "memcache_partitions")) by (first [reflexivity|exact U|apply nonzero_ok; auto]). reflexivity. Qed.
Lemma o_wal_max_file_size p m n w y x c t s l v z r : db_option (DbAst p m n w y x c t s l v) (TWord (txt "wal_max_file_size") :: TStr z :: r) = DOk (DbAst p m n (Some z) y x c t s l v) r. Proof. reflexivity. Qed.
Lemma o_wal_sync p m n w y x c t s l v z r : db_option (DbAst p m n w y x c t s l v) (TWord (txt "wal_sync") :: TStr z :: r) = DOk (DbAst p m n w (Some z) x c t s l v) r. Proof. reflexivity. Qed.
Lemma o_strict_write p m n w y x c t s l v z r : db_option (DbAst p m n w y x c t s l v) (TWord (txt "strict_write") :: TStr z :: r) = DOk (DbAst p m n w y (Some z) c t s l v) r. Proof. reflexivity. Qed.
Lemma o_max_cache_readers p m n w y x c t s l v z r : u64 z -> db_option (DbAst p m n w y x c t s l v) (TWord (txt "max_cache_readers") :: TNum z :: r) = DOk (DbAst p m n w y x (Some z) t s l v) r.
Proof. intros U. unfold db_option. rewrite (opt_n_ok (txt "max_cache_readers")) by (first [reflexivity|exact U|apply nonzero_ok; auto]). reflexivity. Qed.
Lemma db_stmt i n o : db_ok dur_text size_text dur_read size_read n o -> stmt_text (db_text dur_text size_text i n o) (SCreateDb i n (d_stmt o)).
Proof.
  intros (P & R1 & R2 & R3 & R4 & U1 & U2 & U3 & U4 & Z1 & Z2 & H). pose proof (name_fine_ok n P) as F. destruct P as ((Q & _) & _).
  unfold db_text. exists (txt "create"), (([PB; W "database"; PB] ++ ine_p i ++ [PQ n; PB] ++ db_opts_p o) ++ [PS (dur_text (d_vnode o))]).
  split; [|split; [|split]].
  - apply trimmed; [reflexivity|exact I|right]. destruct R1 as (_ & N1 & _), R2 as (_ & N2 & _), R3 as (_ & N3 & _), R4 as (_ & N4 & _).
    destruct i; unfold db_opts_p, text; cbn [ine_p app flat_map ptext]; unfold literal; rewrite !(esc_id (size_text _)), !(esc_id (dur_text _)), !(esc_id (bool_text _)) by auto using bool_no_quote.
    + destruct (d_prec o); unfold quoted; rewrite <- ?app_assoc; cbn [app]; rewrite <- ?app_assoc; reflexivity.
    + destruct (d_prec o); unfold quoted; rewrite <- ?app_assoc; cbn [app]; rewrite <- ?app_assoc; reflexivity.
  - destruct i; unfold db_opts_p; cbn [ine_p app]; repeat (apply Forall_cons; [first [apply fine_n; assumption|split; [first [reflexivity|exact I|eassumption]|first [exact I|cbn [no_semi]; congruence]]]|]); apply Forall_nil.
  - destruct i; reflexivity.
  - assert (OP : forall k, db_options (12 + k) none_ast (tl (toks (db_opts_p o ++ [PS (dur_text (d_vnode o))])) ++ [TP 59]) = Some (d_stmt o, [TP 59])).
    { intros k. unfold db_opts_p, toks, none_ast. cbn [flat_map ptoks app tl W plus].
      rewrite (db_read _ _ _ _ _ (o_precision _ _ _ _ _ _ _ _ _ _ _ _ _)).
      rewrite (db_read _ _ _ _ _ (o_max_memcache_size _ _ _ _ _ _ _ _ _ _ _ _ _)).
      rewrite (db_read _ _ _ _ _ (o_memcache_partitions _ _ _ _ _ _ _ _ _ _ _ _ _ U1)).
      rewrite (db_read _ _ _ _ _ (o_wal_max_file_size _ _ _ _ _ _ _ _ _ _ _ _ _)).
      rewrite (db_read _ _ _ _ _ (o_wal_sync _ _ _ _ _ _ _ _ _ _ _ _ _)).
      rewrite (db_read _ _ _ _ _ (o_strict_write _ _ _ _ _ _ _ _ _ _ _ _ _)).
      rewrite (db_read _ _ _ _ _ (o_max_cache_readers _ _ _ _ _ _ _ _ _ _ _ _ _ U2)).
      rewrite (db_read _ _ _ _ _ (o_ttl _ _ _ _ _ _ _ _ _ _ _ _ _)).
      rewrite (db_read _ _ _ _ _ (o_shard _ _ _ _ _ _ _ _ _ _ _ _ _ U3 Z1)).
      rewrite (db_read _ _ _ _ _ (o_replica _ _ _ _ _ _ _ _ _ _ _ _ _ U4 Z2)).
      rewrite (db_read _ _ _ _ _ (o_vnode_duration _ _ _ _ _ _ _ _ _ _ _ _ _)).
      reflexivity. }
    specialize (OP 12%nat). change (12 + 12)%nat with 24%nat in OP.
    remember (tl (toks (db_opts_p o ++ [PS (dur_text (d_vnode o))])) ++ [TP 59]) as u eqn:EU.
    assert (LU : length u = 23%nat) by (subst u; reflexivity).
    assert (T : toks (PW (txt "create") :: (([PB; W "database"; PB] ++ ine_p i ++ [PQ n; PB] ++ db_opts_p o) ++ [PS (dur_text (d_vnode o))])) ++ [TP 59]
      = TWord (txt "create") :: TWord (txt "database") :: toks (ine_p i) ++ TQuoted n :: TWord (txt "with") :: u).
    { subst u. destruct i; reflexivity. }
    rewrite T. clear - OP LU F. assert (OP2 : db_options (S (length u)) none_ast u = Some (d_stmt o, [TP 59])) by (rewrite LU; exact OP).
    remember (d_stmt o) as x eqn:EX. clear EX OP LU. destruct i; cbv -[name_fine db_options length none_ast]; rewrite F, OP2; reflexivity.
Qed.
Lemma d_stmt_plan f n o : db_ok dur_text size_text dur_read size_read n o -> db_plan dur_read size_read f (d_stmt o) = Some o.
Proof.
  intros (_ & (R1 & _) & (R2 & _) & (R3 & _) & (R4 & _) & _ & _ & _ & _ & _ & _ & H). unfold db_plan, d_stmt. cbn [a_prec a_mem a_wal a_sync a_strict a_ttl a_vnode a_parts a_readers a_shard a_replica opt_or].
  rewrite R1, R2, R3, R4. destruct o as [p m pa w y x r t sh re v h]; cbn [d_prec d_mem d_parts d_wal d_sync d_strict d_readers d_ttl d_shard d_replica d_vnode d_hidden] in *. subst h.
  destruct p, y, x; reflexivity.
Qed.

(** ** Tables *)
Definition type_p (v : vtype) : list piece :=
  match v with
  | VFloat => [W "DOUBLE"] | VInteger => [W "BIGINT"] | VUnsigned => [W "BIGINT"; PB; W "UNSIGNED"] | VBoolean => [W "BOOLEAN"]
  | VString => [W "STRING"] | VGeometry => [W "GEOMETRY"]
  end.
Definition codec_p (k : codec) : list piece := match k with Default => [] | _ => [PB; W "CODEC"; PC 40; PW (codec_text k); PC 41] end.
Definition field_p (x : str * vtype * codec) : list piece := [PQ (fst (fst x)); PB] ++ type_p (snd (fst x)) ++ codec_p (snd x) ++ [PC 44; PB].
Fixpoint tags_p (ns : list str) : list piece := match ns with [] => [] | [n] => [PQ n] | n :: ns => PQ n :: PC 44 :: PB :: tags_p ns end.
Definition dt_of (v : vtype) : dtype :=
  match v with VFloat => DDouble | VInteger => DBigInt | VUnsigned => DUnsigned | VBoolean => DBoolean | VString => DString | VGeometry => DOther end.
Definition f_opt (x : str * vtype * codec) : colopt :=
  ColOpt (fst (fst x)) false (dt_of (snd (fst x))) (match snd x with Default => None | k => Some k end).
Definition t_opt (n : str) : colopt := ColOpt n true DString None.
Definition f_col (x : str * vtype * codec) : column := Col (fst (fst x)) (CField (snd (fst x))) (snd x).
Definition t_col (n : str) : column := Col n CTag Default.
Lemma field_read x r : codec_ok (snd (fst x)) (snd x) -> cnos_field (toks (field_p x) ++ r) = Some (f_opt x, TP 44 :: r).
Proof.
  destruct x as ((n, v), k). cbn [fst snd]. intros C. destruct v, k; cbn [codec_ok In] in C; try (exfalso; clear - C; intuition discriminate); reflexivity.
Qed.
Lemma field_fine x : codec_ok (snd (fst x)) (snd x) -> ~ In 34 (fst (fst x)) -> Forall fine (field_p x) /\ alt (field_p x) = true.
Proof.
  destruct x as ((n, v), k). cbn [fst snd]. intros C N. destruct v, k; cbn [codec_ok In] in C; try (exfalso; clear - C; intuition discriminate).
  all: unfold field_p; cbn [fst snd type_p codec_p app]; split; [fine_tac|reflexivity].
Qed.
Lemma fields_read fs : forall acc k r, fs <> [] -> (length fs <= k)%nat -> Forall (fun x => codec_ok (snd (fst x)) (snd x)) fs ->
  cnos_columns k acc (toks (flat_map field_p fs) ++ TWord (txt "tags") :: r) =
  match tags r with
  | Some (ns, r) => match pun 41 r with Some r => Some (map t_opt ns ++ acc ++ map f_opt fs, r) | None => None end
  | None => None
  end.
Proof.
  induction fs as [|x fs IH]; intros acc k r N L C; [congruence|]. inversion C as [|? ? C1 C2]; subst. destruct k as [|k]; [cbn [length] in L; lia|].
  cbn [flat_map cnos_columns]. rewrite toks_app, <- app_assoc, field_read by auto. cbn [pun]. change (44 =? 44) with true. cbv iota zeta.
  destruct fs as [|y fs].
  - cbn [flat_map map]. change (toks [] ++ TWord (txt "tags") :: r) with (TWord (txt "tags") :: r). change (kw (txt "tags") (TWord (txt "tags") :: r)) with (Some r). cbv iota. reflexivity.
  - assert (Y : kw (txt "tags") (toks (flat_map field_p (y :: fs)) ++ TWord (txt "tags") :: r) = None).
    { cbn [flat_map]. rewrite toks_app. unfold field_p. reflexivity. }
    rewrite Y. rewrite IH; [|congruence|cbn [length] in *; lia|auto]. destruct (tags r) as [(ns, r')|]; auto. destruct (pun 41 r'); auto.
    cbn [map]. rewrite <- (app_assoc acc). auto.
Qed.
Lemma tags_read ns : forall k r, ns <> [] -> (length ns <= k)%nat -> tag_list k (toks (tags_p ns) ++ TP 41 :: r) = Some (ns, r).
Proof.
  induction ns as [|n ns IH]; intros k r N L; [congruence|]. destruct k as [|k]; [cbn [length] in L; lia|]. destruct ns as [|m ns]; [reflexivity|].
  change (tags_p (n :: m :: ns)) with (PQ n :: PC 44 :: PB :: tags_p (m :: ns)). unfold toks. cbn [flat_map ptoks app]. fold (toks (tags_p (m :: ns))).
  cbn [tag_list ident pun]. change (44 =? 44) with true. cbv iota. rewrite IH; [auto|congruence|cbn [length] in *; lia].
Qed.
Lemma tags_fine ns : Forall (fun n => ~ In 34 n) ns -> Forall fine (tags_p ns) /\ alt (tags_p ns) = true /\ (length ns <= length (toks (tags_p ns)))%nat.
Proof.
  induction ns as [|n ns IH]; intros H; [cbn; auto|]. inversion H as [|? ? H1 H2]; subst. destruct ns as [|m ns].
  - cbn [tags_p]. split; [fine_tac|]. split; [reflexivity|]. cbn. lia.
  - change (tags_p (n :: m :: ns)) with (PQ n :: PC 44 :: PB :: tags_p (m :: ns)). destruct (IH H2) as (I1 & I2 & I3). split; [|split].
    + apply Forall_cons; [split; [exact H1|exact I]|]. apply Forall_cons; [split; [reflexivity|cbn; congruence]|]. apply Forall_cons; [split; exact I|auto].
    + cbn [alt sep orb]. rewrite I2. auto.
    + unfold toks in *. cbn [flat_map ptoks app length] in *. lia.
Qed.
Lemma tags_text ns : join (txt ", ") (map quoted ns) = text (tags_p ns).
Proof.
  induction ns as [|n ns IH]; auto. destruct ns as [|m ns]; [unfold text; cbn; rewrite app_nil_r; auto|].
  change (tags_p (n :: m :: ns)) with (PQ n :: PC 44 :: PB :: tags_p (m :: ns)). change (join (txt ", ") (map quoted (n :: m :: ns))) with (quoted n ++ txt ", " ++ join (txt ", ") (map quoted (m :: ns))).
  rewrite IH. reflexivity.
Qed.
Lemma fields_text fs : flat_map field_text (map f_col fs) = text (flat_map field_p fs).
Proof.
  induction fs as [|((n, v), k) fs IH]; auto. cbn [map flat_map]. rewrite text_app, IH. f_equal. destruct v, k; unfold field_p, text; cbn [fst snd type_p codec_p app flat_map]; unfold field_text, f_col; cbn [c_type c_name c_codec fst snd]; reflexivity.
Qed.
Definition ends_sep (l : list piece) : bool := match l with [] => true | _ => sep (last l PB) end.
Lemma alt_app a b : alt a = true -> alt b = true -> ends_sep a = true \/ match b with [] => True | p :: _ => sep p = true end -> alt (a ++ b) = true.
Proof.
  induction a as [|p a IH]; intros A B E; auto. cbn [alt] in A. apply andb_true_iff in A. destruct A as (A1 & A2). cbn [app alt].
  destruct a as [|q a].
  - cbn [app]. rewrite B. destruct b as [|q b]; [rewrite orb_true_r; auto|]. destruct E as [E|E]; [cbn in E; rewrite E; auto|rewrite E, orb_true_r; auto].
  - cbn [app] in *. rewrite A1. apply IH; auto.
Qed.
Lemma fields_fine fs : Forall (fun x => codec_ok (snd (fst x)) (snd x)) fs -> Forall (fun x => ~ In 34 (fst (fst x))) fs ->
  Forall fine (flat_map field_p fs) /\ alt (flat_map field_p fs) = true /\ ends_sep (flat_map field_p fs) = true /\ (length fs <= length (toks (flat_map field_p fs)))%nat.
Proof.
  induction fs as [|x fs IH]; intros C N; [cbn; auto|]. inversion C as [|? ? C1 C2]; inversion N as [|? ? N1 N2]; subst. destruct (IH C2 N2) as (I1 & I2 & I3 & I4).
  destruct (field_fine x C1 N1) as (F1 & F2). cbn [flat_map].
  assert (E : forall l, ends_sep (field_p x ++ l) = ends_sep l).
  { intros [|q l]; [rewrite app_nil_r|]; unfold field_p.
    - rewrite !app_assoc. change [PC 44; PB] with ([PC 44] ++ [PB]). rewrite app_assoc. unfold ends_sep. rewrite last_last. destruct (_ ++ [PB]); auto.
    - unfold ends_sep. cbn [app]. assert (L : forall a : list piece, last (a ++ q :: l) PB = last (q :: l) PB).
      { induction a as [|z a IHa]; auto. cbn [app]. change (last (z :: a ++ q :: l) PB) with (match a ++ q :: l with [] => z | _ => last (a ++ q :: l) PB end). rewrite IHa. destruct (a ++ q :: l) eqn:Q; auto. destruct a; discriminate Q. }
      rewrite <- (L ([PQ (fst (fst x)); PB] ++ type_p (snd (fst x)) ++ codec_p (snd x) ++ [PC 44; PB])). rewrite <- !app_assoc. reflexivity. }
  split; [|split; [|split]].
  - apply Forall_app. auto.
  - apply alt_app; auto. left. rewrite <- (app_nil_r (field_p x)), E. auto.
  - rewrite E. auto.
  - rewrite toks_app, app_length. unfold field_p at 1. unfold toks at 1. cbn [app flat_map ptoks length]. lia.
Qed.
Lemma table_stmt i d n tags fs : ~ In 34 d -> ~ In 47 d -> plain_name n ->
  fs <> [] -> Forall (fun x => codec_ok (snd (fst x)) (snd x)) fs ->
  Forall (fun n => ~ In 34 n) tags -> Forall (fun x => ~ In 34 (fst (fst x))) fs ->
  stmt_text (table_text i d n (Col (txt "time") CTime Default :: map t_col tags ++ map f_col fs)) (SCreateTable i d n (map t_opt tags ++ map f_opt fs)).
Proof.
  intros D1 D2 P NE C NT NF. assert (F : name_fine (d ++ [46] ++ n) = true).
  { unfold name_fine. apply andb_true_intro; split; apply negb_true_iff.
    - apply not_true_is_false. rewrite existsb_exists. intros (x & J & E). apply Z.eqb_eq in E. subst x. apply in_app_iff in J. cbn [app In] in J.
      destruct P as (_ & S & _). destruct J as [J|[J|J]]; auto. discriminate J.
    - destruct (trim (d ++ [46] ++ n)) eqn:Q; auto. exfalso. eapply trim_nonempty; [|exact Q]. exists 46. split; [apply in_app_iff; right; left; auto|].
      intros W. apply is_ws_white in W. discriminate W. }
  destruct P as ((Q & _) & _). destruct (fields_fine fs C NF) as (F1 & F2 & F3 & F4). destruct (tags_fine tags NT) as (T1 & T2 & T3).
  set (A := PW (txt "create") :: ([PB; W "table"; PB] ++ ine_p i ++ [PQ d; PC 46; PQ n; PB; PC 40])).
  set (B := [W "tags"; PB; PC 40] ++ tags_p tags ++ [PC 41; PC 41]).
  exists (txt "create"), (([PB; W "table"; PB] ++ ine_p i ++ [PQ d; PC 46; PQ n; PB; PC 40]) ++ flat_map field_p fs ++ B).
  change (PW (txt "create") :: ([PB; W "table"; PB] ++ ine_p i ++ [PQ d; PC 46; PQ n; PB; PC 40]) ++ flat_map field_p fs ++ B) with (A ++ flat_map field_p fs ++ B).
  split; [|split; [|split]].
  - change (PW (txt "create") :: (([PB; W "table"; PB] ++ ine_p i ++ [PQ d; PC 46; PQ n; PB; PC 40]) ++ flat_map field_p fs ++ B) ++ [PC 59])
      with ((A ++ flat_map field_p fs ++ B) ++ [PC 59]).
    unfold table_text. cbn [flat_map]. rewrite flat_map_app. replace (flat_map field_text (map t_col tags)) with (@nil Z) by (clear; induction tags; auto).
    cbn [filter is_tag c_type]. rewrite filter_app. replace (filter is_tag (map f_col fs)) with (@nil column) by (clear; induction fs; auto).
    replace (filter is_tag (map t_col tags)) with (map t_col tags) by (clear; induction tags as [|x l IH]; auto; cbn [map filter is_tag t_col c_type]; rewrite <- IH at 1; auto).
    rewrite app_nil_r, map_map. cbn [t_col c_name]. change (map (fun x => quoted x) tags) with (map quoted tags). rewrite tags_text, fields_text.
    change (field_text (Col (txt "time") CTime Default)) with (@nil Z). cbn [app]. rewrite !text_app. unfold B. rewrite !text_app.
    generalize (text (flat_map field_p fs)), (text (tags_p tags)). intros x y. unfold A. rewrite <- !app_assoc. destruct i; unfold text; cbn [ine_p app flat_map]; rewrite <- ?app_assoc; reflexivity.
  - apply Forall_app. split; [unfold A; destruct i; cbn [ine_p app]; fine_tac|]. apply Forall_app. split; auto. unfold B. cbn [app]. repeat (apply Forall_cons; [split; [reflexivity || exact I|first [exact I|cbn; congruence]]|]).
    apply Forall_app. split; auto. fine_tac.
  - apply alt_app; [unfold A; destruct i; reflexivity| |left; unfold A; destruct i; reflexivity]. apply alt_app; auto. unfold B. cbn [app alt sep orb andb].
    apply alt_app; [auto|reflexivity|right; reflexivity].
  - rewrite !toks_app, <- !app_assoc.
    assert (CC : forall k, (length fs <= k)%nat -> cnos_columns k [] (toks (flat_map field_p fs) ++ toks B ++ [TP 59]) = Some (map t_opt tags ++ map f_opt fs, [TP 59])).
    { intros k L. unfold B. rewrite !toks_app. change (toks [W "tags"; PB; PC 40]) with [TWord (txt "tags"); TP 40]. cbn [app]. rewrite fields_read by auto.
      change (toks [PC 41; PC 41]) with [TP 41; TP 41]. rewrite <- app_assoc. cbn [app].
      assert (TT : DumpModel.tags (TP 40 :: toks (tags_p tags) ++ [TP 41; TP 41; TP 59]) = Some (tags, [TP 41; TP 59])).
      { unfold DumpModel.tags. cbn [pun]. change (40 =? 40) with true. cbv iota. destruct tags as [|a l]; [reflexivity|].
        assert (PN : pun 41 (toks (tags_p (a :: l)) ++ [TP 41; TP 41; TP 59]) = None) by (destruct l; reflexivity). rewrite PN.
        apply tags_read; [congruence|]. rewrite app_length. eapply Nat.le_trans; [exact T3|apply Nat.le_add_r]. }
      rewrite TT. cbn [pun]. change (41 =? 41) with true. cbv iota. reflexivity. }
    specialize (CC (length (toks (flat_map field_p fs) ++ toks B ++ [TP 59]))). rewrite app_length in CC at 1. specialize (CC ltac:(eapply Nat.le_trans; [exact F4|apply Nat.le_add_r])).
    assert (PZ : pun 41 (toks (flat_map field_p fs) ++ toks B ++ [TP 59]) = None) by (destruct fs as [|y l]; [congruence|]; cbn [flat_map]; rewrite toks_app; reflexivity).
    remember (toks (flat_map field_p fs) ++ toks B ++ [TP 59]) as r eqn:ER. clear - F CC PZ.
    transitivity (parse (TWord (txt "create") :: TWord (txt "table") :: toks (ine_p i) ++ TQuoted d :: TP 46 :: TQuoted n :: TP 40 :: r)); [destruct i; reflexivity|].
    remember (map t_opt tags ++ map f_opt fs) as cs eqn:EC. clear EC.
    set (X := toks (ine_p i) ++ TQuoted d :: TP 46 :: TQuoted n :: TP 40 :: r).
    assert (CT : create_table X = Some (SCreateTable i d n cs, [TP 59])).
    { unfold create_table. replace (if_not_exists X) with (i, TQuoted d :: TP 46 :: TQuoted n :: TP 40 :: r) by (unfold X; destruct i; reflexivity).
      cbn [ident pun]. change (46 =? 46) with true. change (40 =? 40) with true. cbv iota. cbn [ident]. cbv iota. rewrite F. cbn [pun]. change (40 =? 40) with true. cbv iota. rewrite PZ, CC. reflexivity. }
    transitivity (match create_table X with Some (s, r) => match skip_semi r with [] => Some (Some s) | _ => None end | None => None end); [reflexivity|].
    rewrite CT. reflexivity.
Qed.
End Reading.
