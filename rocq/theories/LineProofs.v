(** Proofs about the line protocol parser. *)
From Verif Require Import Prelude Bytes LineModel LineSpec.
From Verif Require MetaModel MetaProofs.
Open Scope Z_scope.

(** * Slices *)
Lemma slice_mid (pre w rest : str) : slice (pre ++ w ++ rest) (length pre) (length pre + length w) = w.
Proof.
  unfold slice. replace (length pre + length w - length pre)%nat with (length w) by lia. rewrite skipn_app, skipn_all, Nat.sub_diag. cbn [app].
  rewrite skipn_O, firstn_app, firstn_all, Nat.sub_diag. cbn. apply app_nil_r.
Qed.
Lemma slice_at d (pre w rest : str) i : d = pre ++ w ++ rest -> i = (length pre + length w)%nat -> slice d (length pre) i = w.
Proof. intros -> ->. apply slice_mid. Qed.
Lemma skipn_mid (pre w : str) : skipn (length pre) (pre ++ w) = w.
Proof. now rewrite skipn_app, skipn_all, Nat.sub_diag. Qed.

(** * Escaped text *)
Definition has_bs (u : str) : bool := existsb (fun c => c =? c_bs) u.
Inductive chunk (al stop : Z -> bool) : str -> Prop :=
| ch_nil : chunk al stop []
| ch_plain c u : c <> c_bs -> stop c = false -> chunk al stop u -> chunk al stop (c :: u)
| ch_pair c u : al c = true -> chunk al stop u -> chunk al stop (c_bs :: c :: u).
Lemma bs_chunk sp al stop : (forall c, sp c = true -> al c = true) -> (forall c, stop c = true -> sp c = true) -> sp c_bs = false ->
  sp c_quote = false -> sp c_apos = false -> al c_bs = true -> al c_quote = true -> al c_apos = true ->
  forall s, bs_ok s -> chunk al stop (esc_with sp s).
Proof.
  intros A S B Q P A1 A2 A3 s. remember (length s) as n eqn:L. assert (Hn : (length s <= n)%nat) by lia. clear L. revert s Hn.
  induction n as [|n IH]; intros s Hn H; (destruct s as [|c s]; [constructor|]); cbn [length] in Hn; [lia|].
  cbn [bs_ok] in H. destruct (c =? c_bs) eqn:Cb.
  - apply Z.eqb_eq in Cb. subst c. destruct s as [|d s]; [contradiction|]. destruct H as [D H]. cbn [length] in Hn. cbn [esc_with flat_map]. rewrite B. cbn [app].
    destruct D as [->|[->| ->]]; rewrite ?B, ?Q, ?P; cbn [app]; (apply ch_pair; [assumption|apply IH; [lia|exact H]]).
  - apply Z.eqb_neq in Cb. cbn [esc_with flat_map]. destruct (sp c) eqn:Sc; cbn [app].
    + apply ch_pair; [auto|apply IH; [lia|exact H]].
    + apply ch_plain; [exact Cb| |apply IH; [lia|exact H]]. destruct (stop c) eqn:T; [|reflexivity]. apply S in T. congruence.
Qed.
Lemma table_chunk s : bs_ok s -> chunk esc_table (fun c => (c =? c_comma) || (c =? c_sp)) (esc_table_name s).
Proof.
  apply bs_chunk; try reflexivity; auto. intros c H. apply orb_prop in H. destruct H as [H|H]; apply Z.eqb_eq in H; subst; reflexivity.
Qed.
Lemma key_chunk s : bs_ok s -> chunk esc_name (fun c => c =? c_eq) (esc_key s).
Proof.
  apply bs_chunk; try reflexivity.
  - intros c H. apply orb_prop in H. destruct H as [H|H]; [apply orb_prop in H; destruct H as [H|H]|]; apply Z.eqb_eq in H; subst; reflexivity.
  - intros c H. apply Z.eqb_eq in H. subst. reflexivity.
Qed.
Lemma value_chunk s : bs_ok s -> chunk esc_name (fun c => (c =? c_comma) || (c =? c_sp)) (esc_key s).
Proof.
  apply bs_chunk; try reflexivity.
  - intros c H. apply orb_prop in H. destruct H as [H|H]; [apply orb_prop in H; destruct H as [H|H]|]; apply Z.eqb_eq in H; subst; reflexivity.
  - intros c H. apply orb_prop in H. destruct H as [H|H]; apply Z.eqb_eq in H; subst; reflexivity.
Qed.
Lemma string_chunk s : chunk esc_value (fun c => c =? c_quote) (esc_string s).
Proof.
  induction s as [|c s IH]; cbn; [constructor|]. destruct ((c =? c_quote) || (c =? c_bs)) eqn:E; cbn [app].
  - apply ch_pair; [|exact IH]. unfold esc_value. apply orb_prop in E. destruct E as [E|E]; rewrite E; cbn; rewrite ?orb_true_r; reflexivity.
  - apply orb_false_elim in E. destruct E as [E1 E2]. apply Z.eqb_neq in E2. apply ch_plain; auto.
Qed.

(** Undoing the escapes *)
Lemma esc_no_bs sp s : sp c_bs = false -> has_bs (esc_with sp s) = false -> esc_with sp s = s.
Proof.
  intros B H. induction s as [|c s IH]; cbn in *; [reflexivity|]. destruct (sp c) eqn:Sc; cbn in H; [discriminate|].
  apply orb_false_elim in H. destruct H as [_ H]. cbn [app]. f_equal. exact (IH H).
Qed.
Lemma unescape2 x y r : unescape (x :: y :: r) =
  if sep y then if negb (x =? c_bs) then None else unescape (y :: r)
  else match unescape (y :: r) with Some t => Some (x :: t) | None => None end.
Proof. reflexivity. Qed.
Lemma unescape_str2 b x y r : unescape_str b (x :: y :: r) =
  if (x =? c_bs) && ((y =? c_quote) || (y =? c_bs)) then
    if b && (y =? c_quote) then None
    else if negb b then unescape_str true (y :: r)
    else match unescape_str false (y :: r) with Some t => Some (x :: t) | None => None end
  else match unescape_str false (y :: r) with Some t => Some (x :: t) | None => None end.
Proof. reflexivity. Qed.
Lemma esc_key_cons c s : esc_key (c :: s) = if sep c then c_bs :: c :: esc_key s else c :: esc_key s.
Proof. unfold esc_key, esc_with. cbn [flat_map]. change ((c =? c_comma) || (c =? c_sp) || (c =? c_eq)) with (sep c). now destruct (sep c). Qed.
Lemma unescape_key x s : unescape (x :: esc_key s) = Some (x :: s).
Proof.
  revert x. induction s as [|c s IH]; intro x; [reflexivity|]. rewrite esc_key_cons. destruct (sep c) eqn:E.
  - rewrite unescape2. change (sep c_bs) with false. cbn match. rewrite unescape2, E. change (c_bs =? c_bs) with true. cbn [negb]. rewrite IH. reflexivity.
  - rewrite unescape2, E, IH. reflexivity.
Qed.
Lemma escape_key s : escape (esc_key s) (has_bs (esc_key s)) = Ok s.
Proof.
  unfold escape. destruct (has_bs (esc_key s)) eqn:H; cbn [negb]; [|f_equal; exact (esc_no_bs _ s eq_refl H)].
  destruct s as [|c s]; [discriminate|]. rewrite esc_key_cons. destruct (sep c) eqn:E.
  - rewrite unescape2, E. change (c_bs =? c_bs) with true. cbn [negb]. rewrite unescape_key. reflexivity.
  - rewrite unescape_key. reflexivity.
Qed.
Lemma esc_table_cons c s : esc_table_name (c :: s) = if (c =? c_comma) || (c =? c_sp) then c_bs :: c :: esc_table_name s else c :: esc_table_name s.
Proof. unfold esc_table_name, esc_with. cbn [flat_map]. now destruct ((c =? c_comma) || (c =? c_sp)). Qed.
Lemma unescape_table x s : ~ In c_eq s -> unescape (x :: esc_table_name s) = Some (x :: s).
Proof.
  revert x. induction s as [|c s IH]; intros x N; [reflexivity|]. rewrite esc_table_cons.
  assert (Nc : c =? c_eq = false) by (apply Z.eqb_neq; intros ->; apply N; now left).
  assert (Ns : ~ In c_eq s) by (intro I; apply N; now right).
  destruct ((c =? c_comma) || (c =? c_sp)) eqn:E; rewrite unescape2.
  - change (sep c_bs) with false. cbn match. rewrite unescape2. unfold sep at 1. rewrite E. cbn [orb]. change (c_bs =? c_bs) with true. cbn [negb]. rewrite IH by exact Ns. reflexivity.
  - unfold sep. rewrite E, Nc. cbn [orb]. rewrite IH by exact Ns. reflexivity.
Qed.
Lemma has_bs_in u : has_bs u = true <-> In c_bs u.
Proof.
  unfold has_bs. rewrite existsb_exists. split; [intros (x & I & E); apply Z.eqb_eq in E; now subst|intro I; exists c_bs; split; [exact I|reflexivity]].
Qed.
Lemma ws_blank c : is_ws c = true <-> blank c.
Proof. unfold is_ws, blank. rewrite !orb_true_iff, !Z.eqb_eq. cbn [In]. intuition. Qed.
Lemma ws_blank_f c : is_ws c = false <-> ~ blank c.
Proof. rewrite <- ws_blank. destruct (is_ws c); intuition congruence. Qed.
Lemma escape_table s : table_ok s -> escape (esc_table_name s) (has_bs (esc_table_name s)) = Ok s.
Proof.
  intros [_ T]. unfold escape. destruct (has_bs (esc_table_name s)) eqn:H; cbn [negb]; [|f_equal; exact (esc_no_bs _ s eq_refl H)].
  destruct s as [|c s]; [contradiction|]. destruct T as (W & _ & Nc & Nb & Q). apply ws_blank_f in W.
  destruct Q as [Q|Q].
  - rewrite esc_table_cons. destruct ((c =? c_comma) || (c =? c_sp)) eqn:E.
    + exfalso. apply orb_prop in E. destruct E as [E|E]; apply Z.eqb_eq in E; subst; [contradiction|discriminate].
    + rewrite unescape_table by exact Q. reflexivity.
  - exfalso. apply has_bs_in in H. unfold esc_table_name, esc_with in H. apply in_flat_map in H. destruct H as (d & I & J).
    destruct ((d =? c_comma) || (d =? c_sp)) eqn:E.
    + apply orb_prop in E. destruct E as [E|E]; apply Z.eqb_eq in E; subst; apply Q; auto.
    + destruct J as [->|[]]. apply Q; auto.
Qed.
Definition quoted (c : Z) : bool := (c =? c_quote) || (c =? c_bs).
Lemma esc_string_cons c s : esc_string (c :: s) = if quoted c then c_bs :: c :: esc_string s else c :: esc_string s.
Proof. unfold esc_string, esc_with. cbn [flat_map]. unfold quoted. now destruct ((c =? c_quote) || (c =? c_bs)). Qed.
Lemma unescape_string s : (forall x, x <> c_bs -> unescape_str false (x :: esc_string s) = Some (x :: s)) /\
  (forall x, unescape_str true (x :: esc_string s) = Some (x :: s)) /\ (s <> [] -> unescape_str false (esc_string s) = Some s).
Proof.
  induction s as [|c s (IA & IB & IC)].
  - split; [reflexivity|split; [reflexivity|congruence]].
  - assert (C : unescape_str false (esc_string (c :: s)) = Some (c :: s)).
    { rewrite esc_string_cons. destruct (quoted c) eqn:E.
      - rewrite unescape_str2. change (c_bs =? c_bs) with true. cbn [andb]. unfold quoted in E. rewrite E. cbn [negb]. apply IB.
      - apply IA. intros ->. discriminate. }
    assert (D : exists d r, esc_string (c :: s) = d :: r /\ d <> c_quote) by (rewrite esc_string_cons; destruct (quoted c) eqn:E; eexists _, _; (split; [reflexivity|]); [discriminate|unfold quoted in E; intros ->; discriminate]).
    destruct D as (d & r & D & Dq). rewrite D in *. apply Z.eqb_neq in Dq. split; [|split; [|intros _; exact C]].
    + intros x N. apply Z.eqb_neq in N. rewrite unescape_str2, N. cbn [andb]. rewrite C. reflexivity.
    + intro x. rewrite unescape_str2, Dq. cbn [negb andb orb]. rewrite C. now destruct ((x =? c_bs) && (d =? c_bs)).
Qed.
Lemma escaped_string s : escaped_field_value (esc_string s) (has_bs (esc_string s)) = Ok s.
Proof.
  unfold escaped_field_value. destruct (has_bs (esc_string s)) eqn:H; cbn [negb].
  - destruct s as [|c s]; [discriminate|]. rewrite (proj2 (proj2 (unescape_string (c :: s)))) by discriminate.
    rewrite esc_string_cons. now destruct (quoted c).
  - f_equal. induction s as [|c s IH]; [reflexivity|]. rewrite esc_string_cons in *. destruct (quoted c); [discriminate|]. cbn in H.
    apply orb_false_elim in H. f_equal. now apply IH.
Qed.

(** * Decimal numbers *)
Lemma digits_snoc s c a v : digits a s = Some v -> is_digit c = true -> digits a (s ++ [c]) = Some (v * 10 + (c - 48)).
Proof.
  revert a. induction s as [|d s IH]; intros a H C; cbn in *; [injection H as ->; now rewrite C|]. destruct (is_digit d); [|discriminate]. auto.
Qed.
Lemma digits_app a s t v : digits a s = Some v -> digits a (s ++ t) = digits v t.
Proof. revert a. induction s as [|d s IH]; intros a H; cbn in *; [congruence|]. destruct (is_digit d); [|discriminate]. auto. Qed.
Lemma digits_uint_acc u acc : digits (Z.pos acc) (MetaModel.uint_str u) = Some (Z.pos (Pos.of_uint_acc u acc)).
Proof.
  revert acc. induction u; intro acc; cbn [MetaModel.uint_str Pos.of_uint_acc digits]; [reflexivity|..];
  (change (is_digit _) with true; cbn match; rewrite <- IHu; f_equal; lia).
Qed.
Lemma digits_uint u : digits 0 (MetaModel.uint_str u) = Some (Z.of_N (Pos.of_uint u)).
Proof.
  induction u; cbn [MetaModel.uint_str Pos.of_uint digits]; [reflexivity|..]; change (is_digit _) with true; cbn match; [exact IHu|..];
  match goal with |- digits ?a _ = _ => change a with (Z.pos (Z.to_pos a)) end; apply digits_uint_acc.
Qed.
Lemma digits_show n : digits 0 (MetaModel.show n) = Some (Z.of_N n).
Proof. unfold MetaModel.show. rewrite digits_uint. f_equal. f_equal. exact (DecimalN.Unsigned.of_to n). Qed.
Lemma show_digit n c : In c (MetaModel.show n) -> is_digit c = true.
Proof. unfold MetaModel.show. induction (N.to_uint n); cbn [MetaModel.uint_str]; intro H; [destruct H|..]; (destruct H as [<-|H]; [reflexivity|auto]). Qed.
Lemma show_cons n : exists c r, MetaModel.show n = c :: r /\ is_digit c = true.
Proof.
  pose proof (MetaProofs.show_ok n) as [N _]. destruct (MetaModel.show n) as [|c r] eqn:E; [congruence|]. exists c, r. split; [reflexivity|].
  apply (show_digit n). rewrite E. now left.
Qed.
Lemma digit_not_minus c : is_digit c = true -> c =? c_minus = false.
Proof. unfold is_digit, c_minus. lia. Qed.
Lemma nat_of_show n : nat_of (MetaModel.show n) = Some (Z.of_N n).
Proof. pose proof (digits_show n) as D. destruct (show_cons n) as (c & r & E & _). rewrite E in *. exact D. Qed.
Lemma atoi_decimal z : is_i64 z -> atoi_i64 (decimal z) = Some z.
Proof.
  intro I. unfold atoi_i64, decimal. destruct (Z.ltb_spec z 0).
  - change (c_minus =? c_minus) with true. cbn match. rewrite nat_of_show. cbn [in_range]. rewrite Z2N.id by lia.
    replace (- - z) with z by lia. unfold is_i64 in I. destruct I. now rewrite (proj2 (Z.leb_le _ _)), (proj2 (Z.leb_le _ _)) by assumption.
  - destruct (show_cons (Z.to_N z)) as (c & r & E & Dc). rewrite E. rewrite (digit_not_minus c Dc). rewrite <- E, nat_of_show. cbn [in_range].
    rewrite Z2N.id by lia. unfold is_i64 in I. destruct I. now rewrite (proj2 (Z.leb_le _ _)), (proj2 (Z.leb_le _ _)) by assumption.
Qed.
Lemma atoi_pos_decimal z : is_u64 z -> atoi_pos (decimal z) = Some z.
Proof.
  intro I. unfold is_u64 in I. destruct I as [I1 I2]. unfold atoi_pos, decimal. destruct (Z.ltb_spec z 0); [lia|].
  rewrite nat_of_show. cbn [in_range]. rewrite Z2N.id by lia. now rewrite (proj2 (Z.leb_le _ _)), (proj2 (Z.leb_le _ _)) by assumption.
Qed.
Lemma digit_prefix_all s : (forall c, In c s -> is_digit c = true) -> digit_prefix s = s.
Proof. induction s as [|c s IH]; intro H; [reflexivity|]. cbn [digit_prefix]. rewrite (H c) by now left. f_equal. apply IH. intros; apply H; now right. Qed.
Lemma atoi_until_decimal z : is_i64 z -> atoi_until_invalid (decimal z) = Some z.
Proof.
  intro I. pose proof (atoi_decimal z I) as A. unfold atoi_until_invalid, decimal in *. destruct (z <? 0).
  - change (c_minus =? c_minus) with true. cbn match. rewrite (digit_prefix_all (MetaModel.show _)) by apply show_digit. exact A.
  - destruct (show_cons (Z.to_N z)) as (c & r & E & Dc). rewrite E. rewrite (digit_not_minus c Dc). rewrite <- E in *. rewrite (digit_prefix_all (MetaModel.show _)) by apply show_digit. exact A.
Qed.
Lemma decimal_char z c : In c (decimal z) -> c = c_minus \/ is_digit c = true.
Proof. unfold decimal. destruct (z <? 0); [intros [<-|H]; [now left|]|intro H]; right; eapply show_digit; exact H. Qed.
Lemma decimal_cons z : exists c r, decimal z = c :: r.
Proof. unfold decimal. destruct (z <? 0); [eauto|]. destruct (show_cons (Z.to_N z)) as (c & r & E & _). eauto. Qed.

(** * Scanning *)
Ltac cst := cbv beta iota zeta delta [negb orb andb rbind set_status set_key set_val set_esc set_skip set_comment set_quotes set_table push_tag push_field push_line
  p_lines p_table p_tags p_fields p_comment p_skip p_esc p_key p_val p_status p_quotes k0 k1 k2 fst snd].
Section Scan.
  Context {F : Type}.
  Variable ff : str -> option F.
  Variable dt : Z.
  Variable data : str.
  Notation lp := (loop ff dt data).
  Notation st := (@PS F).
  Lemma loop_cons s i c r : lp s i (c :: r) = rbind (step_char ff dt data s i c) (fun s => lp s (S i) r).
  Proof. reflexivity. Qed.
  Lemma plus_S_r i n : (i + S n = S i + n)%nat. Proof. lia. Qed.
  Lemma scan_table u rest L tb tg fs a b f v q i : chunk esc_table (fun c => (c =? c_comma) || (c =? c_sp)) u ->
    lp (st L tb tg fs false false false (a, b, f) v Table q) i (u ++ rest) =
    lp (st L tb tg fs false false false (a, b, f || has_bs u) v Table q) (i + length u) rest.
  Proof.
    intro C. revert f i. induction C as [|c u Nb Ns C IH|c u A C IH]; intros f i; cbn [app length has_bs existsb].
    - now rewrite orb_false_r, Nat.add_0_r.
    - rewrite loop_cons. cbn [step_char p_status p_skip p_esc]. apply Z.eqb_neq in Nb. rewrite Nb. apply orb_false_elim in Ns. destruct Ns as [-> ->].
      cbn [rbind orb]. rewrite IH, plus_S_r. reflexivity.
    - rewrite loop_cons. cbn [step_char p_status p_skip p_esc]. change (c_bs =? c_bs) with true. cbn [rbind orb].
      rewrite loop_cons. cbn [step_char set_key set_esc p_status p_skip p_esc p_lines p_table p_tags p_fields p_comment p_key p_val p_quotes k0 k1 fst snd]. rewrite A.
      rewrite orb_true_r. cst. rewrite IH, !plus_S_r. reflexivity.
  Qed.
  Lemma scan_tagkey u rest L tb tg fs a b f v q i : chunk esc_name (fun c => c =? c_eq) u ->
    lp (st L tb tg fs false false false (a, b, f) v TagKey q) i (u ++ rest) =
    lp (st L tb tg fs false false false (a, b, f || has_bs u) v TagKey q) (i + length u) rest.
  Proof.
    intro C. revert f i. induction C as [|c u Nb Ns C IH|c u A C IH]; intros f i; cbn [app length has_bs existsb].
    - now rewrite orb_false_r, Nat.add_0_r.
    - rewrite loop_cons. cbn [step_char p_status p_skip p_esc]. apply Z.eqb_neq in Nb. rewrite Nb, Ns.
      cbn [rbind orb]. rewrite IH, plus_S_r. reflexivity.
    - rewrite loop_cons. cbn [step_char p_status p_skip p_esc]. change (c_bs =? c_bs) with true. cbn [rbind orb].
      rewrite loop_cons. cbn [step_char set_key set_esc p_status p_skip p_esc p_lines p_table p_tags p_fields p_comment p_key p_val p_quotes k0 k1 fst snd]. rewrite A.
      rewrite orb_true_r. cst. rewrite IH, !plus_S_r. reflexivity.
  Qed.
  Lemma scan_fieldkey u rest L tb tg fs a b f v q i : chunk esc_name (fun c => c =? c_eq) u ->
    lp (st L tb tg fs false false false (a, b, f) v FieldKey q) i (u ++ rest) =
    lp (st L tb tg fs false false false (a, b, f || has_bs u) v FieldKey q) (i + length u) rest.
  Proof.
    intro C. revert f i. induction C as [|c u Nb Ns C IH|c u A C IH]; intros f i; cbn [app length has_bs existsb].
    - now rewrite orb_false_r, Nat.add_0_r.
    - rewrite loop_cons. cbn [step_char p_status p_skip p_esc]. apply Z.eqb_neq in Nb. rewrite Nb, Ns.
      cbn [rbind orb]. rewrite IH, plus_S_r. reflexivity.
    - rewrite loop_cons. cbn [step_char p_status p_skip p_esc]. change (c_bs =? c_bs) with true. cbn [rbind orb].
      rewrite loop_cons. cbn [step_char set_key set_esc p_status p_skip p_esc p_lines p_table p_tags p_fields p_comment p_key p_val p_quotes k0 k1 fst snd]. rewrite A.
      rewrite orb_true_r. cst. rewrite IH, !plus_S_r. reflexivity.
  Qed.
  Lemma scan_tagvalue u rest L tb tg fs key a b f q i : chunk esc_name (fun c => (c =? c_comma) || (c =? c_sp)) u ->
    lp (st L tb tg fs false false false key (a, b, f) TagValue q) i (u ++ rest) =
    lp (st L tb tg fs false false false key (a, b, f || has_bs u) TagValue q) (i + length u) rest.
  Proof.
    intro C. revert f i. induction C as [|c u Nb Ns C IH|c u A C IH]; intros f i; cbn [app length has_bs existsb].
    - now rewrite orb_false_r, Nat.add_0_r.
    - rewrite loop_cons. cbn [step_char p_status p_skip p_esc]. apply Z.eqb_neq in Nb. rewrite Nb. apply orb_false_elim in Ns. destruct Ns as [-> ->].
      cbn [rbind orb]. rewrite IH, plus_S_r. reflexivity.
    - rewrite loop_cons. cbn [step_char p_status p_skip p_esc]. change (c_bs =? c_bs) with true. cbn [rbind orb].
      rewrite loop_cons. cbn [step_char set_val set_esc p_status p_skip p_esc p_lines p_table p_tags p_fields p_comment p_key p_val p_quotes k0 k1 fst snd]. rewrite A.
      rewrite orb_true_r. cst. rewrite IH, !plus_S_r. reflexivity.
  Qed.
  Lemma scan_quoted u rest L tb tg fs key a b f i : chunk esc_value (fun c => c =? c_quote) u ->
    lp (st L tb tg fs false false false key (a, b, f) FieldValue true) i (u ++ rest) =
    lp (st L tb tg fs false false false key (a, b, f || has_bs u) FieldValue true) (i + length u) rest.
  Proof.
    intro C. revert f i. induction C as [|c u Nb Ns C IH|c u A C IH]; intros f i; cbn [app length has_bs existsb].
    - now rewrite orb_false_r, Nat.add_0_r.
    - rewrite loop_cons. cbn [step_char p_status p_skip p_esc p_quotes negb]. apply Z.eqb_neq in Nb. rewrite Nb, Ns, !andb_false_r.
      cbn [rbind orb]. rewrite IH, plus_S_r. reflexivity.
    - rewrite loop_cons. cbn [step_char p_status p_skip p_esc]. change (c_bs =? c_quote) with false. change (c_bs =? c_bs) with true. cbn [rbind orb].
      rewrite loop_cons. cbn [step_char set_val set_esc p_status p_skip p_esc p_lines p_table p_tags p_fields p_comment p_key p_val p_quotes k0 k1 fst snd]. rewrite A.
      rewrite orb_true_r. cst. rewrite IH, !plus_S_r. reflexivity.
  Qed.
  Definition bare (d : Z) : Prop := d <> c_comma /\ d <> c_sp /\ d <> c_quote /\ d <> c_bs /\ d <> c_nl /\ d <> c_cr.
  Lemma scan_bare u rest L tb tg fs key v i : (forall d, In d u -> bare d) ->
    lp (st L tb tg fs false false false key v FieldValue false) i (u ++ rest) =
    lp (st L tb tg fs false false false key v FieldValue false) (i + length u) rest.
  Proof.
    revert i. induction u as [|c u IH]; intros i B; cbn [app length].
    - now rewrite Nat.add_0_r.
    - destruct (B c) as (B1 & B2 & B3 & B4 & B5 & B6); [now left|]. apply Z.eqb_neq in B1, B2, B3, B4, B5, B6.
      rewrite loop_cons. cbn [step_char p_status p_skip p_esc p_quotes negb]. rewrite B1, B2, B3, B4, B5, B6.
      cbn [rbind orb andb]. rewrite IH, plus_S_r by (intros; apply B; now right). reflexivity.
  Qed.
  (** A value *)
  Lemma num_bare z c d : (c = 105 \/ c = 117) -> In d (decimal z ++ [c]) -> bare d.
  Proof.
    intros C I. apply in_app_or in I. destruct I as [I|[<-|[]]].
    - apply decimal_char in I. unfold bare, c_comma, c_sp, c_quote, c_bs, c_nl, c_cr. destruct I as [->|I]; [unfold c_minus; lia|]. unfold is_digit in I. lia.
    - unfold bare, c_comma, c_sp, c_quote, c_bs, c_nl, c_cr. lia.
  Qed.
  Lemma number_char c : c = c_plus \/ c = c_minus \/ 48 <= c <= 57 -> (c =? 116) || (c =? 84) = false /\ (c =? 102) || (c =? 70) = false /\
    c =? c_quote = false /\ (c =? c_plus) || (c =? c_minus) || is_digit c = true.
  Proof. unfold c_plus, c_minus, c_quote, is_digit. lia. Qed.
  Lemma parse_number c t b : (c = c_plus \/ c = c_minus \/ 48 <= c <= 57) -> parse_field_value ff (c :: t) b = numeric ff (c :: t).
  Proof. intro C. destruct (number_char c C) as (A & B & D & E). cbn [parse_field_value]. now rewrite A, B, D, E. Qed.
  Lemma decimal_start z : exists c r, decimal z = c :: r /\ (c = c_plus \/ c = c_minus \/ 48 <= c <= 57).
  Proof.
    destruct (decimal_cons z) as (c & r & E). exists c, r. split; [exact E|]. destruct (decimal_char z c) as [->|D]; [rewrite E; now left|auto|].
    unfold is_digit in D. lia.
  Qed.
  Lemma last_app_one (s : str) c d : last (s ++ [c]) d = c.
  Proof. induction s as [|x s IH]; [reflexivity|]. cbn [app]. destruct (s ++ [c]) eqn:E; [now destruct s|]. cbn. cbn in IH. exact IH. Qed.
  Lemma value_text v t : val_text ff v t -> exists f, t <> [] /\ parse_field_value ff t f = Ok v /\
    forall rest L tb tg fs key a b i, lp (st L tb tg fs false false false key (a, b, false) FieldValue false) i (t ++ rest) =
    lp (st L tb tg fs false false false key (a, b, f) FieldValue false) (i + length t) rest.
  Proof.
    intro V. destruct V as [t I|t I|z I|z I|s|c t x E C B L1 L2].
    - exists false. cbn in I.
      assert (X : (forall d, In d t -> bare d) /\ t <> [] /\ parse_field_value ff t false = Ok (FBool true)).
      { repeat (destruct I as [<-|I]; [repeat split; try discriminate; repeat (destruct H as [<-|H]; [discriminate|]); destruct H|]). destruct I. }
      destruct X as (X & N & P). split; [exact N|]. split; [exact P|]. intros. now apply scan_bare.
    - exists false. cbn in I.
      assert (X : (forall d, In d t -> bare d) /\ t <> [] /\ parse_field_value ff t false = Ok (FBool false)).
      { repeat (destruct I as [<-|I]; [repeat split; try discriminate; repeat (destruct H as [<-|H]; [discriminate|]); destruct H|]). destruct I. }
      destruct X as (X & N & P). split; [exact N|]. split; [exact P|]. intros. now apply scan_bare.
    - exists false. split; [now destruct (decimal z)|]. split.
      + destruct (decimal_start z) as (c & r & E & C). pose proof (parse_number c (r ++ [105]) false C) as P. change (c :: r ++ [105]) with ((c :: r) ++ [105]) in P.
        rewrite <- E in P. rewrite P. unfold numeric. rewrite removelast_last, last_app_one. change (105 =? 105) with true. cbn match. now rewrite (atoi_decimal z I).
      + intros. apply scan_bare. intros d D. eapply num_bare; [|exact D]. now left.
    - exists false. split; [now destruct (decimal z)|]. split.
      + destruct (decimal_start z) as (c & r & E & C). pose proof (parse_number c (r ++ [117]) false C) as P. change (c :: r ++ [117]) with ((c :: r) ++ [117]) in P.
        rewrite <- E in P. rewrite P. unfold numeric. rewrite removelast_last, last_app_one. change (117 =? 105) with false. change (117 =? 117) with true. cbn match. now rewrite (atoi_pos_decimal z I).
      + intros. apply scan_bare. intros d D. eapply num_bare; [|exact D]. now right.
    - exists (has_bs (esc_string s)). split; [discriminate|]. split.
      + cbn [parse_field_value]. change (c_quote =? 116) with false. change (c_quote =? 84) with false. change (c_quote =? 102) with false. change (c_quote =? 70) with false.
        change (c_quote =? c_quote) with true. cbn [orb]. unfold string_field. cbn [hd tl]. rewrite removelast_last.
        change (c_quote :: esc_string s ++ [c_quote]) with ((c_quote :: esc_string s) ++ [c_quote]). rewrite last_app_one, escaped_string. rewrite app_length.
        cbn [length]. replace (S (length (esc_string s)) + 1 <? 2)%nat with false by (symmetry; apply Nat.ltb_ge; lia). reflexivity.
      + intros. cbn [app]. rewrite loop_cons. cbn [step_char p_status p_skip p_esc]. change (c_quote =? c_quote) with true.
        cst. rewrite <- app_assoc.
        rewrite scan_quoted by apply string_chunk. cbn [app]. rewrite loop_cons. cbn [step_char p_status p_skip p_esc]. change (c_quote =? c_quote) with true.
        cst. f_equal. cbn [length]. rewrite app_length. cbn. lia.
    - exists false. split; [discriminate|]. split.
      + rewrite parse_number by exact C. unfold numeric. apply Z.eqb_neq in L1, L2. now rewrite L1, L2, E.
      + intros. apply scan_bare. exact B.
  Qed.
  Lemma slice_of pre w rest a i : data = pre ++ w ++ rest -> a = length pre -> i = (a + length w)%nat -> slice data a i = w.
  Proof. intros E -> ->. now apply slice_at with rest. Qed.
  (** Tags *)
  Lemma tag_scan k v pre rest L tb tg fs val i c : bs_ok k -> bs_ok v -> i = length pre -> data = pre ++ esc_key k ++ c_eq :: esc_key v ++ c :: rest ->
    exists key' val', lp (st L tb tg fs false false false (i, 0, false)%nat val TagKey false) i (esc_key k ++ c_eq :: esc_key v ++ c :: rest) =
      lp (st L tb tg fs false false false key' val' TagValue false) (i + length (esc_key k) + S (length (esc_key v))) (c :: rest) /\
      end_tag data (st L tb tg fs false false false key' val' TagValue false) (i + length (esc_key k) + S (length (esc_key v))) =
      Ok (st L tb (tg ++ [(k, v)]) fs false false false key' val' TagValue false).
  Proof.
    intros Bk Bv Hi E. exists (i, (i + length (esc_key k))%nat, has_bs (esc_key k)), (S (i + length (esc_key k)), 0%nat, has_bs (esc_key v)). split.
    - rewrite scan_tagkey by now apply key_chunk. rewrite loop_cons. cbn [step_char p_status p_skip p_esc]. change (c_eq =? c_bs) with false.
      change (c_eq =? c_eq) with true. cbn [orb]. cst. rewrite scan_tagvalue by now apply value_chunk. cbn [orb]. f_equal. lia.
    - unfold end_tag. cst.
      rewrite (slice_of pre (esc_key k) (c_eq :: esc_key v ++ c :: rest) i) by (try reflexivity; assumption). rewrite escape_key.
      rewrite (slice_of (pre ++ esc_key k ++ [c_eq]) (esc_key v) (c :: rest)).
      + rewrite escape_key. reflexivity.
      + rewrite E. now rewrite <- !app_assoc.
      + rewrite !app_length. cbn. lia.
      + lia.
  Qed.
  Lemma tags_text_cons k v ts X : tags_text ((k, v) :: ts) ++ X = c_comma :: esc_key k ++ c_eq :: esc_key v ++ tags_text ts ++ X.
  Proof. unfold tags_text. cbn [flat_map fst snd app]. rewrite <- app_assoc. cbn [app]. now rewrite <- app_assoc. Qed.
  Lemma tags_scan ts : forall k v pre rest L tb tg fs val i,
    Forall (fun kv => bs_ok (fst kv) /\ bs_ok (snd kv)) ((k, v) :: ts) -> i = length pre ->
    data = pre ++ esc_key k ++ c_eq :: esc_key v ++ tags_text ts ++ c_sp :: rest ->
    exists key' val', lp (st L tb tg fs false false false (i, 0, false)%nat val TagKey false) i (esc_key k ++ c_eq :: esc_key v ++ tags_text ts ++ c_sp :: rest) =
      lp (st L tb (tg ++ (k, v) :: ts) fs false true false key' val' TagValue false) (i + length (esc_key k ++ c_eq :: esc_key v ++ tags_text ts ++ [c_sp])) rest.
  Proof.
    induction ts as [|[k2 v2] ts IH]; intros k v pre rest L tb tg fs val i B Hi E; inversion B as [|? ? [Bk Bv] B']; subst x l; cbn [fst snd] in Bk, Bv.
    - cbn [tags_text flat_map app] in *. destruct (tag_scan k v pre rest L tb tg fs val i c_sp Bk Bv Hi E) as (key' & val' & X & Y). exists key', val'.
      rewrite X, loop_cons. cbn [step_char p_status p_skip p_esc]. change (c_sp =? c_bs) with false. change (c_sp =? c_comma) with false. change (c_sp =? c_sp) with true. cbn match.
      rewrite Y. cst. f_equal. rewrite app_length. cbn [length]. rewrite app_length. cbn. lia.
    - rewrite !tags_text_cons in *.
      destruct (tag_scan k v pre (esc_key k2 ++ c_eq :: esc_key v2 ++ tags_text ts ++ c_sp :: rest) L tb tg fs val i c_comma Bk Bv Hi E) as (key' & val' & X & Y).
      rewrite X, loop_cons. cbn [step_char p_status p_skip p_esc]. change (c_comma =? c_bs) with false. change (c_comma =? c_comma) with true. cbn match. rewrite Y. cst.
      edestruct (IH k2 v2 (pre ++ esc_key k ++ c_eq :: esc_key v ++ [c_comma]) rest L tb (tg ++ [(k, v)]) fs val') as (key2 & val2 & Z); [exact B'|reflexivity| |].
      + rewrite E. rewrite <- !app_assoc. cbn [app]. rewrite <- !app_assoc. reflexivity.
      + exists key2, val2. replace (S (i + length (esc_key k) + S (length (esc_key v)))) with (length (pre ++ esc_key k ++ c_eq :: esc_key v ++ [c_comma])).
        * rewrite Z. rewrite <- app_assoc. cbn [app]. f_equal. rewrite Hi, !app_length. cbn [length]. rewrite !app_length. cbn [length]. rewrite !app_length. cbn [length]. rewrite !app_length. cbn. lia.
        * rewrite Hi, !app_length. cbn [length]. rewrite !app_length. cbn. lia.
  Qed.
  (** Fields *)
  Lemma field_scan k v t pre rest L tb tg fs val i : fst (k, v) <> [] /\ bs_ok k -> val_text ff v t -> i = length pre -> data = pre ++ esc_key k ++ c_eq :: t ++ rest ->
    exists key' val', lp (st L tb tg fs false false false (i, 0, false)%nat val FieldKey false) i (esc_key k ++ c_eq :: t ++ rest) =
      lp (st L tb tg fs false false false key' val' FieldValue false) (i + length (esc_key k ++ c_eq :: t)) rest /\
      end_field ff data (st L tb tg fs false false false key' val' FieldValue false) (i + length (esc_key k ++ c_eq :: t)) =
      Ok (st L tb tg (fs ++ [(k, v)]) false false false key' val' FieldValue false) /\
      (k0 key' < k1 key')%nat /\ (k0 val' < i + length (esc_key k ++ c_eq :: t))%nat.
  Proof.
    intros [Nk Bk] V Hi E. destruct (value_text v t V) as (f & Nt & P & X).
    exists (i, (i + length (esc_key k))%nat, has_bs (esc_key k)), (S (i + length (esc_key k)), 0%nat, f).
    assert (Lt : (0 < length t)%nat) by (destruct t; [congruence|cbn; lia]).
    assert (Lk : (0 < length (esc_key k))%nat) by (cbn [fst] in Nk; destruct k; [congruence|rewrite esc_key_cons; destruct (sep _); cbn; lia]).
    split; [|split; [|split]].
    - rewrite scan_fieldkey by now apply key_chunk. rewrite loop_cons. cbn [step_char p_status p_skip p_esc]. change (c_eq =? c_bs) with false.
      change (c_eq =? c_eq) with true. cbn [orb]. cst. rewrite X. f_equal. rewrite app_length. cbn. lia.
    - unfold end_field. cst.
      rewrite (slice_of pre (esc_key k) (c_eq :: t ++ rest) i) by (try reflexivity; assumption). rewrite escape_key.
      rewrite (slice_of (pre ++ esc_key k ++ [c_eq]) t rest).
      + rewrite P. reflexivity.
      + rewrite E. now rewrite <- !app_assoc.
      + rewrite !app_length. cbn. lia.
      + rewrite !app_length. cbn [length]. lia.
    - cbn. lia.
    - cbn. rewrite app_length. cbn. lia.
  Qed.
  Lemma fields_scan fs ft : fields_text ff fs ft -> forall pre rest L tb tg acc val i,
    Forall (fun kv => fst kv <> [] /\ bs_ok (fst kv)) fs -> i = length pre -> data = pre ++ ft ++ rest ->
    exists acc' key' val', lp (st L tb tg acc false false false (i, 0, false)%nat val FieldKey false) i (ft ++ rest) =
      lp (st L tb tg acc' false false false key' val' FieldValue false) (i + length ft) rest /\
      end_field ff data (st L tb tg acc' false false false key' val' FieldValue false) (i + length ft) =
      Ok (st L tb tg (acc ++ fs) false false false key' val' FieldValue false) /\
      (k0 key' < k1 key')%nat /\ (k0 val' < i + length ft)%nat.
  Proof.
    intro T. induction T as [k v t V|k v t fs r V T IH]; intros pre rest L tb tg acc val i B Hi E; inversion B as [|? ? Bk B']; subst x l.
    - rewrite <- app_assoc in *. cbn [app] in *. destruct (field_scan k v t pre rest L tb tg acc val i Bk V Hi E) as (key' & val' & X). exists acc, key', val'. exact X.
    - rewrite <- app_assoc, <- app_comm_cons, <- app_assoc in *. cbn [app] in *.
      destruct (field_scan k v t pre (c_comma :: r ++ rest) L tb tg acc val i Bk V Hi E) as (key' & val' & X & Y & _).
      rewrite X, loop_cons. cbn [step_char p_status p_skip p_esc p_quotes]. change (c_comma =? c_quote) with false. change (c_comma =? c_bs) with false.
      change (c_comma =? c_comma) with true. cbn [negb andb]. rewrite Y. cst.
      edestruct (IH (pre ++ esc_key k ++ c_eq :: t ++ [c_comma]) rest L tb tg (acc ++ [(k, v)]) val') as (acc2 & key2 & val2 & Z1 & Z2 & Z3 & Z4); [exact B'|reflexivity| |].
      + rewrite E. rewrite <- !app_assoc. cbn [app]. rewrite <- !app_assoc. reflexivity.
      + assert (L1 : S (i + length (esc_key k ++ c_eq :: t)) = length (pre ++ esc_key k ++ c_eq :: t ++ [c_comma])) by (rewrite Hi, !app_length; cbn [length]; rewrite !app_length; cbn; lia).
        assert (L2 : (i + length (esc_key k ++ c_eq :: t ++ c_comma :: r))%nat = (length (pre ++ esc_key k ++ c_eq :: t ++ [c_comma]) + length r)%nat)
          by (rewrite <- L1, !app_length; cbn [length]; rewrite !app_length; cbn; lia).
        exists acc2, key2, val2. rewrite L1, L2. split; [exact Z1|]. split; [|split; assumption]. rewrite Z2. rewrite <- app_assoc. reflexivity.
  Qed.
  (** Table name and tags, up to the space before the fields *)
  Lemma table_start tb : table_ok tb -> exists c r, esc_table_name tb = c :: r /\ is_ws c = false /\ c <> c_hash /\ c <> c_comma /\ c <> c_sp /\ c <> c_bs.
  Proof.
    intros [_ T]. destruct tb as [|c r]; [contradiction|]. destruct T as (W & H & Nc & Nb & _). apply ws_blank_f in W.
    assert (Ns : c <> c_sp) by (intros ->; discriminate). rewrite esc_table_cons.
    pose proof Nc as Nc'. pose proof Ns as Ns'. apply Z.eqb_neq in Nc', Ns'. rewrite Nc', Ns'. cbn [orb]. exists c, (esc_table_name r). auto 10.
  Qed.
  Lemma head_scan tb ts pre rest L key val i : table_ok tb -> Forall (fun kv => bs_ok (fst kv) /\ bs_ok (snd kv)) ts -> i = length pre ->
    data = pre ++ esc_table_name tb ++ tags_text ts ++ c_sp :: rest ->
    exists key' val' st', lp (st L [] [] [] false false false key val LineBegin false) i (esc_table_name tb ++ tags_text ts ++ c_sp :: rest) =
      lp (st L tb ts [] false true false key' val' st' false) (i + length (esc_table_name tb ++ tags_text ts ++ [c_sp])) rest /\ (st' = Table \/ st' = TagValue).
  Proof.
    intros T B Hi E.
    assert (X : lp (st L [] [] [] false false false key val LineBegin false) i (esc_table_name tb ++ tags_text ts ++ c_sp :: rest) =
      lp (st L [] [] [] false false false (i, 0, false)%nat val Table false) i (esc_table_name tb ++ tags_text ts ++ c_sp :: rest)).
    { destruct (table_start tb T) as (c & r & -> & W & Nh & Nc & Ns & Nb). cbn [app]. rewrite !loop_cons. cbn [step_char p_status p_skip p_esc p_comment].
      apply Z.eqb_neq in Nh, Nc, Ns, Nb. rewrite W, Nh, Nc, Ns, Nb. cbn [andb orb]. reflexivity. }
    rewrite X. clear X. rewrite scan_table by (apply table_chunk; apply T). cbn [orb].
    assert (Sl : forall r', data = pre ++ esc_table_name tb ++ r' -> escape (slice data i (i + length (esc_table_name tb))) (has_bs (esc_table_name tb)) = Ok tb).
    { intros r' E'. rewrite (slice_of pre (esc_table_name tb) r') by (try reflexivity; assumption). now apply escape_table. }
    destruct ts as [|[k v] ts].
    - cbn [tags_text flat_map app] in *. rewrite loop_cons. cbn [step_char p_status p_skip p_esc]. change (c_sp =? c_bs) with false. change (c_sp =? c_comma) with false.
      change (c_sp =? c_sp) with true. cst. rewrite (Sl _ E). do 3 eexists. split; [|now left]. f_equal. rewrite app_length. cbn. lia.
    - rewrite tags_text_cons in *. rewrite loop_cons. cbn [step_char p_status p_skip p_esc]. change (c_comma =? c_bs) with false. change (c_comma =? c_comma) with true.
      cst. rewrite (Sl _ E).
      edestruct (tags_scan ts k v (pre ++ esc_table_name tb ++ [c_comma]) rest L tb [] [] val) as (key' & val' & Y); [exact B|reflexivity| |].
      + rewrite E, <- !app_assoc. reflexivity.
      + exists key', val', TagValue. split; [|now right]. replace (S (i + length (esc_table_name tb))) with (length (pre ++ esc_table_name tb ++ [c_comma])) by (rewrite Hi, !app_length; cbn; lia).
        rewrite Y. cbn [app]. f_equal. rewrite tags_text_cons, Hi. repeat (rewrite !app_length; cbn [length]). lia.
  Qed.
  Lemma skip_scan L tb ts key val s' i c r : s' = Table \/ s' = TagValue -> c <> c_sp -> c <> c_eq -> c <> c_bs ->
    lp (st L tb ts [] false true false key val s' false) i (c :: r) = lp (st L tb ts [] false false false (i, 0, false)%nat val FieldKey false) i (c :: r).
  Proof.
    intros H Ns Ne Nb. apply Z.eqb_neq in Ns, Ne, Nb. rewrite !loop_cons. destruct H as [-> | ->]; cbn [step_char p_status p_skip p_esc]; rewrite Ns, Ne, Nb; reflexivity.
  Qed.
  Lemma fields_start fs ft : fields_text ff fs ft -> match fs with (k, _) :: _ => plain_start k | [] => False end ->
    exists c r, ft = c :: r /\ c <> c_sp /\ c <> c_eq /\ c <> c_bs.
  Proof.
    intros T P.
    assert (X : forall k X, plain_start k -> exists c r, esc_key k ++ X = c :: r /\ c <> c_sp /\ c <> c_eq /\ c <> c_bs).
    { intros k X Pk. destruct k as [|c r]; [contradiction|]. destruct Pk as (N1 & N2 & N3 & N4). rewrite esc_key_cons. unfold sep.
      pose proof N1 as M1. pose proof N2 as M2. pose proof N3 as M3. apply Z.eqb_neq in M1, M2, M3. rewrite M1, M2, M3. cbn [orb app]. eauto 10. }
    destruct T; apply X; exact P.
  Qed.
  (** A line, up to the end of its last field *)
  Lemma body_scan p ft pre rest L key val i : writable p -> fields_text ff (pt_fields p) ft -> i = length pre ->
    data = pre ++ esc_table_name (pt_table p) ++ tags_text (pt_tags p) ++ c_sp :: ft ++ rest ->
    let n := (i + length (esc_table_name (pt_table p) ++ tags_text (pt_tags p) ++ c_sp :: ft))%nat in
    exists acc' key' val', lp (st L [] [] [] false false false key val LineBegin false) i (esc_table_name (pt_table p) ++ tags_text (pt_tags p) ++ c_sp :: ft ++ rest) =
      lp (st L (pt_table p) (pt_tags p) acc' false false false key' val' FieldValue false) n rest /\
      end_field ff data (st L (pt_table p) (pt_tags p) acc' false false false key' val' FieldValue false) n =
      Ok (st L (pt_table p) (pt_tags p) (pt_fields p) false false false key' val' FieldValue false) /\
      (k0 key' < k1 key')%nat /\ (k0 val' < n)%nat.
  Proof.
    intros (T & B & Bf & P & _) FT Hi E n. destruct (head_scan (pt_table p) (pt_tags p) pre (ft ++ rest) L key val i T B Hi E) as (key1 & val1 & s1 & X & S1).
    rewrite X. destruct (fields_start _ _ FT P) as (c & r & Ec & N1 & N2 & N3). assert (Z : ft ++ rest = c :: r ++ rest) by now rewrite Ec.
    rewrite Z, (skip_scan _ _ _ _ _ _ _ c (r ++ rest) S1 N1 N2 N3), <- Z.
    edestruct (fields_scan _ _ FT (pre ++ esc_table_name (pt_table p) ++ tags_text (pt_tags p) ++ [c_sp]) rest L (pt_table p) (pt_tags p) [] val1) as (acc' & key' & val' & Y1 & Y2 & Y3 & Y4); [exact Bf|reflexivity| |].
    - rewrite E, <- !app_assoc. reflexivity.
    - assert (L1 : (i + length (esc_table_name (pt_table p) ++ tags_text (pt_tags p) ++ [c_sp]))%nat = length (pre ++ esc_table_name (pt_table p) ++ tags_text (pt_tags p) ++ [c_sp]))
        by (rewrite Hi; repeat (rewrite !app_length; cbn [length]); lia).
      assert (L2 : n = (length (pre ++ esc_table_name (pt_table p) ++ tags_text (pt_tags p) ++ [c_sp]) + length ft)%nat)
        by (unfold n; rewrite Hi; repeat (rewrite !app_length; cbn [length]); lia).
      exists acc', key', val'. rewrite L1, L2. auto.
  Qed.
  Lemma scan_time u rest L tb tg fs key v i : (forall d, In d u -> is_ws d = false) ->
    lp (st L tb tg fs false false false key v Timestamp false) i (u ++ rest) = lp (st L tb tg fs false false false key v Timestamp false) (i + length u) rest.
  Proof.
    revert i. induction u as [|c u IH]; intros i B; cbn [app length].
    - now rewrite Nat.add_0_r.
    - rewrite loop_cons. cbn [step_char p_status]. rewrite (B c) by now left. cbn [rbind]. rewrite IH, plus_S_r by (intros; apply B; now right). reflexivity.
  Qed.
  Lemma decimal_no_ws z d : In d (decimal z) -> is_ws d = false.
  Proof. intro I. apply decimal_char in I. destruct I as [->|I]; [reflexivity|]. unfold is_digit in I. unfold is_ws. lia. Qed.
  Lemma time_skip z rest L tb tg fs key v i :
    lp (st L tb tg fs false true false key v FieldValue false) i (decimal z ++ rest) =
    lp (st L tb tg fs false false false (i, 0, false)%nat v Timestamp false) (i + length (decimal z)) rest.
  Proof.
    rewrite <- scan_time by apply decimal_no_ws. destruct (decimal_cons z) as (c & r & E).
    assert (W : is_ws c = false) by (apply (decimal_no_ws z); rewrite E; now left). rewrite E. cbn [app]. rewrite !loop_cons. cbn [step_char p_status p_skip].
    assert (N : c =? c_sp = false) by (apply Z.eqb_neq; intros ->; discriminate). rewrite N, W. reflexivity.
  Qed.
  Definition point_line (p : @point F) : @line F :=
    finish_line (pt_table p) (pt_tags p) (pt_fields p) (match pt_time p with Some z => z | None => dt end).
  (** A whole line with its newline *)
  Lemma line_scan p t e pre rest L key val i : writable p -> line_text ff p t -> e = c_nl \/ e = c_cr -> i = length pre -> data = pre ++ t ++ e :: rest ->
    exists key' val', lp (st L [] [] [] false false false key val LineBegin false) i (t ++ e :: rest) =
      lp (st (L ++ [point_line p]) [] [] [] false false false key' val' LineBegin false) (i + length t + 1) rest.
  Proof.
    intros W (ft & FT & ->) He Hi E. pose proof W as (_ & _ & _ & _ & Wt).
    assert (E' : data = pre ++ esc_table_name (pt_table p) ++ tags_text (pt_tags p) ++ c_sp :: ft ++ (time_text (pt_time p) ++ e :: rest))
      by (rewrite E; rewrite <- !app_assoc; cbn [app]; now rewrite <- !app_assoc).
    replace ((esc_table_name (pt_table p) ++ tags_text (pt_tags p) ++ c_sp :: ft ++ time_text (pt_time p)) ++ e :: rest)
      with (esc_table_name (pt_table p) ++ tags_text (pt_tags p) ++ c_sp :: ft ++ (time_text (pt_time p) ++ e :: rest))
      by (rewrite <- !app_assoc; cbn [app]; now rewrite <- !app_assoc).
    destruct (body_scan p ft pre _ L key val i W FT Hi E') as (acc' & key' & val' & X & Y & _). rewrite X. unfold point_line.
    destruct (pt_time p) as [z|]; cbn [time_text].
    - cbn [app]. rewrite loop_cons. cbn [step_char p_status p_skip p_esc p_quotes]. change (c_sp =? c_quote) with false. change (c_sp =? c_bs) with false.
      change (c_sp =? c_comma) with false. change (c_sp =? c_sp) with true. cbn [negb andb]. rewrite Y. cst. rewrite time_skip. rewrite loop_cons. cbn [step_char p_status].
      replace (is_ws e) with true by (destruct He; subst e; reflexivity). cst.
      match goal with |- context [(?a =? ?b)%nat] => replace (a =? b)%nat with false by (symmetry; apply Nat.eqb_neq; destruct (decimal_cons z) as (c & r & ->); cbn; lia) end.
      rewrite (slice_of (pre ++ esc_table_name (pt_table p) ++ tags_text (pt_tags p) ++ c_sp :: ft ++ [c_sp]) (decimal z) (e :: rest)).
      + rewrite (atoi_decimal z Wt). cbn [ok_or]. cst. do 2 eexists. f_equal. repeat (rewrite !app_length; cbn [length]). lia.
      + rewrite E'. rewrite <- !app_assoc. cbn [app]. rewrite <- !app_assoc. reflexivity.
      + rewrite Hi. repeat (rewrite !app_length; cbn [length]). lia.
      + reflexivity.
    - cbn [app]. rewrite loop_cons. cbn [step_char p_status p_skip p_esc p_quotes]. replace (e =? c_quote) with false by (destruct He; subst e; reflexivity).
      replace (e =? c_bs) with false by (destruct He; subst e; reflexivity). replace (e =? c_comma) with false by (destruct He; subst e; reflexivity).
      replace (e =? c_sp) with false by (destruct He; subst e; reflexivity). replace ((e =? c_cr) || (e =? c_nl)) with true by (destruct He; subst e; reflexivity).
      cbn [negb andb]. rewrite Y. cst. do 2 eexists. f_equal.
      rewrite app_nil_r. repeat (rewrite !app_length; cbn [length]). lia.
  Qed.
  (** The last line, without a newline *)
  Lemma last_scan p t pre L key val i : writable p -> line_text ff p t -> i = length pre -> data = pre ++ t ->
    rbind (lp (st L [] [] [] false false false key val LineBegin false) i t) (finish ff dt data) = Ok (L ++ [point_line p]).
  Proof.
    intros W (ft & FT & ->) Hi E. pose proof W as (_ & _ & _ & _ & Wt).
    destruct (body_scan p ft pre _ L key val i W FT Hi E) as (acc' & key' & val' & X & Y & K1 & K2). rewrite X. unfold point_line.
    destruct (pt_time p) as [z|]; cbn [time_text].
    - rewrite loop_cons. cbn [step_char p_status p_skip p_esc p_quotes]. change (c_sp =? c_quote) with false. change (c_sp =? c_bs) with false.
      change (c_sp =? c_comma) with false. change (c_sp =? c_sp) with true. cbn [negb andb]. rewrite Y. cst.
      rewrite <- (app_nil_r (decimal z)), time_skip. cbn [loop rbind]. unfold finish. cst. cbn [time_text] in E.
      match goal with |- context [(?a =? ?b)%nat] => replace (a =? b)%nat with false by (symmetry; apply Nat.eqb_neq; lia) end.
      match goal with |- context [skipn ?a data] => replace (skipn a data) with (decimal z) end.
      + rewrite (atoi_until_decimal z Wt). cbn [ok_or]. reflexivity.
      + rewrite E. replace (pre ++ esc_table_name (pt_table p) ++ tags_text (pt_tags p) ++ c_sp :: ft ++ c_sp :: decimal z)
          with ((pre ++ esc_table_name (pt_table p) ++ tags_text (pt_tags p) ++ c_sp :: ft ++ [c_sp]) ++ decimal z)
          by (rewrite <- !app_assoc; cbn [app]; now rewrite <- !app_assoc).
        match goal with |- _ = skipn ?a ?b => replace a with (length (pre ++ esc_table_name (pt_table p) ++ tags_text (pt_tags p) ++ c_sp :: ft ++ [c_sp])) end.
        * symmetry. apply skipn_mid.
        * rewrite Hi. repeat (rewrite !app_length; cbn [length]). lia.
    - destruct key' as [[ka kb] kf], val' as [[va vb] vf]. cbn [loop rbind]. unfold finish. cst. cbn [time_text] in E.
      assert (Ld : length data = (i + length (esc_table_name (pt_table p) ++ tags_text (pt_tags p) ++ c_sp :: ft))%nat)
        by (rewrite E, Hi, app_nil_r; repeat (rewrite !app_length; cbn [length]); lia).
      rewrite Ld. cbn [k0 k1 fst snd] in K1, K2. rewrite (proj2 (Nat.ltb_lt _ _) K1), (proj2 (Nat.ltb_lt _ _) K2). cst. rewrite Y. reflexivity.
  Qed.
End Scan.

Lemma scan_comment {F} (ff : str -> option F) dt data w rest L key val i : ~ In c_nl w -> ~ In c_cr w ->
  loop ff dt data (@PS F L [] [] [] true false false key val LineBegin false) i (w ++ rest) =
  loop ff dt data (@PS F L [] [] [] true false false key val LineBegin false) (i + length w) rest.
Proof.
  revert i. induction w as [|c w IH]; intros i N R; cbn [app length]; [now rewrite Nat.add_0_r|]. cbn [In] in N, R.
  rewrite loop_cons. cbn [step_char p_status p_comment].
  replace ((c =? c_cr) || (c =? c_nl)) with false by (symmetry; apply orb_false_intro; apply Z.eqb_neq; intros ->; [apply R|apply N]; now left).
  cbn [andb orb rbind]. rewrite IH; [|auto..].
  now rewrite Nat.add_succ_r.
Qed.
Lemma parse_lines_from {F} (ff : str -> option F) dt data ps : forall txt pre L key val, Forall writable ps -> lines_text ff ps txt -> data = pre ++ txt ->
  rbind (loop ff dt data (@PS F L [] [] [] false false false key val LineBegin false) (length pre) txt) (finish ff dt data) = Ok (L ++ map (point_line dt) ps).
Proof.
  intros txt pre L key val W T. revert pre L key val. induction T as [|p t T|p t e ps r T He T' IH|c ps r Wc T IH|w e ps r N R He T IH|w N R]; intros pre L key val E.
  - cbn. now rewrite app_nil_r.
  - inversion W. subst. now apply last_scan with pre.
  - inversion W as [|? ? Wp W']. subst x l. destruct (line_scan ff dt data p t e pre r L key val (length pre) Wp T He eq_refl E) as (key' & val' & X). rewrite X.
    replace (length pre + length t + 1)%nat with (length (pre ++ t ++ [e])) by (rewrite !app_length; cbn; lia).
    rewrite (IH W' (pre ++ t ++ [e])) by (rewrite E, <- !app_assoc; reflexivity). cbn [map]. now rewrite <- app_assoc.
  - rewrite loop_cons. cbn [step_char p_status p_comment]. apply ws_blank in Wc. rewrite Wc. cbn [orb andb rbind].
    replace (S (length pre)) with (length (pre ++ [c])) by (rewrite app_length; cbn; lia). apply (IH W). rewrite E, <- app_assoc. reflexivity.
  - rewrite loop_cons. cbn [step_char p_status p_comment]. change (is_ws c_hash) with false. change (c_hash =? c_hash) with true. cbn [andb orb]. cst.
    rewrite scan_comment by assumption. rewrite loop_cons. cbn [step_char p_status p_comment].
    replace ((e =? c_cr) || (e =? c_nl)) with true by (destruct He; subst e; reflexivity). cbn [andb]. cst.
    replace (S (S (length pre) + length w)) with (length (pre ++ c_hash :: w ++ [e])) by (rewrite !app_length; cbn; rewrite app_length; cbn; lia).
    apply (IH W). rewrite E, <- !app_assoc. cbn [app]. now rewrite <- app_assoc.
  - rewrite loop_cons. cbn [step_char p_status p_comment]. change (is_ws c_hash) with false. change (c_hash =? c_hash) with true. cbn [andb orb]. cst.
    rewrite <- (app_nil_r w), scan_comment by assumption. cbn. now rewrite app_nil_r.
Qed.
Lemma parse_lines {F} (ff : str -> option F) dt ps txt : Forall writable ps -> lines_text ff ps txt -> parse ff dt txt = Ok (map (point_line dt) ps).
Proof. intros W T. exact (parse_lines_from ff dt txt ps txt [] [] _ _ W T eq_refl). Qed.

(** * Sorted, without duplicates *)
Import MetaModel MetaProofs.
Definition key_le {A} (x y : str * A) : Prop := scmp (fst x) (fst y) <> Gt.
Lemma le_trans {A} (x y z : str * A) : key_le x y -> key_le y z -> key_le x z.
Proof.
  unfold key_le. intros H1 H2. destruct (scmp (fst x) (fst y)) eqn:E1; [apply scmp_eq in E1; now rewrite E1| |congruence].
  destruct (scmp (fst y) (fst z)) eqn:E2; [apply scmp_eq in E2; now rewrite <- E2, E1| |congruence]. now rewrite (scmp_trans _ _ _ E1 E2).
Qed.
Lemma insert_in {A} (x y : str * A) l : In y (insert_key x l) -> y = x \/ In y l.
Proof.
  induction l as [|z l IH]; cbn [insert_key]; intro H.
  - destruct H as [<-|[]]. now left.
  - destruct (scmp (fst x) (fst z)) in H; [destruct H as [<-|H]; auto..|]. destruct H as [<-|H]; [right; now left|]. apply IH in H. destruct H; [auto|right; now right].
Qed.
Lemma insert_sorted {A} (x : str * A) l : StronglySorted key_le l -> StronglySorted key_le (insert_key x l).
Proof.
  induction 1 as [|y l S IH F]; cbn [insert_key].
  - constructor; constructor.
  - destruct (scmp (fst x) (fst y)) eqn:E.
    1,2: (assert (X : key_le x y) by (unfold key_le; rewrite E; discriminate); constructor; [constructor; assumption|]; constructor; [exact X|];
      rewrite Forall_forall in *; intros z I; exact (le_trans _ _ _ X (F z I))).
    constructor; [exact IH|]. rewrite Forall_forall in *. intros z I. apply insert_in in I. destruct I as [->|I]; [|auto].
    unfold key_le. rewrite scmp_opp, E. discriminate.
Qed.
Lemma sort_sorted {A} (l : list (str * A)) : StronglySorted key_le (sort_keys l).
Proof. induction l as [|x l IH]; [constructor|]. apply insert_sorted. exact IH. Qed.
Lemma get_insert {A} k (x : str * A) l : get k (insert_key x l) = if seqb k (fst x) then Some (snd x) else get k l.
Proof.
  induction l as [|[k' v] l IH]; cbn [insert_key]; [now destruct x|]. destruct x as [kx vx]. cbn [fst snd] in *. destruct (scmp kx k') eqn:E; cbn [get]; [reflexivity..|].
  rewrite IH. destruct (seqb k k') eqn:E1; [|reflexivity]. destruct (seqb k kx) eqn:E2; [|reflexivity]. apply seqb_eq in E1, E2. subst. rewrite scmp_refl in E. discriminate.
Qed.
Lemma get_sort {A} k (l : list (str * A)) : get k (sort_keys l) = get k l.
Proof. induction l as [|[k' v] l IH]; [reflexivity|]. cbn [sort_keys fold_right]. change (fold_right insert_key [] l) with (sort_keys l). rewrite get_insert, IH. reflexivity. Qed.
Lemma get_dedup {A} k (l : list (str * A)) : get k (dedup_keys l) = get k l.
Proof.
  induction l as [|[k' v] l IH]; [reflexivity|]. cbn [dedup_keys get]. destruct (dedup_keys l) as [|[k2 v2] r]; [rewrite <- IH; reflexivity|].
  cbn [fst]. destruct (seqb k' k2) eqn:E; cbn [get]; (destruct (seqb k k') eqn:E1; [reflexivity|]); rewrite <- IH; cbn [get]; [|reflexivity].
  apply seqb_eq in E. subst. now rewrite E1.
Qed.
Lemma dedup_in {A} (l : list (str * A)) x : In x (dedup_keys l) -> In x l.
Proof.
  revert x. induction l as [|y l IH]; intros x H; [destruct H|]. cbn [dedup_keys] in H. destruct (dedup_keys l) as [|z r]; [destruct H as [->|[]]; now left|].
  destruct (seqb (fst y) (fst z)); (destruct H as [->|H]; [now left|]); right; apply IH; [now right|exact H].
Qed.
Lemma dedup_sorted {A} (l : list (str * A)) : StronglySorted key_le l -> StronglySorted key_lt (dedup_keys l).
Proof.
  induction 1 as [|x l S IH Fx]; [constructor|]. cbn [dedup_keys]. pose proof (@dedup_in A l) as D. destruct (dedup_keys l) as [|y r]; [constructor; constructor|].
  inversion IH as [|? ? S' Fy]. subst a l0. destruct (seqb (fst x) (fst y)) eqn:E.
  - apply seqb_eq in E. constructor; [exact S'|]. rewrite Forall_forall in *. intros z I. unfold key_lt. rewrite E. exact (Fy z I).
  - assert (X : key_lt x y).
    { rewrite Forall_forall in Fx. specialize (Fx y (D y (or_introl eq_refl))). unfold key_le in Fx. unfold key_lt. destruct (scmp (fst x) (fst y)) eqn:C; [|reflexivity|congruence].
      apply scmp_eq in C. rewrite C, seqb_refl in E. discriminate. }
    constructor; [exact IH|]. constructor; [exact X|]. rewrite Forall_forall in *. intros z I. exact (scmp_trans _ _ _ X (Fy z I)).
Qed.
Lemma sort_dedup_same {A} (l : list (str * A)) : same_map (dedup_keys (sort_keys l)) l.
Proof. split; [apply dedup_sorted, sort_sorted|]. intro k. now rewrite get_dedup, get_sort. Qed.
(** A map has one sorted form *)
Lemma get_in {A} k v (l : list (str * A)) : get k l = Some v -> In (k, v) l.
Proof.
  induction l as [|[k' v'] l IH]; cbn [get]; intro H; [discriminate|]. destruct (seqb k k') eqn:E; [apply seqb_eq in E; injection H as ->; subst; now left|right; auto].
Qed.
Lemma lt_irrefl {A} (x y : str * A) : key_lt x y -> fst x <> fst y.
Proof. unfold key_lt. intros H E. rewrite E, scmp_refl in H. discriminate. Qed.
Lemma sorted_ext {A} (a b : list (str * A)) : StronglySorted key_lt a -> StronglySorted key_lt b -> (forall k, get k a = get k b) -> a = b.
Proof.
  revert b. induction a as [|[k v] a IH]; intros b Sa Sb E.
  - destruct b as [|[k v] b]; [reflexivity|]. specialize (E k). cbn [get] in E. rewrite seqb_refl in E. discriminate.
  - destruct b as [|[k2 v2] b]; [specialize (E k); cbn [get] in E; rewrite seqb_refl in E; discriminate|].
    inversion Sa as [|? ? Sa' Fa]. inversion Sb as [|? ? Sb' Fb]. subst. rewrite Forall_forall in Fa, Fb.
    assert (K : k = k2).
    { destruct (scmp k k2) eqn:C; [now apply scmp_eq| |].
      - pose proof (E k) as Ek. cbn [get] in Ek. rewrite seqb_refl in Ek. unfold seqb in Ek. rewrite C in Ek. symmetry in Ek. apply get_in in Ek. apply Fb in Ek.
        unfold key_lt in Ek. cbn [fst] in Ek. rewrite scmp_opp, C in Ek. discriminate.
      - pose proof (E k2) as Ek. cbn [get] in Ek. rewrite seqb_refl in Ek. unfold seqb in Ek. rewrite scmp_opp, C in Ek. cbn [CompOpp] in Ek. apply get_in in Ek. apply Fa in Ek.
        unfold key_lt in Ek. cbn [fst] in Ek. congruence. }
    subst k2. pose proof (E k) as Ek. cbn [get] in Ek. rewrite seqb_refl in Ek. injection Ek as ->. f_equal. apply IH; auto.
    intro j. pose proof (E j) as Ej. cbn [get] in Ej. destruct (seqb j k) eqn:J; [|exact Ej]. apply seqb_eq in J. subst j.
    destruct (get k a) eqn:G1; [apply get_in in G1; apply Fa in G1; apply lt_irrefl in G1; now cbn in G1|].
    destruct (get k b) eqn:G2; [apply get_in in G2; apply Fb in G2; apply lt_irrefl in G2; now cbn in G2|reflexivity].
Qed.
Lemma same_map_unique {A} (a a' b b' : list (str * A)) : same_map a b -> same_map a' b' -> (forall k, get k b = get k b') -> a = a'.
Proof. intros [S G] [S' G'] E. apply sorted_ext; auto. intro k. now rewrite G, G'. Qed.
Lemma point_line_denotes {F} dt (p : @point F) : denotes dt p (point_line dt p).
Proof.
  unfold denotes, point_line, finish_line. cbn [l_table l_tags l_fields l_time l_hash]. split; [reflexivity|]. split; [apply sort_dedup_same|]. split; [apply sort_dedup_same|]. auto.
Qed.
