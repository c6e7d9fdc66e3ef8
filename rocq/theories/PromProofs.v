(** Proofs for C73. *)
From Verif Require Import Prelude PrecisionModel PromModel PromSpec.

Lemma str_eqb_iff a b : str_eqb a b = true <-> a = b.
Proof. unfold str_eqb. destruct (list_eq_dec Z.eq_dec a b); split; congruence. Qed.
Lemma str_eqb_refl a : str_eqb a a = true.
Proof. apply str_eqb_iff. auto. Qed.
Lemma str_eqb_neq a b : a <> b -> str_eqb a b = false.
Proof. intros H. destruct (str_eqb a b) eqn:E; auto. apply str_eqb_iff in E. contradiction. Qed.

(** * The text read back *)
Definition pre (ts : list token) (o : option (list token)) : option (list token) := match o with Some r => Some (ts ++ r) | None => None end.
Lemma pre_pre a b o : pre a (pre b o) = pre (a ++ b) o.
Proof. destruct o; cbn [pre]; auto. rewrite app_assoc. auto. Qed.

Lemma lex_word : forall u w rest, Forall (fun c => ident_part c = true) u -> lex (MWord w) (u ++ 32 :: rest) = pre [TWord (w ++ u)] (lex MSpace rest).
Proof.
  induction u as [|c u IH]; intros w rest F.
  - rewrite app_nil_r. cbn [app lex]. reflexivity.
  - inversion F as [|? ? C F']; subst. cbn [app lex extend]. rewrite C. rewrite IH by auto. rewrite <- app_assoc. reflexivity.
Qed.
Lemma lex_str : forall u s rest, ~ In 39 u -> lex (MStr s) (u ++ 39 :: 32 :: rest) = pre [TStr (s ++ u)] (lex MSpace rest).
Proof.
  induction u as [|c u IH]; intros s rest F.
  - rewrite app_nil_r. cbn [app lex extend]. reflexivity.
  - cbn [app lex extend]. destruct (Z.eqb_spec c 39); [exfalso; apply F; left; auto|]. rewrite IH by (intros I; apply F; right; auto). rewrite <- app_assoc. reflexivity.
Qed.
Lemma lex_id : forall u s rest, ~ In 34 u -> lex (MId s) (u ++ 34 :: 32 :: rest) = pre [TQuoted (s ++ u)] (lex MSpace rest).
Proof.
  induction u as [|c u IH]; intros s rest F.
  - rewrite app_nil_r. cbn [app lex extend]. reflexivity.
  - cbn [app lex extend]. destruct (Z.eqb_spec c 34); [exfalso; apply F; left; auto|]. rewrite IH by (intros I; apply F; right; auto). rewrite <- app_assoc. reflexivity.
Qed.

(** Numbers *)
Fixpoint numval (z : Z) (u : str) : Z := match u with [] => z | c :: u => numval (10 * z + (c - 48)) u end.
Lemma numval_app : forall u v z, numval z (u ++ v) = numval (numval z u) v.
Proof. induction u; intros; cbn [app numval]; auto. Qed.
Lemma lex_num : forall u n z rest, Forall (fun c => is_digit c = true) u ->
  lex (MNum n z) (u ++ 32 :: rest) = pre [TNum (if n then - numval z u else numval z u)] (lex MSpace rest).
Proof.
  induction u as [|c u IH]; intros n z rest F.
  - cbn [app lex extend]. reflexivity.
  - inversion F as [|? ? C F']; subst. cbn [app lex extend]. rewrite C. rewrite IH by auto. reflexivity.
Qed.
Lemma digits_ok : forall k z, 0 <= z -> Forall (fun c => is_digit c = true) (digits k z).
Proof.
  induction k as [|k IH]; intros z P; cbn [digits]; auto. destruct (Z.ltb_spec z 10).
  - constructor; auto. unfold is_digit. lia.
  - apply Forall_app. split; [apply IH; apply Z.div_pos; lia|]. constructor; auto. unfold is_digit. pose proof (Z.mod_pos_bound z 10 eq_refl).
    generalize dependent (z mod 10). intros; lia.
Qed.
Lemma digits_val : forall k z, 0 <= z < 10 ^ Z.of_nat k -> numval 0 (digits k z) = z.
Proof.
  induction k as [|k IH]; intros z P.
  - cbn in *. change (10 ^ Z.of_nat 0) with 1 in P. lia.
  - cbn [digits]. destruct (Z.ltb_spec z 10); [cbn [numval]; lia|]. rewrite numval_app, IH.
    + cbn [numval]. pose proof (Z.div_mod z 10). lia.
    + rewrite Nat2Z.inj_succ, Z.pow_succ_r in P by lia. split; [apply Z.div_pos; lia|]. apply Z.div_lt_upper_bound; lia.
Qed.
Lemma digits_cons : forall k z, 0 <= z -> exists c u, digits (S k) z = c :: u.
Proof. intros k z P. cbn [digits]. destruct (z <? 10); [eauto|]. destruct (digits k (z / 10)); cbn [app]; eauto. Qed.
Lemma start_digit c : is_digit c = true -> start c = Some (MNum false (c - 48)).
Proof.
  unfold start, ident_start, is_letter, is_digit. intros H.
  replace ((c =? 32) || (c =? 9) || (c =? 10) || (c =? 13))%bool with false by lia.
  replace ((65 <=? c) && (c <=? 90) || (97 <=? c) && (c <=? 122) || (c =? 95) || (c =? 35) || (c =? 64))%bool with false by lia.
  rewrite H. reflexivity.
Qed.
Lemma lex_dec : forall z rest, is_i64 z -> lex MSpace (dec z ++ 32 :: rest) = pre [TNum z] (lex MSpace rest).
Proof.
  intros z rest H. unfold dec.
  assert (B : 0 <= Z.abs z < 10 ^ Z.of_nat 20) by (change (10 ^ Z.of_nat 20) with 100000000000000000000; i64; lia).
  destruct (digits_cons 19 (Z.abs z) ltac:(lia)) as (c & u & E). pose proof (digits_ok 20 (Z.abs z) ltac:(lia)) as D. pose proof (digits_val 20 _ B) as V.
  rewrite E in D, V. inversion D as [|? ? C D']; subst. cbn [numval] in V. change (10 * 0 + (c - 48)) with (c - 48) in V.
  destruct (Z.ltb_spec z 0).
  - replace (- z) with (Z.abs z) by lia. rewrite E. cbn [app lex extend flush]. change (start 45) with (Some MMinus). cbn [lex extend]. rewrite C.
    rewrite lex_num by auto. rewrite V. destruct (lex MSpace rest); cbn [pre app]; auto. repeat f_equal. lia.
  - replace z with (Z.abs z) at 1 by lia. rewrite E. cbn [app lex extend flush]. rewrite start_digit by auto. rewrite lex_num by auto. rewrite V.
    destruct (lex MSpace rest); cbn [pre app]; auto. repeat f_equal. lia.
Qed.

Lemma plain_start c : plain_char c -> start c = Some (MWord [c]).
Proof.
  unfold start, ident_start, is_letter, plain_char. intros H.
  replace ((c =? 32) || (c =? 9) || (c =? 10) || (c =? 13))%bool with false by lia.
  replace ((65 <=? c) && (c <=? 90) || (97 <=? c) && (c <=? 122) || (c =? 95) || (c =? 35) || (c =? 64))%bool with true by lia. reflexivity.
Qed.
Lemma plain_part c : plain_char c \/ 48 <= c <= 57 -> ident_part c = true.
Proof. unfold ident_part, ident_start, is_letter, is_digit, plain_char. intros H. lia. Qed.
Lemma lex_name : forall n rest, plain_name n -> lex MSpace (n ++ 32 :: rest) = pre [TWord n] (lex MSpace rest).
Proof.
  intros n rest P. destruct n as [|c u]; [contradiction|]. destruct P as (C & U). cbn [app lex extend flush]. rewrite plain_start by auto.
  rewrite lex_word; [cbn [app]; destruct (lex MSpace rest); reflexivity|].
  eapply Forall_impl; [|exact U]. intros x X. apply plain_part; auto.
Qed.
Lemma lower_plain n : plain_name n -> lower n = n.
Proof.
  intros P. destruct n as [|c u]; [contradiction|]. destruct P as (C & U).
  assert (A : forall l, Forall (fun c => plain_char c \/ 48 <= c <= 57) l -> lower l = l).
  { induction l as [|x l IH]; intros F; auto. inversion F; subst. unfold lower in *. cbn [map]. rewrite IH by auto.
    unfold plain_char in *. replace ((65 <=? x) && (x <=? 90))%bool with false by lia. auto. }
  apply A. constructor; auto.
Qed.

Definition op_of (t : mtype) : cop := match t with MEq => CEq | MNeq => CNe | MRe => CRe | MNre => CNre end.
Lemma op_text_cons t : exists o, op_text t = 32 :: o /\ forall rest, lex MSpace (o ++ rest) = pre [TOp (op_of t)] (lex MSpace rest).
Proof. destruct t; (eexists; split; [reflexivity|]); intros rest; cbn; destruct (lex MSpace rest); reflexivity. Qed.

Record cmp := Cmp { c_col : str; c_op : cop; c_lit : literal; }.
Definition lit_token (v : literal) : token := match v with LStr s => TStr s | LNum z => TNum z end.
Definition toks (c : cmp) : list token := [TWord (c_col c); TOp (c_op c); lit_token (c_lit c)].
Definition cmp_of (m : matcher) : cmp := Cmp (m_name m) (op_of (m_type m)) (LStr (m_value m)).
(** The text of a comparison followed by a blank *)
Definition reads (text : str) (c : cmp) : Prop := forall rest, lex MSpace (text ++ 32 :: rest) = pre (toks c) (lex MSpace rest).
Lemma filter_reads m : plain_name (m_name m) -> ~ In 39 (m_value m) -> reads (filter_text m) (cmp_of m).
Proof.
  intros P Q rest. unfold filter_text. destruct (op_text_cons (m_type m)) as (o & E & O). rewrite E. rewrite <- !app_assoc. cbn [app].
  rewrite lex_name by auto. rewrite <- ?app_assoc. rewrite O. cbn [app].
  change (lex MSpace (39 :: m_value m ++ 39 :: 32 :: rest)) with (pre [] (lex (MStr []) (m_value m ++ 39 :: 32 :: rest))).
  rewrite lex_str by auto. rewrite !pre_pre. reflexivity.
Qed.
Lemma time_reads_ge z : is_i64 z -> reads (TIME ++ [32; 62; 61; 32] ++ dec z) (Cmp TIME CGe (LNum z)).
Proof.
  intros H rest. change (TIME ++ [32; 62; 61; 32] ++ dec z) with ((TIME ++ [32; 62; 61; 32]) ++ dec z). rewrite <- app_assoc.
  transitivity (pre [TWord TIME; TOp CGe] (lex MSpace (dec z ++ 32 :: rest))).
  - cbn. destruct (lex MSpace (dec z ++ 32 :: rest)); reflexivity.
  - rewrite lex_dec by auto. rewrite pre_pre. reflexivity.
Qed.
Lemma time_reads_le z : is_i64 z -> reads (TIME ++ [32; 60; 61; 32] ++ dec z) (Cmp TIME CLe (LNum z)).
Proof.
  intros H rest. change (TIME ++ [32; 60; 61; 32] ++ dec z) with ((TIME ++ [32; 60; 61; 32]) ++ dec z). rewrite <- app_assoc.
  transitivity (pre [TWord TIME; TOp CLe] (lex MSpace (dec z ++ 32 :: rest))).
  - cbn. destruct (lex MSpace (dec z ++ 32 :: rest)); reflexivity.
  - rewrite lex_dec by auto. rewrite pre_pre. reflexivity.
Qed.

Lemma join_last sep : forall l z, join sep (l ++ [z]) = flat_map (fun x => x ++ sep) l ++ z.
Proof.
  induction l as [|x l IH]; intros z; auto. change ((x :: l) ++ [z]) with (x :: (l ++ [z])). cbn [flat_map]. rewrite <- !app_assoc, <- IH.
  destruct (l ++ [z]) eqn:E; [destruct l; discriminate|]. reflexivity.
Qed.
Definition AND_TOK : token := TWord [65; 78; 68].
Lemma lex_ands : forall texts cs rest, Forall2 reads texts cs ->
  lex MSpace (flat_map (fun x => x ++ and_text) texts ++ rest) = pre (flat_map (fun c => toks c ++ [AND_TOK]) cs) (lex MSpace rest).
Proof.
  intros texts cs rest F. induction F as [|x c texts cs R F IH]; cbn [flat_map app].
  - destruct (lex MSpace rest); reflexivity.
  - rewrite <- app_assoc. rewrite <- (app_assoc x). unfold and_text at 1. cbn [app]. rewrite R.
    transitivity (pre (toks c) (pre [AND_TOK] (lex MSpace (flat_map (fun x => x ++ and_text) texts ++ rest)))).
    + f_equal. cbn. destruct (lex MSpace _); reflexivity.
    + rewrite IH, !pre_pre. reflexivity.
Qed.
Definition ORDER_TOKS : list token := [TWord [111; 114; 100; 101; 114]; TWord [98; 121]; TWord [116; 105; 109; 101]].
Lemma lex_order : lex MSpace (tl order_text) = Some ORDER_TOKS.
Proof. reflexivity. Qed.

Lemma lex_sql t texts cs last c : ~ In 34 t -> Forall2 reads texts cs -> reads last c ->
  lex MSpace (select_text ++ t ++ where_text ++ join and_text (texts ++ [last]) ++ order_text) =
  Some ([TWord [83; 69; 76; 69; 67; 84]; TStar; TWord [70; 82; 79; 77]; TQuoted t; TWord [87; 72; 69; 82; 69]] ++
        flat_map (fun c => toks c ++ [AND_TOK]) cs ++ toks c ++ ORDER_TOKS).
Proof.
  intros Q F R. rewrite join_last.
  transitivity (pre [TWord [83; 69; 76; 69; 67; 84]; TStar; TWord [70; 82; 79; 77]] (lex (MId []) (t ++ where_text ++ (flat_map (fun x => x ++ and_text) texts ++ last) ++ order_text))).
  - cbn. destruct (lex (MId []) _); reflexivity.
  - change (where_text ++ (flat_map (fun x => x ++ and_text) texts ++ last) ++ order_text)
      with (34 :: 32 :: [87; 72; 69; 82; 69; 32] ++ (flat_map (fun x => x ++ and_text) texts ++ last) ++ order_text).
    rewrite lex_id by auto. cbn [app]. rewrite pre_pre.
    transitivity (pre ([TWord [83; 69; 76; 69; 67; 84]; TStar; TWord [70; 82; 79; 77]] ++ [TQuoted t]) (pre [TWord [87; 72; 69; 82; 69]] (lex MSpace ((flat_map (fun x => x ++ and_text) texts ++ last) ++ order_text)))).
    + f_equal. cbn. destruct (lex MSpace _); reflexivity.
    + rewrite <- app_assoc. rewrite (lex_ands texts cs) by auto. change order_text with (32 :: tl order_text). rewrite R, lex_order.
      cbn [pre]. rewrite <- !app_assoc. reflexivity.
Qed.

(** ** The parser *)
Definition col_ok (kw : str -> bool) (c : cmp) : Prop := reserved kw (c_col c) = false /\ lower (c_col c) = c_col c.
Definition cond_of (c : cmp) : cond := CCmp (c_col c) (c_op c) (c_lit c).
Definition ands (acc : option cond) (cs : list cmp) : option cond := fold_left (fun a c => Some (and_with a (cond_of c))) cs acc.
Lemma lit_token_of v : lit_of (lit_token v) = Some v.
Proof. destruct v; reflexivity. Qed.
Lemma parse_ands kw : forall cs acc c, Forall (col_ok kw) cs -> col_ok kw c ->
  conds kw None acc (flat_map (fun c => toks c ++ [AND_TOK]) cs ++ toks c ++ ORDER_TOKS) = Some (and_with (ands acc cs) (cond_of c), ORDER_TOKS).
Proof.
  induction cs as [|x cs IH]; intros acc c F C.
  - cbn [flat_map app toks conds ORDER_TOKS]. destruct C as (C1 & C2). cbn [column_of]. rewrite C1, lit_token_of, C2. reflexivity.
  - inversion F as [|? ? (X1 & X2) F']; subst. cbn [flat_map app toks conds AND_TOK]. cbn [column_of]. rewrite X1, lit_token_of, X2.
    change (str_eqb (lower [65; 78; 68]) kw_and) with true. cbv iota.
    exact (IH (Some (and_with acc (CCmp (c_col x) (c_op x) (c_lit x)))) c F' C).
Qed.
Lemma parse_sql kw t cs c : Forall (col_ok kw) cs -> col_ok kw c ->
  parse kw ([TWord [83; 69; 76; 69; 67; 84]; TStar; TWord [70; 82; 79; 77]; TQuoted t; TWord [87; 72; 69; 82; 69]] ++
        flat_map (fun c => toks c ++ [AND_TOK]) cs ++ toks c ++ ORDER_TOKS) = Some (t, and_with (ands None cs) (cond_of c)).
Proof.
  intros F C. cbn [app parse]. 
  change (kw_is (TWord [83; 69; 76; 69; 67; 84]) K_SELECT && kw_is (TWord [70; 82; 79; 77]) K_FROM && kw_is (TWord [87; 72; 69; 82; 69]) K_WHERE)%bool with true.
  cbv iota. rewrite (parse_ands kw cs None c F C). reflexivity.
Qed.

(** The condition the text of a query is read as. *)
Definition others (q : query) : list matcher := filter (fun m => negb (is_name m)) (q_matchers q).
Definition from_ns (q : query) : Z := q_start q * 1000000.
Definition to_ns (q : query) : Z := q_end q * 1000000.
Definition the_cond (q : query) : cond :=
  and_with (ands None (map cmp_of (others q) ++ [Cmp TIME CGe (LNum (from_ns q))])) (CCmp TIME CLe (LNum (to_ns q))).
Lemma fits_i64 z : fits z -> is_i64 (z * 1000000).
Proof. unfold fits. i64. lia. Qed.
Lemma read_back kw q t : ~ In 34 t -> fits (q_start q) -> fits (q_end q) -> kw [116; 105; 109; 101] = false ->
  (forall m, In m (others q) -> plain_name (m_name m) /\ kw (m_name m) = false /\ m_name m <> [97; 110; 100] /\ m_name m <> [111; 114] /\ ~ In 39 (m_value m)) ->
  read_sql kw (sql_text t q) = Some (t, the_cond q).
Proof.
  intros T FS FE KT H. unfold read_sql, sql_text, time_texts. fold (others q).
  rewrite !wrap_i64_id by (apply fits_i64; auto).
  replace (map filter_text (others q) ++ [TIME ++ [32; 62; 61; 32] ++ dec (q_start q * 1000000); TIME ++ [32; 60; 61; 32] ++ dec (q_end q * 1000000)])
    with ((map filter_text (others q) ++ [TIME ++ [32; 62; 61; 32] ++ dec (q_start q * 1000000)]) ++ [TIME ++ [32; 60; 61; 32] ++ dec (q_end q * 1000000)])
    by (rewrite <- app_assoc; reflexivity).
  rewrite (lex_sql t _ (map cmp_of (others q) ++ [Cmp TIME CGe (LNum (from_ns q))]) _ (Cmp TIME CLe (LNum (to_ns q)))); auto.
  - apply parse_sql.
    + apply Forall_app. split; [|constructor; auto; split; [unfold reserved; cbn [c_col]; change (lower TIME) with TIME; change TIME with [116; 105; 109; 101]; rewrite KT; reflexivity|reflexivity]].
      apply Forall_forall. intros c I. apply in_map_iff in I. destruct I as (m & <- & I). destruct (H m I) as (P & K & A & O & _).
      split; [|apply lower_plain; auto]. unfold reserved. cbn [cmp_of c_col]. rewrite lower_plain by auto. rewrite K.
      rewrite !str_eqb_neq; auto.
    + split; [unfold reserved; cbn [c_col]; change (lower TIME) with TIME; change TIME with [116; 105; 109; 101]; rewrite KT; reflexivity|reflexivity].
  - apply Forall2_app.
    + induction (others q) as [|m l IH]; cbn [map]; constructor; [|apply IH; intros x X; apply H; right; auto].
      destruct (H m (or_introl eq_refl)) as (P & _ & _ & _ & Q). apply filter_reads; auto.
    + constructor; auto. apply time_reads_ge, fits_i64; auto.
  - apply time_reads_le, fits_i64; auto.
Qed.

(** * Evaluation *)
Section Eval.
Context (search : str -> str -> bool) (cols : list str).
Definition evaluable (e : cond) : Prop := forall r, exists b, eval search cols e r = Some b.
Definition true_at (e : cond) (r : row) : Prop := eval search cols e r = Some (Some true).
Lemma and3_true a b : and3 a b = Some true <-> a = Some true /\ b = Some true.
Proof. destruct a as [[]|], b as [[]|]; cbn; split; intros; try discriminate; auto; destruct H; discriminate. Qed.
Lemma and_evaluable a b : evaluable a -> evaluable b -> evaluable (CAnd a b) /\ forall r, true_at (CAnd a b) r <-> true_at a r /\ true_at b r.
Proof.
  intros A B. split.
  - intros r. destruct (A r) as (x & X), (B r) as (y & Y). cbn [eval]. rewrite X, Y. eauto.
  - intros r. destruct (A r) as (x & X), (B r) as (y & Y). unfold true_at. cbn [eval]. rewrite X, Y. pose proof (and3_true x y) as W. split.
    + intros H. injection H as H. apply W in H. destruct H; subst. auto.
    + intros (H1 & H2). f_equal. apply W. split; congruence.
Qed.
Lemma ands_eval : forall cs e, evaluable e -> Forall (fun c => evaluable (cond_of c)) cs ->
  exists e', ands (Some e) cs = Some e' /\ evaluable e' /\ forall r, true_at e' r <-> true_at e r /\ Forall (fun c => true_at (cond_of c) r) cs.
Proof.
  induction cs as [|c cs IH]; intros e E F.
  - exists e. split; auto. split; auto. intros r. split; [auto|tauto].
  - inversion F as [|? ? C F']; subst. destruct (and_evaluable e (cond_of c) E C) as (V & T).
    destruct (IH (CAnd e (cond_of c)) V F') as (e' & A & V' & T'). exists e'. split; [exact A|]. split; auto.
    intros r. rewrite T', T. split.
    + intros ((X & Y) & Z). auto.
    + intros (X & Y). inversion Y; subst. auto.
Qed.
Lemma all_eval cs c : Forall (fun c => evaluable (cond_of c)) cs -> evaluable (cond_of c) ->
  evaluable (and_with (ands None cs) (cond_of c)) /\ forall r, true_at (and_with (ands None cs) (cond_of c)) r <-> Forall (fun c => true_at (cond_of c) r) cs /\ true_at (cond_of c) r.
Proof.
  intros F C. destruct cs as [|x cs]; cbn [ands fold_left and_with].
  - split; auto. intros r. split; [auto|tauto].
  - inversion F as [|? ? X F']; subst. change (fold_left (fun a c0 => Some (and_with a (cond_of c0))) cs (Some (cond_of x))) with (ands (Some (cond_of x)) cs).
    destruct (ands_eval cs (cond_of x) X F') as (e' & A & V & T). rewrite A. cbn [and_with].
    destruct (and_evaluable e' (cond_of c) V C) as (V2 & T2). split; auto. intros r. rewrite T2, T. split.
    + intros ((P & Q) & R). auto.
    + intros (P & R). inversion P; subst. auto.
Qed.
Lemma tag_evaluable m : In (m_name m) cols -> evaluable (cond_of (cmp_of m)).
Proof.
  intros I r. cbn [cmp_of cond_of eval c_col c_op c_lit compare].
  replace (existsb (str_eqb (m_name m)) cols) with true by (symmetry; apply existsb_exists; exists (m_name m); split; auto; apply str_eqb_refl).
  destruct (m_type m); cbn [op_of compare_str]; eauto.
Qed.
(** The SQL comparison of a tag. *)
Lemma tag_true m r : In (m_name m) cols -> (true_at (cond_of (cmp_of m)) r <->
  exists v, tag_of (r_tags r) (m_name m) = Some v /\
    match m_type m with MEq => v = m_value m | MNeq => v <> m_value m | MRe => search (m_value m) v = true | MNre => search (m_value m) v = false end).
Proof.
  intros I. unfold true_at. cbn [cmp_of cond_of eval c_col c_op c_lit compare].
  replace (existsb (str_eqb (m_name m)) cols) with true by (symmetry; apply existsb_exists; exists (m_name m); split; auto; apply str_eqb_refl).
  destruct (tag_of (r_tags r) (m_name m)) as [v|]; cbn [option_map].
  - destruct (m_type m); cbn [op_of compare_str option_map]; split.
    + intros H. injection H as H. apply str_eqb_iff in H. eauto.
    + intros (w & W & H). injection W as <-. rewrite H, str_eqb_refl. auto.
    + intros H. injection H as H. exists v. split; auto. intros ->. rewrite str_eqb_refl in H. discriminate.
    + intros (w & W & H). injection W as <-. rewrite str_eqb_neq; auto.
    + intros H. injection H as H. eauto.
    + intros (w & W & H). injection W as <-. congruence.
    + intros H. injection H as H. exists v. split; auto. destruct (search (m_value m) v); auto; discriminate.
    + intros (w & W & H). injection W as <-. rewrite H. auto.
  - destruct (m_type m); cbn [op_of compare_str option_map]; (split; [discriminate|intros (w & W & _); discriminate]).
Qed.
Lemma the_cond_true q : (forall m, In m (others q) -> In (m_name m) cols) ->
  evaluable (the_cond q) /\
  forall r, true_at (the_cond q) r <-> from_ns q <= r_time r <= to_ns q /\ forall m, In m (others q) -> true_at (cond_of (cmp_of m)) r.
Proof.
  intros C. unfold the_cond. change (CCmp TIME CLe (LNum (to_ns q))) with (cond_of (Cmp TIME CLe (LNum (to_ns q)))).
  destruct (all_eval (map cmp_of (others q) ++ [Cmp TIME CGe (LNum (from_ns q))]) (Cmp TIME CLe (LNum (to_ns q)))) as (V & T).
  - apply Forall_app. split.
    + apply Forall_forall. intros c I. apply in_map_iff in I. destruct I as (m & <- & I). apply tag_evaluable; auto.
    + constructor; auto. intros r. cbn [cond_of eval c_col c_op c_lit compare]. rewrite str_eqb_refl. eauto.
  - intros r. cbn [cond_of eval c_col c_op c_lit compare]. rewrite str_eqb_refl. eauto.
  - split; auto. intros r. rewrite T, Forall_app. unfold true_at at 3. cbn [cond_of eval c_col c_op c_lit compare]. rewrite str_eqb_refl.
    assert (G : Forall (fun c => true_at (cond_of c) r) [Cmp TIME CGe (LNum (from_ns q))] <-> from_ns q <= r_time r).
    { split.
      - intros F. inversion F as [|? ? G _]; subst. unfold true_at in G. cbn [cond_of eval c_col c_op c_lit compare] in G. rewrite str_eqb_refl in G. injection G as G. lia.
      - intros L. constructor; auto. unfold true_at. cbn [cond_of eval c_col c_op c_lit compare]. rewrite str_eqb_refl. do 2 f_equal. lia. }
    rewrite G. rewrite Forall_forall. split.
    + intros ((M & L) & H). injection H as H. split; [lia|]. intros m I. apply M. apply in_map; auto.
    + intros (L & M). split; [split; [|lia]|do 2 f_equal; lia]. intros c I. apply in_map_iff in I. destruct I as (m & <- & I). auto.
Qed.
End Eval.

(** * Labels *)
Lemma value_tag : forall ls n, value_of ls n = match tag_of ls n with Some v => v | None => [] end.
Proof.
  unfold tag_of. induction ls as [|l ls IH]; intros n; auto. cbn [value_of find]. destruct (list_eq_dec Z.eq_dec (l_name l) n) as [E|E].
  - replace (str_eqb (l_name l) n) with true by (symmetry; apply str_eqb_iff; auto). auto.
  - rewrite str_eqb_neq by auto. apply IH.
Qed.
Definition filled (ls : list label) : Prop := Forall (fun l => l_value l <> []) ls.
Lemma tag_filled ls n v : filled ls -> tag_of ls n = Some v -> v <> [].
Proof.
  unfold tag_of. intros F H. destruct (find _ ls) as [l|] eqn:E; [|discriminate]. injection H as <-. apply find_some in E. unfold filled in F.
  rewrite Forall_forall in F. apply F. tauto.
Qed.
Lemma tag_in ls n v : tag_of ls n = Some v -> In n (map l_name ls) /\ In v (map l_value ls).
Proof.
  unfold tag_of. intros H. destruct (find _ ls) as [l|] eqn:E; [|discriminate]. injection H as <-. apply find_some in E. destruct E as (I & E).
  apply str_eqb_iff in E. subst. split; apply in_map; auto.
Qed.
Lemma in_tag ls n : In n (map l_name ls) -> exists v, tag_of ls n = Some v.
Proof.
  unfold tag_of. intros I. destruct (find (fun l => str_eqb (l_name l) n) ls) as [l|] eqn:E; [eauto|]. apply in_map_iff in I. destruct I as (l & <- & I).
  pose proof (find_none _ _ E l I) as X. cbv beta in X. rewrite str_eqb_refl in X. discriminate.
Qed.
Lemma same_labels_tags a b : filled a -> filled b -> (same_labels a b <-> forall n, tag_of a n = tag_of b n).
Proof.
  intros A B. split; intros H n; [|rewrite !value_tag, H; auto]. specialize (H n). rewrite !value_tag in H.
  destruct (tag_of a n) as [x|] eqn:X, (tag_of b n) as [y|] eqn:Y; auto; [congruence| |]; exfalso.
  - exact (tag_filled a n x A X H).
  - exact (tag_filled b n y B Y (eq_sym H)).
Qed.
Lemma opt_eqb_iff a b : opt_eqb a b = true <-> a = b.
Proof. destruct a, b; cbn [opt_eqb]; rewrite ?str_eqb_iff; split; congruence. Qed.
Lemma same_tags_iff a b : same_tags a b = true <-> forall n, tag_of a n = tag_of b n.
Proof.
  unfold same_tags. rewrite forallb_forall. split; intros H n; [|intros _; apply opt_eqb_iff; auto].
  destruct (tag_of a n) as [x|] eqn:X.
  - rewrite <- X. apply opt_eqb_iff, H, in_or_app. left. apply (tag_in _ _ _ X).
  - destruct (tag_of b n) as [y|] eqn:Y; auto. rewrite <- X, <- Y. apply opt_eqb_iff, H, in_or_app. right. apply (tag_in _ _ _ Y).
Qed.
Lemma same_row_iff a b : same_row a b = true <-> r_table a = r_table b /\ (forall n, tag_of (r_tags a) n = tag_of (r_tags b) n) /\ r_time a = r_time b.
Proof. unfold same_row. rewrite !andb_true_iff, str_eqb_iff, same_tags_iff, Z.eqb_eq. tauto. Qed.
Lemma same_row_refl a : same_row a a = true.
Proof. apply same_row_iff. auto. Qed.
Lemma same_row_sym a b : same_row a b = same_row b a.
Proof.
  destruct (same_row a b) eqn:E; symmetry.
  - apply same_row_iff in E. apply same_row_iff. destruct E as (X & Y & Z). auto.
  - apply not_true_iff_false. intros F. apply not_true_iff_false in E. apply E. apply same_row_iff in F. apply same_row_iff. destruct F as (X & Y & Z). auto.
Qed.
Lemma table_of_value : forall ls, NoDup (map l_name ls) -> In NAME (map l_name ls) -> table_of ls = value_of ls NAME.
Proof.
  assert (A : forall ls t, ~ In NAME (map l_name ls) -> fold_left (fun t l => if str_eqb (l_name l) NAME then l_value l else t) ls t = t).
  { induction ls as [|l ls IH]; intros t N; auto. cbn [fold_left]. rewrite str_eqb_neq by (intros E; apply N; left; auto). apply IH. intros I; apply N; right; auto. }
  unfold table_of. generalize NOT_SPECIFIED. intros t ls. revert t. induction ls as [|l ls IH]; intros t D I; [contradiction|]. cbn [map] in *. inversion D as [|? ? N D']; subst.
  cbn [fold_left value_of]. destruct (list_eq_dec Z.eq_dec (l_name l) NAME) as [E|E].
  - replace (str_eqb (l_name l) NAME) with true by (symmetry; apply str_eqb_iff; auto). apply A. rewrite <- E. auto.
  - rewrite str_eqb_neq by auto. apply IH; auto. destruct I; [contradiction|auto].
Qed.

(** * The rows after a history of writes *)
Definition ev := (list label * sample)%type.
Definition row_of (x : ev) : row := Row (table_of (fst x)) (fst x) (s_ms (snd x) * 1000000) (Some (s_value (snd x))).
Definition db_of (p : list ev) : db := fold_left (fun d x => put (row_of x) d) p db0.
Lemma lines_sent h : Forall (fun ts => Forall (fun s => fits (s_ms s)) (ts_samples ts)) h ->
  lines h = map (fun x : ev => Line (table_of (fst x)) (fst x) (s_value (snd x)) (s_ms (snd x) * 1000000)) (sent h).
Proof.
  induction h as [|ts h IH]; intros F; auto. inversion F as [|? ? T F']; subst. unfold lines, sent in *. cbn [flat_map]. rewrite map_app, IH by auto. f_equal.
  unfold lines_of. rewrite map_map. cbn [fst snd]. clear - T. induction (ts_samples ts) as [|s l IH]; auto. inversion T; subst. cbn [map]. rewrite IH by auto.
  rewrite wrap_i64_id by (apply fits_i64; auto). auto.
Qed.
Lemma put_lines_app p : forall a b d, put_lines p (a ++ b) d = match put_lines p a d with Some d => put_lines p b d | None => None end.
Proof. induction a as [|x a IH]; intros b d; auto. cbn [app put_lines]. destruct (put_line p x d); auto. Qed.
Lemma writes_lines p : forall reqs d, writes p reqs d = put_lines p (lines (concat reqs)) d.
Proof.
  induction reqs as [|r reqs IH]; intros d; auto. cbn [writes concat]. unfold lines. rewrite flat_map_app, put_lines_app. unfold remote_write, lines.
  destruct (put_lines p (flat_map lines_of r) d); auto.
Qed.
Lemma put_lines_rows : forall p d,
  put_lines NS (map (fun x : ev => Line (table_of (fst x)) (fst x) (s_value (snd x)) (s_ms (snd x) * 1000000)) p) d = Some (fold_left (fun d x => put (row_of x) d) p d).
Proof. induction p as [|x p IH]; intros d; auto. cbn [map put_lines]. unfold put_line. cbn [timestamp_convert ln_time ln_table ln_tags ln_value]. rewrite IH. reflexivity. Qed.
Lemma writes_db reqs d : Forall series_ok (concat reqs) -> writes NS reqs db0 = Some d -> d = db_of (sent (concat reqs)).
Proof.
  intros F W. rewrite writes_lines, lines_sent, put_lines_rows in W; [injection W as <-; auto|]. eapply Forall_impl; [|exact F]. intros ts (_ & _ & _ & _ & H). exact H.
Qed.

Lemma db_of_snoc p x : db_of (p ++ [x]) = put (row_of x) (db_of p).
Proof. unfold db_of. rewrite fold_left_app. reflexivity. Qed.
Lemma rows_snoc p x : d_rows (db_of (p ++ [x])) = row_of x :: filter (fun y => negb (same_row (row_of x) y)) (d_rows (db_of p)).
Proof. rewrite db_of_snoc. unfold put. cbn [d_rows row_of r_value]. destruct (find _ _); reflexivity. Qed.
Lemma rows_iff : forall p r, In r (d_rows (db_of p)) <->
  exists p1 x p2, p = p1 ++ x :: p2 /\ r = row_of x /\ forall y, In y p2 -> same_row (row_of x) (row_of y) = false.
Proof.
  intros p. induction p as [|z p IH] using rev_ind; intros r.
  - cbn. split; [contradiction|]. intros (p1 & x & p2 & E & _). destruct p1; discriminate.
  - rewrite rows_snoc. cbn [In]. rewrite filter_In, IH, negb_true_iff. split.
    + intros [<-|((p1 & x & p2 & -> & -> & H) & S)].
      * exists p, z, []. split; auto. split; auto. intros y [].
      * exists p1, x, (p2 ++ [z]). split; [rewrite <- app_assoc; auto|]. split; auto. intros y I. apply in_app_or in I. destruct I as [I|[<-|[]]]; auto. rewrite same_row_sym. auto.
    + intros (p1 & x & p2 & E & -> & H). destruct p2 as [|y p2 _] using rev_ind.
      * left. apply app_inj_tail in E. destruct E as (_ & ->). auto.
      * rewrite app_comm_cons, app_assoc in E. apply app_inj_tail in E. destruct E as (-> & ->). right. split.
        -- exists p1, x, p2. split; auto. split; auto. intros y' I. apply H, in_or_app. auto.
        -- rewrite same_row_sym. apply H, in_or_app. right. left. auto.
Qed.
Lemma rows_unique : forall p, NoDup (d_rows (db_of p)) /\ forall a b, In a (d_rows (db_of p)) -> In b (d_rows (db_of p)) -> same_row a b = true -> a = b.
Proof.
  intros p. induction p as [|z p (IH1 & IH2)] using rev_ind; [split; [constructor|intros ? ? []]|]. rewrite rows_snoc. split.
  - constructor; [|apply NoDup_filter; auto]. rewrite filter_In. intros (_ & H). rewrite same_row_refl in H. discriminate.
  - intros a b [<-|A] [<-|B] S; auto.
    + apply filter_In in B. destruct B as (_ & B). rewrite S in B. discriminate.
    + apply filter_In in A. destruct A as (_ & A). rewrite same_row_sym, S in A. discriminate.
    + apply filter_In in A, B. apply IH2; tauto.
Qed.

(** ** Tables *)
Lemma add_cols_in : forall ns cols n, In n (add_cols ns cols) <-> In n ns \/ In n cols.
Proof.
  unfold add_cols. induction ns as [|x ns IH]; intros cols n; cbn [fold_left In]; [tauto|]. rewrite IH. destruct (existsb (str_eqb x) cols) eqn:E.
  - apply existsb_exists in E. destruct E as (y & Y & E). apply str_eqb_iff in E. subst y. split; [tauto|]. intros [[<-|H]|H]; auto.
  - rewrite in_app_iff. cbn [In]. tauto.
Qed.
Lemma add_table_get t ns : forall ts t', find (fun x => str_eqb (fst x) t') (add_table t ns ts) =
  if str_eqb t t' then Some (t, add_cols ns (match find (fun x => str_eqb (fst x) t) ts with Some (_, c) => c | None => [] end))
  else find (fun x => str_eqb (fst x) t') ts.
Proof.
  induction ts as [|(u, c) ts IH]; intros t'; cbn [add_table find fst].
  - destruct (str_eqb t t'); auto.
  - destruct (str_eqb t u) eqn:E; cbn [find fst].
    + apply str_eqb_iff in E. subst u. rewrite str_eqb_refl. destruct (str_eqb t t'); auto.
    + destruct (str_eqb u t') eqn:F.
      * apply str_eqb_iff in F. subst t'. rewrite E. auto.
      * rewrite IH. destruct (str_eqb t t') eqn:G; auto.
        replace (str_eqb u t) with false; auto. symmetry. apply str_eqb_neq. intros ->. rewrite str_eqb_refl in E. discriminate.
Qed.
Lemma add_table_names t ns : forall ts, NoDup (map fst ts) -> NoDup (map fst (add_table t ns ts)) /\ forall u, In u (map fst (add_table t ns ts)) <-> u = t \/ In u (map fst ts).
Proof.
  induction ts as [|(u, c) ts IH]; intros D; cbn [add_table map fst].
  - split; [constructor; auto; constructor|]. cbn [In]. intros u. split; [intros [<-|[]]; auto|intros [->|[]]; auto].
  - cbn [map fst] in D. inversion D as [|? ? N D']; subst. destruct (str_eqb t u) eqn:E; cbn [map fst].
    + split; [constructor; auto|]. apply str_eqb_iff in E. subst u. cbn [In]. intros v. split; [tauto|]. intros [->|H]; auto.
    + destruct (IH D') as (A & B). split.
      * constructor; auto. rewrite B. intros [->|H]; [rewrite str_eqb_refl in E; discriminate|auto].
      * intros v. cbn [In]. rewrite B. tauto.
Qed.
Lemma tables_ok : forall p, NoDup (map fst (d_tables (db_of p))) /\
  (forall t, In t (map fst (d_tables (db_of p))) <-> exists x, In x p /\ table_of (fst x) = t) /\
  (forall t u cols, find (fun x => str_eqb (fst x) t) (d_tables (db_of p)) = Some (u, cols) ->
     forall n, In n cols <-> exists x, In x p /\ table_of (fst x) = t /\ In n (map l_name (fst x))).
Proof.
  intros p. induction p as [|z p (IH1 & IH2 & IH3)] using rev_ind.
  - split; [constructor|]. split; [cbn; intros t; split; [contradiction|intros (x & [] & _)]|]. discriminate.
  - rewrite db_of_snoc. unfold put. cbn [d_tables]. destruct (add_table_names (r_table (row_of z)) (map l_name (r_tags (row_of z))) (d_tables (db_of p)) IH1) as (A & B).
    split; auto. split.
    + intros t. rewrite B, IH2. cbn [row_of r_table]. split.
      * intros [->|(x & I & E)]; [exists z; split; auto; apply in_or_app; right; left; auto|exists x; split; auto; apply in_or_app; auto].
      * intros (x & I & E). apply in_app_or in I. destruct I as [I|[<-|[]]]; eauto.
    + intros t u cols. rewrite add_table_get. cbn [row_of r_table r_tags]. destruct (str_eqb (table_of (fst z)) t) eqn:E.
      * intros H. injection H as <- <-. apply str_eqb_iff in E. intros n. rewrite add_cols_in.
        destruct (find (fun x => str_eqb (fst x) (table_of (fst z))) (d_tables (db_of p))) as [(u', c)|] eqn:G.
        -- rewrite (IH3 _ _ _ G). rewrite E. split.
           ++ intros [H|(x & I & T & H)]; [exists z|exists x]; (split; [apply in_or_app; cbn [In]; auto|auto]).
           ++ intros (x & I & T & H). apply in_app_or in I. destruct I as [I|[<-|[]]]; eauto.
        -- split.
           ++ intros [H|[]]. exists z. split; [apply in_or_app; cbn [In]; auto|auto].
           ++ intros (x & I & T & H). apply in_app_or in I. destruct I as [I|[<-|[]]]; auto. exfalso.
              assert (J : In t (map fst (d_tables (db_of p)))) by (apply IH2; eauto). apply in_map_iff in J. destruct J as (y & Y & J).
              pose proof (find_none _ _ G y J) as K. cbv beta in K. rewrite E, Y, str_eqb_refl in K. discriminate.
      * intros H n. rewrite (IH3 _ _ _ H). split.
        -- intros (x & I & R). exists x. split; auto. apply in_or_app; auto.
        -- intros (x & I & T & H'). apply in_app_or in I. destruct I as [I|[<-|[]]]; eauto. apply str_eqb_iff in T. congruence.
Qed.

(** * Sorting *)
Lemma insert_perm r : forall l, Permutation (r :: l) (insert_by_time r l).
Proof. induction l as [|x l IH]; cbn [insert_by_time]; auto. destruct (r_time r <=? r_time x); auto. rewrite perm_swap. auto. Qed.
Lemma sort_perm : forall l, Permutation l (sort_by_time l).
Proof. induction l as [|x l IH]; cbn [sort_by_time fold_right]; auto. rewrite <- insert_perm. auto. Qed.
Definition time_le (a b : row) : Prop := r_time a <= r_time b.
Lemma insert_sorted r : forall l, StronglySorted time_le l -> StronglySorted time_le (insert_by_time r l).
Proof.
  induction l as [|x l IH]; intros S; cbn [insert_by_time]; [constructor; auto|]. destruct (Z.leb_spec (r_time r) (r_time x)).
  - constructor; auto. constructor; [exact H|]. inversion S as [|? ? S' F]; subst. eapply Forall_impl; [|exact F]. unfold time_le. intros a A. lia.
  - inversion S as [|? ? S' F]; subst. constructor; auto. eapply Permutation_Forall; [apply insert_perm|]. constructor; [unfold time_le; lia|auto].
Qed.
Lemma sort_sorted : forall l, StronglySorted time_le (sort_by_time l).
Proof. induction l as [|x l IH]; cbn [sort_by_time fold_right]; [constructor|]. apply insert_sorted; auto. Qed.

(** * The time series *)
Section Series.
Context (cols : list str).
Definition key_of (r : row) : str := concat_labels (labels_of cols r).
Definition step (m : list (str * tseries)) (r : row) : list (str * tseries) := add_sample (key_of r) (labels_of cols r) (sample_of NS r) m.
Definition of_key (k : str) (rows : list row) : list row := filter (fun r => str_eqb (key_of r) k) rows.
Definition sinv (rows : list row) (m : list (str * tseries)) : Prop :=
  NoDup (map fst m) /\
  (forall k ts, In (k, ts) m -> ts_samples ts = map (sample_of NS) (of_key k rows) /\ exists r, In r rows /\ key_of r = k /\ ts_labels ts = labels_of cols r) /\
  (forall r, In r rows -> In (key_of r) (map fst m)).
Lemma of_key_app k a b : of_key k (a ++ b) = of_key k a ++ of_key k b.
Proof. unfold of_key. apply filter_app. Qed.
Lemma add_sample_names k ls s : forall m u, In u (map fst (add_sample k ls s m)) <-> u = k \/ In u (map fst m).
Proof.
  induction m as [|(k', ts) m IH]; intros u; cbn [add_sample map fst In]; [split; [intros [<-|[]]; auto|intros [->|[]]; auto]|].
  destruct (str_eqb k k') eqn:E; cbn [map fst In].
  - apply str_eqb_iff in E. subst. split; [tauto|]. intros [->|H]; auto.
  - rewrite IH. tauto.
Qed.
Lemma add_sample_nodup k ls s : forall m, NoDup (map fst m) -> NoDup (map fst (add_sample k ls s m)).
Proof.
  induction m as [|(k', ts) m IH]; intros D; cbn [add_sample]; [constructor; [auto|constructor]|]. cbn [map fst] in D. inversion D as [|? ? N D']; subst.
  destruct (str_eqb k k') eqn:E; cbn [map fst]; constructor; auto. rewrite add_sample_names. intros [->|H]; [rewrite str_eqb_refl in E; discriminate|auto].
Qed.
Lemma add_sample_in k ls s : forall m u ts, NoDup (map fst m) -> In (u, ts) (add_sample k ls s m) ->
  (u <> k /\ In (u, ts) m) \/ (u = k /\ exists ts', In (k, ts') m /\ ts = TSer (ts_labels ts') (ts_samples ts' ++ [s])) \/ (u = k /\ ~ In k (map fst m) /\ ts = TSer ls [s]).
Proof.
  induction m as [|(k', ts') m IH]; intros u ts D I; cbn [add_sample] in I.
  - destruct I as [I|[]]. injection I as <- <-. right. right. auto.
  - cbn [map fst] in D. inversion D as [|? ? N D']; subst. destruct (str_eqb k k') eqn:E.
    + apply str_eqb_iff in E. subst k'. destruct I as [I|I].
      * injection I as <- <-. right. left. split; auto. exists ts'. split; [left|]; auto.
      * left. split; [|right; auto]. intros ->. apply N. apply (in_map fst) in I. auto.
    + destruct I as [I|I].
      * injection I as <- <-. left. split; [|left; auto]. intros ->. rewrite str_eqb_refl in E. discriminate.
      * destruct (IH _ _ D' I) as [(A & B)|[(A & x & B & C)|(A & B & C)]].
        -- left. split; auto. right; auto.
        -- right. left. split; auto. exists x. split; auto. right; auto.
        -- right. right. split; auto. split; auto. intros [H|H]; auto. subst. cbn [fst] in E. rewrite str_eqb_refl in E. discriminate.
Qed.
Lemma of_key_none k rows : (forall r, In r rows -> key_of r <> k) -> of_key k rows = [].
Proof.
  unfold of_key. induction rows as [|r rows IH]; intros H; auto. cbn [filter]. rewrite str_eqb_neq by (apply H; left; auto). apply IH. intros x X. apply H. right; auto.
Qed.
Lemma step_inv rows m r : sinv rows m -> sinv (rows ++ [r]) (step m r).
Proof.
  intros (D & S & C). unfold step. split; [apply add_sample_nodup; auto|]. split.
  - intros k ts I. rewrite of_key_app, map_app. destruct (add_sample_in _ _ _ _ _ _ D I) as [(A & B)|[(-> & x & B & ->)|(-> & B & ->)]].
    + destruct (S _ _ B) as (P & r' & R & K & L). replace (of_key k [r]) with (@nil row) by (unfold of_key; cbn [filter]; rewrite str_eqb_neq; auto).
      cbn [map]. rewrite app_nil_r. split; auto. exists r'. split; auto. apply in_or_app; auto.
    + destruct (S _ _ B) as (P & r' & R & K & L). cbn [ts_samples ts_labels]. rewrite P. unfold of_key at 3. cbn [filter]. rewrite str_eqb_refl. split; auto.
      exists r'. split; auto. apply in_or_app; auto.
    + cbn [ts_samples ts_labels]. rewrite of_key_none; [|intros x X E; apply B; rewrite <- E; auto]. unfold of_key. cbn [filter]. rewrite str_eqb_refl. split; auto.
      exists r. split; auto. apply in_or_app. right. left. auto.
  - intros x I. rewrite add_sample_names. apply in_app_or in I. destruct I as [I|[<-|[]]]; auto.
Qed.
Lemma series_inv : forall rows, sinv rows (fold_left step rows []).
Proof.
  intros rows. induction rows as [|r rows IH] using rev_ind; [split; [constructor|]; split; [intros ? ? []|intros ? []]|]. rewrite fold_left_app. apply step_inv; auto.
Qed.
(** Different labels have different texts. *)
Definition no_sep (r : row) : Prop := forall n v, tag_of (r_tags r) n = Some v -> ~ In 1 v.
Lemma split_sep : forall (a b x y : str), ~ In 1 a -> ~ In 1 b -> a ++ 1 :: x = b ++ 1 :: y -> a = b /\ x = y.
Proof.
  induction a as [|c a IH]; intros [|d b] x y A B E; cbn [app] in E.
  - injection E as ->. auto.
  - exfalso. apply B. left. congruence.
  - exfalso. apply A. left. congruence.
  - injection E as -> E. destruct (IH b x y) as (-> & ->); auto; intros I; [apply A|apply B]; right; auto.
Qed.
Lemma concat_inj (f g : str -> str) : (forall n, ~ In 1 (f n)) -> (forall n, ~ In 1 (g n)) -> forall l,
  concat_labels (map (fun c => Label c (f c)) l) = concat_labels (map (fun c => Label c (g c)) l) -> forall c, In c l -> f c = g c.
Proof.
  intros F G. induction l as [|c l IH]; intros E x I; [contradiction|]. destruct l as [|d l].
  - cbn [map concat_labels l_name l_value] in E. apply app_inv_head in E. injection E as E. destruct I as [<-|[]]; auto.
  - cbn [map] in E. cbn [concat_labels l_name l_value] in E. apply app_inv_head in E. injection E as E. apply split_sep in E; auto. destruct E as (E1 & E2).
    destruct I as [<-|I]; auto.
Qed.
Lemma key_inj r r' : no_sep r -> no_sep r' -> key_of r = key_of r' -> labels_of cols r = labels_of cols r'.
Proof.
  intros N N' E. unfold key_of, labels_of in *. apply map_ext_in. intros c I. f_equal.
  refine (concat_inj (fun c => match tag_of (r_tags r) c with Some v => v | None => [] end) (fun c => match tag_of (r_tags r') c with Some v => v | None => [] end) _ _ cols E c I).
  - intros n. destruct (tag_of (r_tags r) n) eqn:T; [exact (N _ _ T)|auto].
  - intros n. destruct (tag_of (r_tags r') n) eqn:T; [exact (N' _ _ T)|auto].
Qed.
Lemma labels_value r : (forall n, In n (map l_name (r_tags r)) -> In n cols) -> forall n, value_of (labels_of cols r) n = value_of (r_tags r) n.
Proof.
  intros C n. rewrite (value_tag (r_tags r)). unfold labels_of.
  assert (A : forall l, value_of (map (fun c => Label c (match tag_of (r_tags r) c with Some v => v | None => [] end)) l) n =
              if in_dec (list_eq_dec Z.eq_dec) n l then match tag_of (r_tags r) n with Some v => v | None => [] end else []).
  { induction l as [|c l IH]; auto. cbn [map value_of l_name l_value]. rewrite IH. destruct (list_eq_dec Z.eq_dec c n) as [->|E].
    - destruct (in_dec (list_eq_dec Z.eq_dec) n (n :: l)) as [_|X]; [auto|]. exfalso. apply X. left; auto.
    - destruct (in_dec (list_eq_dec Z.eq_dec) n l) as [I|I], (in_dec (list_eq_dec Z.eq_dec) n (c :: l)) as [J|J]; auto; exfalso.
      + apply J. right; auto.
      + destruct J; [contradiction|auto]. }
  rewrite A. destruct (in_dec (list_eq_dec Z.eq_dec) n cols) as [I|I]; auto. destruct (tag_of (r_tags r) n) eqn:T; auto. exfalso. apply I, C. apply (tag_in _ _ _ T).
Qed.
End Series.

Lemma to_series_fold cols rows : to_series NS cols rows = map snd (fold_left (step cols) rows []).
Proof. reflexivity. Qed.

(** A sorted list of rows without repetition, restricted to one key: the times increase. *)
Lemma sorted_key (P : row -> bool) : forall rows, NoDup rows -> StronglySorted time_le rows ->
  (forall a b, In a rows -> In b rows -> P a = true -> P b = true -> r_time a = r_time b -> a = b) ->
  (forall a, In a rows -> exists k, r_time a = k * 1000000) ->
  StronglySorted Z.lt (map s_ms (map (sample_of NS) (filter P rows))).
Proof.
  induction rows as [|r rows IH]; intros D S U M; cbn [filter map]; [constructor|]. inversion D as [|? ? N D']; subst. inversion S as [|? ? S' F]; subst.
  assert (T : StronglySorted Z.lt (map s_ms (map (sample_of NS) (filter P rows)))).
  { apply IH; auto; intros; [apply U; auto; right; auto|apply M; right; auto]. }
  destruct (P r) eqn:E; auto. cbn [map]. constructor; auto. rewrite map_map, Forall_map. apply Forall_forall. intros b B. apply filter_In in B. destruct B as (B & Q).
  rewrite Forall_forall in F. pose proof (F b B) as L. unfold time_le in L.
  assert (X : r_time r <> r_time b). { intros X. apply N. rewrite (U r b); auto; [left; auto|right; auto]. }
  destruct (M r (or_introl eq_refl)) as (i & I), (M b (or_intror B)) as (j & J). unfold sample_of. cbn [s_ms millis]. rewrite I, J in *. rewrite !Z.quot_mul by lia. lia.
Qed.

(** * A history of writes and a query *)
Lemma FOP_nth {A} (R : A -> A -> Prop) : (forall a b, R a b -> R b a) -> forall l, ForallOrdPairs R l ->
  forall i j a b, nth_error l i = Some a -> nth_error l j = Some b -> ~ R a b -> i = j.
Proof.
  intros SY l F. induction F as [|x l F1 F2 IH]; intros i j a b I J N; [destruct i; discriminate|].
  rewrite Forall_forall in F1. destruct i as [|i], j as [|j]; auto; cbn [nth_error] in I, J.
  - injection I as <-. exfalso. apply N, F1. eapply nth_error_In; eauto.
  - injection J as <-. exfalso. apply N, SY, F1. eapply nth_error_In; eauto.
  - f_equal. eapply IH; eauto.
Qed.
Lemma FOP_app {A} (R : A -> A -> Prop) : forall a b, ForallOrdPairs R a -> ForallOrdPairs R b -> (forall x y, In x a -> In y b -> R x y) -> ForallOrdPairs R (a ++ b).
Proof.
  intros a b F G. induction F as [|x l F1 F2 IH]; intros H; auto. cbn [app]. constructor.
  - apply Forall_app. split; auto. apply Forall_forall. intros y Y. apply H; auto. left; auto.
  - apply IH. intros; apply H; auto. right; auto.
Qed.

Section History.
Context (search full : str -> str -> bool) (kw : str -> bool) (h : list tseries) (q : query) (nm : matcher) (ma mb : list matcher).
Context (HS : Forall series_ok h) (FS : fits (q_start q)) (FE : fits (q_end q)) (KT : kw [116; 105; 109; 101] = false).
Context (EQ : q_matchers q = ma ++ nm :: mb) (EN : m_name nm = metric_label).
Context (NM : m_type nm = MEq /\ (exists ts, In ts h /\ value_of (ts_labels ts) metric_label = m_value nm) \/ m_type nm = MRe /\ anchored search full nm).
Context (OT : forall m, In m (ma ++ mb) ->
      m_name m <> metric_label /\ plain_name (m_name m) /\ kw (m_name m) = false /\ m_name m <> [97; 110; 100] /\ m_name m <> [111; 114] /\
      ~ In 39 (m_value m) /\ anchored search full m /\
      forall ts, In ts h -> matches full nm (value_of (ts_labels ts) metric_label) ->
        (exists ts', In ts' h /\ value_of (ts_labels ts') metric_label = value_of (ts_labels ts) metric_label /\ value_of (ts_labels ts') (m_name m) <> []) /\
        (matches full m [] -> value_of (ts_labels ts) (m_name m) <> [])).
Local Notation p := (sent h).
Local Notation d := (db_of (sent h)).
Local Notation names := (map fst (d_tables d)).

Lemma name_same : metric_label = NAME. Proof. reflexivity. Qed.
Lemma in_others m : In m (others q) <-> In m (ma ++ mb).
Proof.
  unfold others. rewrite EQ. rewrite filter_app. cbn [filter]. unfold is_name at 2. rewrite EN, name_same, str_eqb_refl. cbn [negb]. rewrite <- filter_app.
  rewrite filter_In. split; [tauto|]. intros I. split; auto. destruct (OT m I) as (N & _). unfold is_name. rewrite str_eqb_neq; auto.
Qed.
Lemma sent_series x : In x p -> exists ts, In ts h /\ fst x = ts_labels ts /\ In (snd x) (ts_samples ts).
Proof.
  unfold sent. intros I. apply in_flat_map in I. destruct I as (ts & T & I). apply in_map_iff in I. destruct I as (s & <- & I). exists ts. auto.
Qed.
Lemma series_sent ts : In ts h -> exists x, In x p /\ fst x = ts_labels ts.
Proof.
  intros I. pose proof HS as H. rewrite Forall_forall in H. destruct (H ts I) as (_ & _ & _ & N & _). destruct (ts_samples ts) as [|s l] eqn:E; [congruence|].
  exists (ts_labels ts, s). split; auto. unfold sent. apply in_flat_map. exists ts. split; auto. rewrite E. left. auto.
Qed.
Lemma series_table ts : In ts h -> filled (ts_labels ts) /\ table_of (ts_labels ts) = value_of (ts_labels ts) metric_label /\ ~ In 34 (table_of (ts_labels ts)) /\
  (forall n v, tag_of (ts_labels ts) n = Some v -> ~ In 1 v) /\ In metric_label (map l_name (ts_labels ts)).
Proof.
  intros I. pose proof HS as H. rewrite Forall_forall in H. destruct (H ts I) as (ND & F & (l & L & LN & Q) & _).
  assert (J : In NAME (map l_name (ts_labels ts))) by (rewrite <- name_same, <- LN; apply in_map; auto).
  assert (T : table_of (ts_labels ts) = value_of (ts_labels ts) metric_label) by (rewrite name_same; apply table_of_value; auto).
  split; [eapply Forall_impl; [|exact F]; cbv beta; tauto|]. split; auto. split; [|split; auto].
  - rewrite T. replace (value_of (ts_labels ts) metric_label) with (l_value l); auto. rewrite <- LN. clear - ND L. induction (ts_labels ts) as [|x ls IH]; [contradiction|].
    cbn [map] in ND. inversion ND as [|? ? N ND']; subst. cbn [value_of]. destruct L as [->|L].
    + destruct (list_eq_dec Z.eq_dec (l_name l) (l_name l)); congruence.
    + destruct (list_eq_dec Z.eq_dec (l_name x) (l_name l)) as [E|E]; auto. exfalso. apply N. rewrite E. apply in_map; auto.
  - intros n v T'. apply tag_in in T'. destruct T' as (_ & T'). apply in_map_iff in T'. destruct T' as (l' & <- & I'). rewrite Forall_forall in F. apply F; auto.
Qed.
Lemma row_facts r : In r (d_rows d) -> exists x ts, In x p /\ r = row_of x /\ In ts h /\ fst x = ts_labels ts.
Proof.
  intros I. apply rows_iff in I. destruct I as (p1 & x & p2 & E & -> & _). assert (J : In x p) by (rewrite E; apply in_or_app; right; left; auto).
  destruct (sent_series x J) as (ts & T & F & _). exists x, ts. auto.
Qed.
Lemma same_row_labels x y : In x p -> In y p -> (same_row (row_of x) (row_of y) = true <-> same_labels (fst x) (fst y) /\ s_ms (snd x) = s_ms (snd y)).
Proof.
  intros X Y. destruct (sent_series x X) as (a & A & EA & _), (sent_series y Y) as (b & B & EB & _).
  destruct (series_table a A) as (FA & TA & _), (series_table b B) as (FB & TB & _). rewrite same_row_iff. unfold row_of. cbn [r_table r_tags r_time]. rewrite EA, EB.
  rewrite (same_labels_tags _ _ FA FB). split.
  - intros (_ & T & M). split; auto. lia.
  - intros (T & M). split; [|split; auto; lia]. rewrite TA, TB. apply (same_labels_tags _ _ FA FB); auto.
Qed.
Lemma latest_row ls t v : latest h ls t v <-> exists x, In x p /\ In (row_of x) (d_rows d) /\ same_labels (fst x) ls /\ snd x = Sample v t.
Proof.
  split.
  - intros (p1 & ls' & p2 & E & S & N). exists (ls', Sample v t). assert (J : In (ls', Sample v t) p) by (rewrite E; apply in_or_app; right; left; auto).
    split; auto. split; [|auto]. apply rows_iff. exists p1, (ls', Sample v t), p2. split; auto. split; auto. intros y Y.
    apply not_true_iff_false. intros H. apply same_row_labels in H; auto; [|rewrite E; apply in_or_app; right; right; auto].
    destruct H as (H1 & H2). cbn [fst snd s_ms] in *. destruct y as (ly, [vy ty]). cbn [fst snd s_ms] in *. subst ty. apply (N ly vy Y). intros n. rewrite <- (H1 n). apply S.
  - intros (x & X & R & S & V). apply rows_iff in R. destruct R as (p1 & z & p2 & E & RZ & N).
    assert (Z : In z p) by (rewrite E; apply in_or_app; right; left; auto).
    assert (XZ : same_row (row_of x) (row_of z) = true) by (rewrite RZ; apply same_row_refl). apply same_row_labels in XZ; auto. destruct XZ as (XZ & MZ).
    assert (VZ : s_value (snd x) = s_value (snd z)) by (injection RZ; auto). rewrite V in MZ, VZ. cbn [s_ms s_value] in MZ, VZ.
    exists p1, (fst z), p2. split; [rewrite E; destruct z as (lz, [vz tz]); cbn [fst snd s_ms s_value] in *; subst; auto|]. split.
    + intros n. rewrite <- (XZ n). apply S.
    + intros ly vy Y SY. assert (F : same_row (row_of z) (row_of (ly, Sample vy t)) = true).
      { apply same_row_labels; auto; [rewrite E; apply in_or_app; right; right; auto|]. cbn [fst snd s_ms]. split; auto. intros n. rewrite <- (XZ n), (S n), (SY n). auto. }
      rewrite (N _ Y) in F. discriminate.
Qed.

(** ** The tables *)
Definition the_tables : list str := match m_type nm with MEq => [m_value nm] | _ => filter (search (m_value nm)) names end.
Lemma names_iff t : In t names <-> exists ts, In ts h /\ value_of (ts_labels ts) metric_label = t.
Proof.
  destruct (tables_ok p) as (_ & A & _). rewrite A. split.
  - intros (x & X & T). destruct (sent_series x X) as (ts & I & E & _). exists ts. split; auto. destruct (series_table ts I) as (_ & T' & _). rewrite <- T', <- E. auto.
  - intros (ts & I & T). destruct (series_sent ts I) as (x & X & E). exists x. split; auto. rewrite E. destruct (series_table ts I) as (_ & T' & _). congruence.
Qed.
Lemma tables_of_ok : tables_of search names q = Some the_tables.
Proof.
  assert (A : forall l acc, (forall m, In m l -> m_name m <> metric_label) ->
    fold_left (fun acc m => if is_name m then match acc with Some _ => pick_tables search names m | None => None end else acc) l acc = acc).
  { induction l as [|m l IH]; intros acc N; auto. cbn [fold_left]. unfold is_name at 2. rewrite str_eqb_neq by (intros E; apply (N m (or_introl eq_refl)); auto).
    apply IH. intros x X. apply N. right; auto. }
  unfold tables_of. rewrite EQ, fold_left_app. cbn [fold_left]. rewrite A by (intros m I; apply OT; apply in_or_app; auto). rewrite A by (intros m I; apply OT; apply in_or_app; auto).
  unfold is_name. rewrite EN, name_same, str_eqb_refl. unfold pick_tables, the_tables. destruct NM as [(T & ts & I & E)|(T & _)]; rewrite T; auto.
  replace (existsb (str_eqb (m_value nm)) names) with true; auto. symmetry. apply existsb_exists. exists (m_value nm). split; [|apply str_eqb_refl]. apply names_iff. eauto.
Qed.
Lemma the_tables_iff t : In t the_tables <-> In t names /\ matches full nm t.
Proof.
  unfold the_tables, matches. destruct NM as [(T & ts & I & E)|(T & A)]; rewrite T.
  - cbn [In]. split; [intros [<-|[]]; split; auto; apply names_iff; eauto|intros (_ & ->); auto].
  - unfold anchored in A. rewrite T in A. rewrite filter_In, A. tauto.
Qed.
Lemma the_tables_nodup : NoDup the_tables.
Proof. unfold the_tables. destruct (m_type nm); [constructor; [auto|constructor]| | |]; apply NoDup_filter, tables_ok. Qed.

(** ** One table *)
Section Table.
Context (t : str) (IT : In t names) (MT : matches full nm t).
Lemma table_cols : exists u cols, find (fun x => str_eqb (fst x) t) (d_tables d) = Some (u, cols) /\
  (forall m, In m (others q) -> In (m_name m) cols) /\ (forall x, In x p -> table_of (fst x) = t -> forall n, In n (map l_name (fst x)) -> In n cols) /\ ~ In 34 t.
Proof.
  destruct (find (fun x => str_eqb (fst x) t) (d_tables d)) as [(u, cols)|] eqn:E.
  - exists u, cols. split; auto. destruct (tables_ok p) as (_ & _ & C). pose proof (C _ _ _ E) as C'. split; [|split].
    + intros m I. apply in_others in I. destruct (OT m I) as (_ & _ & _ & _ & _ & _ & _ & W). apply names_iff in IT. destruct IT as (ts & T & V).
      destruct (W ts T) as ((ts' & T' & V' & X) & _); [rewrite V; auto|]. destruct (series_sent ts' T') as (x & X1 & X2). apply C'. exists x. split; auto.
      rewrite X2. destruct (series_table ts' T') as (_ & TT & _). split; [congruence|]. rewrite value_tag in X. destruct (tag_of (ts_labels ts') (m_name m)) as [v|] eqn:G; [|congruence].
      apply (tag_in _ _ _ G).
    + intros x X T n N. apply C'. exists x. auto.
    + apply names_iff in IT. destruct IT as (ts & T & V). destruct (series_table ts T) as (_ & TT & Q & _). congruence.
  - exfalso. pose proof IT as J. apply in_map_iff in J. destruct J as (y & Y & J). pose proof (find_none _ _ E y J) as K. cbv beta in K. rewrite Y, str_eqb_refl in K. discriminate.
Qed.
(** A row of the table meets the condition exactly when its series and time are asked for. *)
Lemma row_selected cols x : (forall m, In m (others q) -> In (m_name m) cols) -> In x p -> table_of (fst x) = t ->
  (true_at search cols (the_cond q) (row_of x) <-> q_start q <= s_ms (snd x) <= q_end q /\ forall m, In m (q_matchers q) -> matches full m (value_of (fst x) (m_name m))).
Proof.
  intros C X T. destruct (the_cond_true search cols q C) as (_ & TR). rewrite TR. unfold from_ns, to_ns. cbn [row_of r_time].
  destruct (sent_series x X) as (ts & I & E & _). destruct (series_table ts I) as (FI & TT & _).
  assert (MN : matches full nm (value_of (fst x) (m_name nm))) by (rewrite EN, E, <- TT, <- E, T; auto).
  assert (one : forall m, In m (ma ++ mb) -> (true_at search cols (cond_of (cmp_of m)) (row_of x) <-> matches full m (value_of (fst x) (m_name m)))).
  { intros m M. rewrite tag_true by (apply C, in_others; auto). cbn [row_of r_tags]. destruct (OT m M) as (_ & _ & _ & _ & _ & _ & AN & W).
    destruct (W ts I) as (_ & W2); [rewrite EN, E in MN; auto|]. rewrite value_tag. unfold matches, anchored in *. rewrite E in *. rewrite value_tag in W2.
    destruct (tag_of (ts_labels ts) (m_name m)) as [v|].
    - destruct (m_type m); try rewrite <- AN; split; try (intros (w & W' & H); injection W' as <-; exact H); intros H; exists v; auto.
    - split; [intros (w & W' & _); discriminate|]. intros H. exfalso. exact (W2 H eq_refl). }
  assert (R : q_start q * 1000000 <= s_ms (snd x) * 1000000 <= q_end q * 1000000 <-> q_start q <= s_ms (snd x) <= q_end q) by lia.
  rewrite R. split; intros (L & M); (split; [exact L|]).
  - intros m I'. rewrite EQ in I'. apply in_app_or in I'. destruct I' as [I'|[<-|I']]; auto; (assert (J : In m (ma ++ mb)) by (apply in_or_app; auto)); apply one; auto; apply M, in_others; auto.
  - intros m I'. apply in_others in I'. apply one; auto. apply M. rewrite EQ. apply in_app_or in I'. apply in_or_app. destruct I'; auto. right; right; auto.
Qed.
Lemma run_one_ok : exists res, run_one search kw NS d q t = Some res /\
  (forall ls tm v, (exists ts, In ts res /\ same_labels (ts_labels ts) ls /\ In (Sample v tm) (ts_samples ts)) <->
     (exists x, In x p /\ In (row_of x) (d_rows d) /\ table_of (fst x) = t /\ same_labels (fst x) ls /\ snd x = Sample v tm /\
        q_start q <= tm <= q_end q /\ forall m, In m (q_matchers q) -> matches full m (value_of (fst x) (m_name m)))) /\
  ForallOrdPairs (fun a b => ~ same_labels (ts_labels a) (ts_labels b)) res /\
  (forall ts, In ts res -> value_of (ts_labels ts) metric_label = t) /\
  Forall (fun ts => StronglySorted Z.lt (map s_ms (ts_samples ts))) res.
Proof.
  destruct table_cols as (u & cols & F & C & CT & Q34). unfold run_one. rewrite F.
  rewrite read_back; auto.
  2: { intros m I. apply in_others in I. destruct (OT m I) as (_ & A1 & A2 & A3 & A4 & A5 & _). auto. }
  unfold select. rewrite F. destruct (the_cond_true search cols q C) as (EV & _). unfold accepted. destruct (EV (Row [] [] 0 None)) as (b0 & B0). rewrite B0.
  match goal with |- exists res, Some (to_series NS cols (sort_by_time ?l)) = _ /\ _ => set (sel := l) end.
  assert (SEL : forall r, In r sel <-> exists x, In x p /\ r = row_of x /\ In r (d_rows d) /\ table_of (fst x) = t /\
      q_start q <= s_ms (snd x) <= q_end q /\ forall m, In m (q_matchers q) -> matches full m (value_of (fst x) (m_name m))).
  { intros r. unfold sel. rewrite filter_In, andb_true_iff, str_eqb_iff. split.
    - intros (I & T & H). destruct (row_facts r I) as (x & ts & X & -> & _). exists x. split; auto. split; auto. split; auto. split; auto.
      apply (row_selected cols x C X T). unfold true_at. destruct (eval search cols (the_cond q) (row_of x)) as [[[]|]|]; auto; discriminate.
    - intros (x & X & -> & I & T & H). split; auto. split; auto. apply (row_selected cols x C X T) in H. unfold true_at in H. rewrite H. auto. }
  set (rows := sort_by_time sel).
  assert (ROWS : forall r, In r rows <-> In r sel) by (intros r; split; apply Permutation_in; [apply Permutation_sym|]; apply sort_perm).
  eexists. split; [reflexivity|]. rewrite to_series_fold. destruct (series_inv cols rows) as (KD & KS & KC). set (mm := fold_left (step cols) rows []) in *.
  destruct (rows_unique p) as (UN & UU).
  assert (ROWF : forall r, In r rows -> exists x, In x p /\ r = row_of x /\ table_of (fst x) = t /\ no_sep r /\ (forall n, value_of (labels_of cols r) n = value_of (fst x) n)).
  { intros r R. apply ROWS, SEL in R. destruct R as (x & X & -> & _ & T & _). exists x. split; auto. split; auto. split; auto.
    destruct (sent_series x X) as (ts & I & E & _). destruct (series_table ts I) as (_ & _ & _ & S1 & _). split.
    - intros n v. cbn [row_of r_tags]. rewrite E. apply S1.
    - intros n. rewrite labels_value; [auto|]. cbn [row_of r_tags]. apply CT; auto. }
  assert (KEY : forall r r', In r rows -> In r' rows -> key_of cols r = key_of cols r' -> forall n, value_of (r_tags r) n = value_of (r_tags r') n).
  { intros r r' R R' K n. destruct (ROWF r R) as (x & _ & E & _ & S & V), (ROWF r' R') as (x' & _ & E' & _ & S' & V'). pose proof (key_inj cols r r' S S' K) as L.
    pose proof (V n) as W. pose proof (V' n) as W'. rewrite L, W' in W. rewrite E, E'. cbn [row_of r_tags]. auto. }
  split; [|split; [|split]].
  - intros ls tm v. split.
    + intros (ts & I & S & IS). apply in_map_iff in I. destruct I as ((k, ts') & <- & I). cbn [snd] in *. destruct (KS _ _ I) as (SA & r & R & K & L).
      rewrite SA in IS. apply in_map_iff in IS. destruct IS as (r2 & V2 & R2). unfold of_key in R2. apply filter_In in R2. destruct R2 as (R2 & K2). apply str_eqb_iff in K2.
      assert (W : forall n, value_of (r_tags r2) n = value_of ls n).
      { intros n. rewrite (KEY r2 r R2 R) by congruence. rewrite <- (S n), L. destruct (ROWF r R) as (x & _ & E & _ & _ & V). rewrite V, E. auto. }
      apply ROWS, SEL in R2. destruct R2 as (x & X & E & RI & T & LM & M). exists x. split; auto. rewrite <- E. split; auto. split; auto. split; [intros n; rewrite <- (W n), E; auto|].
      rewrite E in V2. unfold sample_of in V2. cbn [row_of r_value r_time millis] in V2. rewrite Z.quot_mul in V2 by lia.
      destruct x as (lx, [vx tx]). cbn [snd s_value s_ms fst] in *. injection V2 as -> ->. auto.
    + intros (x & X & RI & T & S & V & LM & M).
      assert (R : In (row_of x) rows). { apply ROWS, SEL. exists x. rewrite V. cbn [s_ms]. repeat (split; [solve [auto]|]). exact M. }
      pose proof (KC _ R) as K. apply in_map_iff in K. destruct K as ((k, ts) & K & I). cbn [fst] in K. exists ts. split; [apply in_map_iff; exists (k, ts); auto|].
      destruct (KS _ _ I) as (SA & r & R' & K' & L). split.
      * intros n. rewrite L. destruct (ROWF r R') as (x' & _ & E & _ & _ & V'). rewrite V'. rewrite <- (S n). pose proof (KEY r (row_of x) R' R ltac:(congruence) n) as W. rewrite E in W. exact W.
      * rewrite SA. apply in_map_iff. exists (row_of x). split.
        -- unfold sample_of. cbn [row_of r_value r_time millis]. rewrite Z.quot_mul by lia. rewrite V. auto.
        -- unfold of_key. apply filter_In. split; auto. apply str_eqb_iff. auto.
  - assert (G : forall l, NoDup (map fst l) -> (forall e, In e l -> In e mm) -> ForallOrdPairs (fun a b => ~ same_labels (ts_labels a) (ts_labels b)) (map snd l)).
    { induction l as [|(k, ts) l IH]; intros D SUB; cbn [map]; constructor.
      - rewrite Forall_map. apply Forall_forall. intros (k2, ts2) I2 SL. cbn [snd] in SL. cbn [map fst] in D. inversion D as [|? ? N _]; subst.
        destruct (KS _ _ (SUB _ (or_introl eq_refl))) as (_ & r & R & K & L), (KS _ _ (SUB _ (or_intror I2))) as (_ & r2 & R2 & K2 & L2).
        apply N. replace k with k2; [apply (in_map fst) in I2; exact I2|]. rewrite <- K, <- K2. unfold key_of. f_equal. rewrite L, L2 in SL.
        unfold labels_of. apply map_ext_in. intros c IC. f_equal.
        destruct (ROWF r R) as (x & _ & E & _ & _ & V), (ROWF r2 R2) as (x2 & _ & E2 & _ & _ & V2). pose proof (SL c) as W. rewrite V, V2 in W.
        rewrite <- !value_tag. rewrite E, E2. cbn [row_of r_tags]. auto.
      - apply IH; [cbn [map] in D; inversion D; auto|]. intros e Q. apply SUB. right; auto. }
    apply G; auto.
  - intros ts I. apply in_map_iff in I. destruct I as ((k, ts') & <- & I). cbn [snd]. destruct (KS _ _ I) as (_ & r & R & _ & L). rewrite L.
    destruct (ROWF r R) as (x & X & _ & T & _ & V). rewrite V. destruct (sent_series x X) as (ts & I' & E & _). destruct (series_table ts I') as (_ & TT & _). rewrite E, <- TT, <- E. auto.
  - apply Forall_map, Forall_forall. intros (k, ts) I. cbn [snd]. destruct (KS _ _ I) as (SA & _). rewrite SA. unfold of_key. apply sorted_key.
    + apply (Permutation_NoDup (sort_perm sel)). unfold sel. apply NoDup_filter; auto.
    + apply sort_sorted.
    + intros a b A B PA PB TM. apply str_eqb_iff in PA, PB. pose proof (KEY a b A B ltac:(congruence)) as W. pose proof A as A'. pose proof B as B'.
      apply ROWS, SEL in A. apply ROWS, SEL in B. destruct A as (x & X & EA & IA & TA & _), B as (y & Y & EB & IB & TB & _). apply UU; auto. rewrite EA, EB.
      apply same_row_labels; auto. rewrite EA, EB in W, TM. cbn [row_of r_tags r_time] in W, TM. split; [exact W|]. lia.
    + intros a A. destruct (ROWF a A) as (x & _ & -> & _). cbn [row_of r_time]. eauto.
Qed.
End Table.

Lemma run_all_ok : forall l, NoDup l -> (forall t, In t l -> In t names /\ matches full nm t) -> exists res, run_all search kw NS d q l = Some res /\
  (forall ls tm v, (exists ts, In ts res /\ same_labels (ts_labels ts) ls /\ In (Sample v tm) (ts_samples ts)) <->
     (exists x, In x p /\ In (row_of x) (d_rows d) /\ In (table_of (fst x)) l /\ same_labels (fst x) ls /\ snd x = Sample v tm /\
        q_start q <= tm <= q_end q /\ forall m, In m (q_matchers q) -> matches full m (value_of (fst x) (m_name m)))) /\
  ForallOrdPairs (fun a b => ~ same_labels (ts_labels a) (ts_labels b)) res /\
  (forall ts, In ts res -> In (value_of (ts_labels ts) metric_label) l) /\
  Forall (fun ts => StronglySorted Z.lt (map s_ms (ts_samples ts))) res.
Proof.
  induction l as [|t l IH]; intros D H.
  - exists []. cbn [run_all]. split; auto. split; [|split; [constructor|split; [intros ? []|constructor]]]. intros ls tm v. split; [intros (ts & [] & _)|intros (x & _ & _ & [] & _)].
  - inversion D as [|? ? N D']; subst. destruct (H t (or_introl eq_refl)) as (IT & MT). destruct (run_one_ok t IT MT) as (r1 & R1 & A1 & B1 & C1 & S1).
    destruct (IH D' ltac:(intros x X; apply H; right; auto)) as (r2 & R2 & A2 & B2 & C2 & S2). exists (r1 ++ r2). cbn [run_all]. rewrite R1, R2. split; auto.
    split; [|split; [|split]].
    + intros ls tm v. split.
      * intros (ts & I & S). apply in_app_or in I. destruct I as [I|I].
        -- destruct (proj1 (A1 ls tm v) (ex_intro _ ts (conj I S))) as (x & X1 & X2 & X3 & X4). exists x. split; auto. split; auto. split; [left; auto|auto].
        -- destruct (proj1 (A2 ls tm v) (ex_intro _ ts (conj I S))) as (x & X1 & X2 & X3 & X4). exists x. split; auto. split; auto. split; [right; auto|auto].
      * intros (x & X1 & X2 & [X3|X3] & X4).
        -- destruct (proj2 (A1 ls tm v)) as (ts & I & S); [exists x; auto|]. exists ts. split; auto. apply in_or_app; auto.
        -- destruct (proj2 (A2 ls tm v)) as (ts & I & S); [exists x; auto|]. exists ts. split; auto. apply in_or_app; auto.
    + apply FOP_app; auto. intros a b A B SL. apply N. rewrite <- (C1 a A), (SL metric_label). apply C2; auto.
    + intros ts I. apply in_app_or in I. destruct I as [I|I]; [left; symmetry; apply C1; auto|right; apply C2; auto].
    + apply Forall_app; auto.
Qed.
Lemma read_answers : exists res, remote_read search kw NS d q = Some res /\ answers full h q res.
Proof.
  unfold remote_read. rewrite tables_of_ok. destruct (run_all_ok the_tables the_tables_nodup) as (res & R & A & B & _ & S).
  { intros t I. apply the_tables_iff; auto. }
  exists res. split; auto. split; [|split; auto].
  - intros ls t v. rewrite A, latest_row. split.
    + intros (x & X & RI & T & SL & V & L & M). split; [exists x; auto|]. split; auto. intros m I. rewrite <- (SL (m_name m)). auto.
    + intros ((x & X & RI & SL & V) & L & M). exists x. split; auto. split; auto.
      assert (M' : forall m, In m (q_matchers q) -> matches full m (value_of (fst x) (m_name m))) by (intros m I; rewrite (SL (m_name m)); auto).
      split; [|auto]. apply the_tables_iff. destruct (sent_series x X) as (ts & I & E & _). destruct (series_table ts I) as (_ & TT & _). rewrite E, TT. split.
      * apply names_iff. eauto.
      * rewrite <- E. rewrite <- EN. apply M'. rewrite EQ. apply in_or_app. right. left. auto.
  - intros i j a b I J SL. apply (FOP_nth _ (fun a b H G => H (fun n => eq_sym (G n))) res B i j a b I J). auto.
Qed.
End History.

Lemma read_back_ok : forall search full kw reqs d q, Forall series_ok (concat reqs) -> writes NS reqs db0 = Some d -> query_ok search full kw (concat reqs) q ->
  exists res, remote_read search kw NS d q = Some res /\ answers full (concat reqs) q res.
Proof.
  intros search full kw reqs d q F W (FS & FE & KT & a & nm & b & EQ & EN & NM & OT). rewrite (writes_db reqs d F W). exact (read_answers search full kw (concat reqs) q nm a b F FS FE KT EQ EN NM OT).
Qed.
