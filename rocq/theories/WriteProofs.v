(** Proofs about the column batches of a request. *)
From Verif Require Import Prelude PrecisionModel WriteModel WriteSpec.

Lemma str_eqb_eq a b : str_eqb a b = true <-> a = b.
Proof.
  revert b. induction a as [|x a IH]; intros [|y b]; cbn; split; intros H; try discriminate; try reflexivity.
  - apply andb_true_iff in H as [H1 H2]. apply Z.eqb_eq in H1. apply IH in H2. subst. reflexivity.
  - injection H as -> ->. rewrite Z.eqb_refl. cbn. apply IH. reflexivity.
Qed.
Lemma str_eqb_refl a : str_eqb a a = true. Proof. apply str_eqb_eq. reflexivity. Qed.
Lemma str_eqb_neq a b : str_eqb a b = false <-> a <> b.
Proof. rewrite <- str_eqb_eq. destruct (str_eqb a b); split; intros; congruence. Qed.
Lemma vtype_eqb_eq a b : vtype_eqb a b = true <-> a = b.
Proof. destruct a, b; cbn; split; intros; try discriminate; reflexivity. Qed.
Lemma kind_eqb_eq a b : kind_eqb a b = true <-> a = b.
Proof.
  destruct a, b; cbn; split; intros H; try discriminate; try reflexivity.
  - apply vtype_eqb_eq in H. subst. reflexivity.
  - injection H as ->. apply vtype_eqb_eq. reflexivity.
Qed.

Lemma ins_perm {A} lt (x : A) l : Permutation (ins lt x l) (x :: l).
Proof.
  induction l as [|y l IH]; cbn; [reflexivity|]. destruct (lt y x); [|reflexivity].
  rewrite IH. apply perm_swap.
Qed.
Lemma isort_perm {A} lt (l : list A) : Permutation (isort lt l) l.
Proof. induction l as [|x l IH]; cbn; [reflexivity|]. rewrite ins_perm. constructor. exact IH. Qed.

(** Rows as lists of named cells. *)
Notation crow := (list (str * kind * cell)).
Fixpoint lookup (n : str) (r : crow) : option (kind * cell) :=
  match r with [] => None | (m, k, v) :: r' => if str_eqb m n then Some (k, v) else lookup n r' end.
Definition names (r : crow) : list str := map (fun x => fst (fst x)) r.

Lemma lookup_In n k v r : NoDup (names r) -> (lookup n r = Some (k, v) <-> In (n, k, v) r).
Proof.
  unfold names. induction r as [|[[m k'] v'] r IH]; cbn; intros ND; [split; [discriminate|intros []]|].
  inversion ND as [|? ? NI ND']; subst. destruct (str_eqb m n) eqn:E.
  - apply str_eqb_eq in E. subst. split.
    + intros H. injection H as -> ->. left. reflexivity.
    + intros [H|H]; [injection H as -> ->; reflexivity|]. exfalso. apply NI.
      apply in_map_iff. exists (n, k, v). split; [reflexivity|exact H].
  - rewrite (IH ND'). split; [right; assumption|]. intros [H|H]; [|exact H]. injection H as -> -> ->.
    rewrite str_eqb_refl in E. discriminate.
Qed.
Lemma lookup_none n r : ~ In n (names r) -> lookup n r = None.
Proof.
  unfold names. induction r as [|[[m k'] v'] r IH]; cbn; intros H; [reflexivity|].
  destruct (str_eqb m n) eqn:E; [apply str_eqb_eq in E; subst; exfalso; apply H; left; reflexivity|].
  apply IH. intros I. apply H. right. exact I.
Qed.
Lemma lookup_names n k v r : lookup n r = Some (k, v) -> In n (names r).
Proof.
  unfold names. induction r as [|[[m k'] v'] r IH]; cbn; [discriminate|].
  destruct (str_eqb m n) eqn:E; [apply str_eqb_eq in E; subst; left; reflexivity|]. intros H. right. apply IH, H.
Qed.
Lemma lookup_app n r1 r2 : lookup n (r1 ++ r2) = match lookup n r1 with Some x => Some x | None => lookup n r2 end.
Proof. induction r1 as [|[[m k'] v'] r IH]; cbn; [reflexivity|]. destruct (str_eqb m n); [reflexivity|exact IH]. Qed.

(** What a column holds after the rows [L]. *)
Definition col_inv (L : list crow) (c : column) : Prop :=
  length (c_data c) = length (c_valid c) /\ (length (c_valid c) <= length L)%nat
  /\ forall i r, nth_error L i = Some r ->
       lookup (c_name c) r = if nth i (c_valid c) false then Some (c_kind c, nth i (c_data c) (CI 0)) else None.
Definition cols_inv (L : list crow) (cs : list column) : Prop :=
  NoDup (map c_name cs) /\ Forall (col_inv L) cs
  /\ (forall r n k v, In r L -> lookup n r = Some (k, v) -> exists c, In c cs /\ c_name c = n /\ c_kind c = k)
  /\ (forall c, In c cs -> exists r v, In r L /\ lookup (c_name c) r = Some (c_kind c, v)).
Definition agree (L : list crow) : Prop :=
  forall r1 r2 n k1 v1 k2 v2, In r1 L -> In r2 L -> lookup n r1 = Some (k1, v1) -> lookup n r2 = Some (k2, v2) -> k1 = k2.

Lemma resize_length {A} n (d : A) l : length (resize n d l) = n.
Proof. unfold resize. rewrite app_length, firstn_length, repeat_length. lia. Qed.
Lemma nth_repeat_lt {A} (d e : A) n i : (i < n)%nat -> nth i (repeat d n) e = d.
Proof. revert i. induction n as [|n IH]; intros i H; [lia|]. destruct i as [|i]; cbn; [reflexivity|]. apply IH. lia. Qed.
Lemma nth_firstn_lt {A} (e : A) n l i : (i < n)%nat -> nth i (firstn n l) e = nth i l e.
Proof.
  revert l i. induction n as [|n IH]; intros l i H; [lia|]. destruct l as [|x l]; [reflexivity|].
  destruct i as [|i]; cbn; [reflexivity|]. apply IH. lia.
Qed.
Lemma nth_resize {A} n (d e : A) l i :
  nth i (resize n d l) e = if (i <? n)%nat then (if (i <? length l)%nat then nth i l e else d) else e.
Proof.
  destruct (i <? n)%nat eqn:F.
  2:{ apply Nat.ltb_ge in F. apply nth_overflow. rewrite resize_length. lia. }
  apply Nat.ltb_lt in F. unfold resize. destruct (i <? length l)%nat eqn:E.
  - apply Nat.ltb_lt in E. rewrite app_nth1 by (rewrite firstn_length; lia). apply nth_firstn_lt. exact F.
  - apply Nat.ltb_ge in E. rewrite app_nth2 by (rewrite firstn_length; lia). rewrite firstn_length.
    apply nth_repeat_lt. lia.
Qed.
Lemma set_at_length {A} n (v : A) l : length (set_at n v l) = length l.
Proof. revert n. induction l as [|x l IH]; intros [|n]; cbn; congruence. Qed.
Lemma nth_set_at {A} n (v e : A) l i : (n < length l)%nat ->
  nth i (set_at n v l) e = if (i =? n)%nat then v else nth i l e.
Proof.
  revert n i. induction l as [|x l IH]; intros [|n] [|i] H; cbn in *; try lia; try reflexivity.
  rewrite IH by lia. reflexivity.
Qed.
Lemma nth_error_snoc {A} (l : list A) x i y :
  nth_error (l ++ [x]) i = Some y -> (i < length l)%nat /\ nth_error l i = Some y \/ i = length l /\ x = y.
Proof.
  intros H. destruct (Nat.lt_ge_cases i (length l)) as [C|C].
  - left. rewrite nth_error_app1 in H by exact C. auto.
  - rewrite nth_error_app2 in H by exact C. right. destruct (i - length l)%nat as [|j] eqn:E.
    + cbn in H. injection H as ->. split; [lia|reflexivity].
    + cbn in H. destruct j; discriminate.
Qed.

(** *** One value *)
Lemma put_cell_inv L d c n k v :
  col_inv (L ++ [d]) c -> c_name c = n -> c_kind c = k -> lookup n d = None ->
  col_inv (L ++ [d ++ [(n, k, v)]]) (put_cell (length L) v c).
Proof.
  intros (HL & HV & HC) EN EK LK. unfold col_inv, put_cell. cbn [c_name c_kind c_data c_valid].
  rewrite set_at_length, resize_length, !app_length, resize_length. cbn [length].
  split; [lia|]. split; [lia|]. intros i r NE.
  rewrite nth_set_at by (rewrite resize_length; lia). rewrite nth_resize.
  apply nth_error_snoc in NE as [[C NE]|[C NE]].
  - assert (NE' : nth_error (L ++ [d]) i = Some r) by (rewrite nth_error_app1 by exact C; exact NE).
    rewrite (HC _ _ NE'). rewrite app_nth1 by (rewrite resize_length; exact C). rewrite nth_resize.
    destruct (Nat.ltb_spec i (length L)) as [_|]; [|lia].
    destruct (Nat.eqb_spec i (length L)) as [|_]; [lia|].
    destruct (Nat.ltb_spec i (S (length L))) as [_|]; [|lia].
    destruct (Nat.ltb_spec i (length (c_valid c))) as [D|D].
    + rewrite HL. destruct (Nat.ltb_spec i (length (c_valid c))); [reflexivity|lia].
    + rewrite (nth_overflow (c_valid c)) by lia. reflexivity.
  - subst i r. rewrite app_nth2 by (rewrite resize_length; lia). rewrite resize_length, Nat.sub_diag. cbn [nth].
    rewrite Nat.eqb_refl, lookup_app, EN, LK. cbn. rewrite str_eqb_refl, EK. reflexivity.
Qed.
Lemma other_cell_inv L d c n k v : col_inv (L ++ [d]) c -> c_name c <> n -> col_inv (L ++ [d ++ [(n, k, v)]]) c.
Proof.
  intros (HL & HV & HC) EN. unfold col_inv. rewrite !app_length in *. cbn [length] in *. split; [exact HL|]. split; [exact HV|].
  intros i r NE. apply nth_error_snoc in NE as [[C NE]|[C NE]].
  - apply HC. rewrite nth_error_app1 by exact C. exact NE.
  - subst i r. rewrite <- (HC (length L) d) by (rewrite nth_error_app2 by lia; rewrite Nat.sub_diag; reflexivity).
    rewrite lookup_app. destruct (lookup (c_name c) d); [reflexivity|]. cbn.
    destruct (str_eqb n (c_name c)) eqn:E; [apply str_eqb_eq in E; congruence|reflexivity].
Qed.
Lemma new_cell_inv L d n k v : (forall r, In r (L ++ [d]) -> lookup n r = None) ->
  col_inv (L ++ [d ++ [(n, k, v)]]) (put_cell (length L) v (COL n k (repeat (default (dtype k)) (length L)) [])).
Proof.
  intros H. assert (LK : lookup n d = None) by (apply H, in_or_app; right; left; reflexivity).
  unfold col_inv, put_cell. cbn [c_name c_kind c_data c_valid].
  rewrite set_at_length, resize_length, !app_length, resize_length. cbn [length].
  split; [lia|]. split; [lia|]. intros i r NE.
  rewrite nth_set_at by (rewrite resize_length; lia).
  apply nth_error_snoc in NE as [[C NE]|[C NE]].
  - rewrite app_nth1 by (rewrite resize_length; exact C). rewrite (nth_resize (length L)). cbn [length].
    destruct (Nat.ltb_spec i (length L)) as [_|]; [|lia].
    destruct (Nat.ltb_spec i 0) as [|_]; [lia|].
    apply H, in_or_app. left. exact (nth_error_In _ _ NE).
  - subst i r. rewrite app_nth2 by (rewrite resize_length; lia). rewrite resize_length, Nat.sub_diag. cbn [nth].
    rewrite Nat.eqb_refl, lookup_app, LK. cbn. rewrite str_eqb_refl. reflexivity.
Qed.

Lemma put_col_gen L d n k v cs :
  (forall c, In c cs -> col_inv (L ++ [d]) c) -> lookup n d = None ->
  (forall c, In c cs -> c_name c = n -> c_kind c = k) ->
  (~ In n (map c_name cs) -> forall r, In r (L ++ [d]) -> lookup n r = None) ->
  NoDup (map c_name cs) ->
  exists cs', put_col (length L) n k v cs = Ok cs' /\ (forall c, In c cs' -> col_inv (L ++ [d ++ [(n, k, v)]]) c)
    /\ map c_name cs' = map c_name cs ++ (if existsb (str_eqb n) (map c_name cs) then [] else [n])
    /\ map c_kind cs' = map c_kind cs ++ (if existsb (str_eqb n) (map c_name cs) then [] else [k]).
Proof.
  intros HI LK HK. revert HI HK. induction cs as [|c cs IH]; intros HI HK HN ND; cbn [put_col map existsb].
  - eexists. split; [reflexivity|]. split; [|split; reflexivity]. intros c [<-|[]]. apply new_cell_inv, HN. intros [].
  - assert (SY : str_eqb n (c_name c) = str_eqb (c_name c) n).
    { destruct (str_eqb (c_name c) n) eqn:E; [apply str_eqb_eq in E; subst; apply str_eqb_refl|].
      apply str_eqb_neq. apply str_eqb_neq in E. congruence. }
    rewrite SY. inversion ND as [|? ? NI ND']; subst. destruct (str_eqb (c_name c) n) eqn:E.
    + apply str_eqb_eq in E. rewrite (HK c (or_introl eq_refl) E).
      replace (vtype_eqb (dtype k) (dtype k)) with true by (symmetry; apply vtype_eqb_eq; reflexivity).
      eexists. split; [reflexivity|]. cbn [orb map put_cell c_name c_kind]. rewrite !app_nil_r. split; [|split; [reflexivity|]].
      * intros c' [<-|I].
        -- apply put_cell_inv; [apply HI; left; reflexivity|exact E|apply HK; [left; reflexivity|exact E]|exact LK].
        -- apply other_cell_inv; [apply HI; right; exact I|]. intros Q. apply NI. rewrite E, <- Q. apply in_map. exact I.
      * f_equal. apply HK; [left; reflexivity|exact E].
    + cbn [orb]. destruct IH as (cs' & E1 & E2 & E3 & E4).
      * intros c' I. apply HI. right. exact I.
      * intros c' I. apply HK. right. exact I.
      * intros N. apply HN. cbn [map]. intros [Q|Q]; [apply str_eqb_neq in E; congruence|exact (N Q)].
      * exact ND'.
      * rewrite E1. cbn [bind]. exists (c :: cs'). split; [reflexivity|]. cbn [map]. rewrite E3, E4.
        split; [|split; reflexivity]. intros c' [<-|I]; [|apply E2; exact I].
        apply other_cell_inv; [apply HI; left; reflexivity|]. apply str_eqb_neq. exact E.
Qed.
Lemma existsb_str n l : existsb (str_eqb n) l = true <-> In n l.
Proof.
  rewrite existsb_exists. split; [intros (x & I & E); apply str_eqb_eq in E; subst; exact I|].
  intros I. exists n. split; [exact I|apply str_eqb_refl].
Qed.
Lemma names_kinds (cs cs' : list column) (n : str) (k : kind) (b : bool) :
  map c_name cs' = map c_name cs ++ (if b then [] else [n]) -> map c_kind cs' = map c_kind cs ++ (if b then [] else [k]) ->
  forall m j, (exists c, In c cs' /\ c_name c = m /\ c_kind c = j) <->
              (exists c, In c cs /\ c_name c = m /\ c_kind c = j) \/ (b = false /\ m = n /\ j = k).
Proof.
  intros H1 H2 m j.
  assert (G : forall l : list column, (exists c, In c l /\ c_name c = m /\ c_kind c = j) <-> In (m, j) (combine (map c_name l) (map c_kind l))).
  { induction l as [|x l IH]; cbn; [split; [intros (? & [] & _)|intros []]|]. rewrite <- IH. split.
    - intros (c & [<-|I] & A & B); [left; congruence|right; eauto].
    - intros [Q|(c & I & A & B)]; [injection Q as A B; exists x; auto|exists c; auto]. }
  rewrite !G, H1, H2.
  assert (C : forall (a : list str) (a' : list kind) b b', length a = length a' -> combine (a ++ b) (a' ++ b') = combine a a' ++ combine b b').
  { induction a as [|x a IH]; intros [|y a'] b0 b'; cbn; try discriminate; intros E; [reflexivity|]. f_equal. apply IH. lia. }
  rewrite C by (rewrite !map_length; reflexivity). rewrite in_app_iff. destruct b; cbn.
  - split; [intros [A|[]]; auto|]. intros [A|[A _]]; [auto|discriminate].
  - split; [intros [A|[A|[]]]; [auto|injection A as <- <-; auto]|]. intros [A|(_ & -> & ->)]; auto.
Qed.

Lemma put_col_inv L d n k v cs :
  cols_inv (L ++ [d]) cs -> lookup n d = None -> agree (L ++ [d ++ [(n, k, v)]]) ->
  exists cs', put_col (length L) n k v cs = Ok cs' /\ cols_inv (L ++ [d ++ [(n, k, v)]]) cs'.
Proof.
  intros (ND & FC & C1 & C2) LK AG.
  assert (HD : In (d ++ [(n, k, v)]) (L ++ [d ++ [(n, k, v)]])) by (apply in_or_app; right; left; reflexivity).
  assert (LN' : lookup n (d ++ [(n, k, v)]) = Some (k, v)) by (rewrite lookup_app, LK; cbn; rewrite str_eqb_refl; reflexivity).
  assert (UP : forall r m j w, In r (L ++ [d]) -> lookup m r = Some (j, w) ->
             exists r', In r' (L ++ [d ++ [(n, k, v)]]) /\ lookup m r' = Some (j, w)).
  { intros r m j w I Q. apply in_app_or in I as [I|[<-|[]]].
    - exists r. split; [apply in_or_app; left; exact I|exact Q].
    - eexists. split; [exact HD|]. rewrite lookup_app, Q. reflexivity. }
  rewrite Forall_forall in FC.
  destruct (put_col_gen L d n k v cs FC LK) as (cs' & E1 & E2 & E3 & E4).
  - intros c I EN. destruct (C2 c I) as (r & w & I' & Q). destruct (UP _ _ _ _ I' Q) as (r' & I2 & Q2).
    rewrite EN in Q2. exact (AG _ _ _ _ _ _ _ I2 HD Q2 LN').
  - intros N r I. destruct (lookup n r) as [[j w]|] eqn:Q; [|reflexivity]. exfalso.
    destruct (C1 _ _ _ _ I Q) as (c & I' & <- & _). apply N, in_map, I'.
  - exact ND.
  - exists cs'. split; [exact E1|]. pose proof (names_kinds _ _ _ _ _ E3 E4) as NK. split; [|split; [|split]].
    + rewrite E3. destruct (existsb (str_eqb n) (map c_name cs)) eqn:X; [rewrite app_nil_r; exact ND|].
      apply (Permutation_NoDup (l := n :: map c_name cs)).
      * rewrite Permutation_app_comm. reflexivity.
      * constructor; [|exact ND]. intros I. apply existsb_str in I. congruence.
    + apply Forall_forall. exact E2.
    + intros r m j w I Q. apply NK. apply in_app_or in I as [I|[<-|[]]].
      * left. apply (C1 r m j w); [apply in_or_app; left; exact I|exact Q].
      * rewrite lookup_app in Q. destruct (lookup m d) as [[j' w']|] eqn:Q'.
        -- injection Q as -> ->. left. apply (C1 d m j w); [apply in_or_app; right; left; reflexivity|exact Q'].
        -- cbn in Q. destruct (str_eqb n m) eqn:E; [|discriminate]. apply str_eqb_eq in E. injection Q as <- <-. subst m.
           destruct (existsb (str_eqb n) (map c_name cs)) eqn:X; [left|right; auto].
           apply existsb_str in X. apply in_map_iff in X as (c & EN & I). exists c. split; [exact I|]. split; [exact EN|].
           destruct (C2 c I) as (r & w' & I' & Q). destruct (UP _ _ _ _ I' Q) as (r' & I2 & Q2). rewrite EN in Q2.
           exact (AG _ _ _ _ _ _ _ I2 HD Q2 LN').
    + intros c I. destruct (proj1 (NK (c_name c) (c_kind c))) as [(c0 & I0 & A & B)|(_ & A & B)].
      * exists c. auto.
      * destruct (C2 c0 I0) as (r & w & I' & Q). destruct (UP _ _ _ _ I' Q) as (r' & I2 & Q2).
        exists r', w. rewrite <- A, <- B. auto.
      * exists (d ++ [(n, k, v)]), v. rewrite A, B. auto.
Qed.

Lemma agree_prefix L d e : agree (L ++ [d ++ e]) -> agree (L ++ [d]).
Proof.
  intros H.
  assert (UP : forall r m x, In r (L ++ [d]) -> lookup m r = Some x -> exists r', In r' (L ++ [d ++ e]) /\ lookup m r' = Some x).
  { intros r m x I Q. apply in_app_or in I as [I|[<-|[]]].
    - exists r. split; [apply in_or_app; left; exact I|exact Q].
    - exists (d ++ e). split; [apply in_or_app; right; left; reflexivity|]. rewrite lookup_app, Q. reflexivity. }
  intros r1 r2 n k1 v1 k2 v2 I1 I2 Q1 Q2. destruct (UP _ _ _ I1 Q1) as (r1' & A1 & B1). destruct (UP _ _ _ I2 Q2) as (r2' & A2 & B2).
  exact (H _ _ _ _ _ _ _ A1 A2 B1 B2).
Qed.
Lemma put_cols_inv L vs : forall d cs,
  cols_inv (L ++ [d]) cs -> NoDup (names (d ++ vs)) -> agree (L ++ [d ++ vs]) ->
  exists cs', put_cols (length L) vs cs = Ok cs' /\ cols_inv (L ++ [d ++ vs]) cs'.
Proof.
  induction vs as [|[[n k] v] vs IH]; intros d cs HI ND AG; cbn [put_cols].
  - rewrite app_nil_r. eauto.
  - assert (EQ : d ++ (n, k, v) :: vs = (d ++ [(n, k, v)]) ++ vs) by (rewrite <- app_assoc; reflexivity).
    rewrite EQ in *. destruct (put_col_inv L d n k v cs HI) as (cs' & E & HI').
    + apply lookup_none. unfold names in *. rewrite !map_app in ND. cbn in ND. rewrite <- app_assoc in ND. cbn in ND.
      intros I. apply NoDup_remove_2 in ND. apply ND, in_or_app. left. exact I.
    + apply agree_prefix with vs. exact AG.
    + rewrite E. cbn [bind]. apply IH; assumption.
Qed.
Lemma start_inv L cs : cols_inv L cs -> cols_inv (L ++ [[]]) cs.
Proof.
  intros (ND & FC & C1 & C2). split; [exact ND|]. split; [|split].
  - rewrite Forall_forall in *. intros c I. destruct (FC c I) as (HL & HV & HC). split; [exact HL|].
    rewrite app_length. cbn. split; [lia|]. intros i r NE. apply nth_error_snoc in NE as [[C NE]|[C NE]]; [apply HC; exact NE|].
    subst. cbn. rewrite nth_overflow by lia. reflexivity.
  - intros r n k v I Q. apply in_app_or in I as [I|[<-|[]]]; [exact (C1 _ _ _ _ I Q)|discriminate].
  - intros c I. destruct (C2 c I) as (r & v & I' & Q). exists r, v. split; [apply in_or_app; left; exact I'|exact Q].
Qed.
Lemma add_line_inv L b l :
  cols_inv L (b_cols b) -> b_rows b = length L -> NoDup (names (line_cells l)) -> agree (L ++ [line_cells l]) ->
  exists b', add_line b l = Ok b' /\ cols_inv (L ++ [line_cells l]) (b_cols b') /\ b_rows b' = length (L ++ [line_cells l]).
Proof.
  intros HI HR ND AG. unfold add_line. rewrite HR.
  destruct (put_cols_inv L (line_cells l) [] (b_cols b)) as (cs' & E & HI').
  - apply start_inv. exact HI.
  - exact ND.
  - exact AG.
  - rewrite E. cbn [bind]. eexists. split; [reflexivity|]. cbn. split; [exact HI'|]. rewrite app_length. cbn. lia.
Qed.

(** *** The request *)
Definition of_table (t : str) (ls : list line) : list line := filter (fun l => str_eqb t (l_table l)) ls.
Definition rows_of (t : str) (ls : list line) : list crow := map line_cells (of_table t ls).
Lemma uses_cells l n k : uses l n k <-> exists v, In (n, k, v) (line_cells l).
Proof.
  unfold uses, line_cells. split.
  - intros [(-> & v & I)|[(v & I & ->)|(-> & ->)]].
    + exists (CS v). apply in_or_app. left. apply in_map_iff. exists (n, v). auto.
    + exists v. apply in_or_app. right. apply in_or_app. left. apply in_map_iff. exists (n, v). auto.
    + exists (CI (l_ts l)). apply in_or_app. right. apply in_or_app. right. left. reflexivity.
  - intros (v & I). apply in_app_or in I as [I|I]; [|apply in_app_or in I as [I|[I|[]]]].
    + apply in_map_iff in I as ((m & w) & E & I). cbn in E. injection E as -> <- <-. left. eauto.
    + apply in_map_iff in I as ((m & w) & E & I). cbn in E. injection E as -> <- ->. right. left. eauto.
    + injection I as <- <- <-. right. right. auto.
Qed.
Lemma nodup_cat {A} (l1 l2 : list A) : NoDup l1 -> NoDup l2 -> (forall x, In x l1 -> ~ In x l2) -> NoDup (l1 ++ l2).
Proof.
  induction l1 as [|x l1 IH]; cbn; intros H1 H2 H; [exact H2|]. inversion H1; subst. constructor.
  - intros I. apply in_app_or in I as [I|I]; [contradiction|exact (H x (or_introl eq_refl) I)].
  - apply IH; auto.
Qed.
Lemma cells_nodup l : clean_line l -> (forall n k1 k2, uses l n k1 -> uses l n k2 -> k1 = k2) -> NoDup (names (line_cells l)).
Proof.
  intros (N1 & N2 & _) H. unfold names, line_cells. rewrite !map_app, !map_map. cbn [map fst].
  apply nodup_cat; [|apply nodup_cat|].
  - exact N1.
  - exact N2.
  - repeat constructor. intros [].
  - intros n I [<-|[]]. apply in_map_iff in I as ((m & v) & E & I). cbn in E. subst m.
    specialize (H TIME (KField (type_of v)) KTime). discriminate H; [right; left; eauto|right; right; auto].
  - intros n I J. apply in_map_iff in I as ((m & v) & E & I). cbn in E. subst m.
    apply in_app_or in J as [J|[J|[]]].
    + apply in_map_iff in J as ((m & w) & E & J). cbn in E. subst m.
      specialize (H n KTag (KField (type_of w))). discriminate H; [left; eauto|right; left; eauto].
    + subst n. specialize (H TIME KTag KTime). discriminate H; [left; eauto|right; right; auto].
Qed.
Lemma clean_nodup ls l : clean ls -> In l ls -> NoDup (names (line_cells l)).
Proof. intros (C & O) I. apply cells_nodup; [apply C; exact I|]. intros n k1 k2. apply (O l l); auto. Qed.
Lemma of_table_In t ls l : In l (of_table t ls) <-> In l ls /\ l_table l = t.
Proof.
  unfold of_table. rewrite filter_In. split; intros [I E]; (split; [exact I|]); [apply str_eqb_eq in E|apply str_eqb_eq]; auto.
Qed.
Lemma clean_agree ls t : clean ls -> agree (rows_of t ls).
Proof.
  intros C r1 r2 n k1 v1 k2 v2 I1 I2 Q1 Q2. unfold rows_of in *.
  apply in_map_iff in I1 as (l1 & <- & I1). apply in_map_iff in I2 as (l2 & <- & I2).
  apply of_table_In in I1 as [I1 E1]. apply of_table_In in I2 as [I2 E2].
  apply (proj2 C l1 l2 n k1 k2 I1 I2); [congruence| |].
  - apply uses_cells. exists v1. apply lookup_In; [apply (clean_nodup ls); assumption|exact Q1].
  - apply uses_cells. exists v2. apply lookup_In; [apply (clean_nodup ls); assumption|exact Q2].
Qed.
Lemma rows_of_app t a b : rows_of t (a ++ b) = rows_of t a ++ rows_of t b.
Proof. unfold rows_of, of_table. rewrite filter_app, map_app. reflexivity. Qed.
Lemma agree_app_l a b : agree (a ++ b) -> agree a.
Proof. intros H r1 r2 n k1 v1 k2 v2 I1 I2. apply H; apply in_or_app; left; assumption. Qed.

Definition bats_inv (ls : list line) (bs : list (str * batch)) : Prop :=
  NoDup (map fst bs) /\ (forall t b, In (t, b) bs -> cols_inv (rows_of t ls) (b_cols b) /\ b_rows b = length (rows_of t ls))
  /\ (forall t, In t (map fst bs) <-> In t (map l_table ls)).
Lemma add_to_gen l bs : forall (R : str -> list crow),
  NoDup (map fst bs) ->
  (forall t b, In (t, b) bs -> cols_inv (R t) (b_cols b) /\ b_rows b = length (R t)) ->
  (~ In (l_table l) (map fst bs) -> R (l_table l) = []) ->
  NoDup (names (line_cells l)) -> agree (R (l_table l) ++ [line_cells l]) ->
  exists bs', add_to l bs = Ok bs'
    /\ map fst bs' = map fst bs ++ (if existsb (str_eqb (l_table l)) (map fst bs) then [] else [l_table l])
    /\ (forall t b, In (t, b) bs' -> cols_inv (R t ++ (if str_eqb t (l_table l) then [line_cells l] else [])) (b_cols b)
                                     /\ b_rows b = length (R t ++ (if str_eqb t (l_table l) then [line_cells l] else []))).
Proof.
  intros R. induction bs as [|[t b] bs IH]; intros ND HI HN NC AG; cbn [add_to map existsb fst].
  - assert (RE : R (l_table l) = []) by (apply HN; intros []).
    destruct (add_line_inv [] (MB [] 0) l) as (b' & E & I & W).
    + split; [constructor|]. split; [constructor|]. split; [intros r n k v []|intros c []].
    + reflexivity.
    + exact NC.
    + rewrite RE in AG. exact AG.
    + rewrite E. cbn [bind]. eexists. split; [reflexivity|]. cbn [map fst app]. split; [reflexivity|].
      intros t b [Q|[]]. injection Q as <- <-. rewrite str_eqb_refl, RE. split; assumption.
  - inversion ND as [|? ? NI ND']; subst. cbn [map fst] in NI.
    assert (SY : str_eqb (l_table l) t = str_eqb t (l_table l)).
    { destruct (str_eqb t (l_table l)) eqn:E; [apply str_eqb_eq in E; subst; apply str_eqb_refl|].
      apply str_eqb_neq. apply str_eqb_neq in E. congruence. }
    rewrite SY. destruct (str_eqb t (l_table l)) eqn:E.
    + apply str_eqb_eq in E. subst t. destruct (HI _ _ (or_introl eq_refl)) as (I1 & I2).
      destruct (add_line_inv _ b l I1 I2 NC AG) as (b' & E & I & W). rewrite E. cbn [bind].
      eexists. split; [reflexivity|]. cbn [map fst orb]. rewrite app_nil_r. split; [reflexivity|].
      intros t b2 [Q|Q].
      * injection Q as <- <-. rewrite str_eqb_refl. split; assumption.
      * assert (NE : t <> l_table l).
        { intros ->. apply NI. change (l_table l) with (fst (l_table l, b2)). apply in_map. exact Q. }
        apply str_eqb_neq in NE. rewrite NE, app_nil_r. apply HI. right. exact Q.
    + cbn [orb]. destruct IH as (bs' & E1 & E2 & E3).
      * exact ND'.
      * intros t' b' I. apply HI. right. exact I.
      * intros N. apply HN. cbn. intros [Q|Q]; [subst; rewrite str_eqb_refl in E; discriminate|exact (N Q)].
      * exact NC.
      * exact AG.
      * rewrite E1. cbn [bind]. eexists. split; [reflexivity|]. cbn [map fst]. rewrite E2. split; [reflexivity|].
        intros t' b' [Q|Q]; [|apply E3; exact Q]. injection Q as <- <-. rewrite E, app_nil_r. apply HI. left. reflexivity.
Qed.
Lemma rows_of_one t l : rows_of t [l] = if str_eqb t (l_table l) then [line_cells l] else [].
Proof. unfold rows_of, of_table. cbn. destruct (str_eqb t (l_table l)); reflexivity. Qed.
Lemma add_lines_inv ls : forall done bs, bats_inv done bs -> clean (done ++ ls) ->
  exists bs', add_lines ls bs = Ok bs' /\ bats_inv (done ++ ls) bs'.
Proof.
  induction ls as [|l ls IH]; intros done bs (ND & HI & HT) C; cbn [add_lines].
  - rewrite app_nil_r. exists bs. split; [reflexivity|]. split; [exact ND|]. split; assumption.
  - assert (EQ : done ++ l :: ls = (done ++ [l]) ++ ls) by (rewrite <- app_assoc; reflexivity).
    destruct (add_to_gen l bs (fun t => rows_of t done) ND HI) as (bs' & E1 & E2 & E3).
    + intros N. unfold rows_of, of_table. rewrite HT in N.
      assert (F : filter (fun x => str_eqb (l_table l) (l_table x)) done = []); [|rewrite F; reflexivity].
      clear - N. induction done as [|x d IH]; [reflexivity|]. cbn in *.
      destruct (str_eqb (l_table l) (l_table x)) eqn:E; [apply str_eqb_eq in E; exfalso; apply N; left; congruence|].
      apply IH. intros I. apply N. right. exact I.
    + apply (clean_nodup (done ++ l :: ls)); [exact C|apply in_or_app; right; left; reflexivity].
    + pose proof (clean_agree _ (l_table l) C) as A. rewrite EQ, rows_of_app in A. apply agree_app_l in A.
      rewrite rows_of_app, rows_of_one, str_eqb_refl in A. exact A.
    + rewrite E1. cbn [bind]. rewrite EQ. apply IH; [|rewrite <- EQ; exact C]. split; [|split].
      * rewrite E2. destruct (existsb (str_eqb (l_table l)) (map fst bs)) eqn:X; [rewrite app_nil_r; exact ND|].
        apply nodup_cat; [exact ND|repeat constructor; intros []|]. intros x I [<-|[]]. apply existsb_str in I. congruence.
      * intros t b I. rewrite rows_of_app, rows_of_one. apply E3. exact I.
      * intros t. rewrite E2, map_app, !in_app_iff. cbn [map In]. rewrite HT.
        destruct (existsb (str_eqb (l_table l)) (map fst bs)) eqn:X.
        -- apply existsb_str in X. rewrite HT in X. split; [intros [A|[]]; auto|]. intros [A|[<-|[]]]; auto.
        -- cbn [In]. tauto.
Qed.

(** *** The finished batches *)
Definition full (n : nat) (c : column) : Prop := length (c_data c) = n /\ length (c_valid c) = n.
Lemma finish_inv L c : col_inv L c -> c_valid c <> [] -> col_inv L (finish_col (length L) c) /\ full (length L) (finish_col (length L) c)
  /\ c_name (finish_col (length L) c) = c_name c /\ c_kind (finish_col (length L) c) = c_kind c.
Proof.
  intros (HL & HV & HC) NE. unfold finish_col. destruct (Nat.ltb_spec (length (c_valid c)) (length L)) as [C|C].
  2:{ split; [split; [exact HL|split; [exact HV|exact HC]]|]. split; [split; lia|split; reflexivity]. }
  assert (ED : match c_data c with [] => [] | _ => c_data c ++ repeat (default (dtype (c_kind c))) (length L - length (c_data c)) end
               = c_data c ++ repeat (default (dtype (c_kind c))) (length L - length (c_data c))).
  { destruct (c_data c) as [|x d] eqn:E; [|reflexivity]. cbn in HL. destruct (c_valid c); [congruence|discriminate]. }
  rewrite ED. cbn [c_name c_kind c_data c_valid].
  split; [|split; [|split; reflexivity]].
  - unfold col_inv. cbn [c_name c_kind c_data c_valid]. rewrite !app_length, !repeat_length. split; [lia|]. split; [lia|].
    intros i r NEr. rewrite (HC _ _ NEr). destruct (Nat.lt_ge_cases i (length (c_valid c))) as [D|D].
    + rewrite !app_nth1 by lia. reflexivity.
    + rewrite (nth_overflow (c_valid c)) by lia. rewrite app_nth2 by lia.
      destruct (Nat.lt_ge_cases (i - length (c_valid c)) (length L - length (c_valid c))) as [F|F].
      * rewrite nth_repeat_lt by exact F. reflexivity.
      * rewrite nth_overflow by (rewrite repeat_length; lia). reflexivity.
  - unfold full. cbn [c_data c_valid]. rewrite !app_length, !repeat_length. lia.
Qed.
Definition cols_fin (L : list crow) (cs : list column) : Prop := cols_inv L cs /\ Forall (full (length L)) cs.
Lemma cols_inv_perm L cs cs' : Permutation cs cs' -> cols_inv L cs -> cols_inv L cs'.
Proof.
  intros P (ND & FC & C1 & C2). split; [|split; [|split]].
  - exact (Permutation_NoDup (Permutation_map c_name P) ND).
  - rewrite Forall_forall in *. intros c I. apply FC. exact (Permutation_in _ (Permutation_sym P) I).
  - intros r n k v I Q. destruct (C1 _ _ _ _ I Q) as (c & J & E). exists c. split; [exact (Permutation_in _ P J)|exact E].
  - intros c I. apply C2. exact (Permutation_in _ (Permutation_sym P) I).
Qed.
Lemma fin_cols L cs : cols_inv L cs -> cols_fin L (isort (fun a b => str_ltb (c_name a) (c_name b)) (map (finish_col (length L)) cs)).
Proof.
  intros (ND & FC & C1 & C2). rewrite Forall_forall in FC.
  assert (NE : forall c, In c cs -> c_valid c <> []).
  { intros c I E. destruct (C2 c I) as (r & v & J & Q). apply In_nth_error in J as [i J].
    destruct (FC c I) as (_ & _ & HC). rewrite (HC _ _ J), E in Q. destruct i; discriminate. }
  assert (FI := fun c I => finish_inv L c (FC c I) (NE c I)).
  set (fs := map (finish_col (length L)) cs).
  assert (HF : forall c', In c' fs -> exists c, In c cs /\ col_inv L c' /\ full (length L) c' /\ c_name c' = c_name c /\ c_kind c' = c_kind c).
  { intros c' I. apply in_map_iff in I as (c & <- & I). exists c. split; [exact I|]. exact (FI c I). }
  assert (CI : cols_inv L fs).
  { split; [|split; [|split]].
    - unfold fs. rewrite map_map. rewrite (map_ext_in _ c_name); [exact ND|]. intros c I. apply FI. exact I.
    - apply Forall_forall. intros c' I. destruct (HF c' I) as (c & _ & A & _). exact A.
    - intros r n k v I Q. destruct (C1 _ _ _ _ I Q) as (c & J & A & B). exists (finish_col (length L) c).
      split; [apply in_map; exact J|]. destruct (FI c J) as (_ & _ & -> & ->). auto.
    - intros c' I. destruct (HF c' I) as (c & J & _ & _ & -> & ->). exact (C2 c J). }
  split.
  - refine (cols_inv_perm _ _ _ _ CI). symmetry. apply isort_perm.
  - apply Forall_forall. intros c' I. apply (Permutation_in _ (isort_perm _ fs)) in I.
    destruct (HF c' I) as (c & _ & _ & A & _). exact A.
Qed.
Definition bats_fin (ls : list line) (bs : list (str * batch)) : Prop :=
  NoDup (map fst bs) /\ (forall t b, In (t, b) bs -> cols_fin (rows_of t ls) (b_cols b) /\ b_rows b = length (rows_of t ls))
  /\ (forall t, In t (map fst bs) <-> In t (map l_table ls)).
Theorem batches_ok ls : clean ls -> exists bs, line_to_batches ls = Ok bs /\ bats_fin ls bs.
Proof.
  intros C. unfold line_to_batches. destruct (add_lines_inv ls [] []) as (bs & E & ND & HI & HT).
  - split; [constructor|]. split; [intros t b []|intros t; reflexivity].
  - exact C.
  - cbn [app] in *. rewrite E. cbn [bind]. eexists. split; [reflexivity|].
    assert (EF : map fst (map fin_table bs) = map fst bs) by (rewrite map_map; apply map_ext; reflexivity).
    split; [rewrite EF; exact ND|]. split; [|intros t; rewrite EF; apply HT].
    intros t b I. apply in_map_iff in I as ((t0 & b0) & Q & I). injection Q as <- <-. cbn [b_cols b_rows fst snd].
    destruct (HI _ _ I) as (A & B). split; [|exact B]. rewrite B. apply fin_cols. exact A.
Qed.
