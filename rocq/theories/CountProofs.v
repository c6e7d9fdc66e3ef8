(** Proofs about COUNT. *)
From Verif Require Import Prelude CountModel CountSpec.

Local Arguments list_sum : simpl never.
Lemma ls_cons a l : list_sum (a :: l) = (a + list_sum l)%nat. Proof. reflexivity. Qed.
Definition nn {A} (x : option A) : bool := match x with Some _ => true | None => false end.
Lemma sum_flat {A B} (f : A -> nat) (g : A -> list B) l : (forall x, In x l -> f x = length (g x)) ->
  list_sum (map f l) = length (flat_map g l).
Proof.
  induction l as [|x l IH]; cbn; [reflexivity|]. intros H. rewrite ls_cons, app_length, (H x (or_introl eq_refl)), IH; [reflexivity|].
  intros y I. apply H. right. exact I.
Qed.
Lemma sum_flat_ge {A B} (f : A -> nat) (g : A -> list B) l : (forall x, In x l -> (length (g x) <= f x)%nat) ->
  (length (flat_map g l) <= list_sum (map f l))%nat.
Proof.
  induction l as [|x l IH]; cbn; [reflexivity|]. intros H. rewrite ls_cons, app_length. pose proof (H x (or_introl eq_refl)).
  assert ((length (flat_map g l) <= list_sum (map f l))%nat) by (apply IH; intros y I; apply H; right; exact I).
  lia.
Qed.
Lemma filter_flat_map {A B} (p : B -> bool) (g : A -> list B) l :
  filter p (flat_map g l) = flat_map (fun x => filter p (g x)) l.
Proof. induction l as [|x l IH]; cbn; [reflexivity|]. rewrite filter_app, IH. reflexivity. Qed.
Lemma sum_le {A} (f g : A -> nat) l : (forall x, In x l -> (f x <= g x)%nat) -> (list_sum (map f l) <= list_sum (map g l))%nat.
Proof.
  induction l as [|x l IH]; cbn; [reflexivity|]. intros H. rewrite !ls_cons. pose proof (H x (or_introl eq_refl)).
  assert ((list_sum (map f l) <= list_sum (map g l))%nat) by (apply IH; intros y I; apply H; right; exact I).
  lia.
Qed.
Lemma sum_eq {A} (f g : A -> nat) l : (forall x, In x l -> f x = g x) -> list_sum (map f l) = list_sum (map g l).
Proof. intros H. f_equal. apply map_ext_in. exact H. Qed.

(** ** pages *)
Lemma sum_pages (sel : page -> bool) ps k : (forall p, In p ps -> sel p = true -> length (p_vals p) = k) ->
  (forall p q, In p ps -> In q ps -> sel p = true -> sel q = true -> p = q) -> NoDup ps ->
  list_sum (map (fun p => if sel p then length (p_vals p) else O) ps) = if existsb sel ps then k else O.
Proof.
  induction ps as [|p ps IH]; cbn; [reflexivity|]. intros L U N. inversion N as [|? ? N1 N2]; subst.
  assert (IH' := IH (fun q I => L q (or_intror I)) (fun a b I J => U a b (or_intror I) (or_intror J)) N2).
  rewrite ls_cons, IH'. destruct (sel p) eqn:E; cbn [orb].
  - rewrite (L p (or_introl eq_refl) E). destruct (existsb sel ps) eqn:X; [|lia].
    apply existsb_exists in X as (q & I & S). rewrite <- (U p q (or_introl eq_refl) (or_intror I) E S) in I. contradiction.
  - reflexivity.
Qed.
Lemma NoDup_map_inv' {A B} (f : A -> B) l : NoDup (map f l) -> NoDup l.
Proof. induction l as [|x l IH]; cbn; intros H; [constructor|]. inversion H; subst. constructor; [|auto]. intros I. apply H2, in_map, I. Qed.
Lemma NoDup_map_eq {A B} (f : A -> B) l x y : NoDup (map f l) -> In x l -> In y l -> f x = f y -> x = y.
Proof.
  induction l as [|z l IH]; cbn; intros N I J E; [destruct I|]. inversion N as [|? ? N1 N2]; subst.
  destruct I as [->|I], J as [->|J]; auto.
  - exfalso. apply N1. rewrite E. apply in_map, J.
  - exfalso. apply N1. rewrite <- E. apply in_map, I.
Qed.
Lemma find_eqb {A} (f : A -> Z) l k : find (fun x => f x =? k) l = None <-> existsb (fun x => f x =? k) l = false.
Proof. induction l as [|x l IH]; cbn; [tauto|]. destruct (f x =? k); cbn; [split; discriminate|exact IH]. Qed.

(** the count of the pages with one name in a column group *)
Lemma count_pages n id ps time : pages_ok time ps -> (forall p, In p ps -> c_id (p_col p) = id <-> c_name (p_col p) = n) ->
  list_sum (map (fun p => if c_name (p_col p) =? n then length (p_vals p) else O) ps)
  = match page_of id ps with Some _ => length (times ps) | None => O end.
Proof.
  intros (NI & NN & L & _) K. rewrite (sum_pages (fun p => c_name (p_col p) =? n) ps (length (times ps))).
  - unfold page_of. destruct (find (fun p => c_id (p_col p) =? id) ps) as [p|] eqn:F.
    + apply find_some in F as [I E]. apply Z.eqb_eq in E. apply (K p I) in E.
      assert (existsb (fun p => c_name (p_col p) =? n) ps = true) as ->; [|reflexivity].
      apply existsb_exists. exists p. split; [exact I|]. apply Z.eqb_eq, E.
    + destruct (existsb _ ps) eqn:X; [|reflexivity]. apply existsb_exists in X as (p & I & E). apply Z.eqb_eq in E.
      apply (K p I) in E. apply find_none with (x := p) in F; [|exact I]. rewrite E, Z.eqb_refl in F. discriminate.
  - intros p I _. apply (L p I).
  - intros p q I J E F. apply Z.eqb_eq in E, F. apply (NoDup_map_eq (fun p => c_name (p_col p)) ps); [exact NN|exact I|exact J|congruence].
  - apply (NoDup_map_inv' _ _ NI).
Qed.
Lemma flat_map_le {A B} (f : A -> list B) l : (forall x, (length (f x) <= 1)%nat) -> (length (flat_map f l) <= length l)%nat.
Proof. intros H. induction l as [|x l IH]; cbn; [lia|]. rewrite app_length. specialize (H x). lia. Qed.
Lemma group_versions_le ts ps : (length (group_versions ts ps) <= length (times ps))%nat.
Proof.
  unfold group_versions. eapply Nat.le_trans; [apply flat_map_le|rewrite seq_length; lia].
  intros i. destruct (nth_error (times ps) i) as [[t|]|]; cbn; [destruct (covered ts 0 t)|..]; cbn; lia.
Qed.
Lemma group_versions_none ps : (forall t, In t (times ps) -> t <> None) ->
  group_versions [] ps = map (fun i => (match nth_error (times ps) i with Some (Some t) => t | _ => 0 end, page_value ps i))
                             (seq 0 (length (times ps))).
Proof.
  intros H. unfold group_versions.
  assert (J : forall i, In i (seq 0 (length (times ps))) -> exists t, nth_error (times ps) i = Some (Some t)).
  { intros i I. apply in_seq in I. destruct (nth_error (times ps) i) as [[t|]|] eqn:E; [eauto|exfalso..].
    - apply nth_error_In in E. exact (H _ E eq_refl).
    - apply nth_error_None in E. lia. }
  revert J. generalize (seq 0 (length (times ps))). induction l as [|i l IH]; intros J; cbn; [reflexivity|].
  destruct (J i (or_introl eq_refl)) as (t & E). rewrite E. cbn. f_equal. apply IH. intros k I. apply J. right. exact I.
Qed.

(** ** rows *)
Lemma source_rows_ge time s : source_ok time s -> (length (versions s) <= count_source time s)%nat.
Proof.
  destruct s as [gs|c]; cbn [versions count_source source_ok]; intros O.
  - apply sum_flat_ge. intros g I. destruct (O g I) as [_ E]. unfold count_group. rewrite E. unfold mem_versions.
    rewrite map_length. reflexivity.
  - apply sum_flat_ge. intros ps I. rewrite (count_pages time 0 ps time (O ps I)).
    + pose proof (group_versions_le (ch_tombs c) ps) as L. unfold times in L |- *.
      destruct (page_of 0 ps); [exact L|cbn in L; lia].
    + intros p J. destruct (O ps I) as (_ & _ & K & _). apply (K p J).
Qed.
Lemma source_rows_eq time s : source_ok time s -> (forall c, s = Chunk c -> ch_tombs c = []) ->
  count_source time s = length (versions s).
Proof.
  destruct s as [gs|c]; cbn [versions count_source source_ok]; intros O T.
  - apply sum_flat. intros g I. destruct (O g I) as [_ E]. unfold count_group. rewrite E. unfold mem_versions.
    rewrite map_length. reflexivity.
  - rewrite (T c eq_refl). apply sum_flat. intros ps I. rewrite (count_pages time 0 ps time (O ps I)).
    + rewrite group_versions_none, map_length, seq_length by apply (O ps I). unfold times. destruct (page_of 0 ps); reflexivity.
    + intros p J. destruct (O ps I) as (_ & _ & K & _). apply (K p J).
Qed.

(** ** a field *)
Lemma column_index_at n s i : column_index n s = Some i -> exists c, nth_error s i = Some c /\ c_name c = n.
Proof.
  revert i. induction s as [|c s IH]; cbn; intros i H; [discriminate|]. destruct (c_name c =? n) eqn:E.
  - injection H as <-. exists c. split; [reflexivity|]. apply Z.eqb_eq, E.
  - destruct (column_index n s) as [j|]; [|discriminate]. injection H as <-. apply (IH j eq_refl).
Qed.
Lemma column_index_none n s c : column_index n s = None -> In c s -> c_name c <> n.
Proof.
  induction s as [|d s IH]; cbn; intros H I; [destruct I|]. destruct (c_name d =? n) eqn:E; [discriminate|].
  destruct (column_index n s); [discriminate|]. destruct I as [<-|I]; [apply Z.eqb_neq, E|auto].
Qed.
Lemma filter_none {A} (p : A -> bool) l : (forall x, In x l -> p x = false) -> filter p l = [].
Proof. induction l as [|x l IH]; cbn; intros H; [reflexivity|]. rewrite (H x (or_introl eq_refl)). apply IH. intros y I. apply H. right. exact I. Qed.
Lemma filter_all {A} (p : A -> bool) l : (forall x, In x l -> p x = true) -> filter p l = l.
Proof. induction l as [|x l IH]; cbn; intros H; [reflexivity|]. rewrite (H x (or_introl eq_refl)). f_equal. apply IH. intros y I. apply H. right. exact I. Qed.
Lemma ascending_pos fs : StronglySorted (fun a b => c_id a < c_id b) fs -> (forall x, In x fs -> c_kind x = KField) ->
  forall k c, nth_error fs k = Some c -> length (filter (fun d => is_kind KField d && (c_id d <? c_id c)) fs) = k.
Proof.
  induction 1 as [|x fs S IH F]; intros K k c E; [destruct k; discriminate|]. rewrite Forall_forall in F.
  destruct k as [|k]; cbn [nth_error filter] in E |- *.
  - injection E as ->. rewrite Z.ltb_irrefl, andb_false_r. rewrite filter_none; [reflexivity|].
    intros y I. specialize (F y I). assert (c_id y <? c_id c = false) as -> by (apply Z.ltb_ge; lia). apply andb_false_r.
  - assert (I : In c fs) by (apply nth_error_In in E; exact E). specialize (F c I).
    assert (c_id x <? c_id c = true) as -> by (apply Z.ltb_lt; lia).
    assert (is_kind KField x = true) as -> by (unfold is_kind; rewrite (K x (or_introl eq_refl)); reflexivity). cbn [andb length].
    f_equal. apply IH; [|exact E]. intros y J. apply K. right. exact J.
Qed.
(** the index arithmetic is right when the tags come first *)
Lemma index_pos s i c : schema_ok s -> tags_first s -> nth_error s (S i) = Some c -> c_kind c = KField ->
  (tag_num s + 1 <= S i)%nat /\ (S i - tag_num s - 1)%nat = field_pos s (c_id c).
Proof.
  intros ((h & s' & E0 & KT & _ & _) & _) (c0 & ts & fs & E & T & F & S) N K. rewrite E in E0. injection E0 as -> _. subst s.
  cbn in N.
  assert (TN : tag_num (h :: ts ++ fs) = length ts).
  { unfold tag_num. cbn [filter]. unfold is_kind at 1. rewrite KT. rewrite filter_app, app_length, filter_all, filter_none.
    - cbn. lia.
    - intros x I. unfold is_kind. rewrite (F x I). reflexivity.
    - intros x I. unfold is_kind. rewrite (T x I). reflexivity. }
  rewrite TN. assert (LE : (length ts <= i)%nat).
  { destruct (Nat.le_gt_cases (length ts) i) as [L|L]; [exact L|]. rewrite nth_error_app1 in N by exact L.
    apply nth_error_In in N. rewrite (T c N) in K. discriminate. }
  split; [lia|]. rewrite nth_error_app2 in N by exact LE.
  unfold field_pos. cbn [filter]. unfold is_kind at 1. rewrite KT. cbn [andb]. rewrite filter_app, app_length, filter_none.
  - rewrite (ascending_pos fs S F _ c N). cbn [length]. lia.
  - intros x I. unfold is_kind. rewrite (T x I). reflexivity.
Qed.
Lemma list_sum_filter {A} (p : A -> bool) l : list_sum (map (fun x => if p x then 1%nat else O) l) = length (filter p l).
Proof. induction l as [|x l IH]; cbn; [reflexivity|]. rewrite ls_cons, IH. destruct (p x); reflexivity. Qed.
Lemma filter_map_len {A B} (p : B -> bool) (f : A -> B) l : length (filter p (map f l)) = length (filter (fun x => p (f x)) l).
Proof. induction l as [|x l IH]; cbn; [reflexivity|]. destruct (p (f x)); cbn; congruence. Qed.

Lemma source_field time c s : c_kind c = KField -> c_id c <> 0 -> source_ok time s -> column_kept c s ->
  (forall k, s = Chunk k -> ch_tombs k = []) ->
  count_source (c_name c) s = length (filter (fun v => nn (snd v (c_id c))) (versions s)).
Proof.
  intros K NZ. destruct s as [gs|k]; cbn [versions count_source source_ok column_kept]; intros O KP T; rewrite filter_flat_map.
  - apply sum_flat. intros g I. destruct (O g I) as [SO _]. destruct (KP g I) as [TF KK]. unfold count_group, mem_versions.
    rewrite filter_map_len. cbn [snd].
    destruct (column_index (c_name c) (g_schema g)) as [i|] eqn:E.
    + apply column_index_at in E as (d & N & D). assert (ID : In d (g_schema g)) by (apply nth_error_In in N; exact N).
      destruct (KK d ID) as [[_ A] B]. specialize (A D). specialize (B A).
      destruct i as [|i].
      { exfalso. destruct SO as ((h & s' & E0 & KT & _ & _) & _). rewrite E0 in N. cbn in N. injection N as ->. congruence. }
      destruct (index_pos _ _ _ SO TF N) as [LE P]; [congruence|].
      rewrite (map_ext (count_row (S i) (tag_num (g_schema g)))
                 (fun r => if nn (mem_value (g_schema g) r (c_id c)) then 1%nat else 0%nat)); [apply list_sum_filter|].
      intros r. unfold count_row. destruct (S i <? tag_num (g_schema g) + 1)%nat eqn:Q; [apply Nat.ltb_lt in Q; lia|].
      rewrite P, A. unfold mem_value.
      assert (existsb (fun x => is_kind KField x && (c_id x =? c_id c)) (g_schema g) = true) as ->.
      { apply existsb_exists. exists d. split; [exact ID|]. unfold is_kind. rewrite B, K, A, Z.eqb_refl. reflexivity. }
      destruct (nth_error (r_fields r) _) as [[x|]|]; reflexivity.
    + rewrite filter_none; [reflexivity|]. intros r _. unfold mem_value.
      destruct (existsb _ (g_schema g)) eqn:X; [|reflexivity]. apply existsb_exists in X as (d & ID & X).
      apply andb_prop in X as [_ X]. apply Z.eqb_eq in X. apply (proj1 (KK d ID)) in X. exfalso. exact (column_index_none _ _ _ E ID X).
  - rewrite (T k eq_refl). apply sum_flat. intros ps I.
    rewrite (count_pages (c_name c) (c_id c) ps time (O ps I)) by (intros p J; apply (KP ps p I J)).
    rewrite group_versions_none by apply (O ps I). rewrite filter_map_len. cbn [snd]. unfold page_value.
    destruct (page_of (c_id c) ps) as [p|] eqn:F.
    + rewrite filter_all; [symmetry; apply seq_length|]. intros i J. apply in_seq in J.
      apply find_some in F as [IP E]. apply Z.eqb_eq in E. destruct (O ps I) as (_ & _ & L & _). destruct (L p IP) as [L1 _].
      destruct (nth_error (p_vals p) i) as [[x|]|] eqn:N; [reflexivity|exfalso..].
      * apply nth_error_In in N. apply (KP ps p I IP); assumption.
      * apply nth_error_None in N. lia.
    + rewrite filter_none; [reflexivity|]. intros i _. reflexivity.
Qed.

(** ** a series *)
Lemma newest_only id t vs v : NoDup (map fst vs) -> In v vs -> fst v = t -> newest id t vs = snd v id.
Proof.
  induction vs as [|w vs IH]; cbn; intros N I E; [destruct I|]. inversion N as [|? ? N1 N2]; subst.
  destruct I as [->|I].
  - rewrite Z.eqb_refl. destruct (newest id (fst v) vs) as [x|] eqn:Q; [|reflexivity]. exfalso. apply N1.
    clear - Q. induction vs as [|w vs IH]; cbn in *; [discriminate|].
    destruct (newest id (fst v) vs); [right; apply IH; exact Q|]. destruct (fst w =? fst v) eqn:E; [|discriminate].
    left. apply Z.eqb_eq, E.
  - rewrite (IH N2 I eq_refl). destruct (snd v id); [reflexivity|].
    destruct (fst w =? fst v) eqn:E; [|reflexivity]. apply Z.eqb_eq in E. exfalso. apply N1. rewrite E. apply in_map, I.
Qed.
Lemma nodup_id (l : list Z) : NoDup l -> nodup Z.eq_dec l = l.
Proof. apply nodup_fixed_point. Qed.
Lemma nodup_le (l : list Z) : (length (nodup Z.eq_dec l) <= length l)%nat.
Proof. induction l as [|x l IH]; cbn; [lia|]. destruct (in_dec Z.eq_dec x l); cbn; lia. Qed.
Lemma series_sources f s : (forall src, In src (s_sources s) -> count_source f src = length (versions src)) ->
  list_sum (map (count_source f) (s_sources s)) = length (all_versions s).
Proof. intros H. apply sum_flat. exact H. Qed.
Lemma exact_field sch q s c : NoDup (map fst (all_versions s)) -> c_kind c = KField ->
  (forall t, eval_query q (shown_value sch s t) = newest (c_id c) t (all_versions s)) ->
  exact_series sch q s = length (filter (fun v => nn (snd v (c_id c))) (all_versions s)).
Proof.
  intros N K E. unfold exact_series, shown_times. rewrite nodup_id by exact N. rewrite filter_map_len. f_equal.
  apply filter_ext_in. intros v I. rewrite E, (newest_only _ _ _ v N I eq_refl). destruct (snd v (c_id c)); reflexivity.
Qed.
