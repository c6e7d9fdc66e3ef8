(** Aggregates do not depend on how the rows are spread over partitions and batches (C49). *)
From Coq Require Import Permutation.
From Verif Require Import Prelude AggModel AggSpec AggProofs.
Open Scope Z_scope.

(** ** An Arrow-like choice of a row and a sort, for the examples *)
Definition better (d : bool) (a b : trow) : bool :=
  match t_ts a, t_ts b with Some x, Some y => earlier d x y | Some _, None => true | None, _ => false end.
Definition pick (d : bool) (batch : list trow) : option trow :=
  fold_left (fun best r => match best with None => Some r | Some b => if better d r b then Some r else Some b end) batch None.
Lemma pick_ok d : picks d (pick d).
Proof.
  intro batch. unfold pick.
  assert (G : forall l seen best, match best with None => seen = [] | Some r => In r seen /\ forall x, In x seen -> better d x r = false end ->
    match fold_left (fun best r => match best with None => Some r | Some b => if better d r b then Some r else Some b end) l best with
    | None => seen ++ l = [] | Some r => In r (seen ++ l) /\ forall x, In x (seen ++ l) -> better d x r = false end).
  { induction l as [|r l IH]; intros seen best H; cbn [fold_left]; [now rewrite app_nil_r|]. replace (seen ++ r :: l) with ((seen ++ [r]) ++ l) by now rewrite <- app_assoc. apply IH. destruct best as [b|].
    - destruct H as [H1 H2]. destruct (better d r b) eqn:E.
      + split; [apply in_app_iff; right; now left|]. intros x I. apply in_app_iff in I. destruct I as [I|[<-|[]]].
        * specialize (H2 x I). unfold better, earlier in *. destruct (t_ts r), (t_ts b), (t_ts x), d; rewrite ?Z.ltb_lt, ?Z.ltb_ge in *; try discriminate; try reflexivity; try lia.
        * unfold better, earlier. destruct (t_ts r), d; rewrite ?Z.ltb_irrefl; reflexivity.
      + split; [apply in_app_iff; now left|]. intros x I. apply in_app_iff in I. destruct I as [I|[<-|[]]]; [auto|exact E].
    - subst seen. split; [now left|]. intros x [<-|[]]. unfold better, earlier. destruct (t_ts r), d; rewrite ?Z.ltb_irrefl; reflexivity. }
  specialize (G batch [] None eq_refl). cbn [app] in G. destruct (fold_left _ batch None) as [r|]; [|exact G]. destruct G as [G1 G2]. split; [exact G1|]. intros x I. specialize (G2 x I).
  unfold better, earlier in G2. destruct (t_ts r), (t_ts x), d; rewrite ?Z.ltb_lt, ?Z.ltb_ge in *; try discriminate; try exact I; try lia; exact Logic.I.
Qed.
Fixpoint ins (x : Z * Z) (l : list (Z * Z)) : list (Z * Z) := match l with [] => [x] | y :: l' => if fst x <=? fst y then x :: l else y :: ins x l' end.
Fixpoint isort (l : list (Z * Z)) : list (Z * Z) := match l with [] => [] | x :: l' => ins x (isort l') end.
Lemma ins_perm x l : Permutation (x :: l) (ins x l).
Proof. induction l as [|y l IH]; cbn [ins]; [apply Permutation_refl|]. destruct (_ <=? _); [apply Permutation_refl|]. eapply Permutation_trans; [apply perm_swap|]. now apply perm_skip. Qed.
Lemma ins_sorted x l : in_time_order l -> in_time_order (ins x l).
Proof.
  unfold in_time_order. induction 1 as [|y l O IH F]; cbn [ins]; [repeat constructor|]. destruct (Z.leb_spec (fst x) (fst y)).
  - constructor; [now constructor|]. constructor; [lia|]. eapply Forall_impl; [|exact F]. intros z Hz. cbn in *. lia.
  - constructor; [exact IH|]. eapply Permutation_Forall; [apply ins_perm|]. constructor; [lia|exact F].
Qed.
Lemma isort_ok : sorts isort.
Proof. intro l. induction l as [|x l [P O]]; cbn [isort]; [split; constructor|]. split; [|now apply ins_sorted]. eapply Permutation_trans; [apply perm_skip; exact P|apply ins_perm]. Qed.

(** ** FIRST and LAST *)
(** Over any partitions, batches and arrival order of the partial results, FIRST returns the value of a row with the least
    time, and null exactly if no row counts.  Missing from the full claim: a row that has a time but no value. *)
Theorem C49_first_partial : forall pick parts result, picks false pick -> Forall valued (all_rows parts) ->
  two_stage null_row (edge_update pick false) (fun s => s) (edge_merge pick false) parts result -> edge_of false (all_rows parts) (edge_eval result).
Proof. intros p parts result. apply edge_two. Qed.
Print Assumptions C49_first_partial.
(** The same for LAST and the greatest time. *)
Theorem C49_last_partial : forall pick parts result, picks true pick -> Forall valued (all_rows parts) ->
  two_stage null_row (edge_update pick true) (fun s => s) (edge_merge pick true) parts result -> edge_of true (all_rows parts) (edge_eval result).
Proof. intros p parts result. apply edge_two. Qed.
Print Assumptions C49_last_partial.
(** A plan with a single stage gives the same. *)
Theorem C49_first_last_single_partial : forall pick d batches, picks d pick -> Forall valued (concat batches) ->
  edge_of d (concat batches) (edge_eval (partition null_row (edge_update pick d) batches)).
Proof. intros p d batches. apply edge_one. Qed.
Print Assumptions C49_first_last_single_partial.
Definition e_parts : list (list (list trow)) := [[[TR (Some 5) (Some 50); TR (Some 3) (Some 30)]; [TR None (Some 1)]]; [[TR (Some 2) (Some 20)]; []; [TR (Some 9) (Some 90)]]].
Example C49_first_last_case : Forall valued (all_rows e_parts) /\
  (exists r, two_stage null_row (edge_update (pick false) false) (fun s => s) (edge_merge (pick false) false) e_parts r /\ edge_eval r = Some 20) /\
  (exists r, two_stage null_row (edge_update (pick true) true) (fun s => s) (edge_merge (pick true) true) e_parts r /\ edge_eval r = Some 90).
Proof.
  split; [repeat constructor; intro H; first [discriminate|exfalso; now apply H]|].
  split; eexists; (split; [eexists [[_]; [_]]; split; [|reflexivity]; cbn; apply perm_swap|reflexivity]).
Qed.
(** Finding: a row without a value hides the other rows of its batch, so the answer depends on the batches. *)
Theorem C49_first_null_hides_batch_refuted : exists pick a b, picks false pick /\
  edge_eval (partition null_row (edge_update pick false) [a ++ b]) = None /\
  edge_eval (partition null_row (edge_update pick false) [a; b]) = Some 5 /\ edge_of false (a ++ b) (Some 5).
Proof.
  exists (pick false), [TR (Some 1) None], [TR (Some 2) (Some 5)]. split; [apply pick_ok|]. split; [reflexivity|]. split; [reflexivity|].
  exists 2. split; [right; now left|]. intros t' x' [H|[H|[]]]; inversion H. lia.
Qed.
Print Assumptions C49_first_null_hides_batch_refuted.
(** LAST: rows of a later batch that follow the null in time are lost with it. *)
Theorem C49_last_null_hides_batch_refuted : exists pick a b, picks true pick /\
  edge_eval (partition null_row (edge_update pick true) [a ++ b]) = None /\
  edge_eval (partition null_row (edge_update pick true) [a; b]) = Some 5 /\ edge_of true (a ++ b) (Some 5).
Proof.
  exists (pick true), [TR (Some 2) None], [TR (Some 1) (Some 5)]. split; [apply pick_ok|]. split; [reflexivity|]. split; [reflexivity|].
  exists 1. split; [right; now left|]. intros t' x' [H|[H|[]]]; inversion H. lia.
Qed.
Print Assumptions C49_last_null_hides_batch_refuted.

(** ** MODE *)
(** MODE returns a value that occurs at least as often as every other one, for fewer than 2^32 rows. *)
Theorem C49_mode : forall parts result, Z.of_nat (length (all_rows parts)) < 2 ^ 32 -> mode_stage parts result -> most_frequent (all_rows parts) result.
Proof. exact mode_two. Qed.
Print Assumptions C49_mode.
Definition m_parts : list (list (list (option Z))) := [[[Some 7; None]; [Some 8; Some 8]]; [[Some 7]; [Some 7; Some 9]]].
Example C49_mode_case : mode_stage m_parts (Some 7) /\ occurrences 7 (all_rows m_parts) = 3%nat /\ occurrences 8 (all_rows m_parts) = 2%nat.
Proof.
  split; [|split; reflexivity]. exists [[(8, 2); (7, 1)]; [(7, 2); (9, 1)]], [[[(7, 2); (9, 1)]]; [[(8, 2); (7, 1)]]], [(7, 3); (8, 2); (9, 1)].
  split; [constructor; [cbn; apply perm_swap|constructor; [apply Permutation_refl|constructor]]|]. split; [cbn; apply perm_swap|]. split; [|reflexivity]. cbn. apply perm_skip, perm_swap.
Qed.

(** ** INCREASE *)
(** In one partition: if the readings come in time order, INCREASE is the increase of the counter over all of them, whatever
    the batches; otherwise it is an error. *)
Theorem C49_increase_partial : forall batches, match inc_updates inc_new batches with
  | Some s => in_time_order (complete (concat batches)) /\ i_sum s = counter_increase (complete (concat batches))
  | None => ~ in_time_order (complete (concat batches)) end.
Proof. exact inc_ok. Qed.
Print Assumptions C49_increase_partial.
Example C49_increase_case : inc_updates inc_new [[TR (Some 1) (Some 10); TR (Some 2) None]; [TR (Some 3) (Some 14); TR (Some 4) (Some 3)]; [TR (Some 5) (Some 5)]] = Some (IN 9 (Some (5, 5))) /\
  inc_updates inc_new [[TR (Some 2) (Some 10)]; [TR (Some 1) (Some 14)]] = None.
Proof. split; reflexivity. Qed.
(** Finding: over two partitions, each in time order, the increase from the last reading of one to the first of the other is lost. *)
Theorem C49_increase_partitions_refuted : exists p1 p2 s1 s2, inc_updates inc_new p1 = Some s1 /\ inc_updates inc_new p2 = Some s2 /\
  in_time_order (complete (concat p1 ++ concat p2)) /\ i_sum (inc_merge inc_new [i_sum s1; i_sum s2]) = 2 /\ counter_increase (complete (concat p1 ++ concat p2)) = 10.
Proof.
  exists [[TR (Some 1) (Some 0); TR (Some 2) (Some 1)]], [[TR (Some 3) (Some 9); TR (Some 4) (Some 10)]]. eexists. eexists. split; [reflexivity|]. split; [reflexivity|]. split; [|split; reflexivity].
  cbn. unfold in_time_order. repeat constructor; cbn; lia.
Qed.
Print Assumptions C49_increase_partitions_refuted.

(** ** GAUGE_AGG *)
(** The two earliest and the two latest readings and their number are those of all rows, over any partitions, batches and
    arrival order; readings have distinct times and there are fewer than 2^64. *)
Theorem C49_gauge_partial : forall sort parts g, sorts sort -> NoDup (map fst (complete (all_rows parts))) -> Z.of_nat (length (complete (all_rows parts))) < 2 ^ 64 ->
  two_stage gauge_new (gauge_update sort) (fun g => g) gauge_merge parts g -> gauge_of (complete (all_rows parts)) (gauge_build sort g).
Proof. intros sort parts g Hs. now apply gauge_two. Qed.
Print Assumptions C49_gauge_partial.
Definition g_row (t : Z) : trow := TR (Some t) (Some (10 * t)).
Definition g_parts : list (list (list trow)) := [[map g_row [4; 8; 6; 5; 7; 9]; [TR (Some 1) None]]; [map g_row [3]]].
Example C49_gauge_case : NoDup (map fst (complete (all_rows g_parts))) /\
  exists g, two_stage gauge_new (gauge_update isort) (fun g => g) gauge_merge g_parts g /\ length (g_points g) = 5%nat /\
    gauge_build isort g = Some (GD (3, 30) (4, 40) (8, 80) (9, 90) 7).
Proof.
  split; [repeat constructor; cbn; intuition discriminate|]. eexists. split; [eexists [[_]; [_]]; split; [|reflexivity]; cbn; apply perm_swap|]. split; reflexivity.
Qed.

(** ** Data quality functions *)
(** If each partition is one batch, the rows that are assessed are all rows. *)
Theorem C49_data_quality_partial : forall parts series, Forall (fun p => length p = 1%nat) parts ->
  two_stage [] dq_update (fun s => s) dq_merge parts series -> Permutation series (all_rows parts).
Proof. exact dq_two. Qed.
Print Assumptions C49_data_quality_partial.
(** Finding: of several batches of a partition only the last is assessed. *)
Theorem C49_data_quality_last_batch_refuted : forall batches (last : list trow), partition [] dq_update (batches ++ [last]) = last.
Proof. intros batches last. unfold partition. rewrite fold_left_app. reflexivity. Qed.
Print Assumptions C49_data_quality_last_batch_refuted.
Example C49_data_quality_case : (exists s, two_stage [] dq_update (fun s => s) dq_merge [[[g_row 1; g_row 2]]; [[g_row 3]]] s /\ length s = 3%nat) /\
  partition [] dq_update [[g_row 1; g_row 2]; [g_row 3]] = [g_row 3].
Proof. split; [|reflexivity]. eexists. split; [eexists [[_]; [_]]; split; [|reflexivity]; cbn; apply perm_swap|reflexivity]. Qed.
