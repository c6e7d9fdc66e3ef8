(** C85: the metrics of a server count every event once. *)
From Verif Require Import Prelude MetricModel MetricSpec MetricProofs.
From Coq Require Import Lia Permutation Sorted.
Open Scope Z_scope.

(** For every set of thresholds and every sequence of observations with fewer than 2^64 of them and a sum below
    2^64, what is reported of a histogram is: the thresholds in order, the largest number as infinity; for each the
    number of observations not above it; the number and the sum of those not above all thresholds. *)
Theorem C85_histogram_partial : forall ts xs,
  observed xs -> how_many (fun _ => true) xs < 2 ^ 64 -> their_sum (fun _ => true) xs < 2 ^ 64 ->
  let r := report (records (hist_new ts) xs) in
  (exists srt, Permutation srt ts /\ StronglySorted Z.le srt /\
     map fst (r_buckets r) = map (fun le => if le =? 2 ^ 64 - 1 then None else Some le) srt) /\
  (forall b c, In (b, c) (r_buckets r) -> c = how_many (below b) xs) /\
  r_count r = how_many (covered ts) xs /\ r_sum r = their_sum (covered ts) xs.
Proof.
  intros ts xs O1 C1 T1 r. destruct (histogram_exact ts xs O1 C1 T1) as ((srt & P & S0 & B) & C & T). split; [|split; [|split; assumption]].
  - exists srt. split; [exact P|]. split; [exact S0|]. unfold r. rewrite B, map_map. reflexivity.
  - intros b c I. unfold r in I. rewrite B in I. apply in_map_iff in I. destruct I as (le & E & _). injection E as <- <-.
    apply how_many_ext. intros v n I. unfold upper, below. destruct (le =? W64 - 1) eqn:Q; [|reflexivity].
    apply Z.eqb_eq in Q. apply Z.leb_le. destruct (O1 v n I) as (V & _). unfold W64 in Q. lia.
Qed.
Print Assumptions C85_histogram_partial.

(** With a threshold that is the largest number, as all histograms of the server have, nothing is missing. *)
Theorem C85_histogram_complete : forall ts xs,
  observed xs -> how_many (fun _ => true) xs < 2 ^ 64 -> their_sum (fun _ => true) xs < 2 ^ 64 -> In (2 ^ 64 - 1) ts ->
  let r := report (records (hist_new ts) xs) in
  r_count r = how_many (fun _ => true) xs /\ r_sum r = their_sum (fun _ => true) xs.
Proof.
  intros ts xs O1 C1 T1 M r. destruct (histogram_exact ts xs O1 C1 T1) as (_ & C & T).
  assert (K : forall v n, In (v, n) xs -> covered ts v = true).
  { intros v n I. unfold covered. apply existsb_exists. exists (2 ^ 64 - 1). split; [exact M|]. apply Z.leb_le. destruct (O1 v n I) as (V & _). lia. }
  split.
  - unfold r. rewrite C. apply how_many_ext. exact K.
  - unfold r. rewrite T. unfold their_sum. f_equal. f_equal. clear - K. induction xs as [|[v n] xs IH]; [reflexivity|]. cbn [filter fst].
    rewrite (K v n (or_introl eq_refl)), IH; [reflexivity|]. intros v' n' I. apply (K v' n'). right. exact I.
Qed.
Print Assumptions C85_histogram_complete.

(** A counter is the sum of what was added, in whatever order the additions of concurrent tasks came. *)
Theorem C85_counter : forall incs, (forall x, In x incs -> 0 <= x) -> sum incs < 2 ^ 64 -> counter incs = sum incs.
Proof.
  intros incs P L. unfold counter. change 0 with (0 mod W64) at 1. rewrite counter_sum. apply Z.mod_small. unfold W64.
  pose proof (sum_nonneg incs P). cbn [Z.add]. lia.
Qed.
Print Assumptions C85_counter.

(** False: an average metric is the average of what was added.  The sum is divided by one more than the number. *)
Theorem C85_average_refuted : forall v, 2 <= v < 2 ^ 64 ->
  av_run av_start (add_calls [v] ++ average_call) = [v / 2] /\ v / 2 < v.
Proof.
  intros v H. split; [|apply Z.div_lt_upper_bound; lia].
  assert (F : forall x, In x [v] -> 0 <= x) by (intros x [<- |[]]; lia).
  assert (A : (0 + Z.of_nat (length [v]) < W64)) by (cbn; unfold W64; lia).
  assert (B : (0 + sum [v] < W64)) by (cbn [sum fold_right]; unfold W64; lia).
  unfold av_start. rewrite (av_adds [v] 0 0 0 0 average_call F ltac:(lia) ltac:(lia) A B).
  cbn [length sum fold_right average_call av_run av_step a_count a_total a_lcount a_ltotal]. change (wadd (0 + Z.of_nat 1) 1) with 2.
  replace (0 + (v + 0)) with v by lia. rewrite Z.quot_div_nonneg by lia. reflexivity.
Qed.
Print Assumptions C85_average_refuted.

(** What it is: of reports taken one after the other, each shows the sum of the values added since the one before,
    divided by one more than their number, so never more than their average. *)
Theorem C85_average_partial : forall rounds,
  (forall vs, In vs rounds -> (forall v, In v vs -> 0 <= v) /\ sum vs < 2 ^ 64 /\ Z.of_nat (length vs) + 1 < 2 ^ 64) ->
  av_run av_start (flat_map (fun vs => add_calls vs ++ average_call) rounds) = map (fun vs => sum vs / (Z.of_nat (length vs) + 1)) rounds
  /\ forall vs, In vs rounds -> sum vs / (Z.of_nat (length vs) + 1) * Z.of_nat (length vs) <= sum vs.
Proof.
  intros rounds H. split.
  - unfold av_start. generalize 0 at 3 4. intros x. generalize x at 2. intros y. revert x y. induction rounds as [|vs rounds IH]; intros x y; [reflexivity|].
    destruct (H vs (or_introl eq_refl)) as (P & L & N). assert (S0 := sum_nonneg vs P).
    cbn [flat_map map]. rewrite <- app_assoc, (av_adds vs 0 0 _ _ _ P ltac:(lia) ltac:(lia)) by (unfold W64; lia).
    cbn [average_call app av_run av_step a_count a_total a_lcount a_ltotal]. rewrite !Z.add_0_l. unfold wadd.
    rewrite (Z.mod_small (Z.of_nat (length vs) + 1)) by (unfold W64; lia). rewrite Z.quot_div_nonneg by lia. f_equal.
    apply IH. intros vs' I. apply H. right. exact I.
  - intros vs I. destruct (H vs I) as (P & L & N). assert (S0 := sum_nonneg vs P).
    assert (D := Z.mul_div_le (sum vs) (Z.of_nat (length vs) + 1) ltac:(lia)).
    assert (Q : 0 <= sum vs / (Z.of_nat (length vs) + 1)) by (apply Z.div_pos; lia).
    remember (sum vs / (Z.of_nat (length vs) + 1)) as a. remember (Z.of_nat (length vs)) as n. nia.
Qed.
Print Assumptions C85_average_partial.

(** False: both readers of the metrics, the page and the task that fills the system tables, see the average.  The
    one that comes second sees 0, whatever was added. *)
Theorem C85_second_reader_refuted : forall vs, (forall v, In v vs -> 0 <= v) -> sum vs < 2 ^ 64 -> Z.of_nat (length vs) + 1 < 2 ^ 64 ->
  exists a, av_run av_start (add_calls vs ++ average_call ++ average_call) = [a; 0].
Proof.
  intros vs P L N. destruct (C85_average_partial [vs; []]) as (E & _).
  - intros x [<- |[<- |[]]]; [auto|]. split; [intros v []|]. cbn. lia.
  - cbn [flat_map map] in E. rewrite app_nil_r, <- app_assoc in E. exists (sum vs / (Z.of_nat (length vs) + 1)). exact E.
Qed.
Print Assumptions C85_second_reader_refuted.

(** False: every value added shows in some report.  One that is added while a report is taken is thrown away. *)
Theorem C85_average_loses_refuted : forall v, 0 <= v < 2 ^ 64 ->
  av_run av_start ([AvLoadCount; AvLoadTotal] ++ add_calls [v] ++ [AvClearCount; AvClearTotal] ++ average_call) = [0; 0].
Proof. intros v H. reflexivity. Qed.
Print Assumptions C85_average_loses_refuted.

(** False: the system tables show the same buckets as the metrics interface.  There each bucket has only the
    observations above the bound before it, under the same label le. *)
Theorem C85_tables_refuted : exists ts xs, observed xs /\
  exists le c c', In (Some le, c) (r_buckets (report (records (hist_new ts) xs))) /\
    In (Some le, c') (lp_rows (records (hist_new ts) xs)) /\ c = how_many (below (Some le)) xs /\ c' <> how_many (below (Some le)) xs.
Proof.
  exists [10; 20], [(5, 1); (15, 1)]. split.
  - intros v n [H|[H|[]]]; injection H as <- <-; lia.
  - exists 20, 2, 1. split; [vm_compute; auto|]. split; [vm_compute; auto|]. split; [vm_compute; reflexivity | vm_compute; discriminate].
Qed.
Print Assumptions C85_tables_refuted.

(** What the system tables have: the values of the rows up to a threshold add up to the number of observations
    not above it, and the row without a threshold is the sum of the observations. *)
Theorem C85_tables_partial : forall ts xs,
  observed xs -> how_many (fun _ => true) xs < 2 ^ 64 -> their_sum (fun _ => true) xs < 2 ^ 64 ->
  (forall le, In le ts ->
     sum (map snd (filter (fun r => match fst r with Some b => b <=? le | None => false end) (lp_rows (records (hist_new ts) xs))))
     = how_many (below (Some le)) xs) /\
  filter (fun r => match fst r with Some _ => false | None => true end) (lp_rows (records (hist_new ts) xs)) = [(None, their_sum (covered ts) xs)].
Proof.
  intros ts xs O1 C1 T1. unfold lp_rows. split.
  - intros le I. rewrite filter_app. cbn [filter fst]. rewrite app_nil_r.
    change (how_many (below (Some le)) xs) with (how_many (fun v => v <=? le) xs). rewrite <- (tables_exact ts xs le O1 C1 I). unfold upto.
    f_equal. generalize (h_buckets (records (hist_new ts) xs)). intros bs. induction bs as [|b bs IH]; [reflexivity|]. cbn [map filter fst].
    destruct (b_le b <=? le); cbn [map snd]; rewrite IH; reflexivity.
  - destruct (histogram_exact ts xs O1 C1 T1) as (_ & _ & T). cbn [report r_sum] in T. rewrite filter_app, T. cbn [filter fst].
    generalize (h_buckets (records (hist_new ts) xs)). intros bs. induction bs as [|b bs IH]; [reflexivity|]. exact IH.
Qed.
Print Assumptions C85_tables_partial.

Definition ts1 : list Z := [500; 2 ^ 64 - 1; 10].
Definition xs1 : list (Z * Z) := [(10, 1); (11, 2); (700, 1); (3, 4)].
Example C85_ex : observed xs1 /\ how_many (fun _ => true) xs1 = 8 /\ their_sum (fun _ => true) xs1 = 744
  /\ report (records (hist_new ts1) xs1) = RP [(Some 10, 5); (Some 500, 7); (None, 8)] 8 744
  /\ report (records (hist_new [500; 10]) xs1) = RP [(Some 10, 5); (Some 500, 7)] 7 44
  /\ lp_rows (records (hist_new ts1) xs1) = [(Some 10, 5); (Some 500, 2); (Some (2 ^ 64 - 1), 1); (None, 744)]
  /\ counter [3; 4; 5] = 12 /\ av_run av_start (add_calls [10; 20; 30] ++ average_call ++ add_calls [4] ++ average_call) = [15; 2]
  /\ av_run av_start (add_calls [10; 20; 30] ++ average_call ++ average_call) = [15; 0].
Proof.
  split; [intros v n [H|[H|[H|[H|[]]]]]; injection H as <- <-; lia|].
  repeat (split; [vm_compute; reflexivity|]). vm_compute. reflexivity.
Qed.
