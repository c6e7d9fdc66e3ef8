(** Proofs about timestamp_repair: an evenly spaced series keeps its interval and its start, and comes back as it is. *)
From Coq Require Import QArith Qround.
From Verif Require Import Prelude RepairModel RepairSpec RepairProofs.
Open Scope Z_scope.

Lemma grid_cons s d n : grid s d (S n) = s :: grid (s + d) d n.
Proof.
  unfold grid. cbn [seq map]. f_equal; [lia|]. rewrite <- seq_shift, map_map. apply map_ext. intros i. lia.
Qed.
Lemma intervals_grid d : forall n s, intervals (grid s d (S n)) = repeat d n.
Proof.
  induction n as [|n IH]; intros s; [reflexivity|].
  rewrite grid_cons. assert (H := IH (s + d)). rewrite grid_cons in H |- *. cbn [intervals repeat] in *.
  f_equal; [lia|]. exact H.
Qed.
Lemma sort_repeat d : forall n, sort_z (repeat d n) = repeat d n.
Proof.
  induction n as [|n IH]; [reflexivity|]. unfold sort_z in *. cbn [repeat fold_right]. rewrite IH.
  destruct n; [reflexivity|]. cbn [repeat insert_sorted]. rewrite Z.leb_refl. reflexivity.
Qed.
Lemma nth_error_repeat' {A} (x : A) : forall n k, (k < n)%nat -> nth_error (repeat x n) k = Some x.
Proof. induction n as [|n IH]; intros k H; [lia|]. destruct k; [reflexivity|]. apply IH. lia. Qed.

Lemma median_grid s d m : (3 <= m)%nat -> interval_median (grid s d m) = Done d.
Proof.
  intros Hm. destruct m as [|m]; [lia|]. unfold interval_median. rewrite intervals_grid, sort_repeat, grid_length.
  assert (D : (S m / 2 < m)%nat).
  { apply Nat.div_lt_upper_bound; lia. }
  set (h := (S m / 2)%nat) in *.
  destruct (Nat.even (S m)).
  - cbn [Nat.eqb]. rewrite !nth_error_repeat' by lia. f_equal. replace (d + d) with (d * 2) by lia. apply Z.quot_mul. lia.
  - rewrite nth_error_repeat' by lia. reflexivity.
Qed.

Lemma nodup_repeat d : forall n, (1 <= n)%nat -> nodup Z.eq_dec (repeat d n) = [d].
Proof.
  induction n as [|n IH]; intros H; [lia|]. cbn [repeat nodup]. destruct n as [|n].
  - reflexivity.
  - destruct (in_dec Z.eq_dec d (repeat d (S n))) as [I|I]; [apply IH; lia|]. exfalso. apply I. left. reflexivity.
Qed.
Lemma count_repeat d n : times (repeat d n) d = n.
Proof. unfold times. induction n; cbn; [reflexivity|]. destruct (Z.eq_dec d d); congruence. Qed.
Lemma mode_grid walk s d m : map_order walk -> (2 <= m)%nat -> interval_mode_of walk (grid s d m) = Done d.
Proof.
  intros W Hm. destruct m as [|m]; [lia|]. unfold interval_mode_of. rewrite intervals_grid.
  rewrite grid_cons. f_equal. unfold most_frequent.
  assert (P := W (repeat d m)). rewrite nodup_repeat in P by lia. apply Permutation_sym, Permutation_length_1_inv in P.
  rewrite P. cbn [fold_left snd]. rewrite count_repeat. replace (0 <? m)%nat with true by (symmetry; apply Nat.ltb_lt; lia). reflexivity.
Qed.

Lemma fold_max_repeat d n : fold_right Z.max d (repeat d n) = d.
Proof. induction n; cbn; lia. Qed.
Lemma fold_min_repeat d n : fold_right Z.min d (repeat d n) = d.
Proof. induction n; cbn; lia. Qed.
Lemma sum_repeat d n : sum_z (repeat d n) = d * Z.of_nat n.
Proof. unfold sum_z. induction n as [|n IH]; cbn [repeat fold_right]; [lia|]. rewrite IH. lia. Qed.
Lemma samples_zero d : forall n, samples (repeat d n) (repeat 0%nat n) 0 = repeat d n.
Proof. unfold samples. induction n; cbn; [reflexivity|]. f_equal. assumption. Qed.
Lemma samples_other d c : forall n, (c <> 0)%nat -> samples (repeat d n) (repeat 0%nat n) c = [].
Proof. intros n H. unfold samples. induction n; cbn; [reflexivity|]. destruct c; [congruence|]. exact IHn. Qed.
Lemma map_repeat' {A B} (g : A -> B) x : forall n, map g (repeat x n) = repeat (g x) n.
Proof. induction n; cbn; congruence. Qed.

Lemma k_means_repeat fuel d n : (1 <= fuel)%nat -> (1 <= n)%nat -> k_means fuel (repeat d n) = Some d.
Proof.
  intros Hf Hn. destruct fuel as [|fuel]; [lia|]. unfold k_means.
  destruct n as [|n]; [lia|]. cbn [repeat]. rewrite fold_max_repeat, fold_min_repeat.
  change (d :: repeat d n) with (repeat d (S n)).
  assert (M : forall i : nat, d + Z.quot ((Z.of_nat i + 1) * (d - d)) 4 = d).
  { intros i. replace ((Z.of_nat i + 1) * (d - d)) with 0 by lia. cbn. lia. }
  cbn [seq map]. rewrite !M. rewrite !map_repeat'. cbn [rounds].
  assert (E : nearest d [d; d; d] 0 i64_max 0 = 0%nat).
  { cbn [nearest]. replace (Z.abs (d - d)) with 0 by lia. change (0 <? i64_max) with true. cbn iota. rewrite !Z.ltb_irrefl. reflexivity. }
  rewrite map_repeat', E. destruct (list_eq_dec _ _ _) as [_|X]; [|congruence].
  assert (Lg : largest (repeat d (S n)) (repeat 0%nat (S n)) = 0%nat).
  { unfold largest. rewrite samples_zero, !samples_other by discriminate. rewrite repeat_length. cbn [length].
    rewrite Nat.max_0_r. reflexivity. }
  rewrite Lg, samples_zero. cbn [repeat]. change (d :: repeat d n) with (repeat d (S n)).
  rewrite sum_repeat, repeat_length. rewrite Z.quot_mul by lia. reflexivity.
Qed.
Lemma cluster_grid fuel s d m : (1 <= fuel)%nat -> (2 <= m)%nat -> interval_cluster fuel (grid s d m) = Done d.
Proof.
  intros Hf Hm. destruct m as [|m]; [lia|]. unfold interval_cluster. rewrite intervals_grid, k_means_repeat by lia.
  rewrite grid_cons. reflexivity.
Qed.

Lemma combine_map_r {A B C} (g : B -> C) : forall (l : list A) (k : list B), combine l (map g k) = map (fun p => (fst p, g (snd p))) (combine l k).
Proof. induction l as [|a l IH]; intros [|b k]; cbn; [reflexivity..|]. f_equal. apply IH. Qed.
Lemma combine_same {A} : forall l : list A, combine l l = map (fun x => (x, x)) l.
Proof. induction l; cbn; congruence. Qed.
Lemma linear_grid s d m : (1 <= m)%nat -> start_linear (grid s d m) d = Done s.
Proof.
  intros Hm. destruct m as [|m]; [lia|]. unfold start_linear.
  assert (E : map (fun p : nat * Z => snd p - Z.of_nat (fst p) * d) (combine (seq 0 (length (grid s d (S m)))) (grid s d (S m)))
              = repeat s (S m)).
  { rewrite grid_length. unfold grid. rewrite combine_map_r, combine_same, !map_map. cbn [fst snd].
    generalize (seq_length (S m) 0). generalize (seq 0 (S m)). generalize (S m). intros k l.
    revert k. induction l as [|x l IH]; intros k <-; [reflexivity|]. cbn [length repeat map]. f_equal; [lia|]. apply IH. reflexivity. }
  rewrite E, grid_length, sum_repeat. rewrite grid_cons. f_equal. apply Z.quot_mul. lia.
Qed.

(** the last matching time is a time of the series *)
Lemma fold_last_match (P : Z -> bool) : forall l acc, (exists x, In x l /\ P x = true) \/ P acc = true ->
  P (fold_left (fun a v => if P v then v else a) l acc) = true
  /\ (In (fold_left (fun a v => if P v then v else a) l acc) l \/ fold_left (fun a v => if P v then v else a) l acc = acc).
Proof.
  induction l as [|x l IH]; intros acc H; cbn [fold_left].
  - destruct H as [(x & [] & _)|H]; auto.
  - destruct (P x) eqn:E.
    + destruct (IH x (or_intror E)) as [H1 [H2|H2]]; split; auto; [left; right; exact H2|left; left; symmetry; exact H2].
    + assert (H' : (exists y, In y l /\ P y = true) \/ P acc = true).
      { destruct H as [(y & [->|I] & Q)|H]; [congruence|left; eauto|auto]. }
      destruct (IH acc H') as [H1 [H2|H2]]; split; auto. left. right. exact H2.
Qed.
Lemma last_match_in (P : Z -> bool) l acc : (exists x, In x l /\ P x = true) -> In (fold_left (fun a v => if P v then v else a) l acc) l.
Proof.
  intros (x & I & Q). revert acc. induction l as [|y l IH]; intros acc; [destruct I|]. cbn [fold_left].
  destruct (P y) eqn:E.
  - destruct (fold_last_match P l y (or_intror E)) as [_ [H|H]]; [right; exact H|left; symmetry; exact H].
  - destruct I as [->|I]; [congruence|]. right. apply IH. exact I.
Qed.

Lemma most_frequent_in walk l : map_order walk -> l <> [] -> In (most_frequent walk l) l.
Proof.
  intros W Hl. unfold most_frequent.
  assert (A : forall ks acc, (forall k, In k ks -> In k l) -> (snd acc = 0%nat \/ In (fst acc) l) ->
    let r := fold_left (fun acc k => if (snd acc <? times l k)%nat then (k, times l k) else acc) ks acc in
    (snd acc = 0%nat -> ks = []) -> In (fst acc) l \/ ks <> [] -> In (fst r) l).
  { induction ks as [|k ks IH]; intros acc Hk Ha; cbn [fold_left]; intros H0 H1.
    - destruct H1 as [H1|H1]; [exact H1|congruence].
    - destruct (snd acc <? times l k)%nat eqn:E.
      + apply IH; cbn [fst snd]; [intros; apply Hk; right; assumption|right; apply Hk; left; reflexivity| |left; apply Hk; left; reflexivity].
        intros Z0. exfalso. apply Nat.ltb_lt in E. lia.
      + assert (snd acc <> 0%nat). { intros Z0. discriminate (H0 Z0). }
        destruct Ha as [Ha|Ha]; [congruence|].
        apply IH; [intros; apply Hk; right; assumption|auto|congruence|auto]. }
  destruct l as [|x l']; [congruence|]. set (l := x :: l') in *.
  assert (P := W l).
  assert (Ix : In x (walk l)).
  { apply (Permutation_in _ (Permutation_sym P)). apply nodup_In. left. reflexivity. }
  assert (Hin : forall k, In k (walk l) -> In k l).
  { intros k I. apply (nodup_In Z.eq_dec). apply (Permutation_in _ P). exact I. }
  destruct (walk l) as [|k ks]; [destruct Ix|].
  cbn [fold_left snd]. assert (Ck : (0 < times l k)%nat).
  { unfold times. apply count_occ_In. apply Hin. left. reflexivity. }
  replace (0 <? times l k)%nat with true by (symmetry; apply Nat.ltb_lt; exact Ck).
  apply (A ks (k, times l k)); cbn [fst snd].
  - intros k' I. apply Hin. right. exact I.
  - right. apply Hin. left. reflexivity.
  - lia.
  - left. apply Hin. left. reflexivity.
Qed.

Lemma mode_start_grid walk s d m : map_order walk -> d > 0 -> (1 <= m)%nat -> start_mode_of walk (grid s d m) d = Done s.
Proof.
  intros W Hd Hm. destruct m as [|m]; [lia|].
  unfold start_mode_of.
  assert (G := grid_cons s d m). set (l := grid s d (S m)) in *.
  set (key := most_frequent walk (map (fun v => Z.rem v d) l)).
  assert (Ik : In key (map (fun v => Z.rem v d) l)).
  { apply most_frequent_in; [exact W|]. rewrite G. discriminate. }
  apply in_map_iff in Ik. destruct Ik as (x & Ex & Ix).
  set (r := fold_left (fun acc v => if Z.rem v d =? key then v else acc) l 0).
  assert (Ir : In r l).
  { apply last_match_in. exists x. split; [exact Ix|]. apply Z.eqb_eq. exact Ex. }
  rewrite G. replace (d =? 0) with false by (symmetry; apply Z.eqb_neq; lia).
  cbv zeta. fold key. fold r.
  f_equal. unfold l, grid in Ir. apply in_map_iff in Ir. destruct Ir as (k & Er & _). rewrite <- Er.
  clear - Hd. destruct (s <? s + d * Z.of_nat k) eqn:E.
  - replace ((s + d * Z.of_nat k - s + d - 1) / d) with (Z.of_nat k); [lia|].
    apply (Z.div_unique _ d _ (d - 1)); lia.
  - nia.
Qed.

Lemma last_grid s d : forall m, last (grid s d (S m)) 0 = s + d * Z.of_nat m.
Proof. intros m. rewrite grid_S. apply last_last. Qed.

Lemma is_double_Z z : Z.abs z <= 2 ^ 53 -> is_double (inject_Z z).
Proof. intros H. exists z, 0. split; [exact H|]. unfold Qpower. ring. Qed.

Lemma grid_len_grid fl s d m : rounding fl -> d > 0 -> (1 <= m)%nat -> Z.of_nat m <= 2 ^ 53 ->
  is_double (inject_Z (d * (Z.of_nat m - 1))) -> is_double (inject_Z d) ->
  grid_len fl (s + d * (Z.of_nat m - 1)) s d = m.
Proof.
  intros [Rx Rd] Hd Hm Hb D1 D2. unfold grid_len.
  replace (s + d * (Z.of_nat m - 1) - s) with (d * (Z.of_nat m - 1)) by lia.
  assert (E1 : (fl (fl (fl (inject_Z (d * (Z.of_nat m - 1))) / fl (inject_Z d)) + 1) == inject_Z (Z.of_nat m))%Q).
  { rewrite (Rx _ (inject_Z (Z.of_nat m))).
    - apply Rd. apply is_double_Z. lia.
    - rewrite (Rx _ (inject_Z (Z.of_nat m - 1))).
      + rewrite (Rd _ (is_double_Z (Z.of_nat m - 1) ltac:(lia))). unfold Qeq. cbn. lia.
      + rewrite (Rd _ D1), (Rd _ D2). rewrite inject_Z_mult. field. unfold Qeq. cbn. lia. }
  rewrite (Qceiling_comp _ _ E1). rewrite Qceiling_Z. lia.
Qed.

Definition interval_fits (im : interval_mode) (d : Z) : Prop := match im with Given ms => d = ms * 1000000 | _ => True end.

Lemma even_kept fl walk fuel im sm s d rows :
  rounding fl -> map_order walk -> (1 <= fuel)%nat -> d > 0 -> (3 <= length rows)%nat -> Z.of_nat (length rows) <= 2 ^ 53 ->
  evenly s d rows -> interval_fits im d ->
  is_double (inject_Z (d * (Z.of_nat (length rows) - 1))) -> is_double (inject_Z d) ->
  select_timestamp_repair fl walk fuel CFloat im sm rows = Done (input_rows rows).
Proof.
  intros R W Hf Hd Hm Hb Ev Fit D1 D2.
  unfold select_timestamp_repair, column_in. cbn [bind].
  set (irows := input_rows rows).
  assert (Ets : map fst rows = map fst irows).
  { unfold irows, input_rows. rewrite map_map. apply map_ext. reflexivity. }
  assert (Evs : map (fun x => match x with Some q => Num q | None => NaN end) (map snd rows) = map snd irows).
  { unfold irows, input_rows. rewrite !map_map. apply map_ext. reflexivity. }
  rewrite Evs. unfold timestamp_repair.
  assert (Ei : (match im with
        | ByMode => interval_mode_of walk (map fst rows)
        | ByCluster => interval_cluster fuel (map fst rows)
        | ByMedian => interval_median (map fst rows)
        | Given i => if i <? 0 then Failed else Done (i * 1000000)
        end) = Done d).
  { unfold evenly in Ev. rewrite Ev. destruct im.
    - apply mode_grid; [exact W|lia].
    - apply cluster_grid; lia.
    - apply median_grid; lia.
    - cbn in Fit. destruct (ms <? 0) eqn:E; [exfalso; lia|]. f_equal. lia. }
  rewrite Ei. cbn [bind].
  assert (Es : (match sm with SLinear => start_linear (map fst rows) d | SMode => start_mode_of walk (map fst rows) d end) = Done s).
  { unfold evenly in Ev. rewrite Ev. destruct sm; [apply linear_grid; lia|apply mode_start_grid; [exact W|exact Hd|lia]]. }
  rewrite Es. cbn [bind]. rewrite Ets.
  assert (Li : length irows = length rows) by apply map_length.
  destruct (dp_cheapest s d irows fl ltac:(lia) ltac:(lia)) as (n & out & k & (c & Rc & Min) & En & Dp & Fk & Nk).
  assert (Eg : map fst irows = grid s d (length rows)) by (rewrite <- Ets; exact Ev).
  assert (Elast : last (map fst irows) 0 = s + d * (Z.of_nat (length rows) - 1)).
  { rewrite Eg. destruct (length rows) as [|m]; [lia|]. rewrite last_grid. lia. }
  rewrite Elast, grid_len_grid in En by (auto; lia). subst n.
  assert (C0 : c = 0).
  { assert (H1 := repair_same irows). rewrite Eg in H1. apply Min in H1. apply repair_cost_pos in Rc. lia. }
  destruct (repair_free _ _ _ _ Rc C0) as [-> _].
  assert (K0 : k = O).
  { apply Nk. unfold near_start. rewrite Eg. destruct (length rows) as [|m]; [lia|]. rewrite grid_cons. cbn [nth]. lia. }
  subst k. rewrite Dp. cbn [bind repeat app skipn]. f_equal.
  rewrite <- (map_id irows) at 2. apply map_ext. intros [a b]. reflexivity.
Qed.

(** ** Every series *)
Lemma mode_start_near walk ts d start first : map_order walk -> StronglySorted Z.le ts -> d > 0 -> hd_error ts = Some first ->
  start_mode_of walk ts d = Done start ->
  start <= first < start + d /\ exists t, In t ts /\ (t - start) mod d = 0.
Proof.
  intros W So Hd Hf. destruct ts as [|x l]; [discriminate|]. injection Hf as ->. unfold start_mode_of.
  replace (d =? 0) with false by (symmetry; apply Z.eqb_neq; lia).
  set (ts := first :: l) in *.
  set (key := most_frequent walk (map (fun v => Z.rem v d) ts)).
  assert (Ik : In key (map (fun v => Z.rem v d) ts)) by (apply most_frequent_in; [exact W|discriminate]).
  apply in_map_iff in Ik. destruct Ik as (y & Ey & Iy).
  set (r := fold_left (fun acc v => if Z.rem v d =? key then v else acc) ts 0).
  assert (Ir : In r ts).
  { apply last_match_in. exists y. split; [exact Iy|]. apply Z.eqb_eq. exact Ey. }
  assert (Hr : first <= r).
  { destruct Ir as [<-|I]; [lia|]. inversion So as [|? ? _ Fa]; subst. rewrite Forall_forall in Fa. apply Fa. exact I. }
  intros E. cbv zeta in E. injection E as E. clearbody r key. clear Ey Iy.
  destruct (first <? r) eqn:C.
  - assert (Q := Z.div_mod (r - first + d - 1) d ltac:(lia)). assert (B := Z.mod_pos_bound (r - first + d - 1) d ltac:(lia)).
    set (q := (r - first + d - 1) / d) in *. set (m := (r - first + d - 1) mod d) in *. clearbody q m. split; [lia|].
    exists r. split; [exact Ir|]. replace (r - start) with (q * d) by lia. apply Z.mod_mul. lia.
  - assert (r = first) by lia. subst r. split; [lia|]. exists first. split; [left; reflexivity|].
    replace (first - start) with 0 by lia. apply Z.mod_0_l. lia.
Qed.

Lemma any_series fl walk fuel im sm rows out first :
  map_order walk -> StronglySorted Z.le (map fst rows) -> (3 <= length rows)%nat -> hd_error (map fst rows) = Some first ->
  select_timestamp_repair fl walk fuel CFloat im sm rows = Done out ->
  out = [] \/ exists start d n full k,
    cheapest (grid start d n) (input_rows rows) full
    /\ out = repeat (0, Num 0) k ++ skipn k full
    /\ firstn k full = map (fun p => (p, NaN)) (grid start d k)
    /\ (d > 0 -> Z.abs (first - start) < 200000000000 -> 2 * (first - start) <= d -> k = O)
    /\ (forall ms, im = Given ms -> d = ms * 1000000)
    /\ (d > 0 -> sm = SMode -> start <= first < start + d /\ exists t, In t (map fst rows) /\ (t - start) mod d = 0).
Proof.
  intros W So Hm Hf E. unfold select_timestamp_repair, column_in in E. cbn [bind] in E.
  set (irows := input_rows rows).
  assert (Ets : map fst rows = map fst irows).
  { unfold irows, input_rows. rewrite map_map. apply map_ext. reflexivity. }
  assert (Evs : map (fun x => match x with Some q => Num q | None => NaN end) (map snd rows) = map snd irows).
  { unfold irows, input_rows. rewrite !map_map. apply map_ext. reflexivity. }
  rewrite Evs in E. unfold timestamp_repair in E.
  destruct (match im with
        | ByMode => interval_mode_of walk (map fst rows)
        | ByCluster => interval_cluster fuel (map fst rows)
        | ByMedian => interval_median (map fst rows)
        | Given i => if i <? 0 then Failed else Done (i * 1000000)
        end) as [d| | |] eqn:Ei; cbn [bind] in E; try discriminate.
  destruct (match sm with SLinear => start_linear (map fst rows) d | SMode => start_mode_of walk (map fst rows) d end)
    as [start| | |] eqn:Es; cbn [bind] in E; try discriminate.
  assert (Li : length irows = length rows) by apply map_length.
  destruct (Z.eq_dec d 0) as [->|Dn].
  - left. unfold dp_repair in E. rewrite map_length in E.
    replace (length rows <=? 2)%nat with false in E by (symmetry; apply Nat.leb_gt; lia).
    cbn [Z.eqb] in E. destruct (start <? last (map fst rows) 0); cbn [bind] in E; [discriminate|]. injection E as <-. reflexivity.
  - right. destruct (dp_cheapest start d irows fl ltac:(lia) Dn) as (n & full & k & Ch & _ & Dp & Fk & Nk).
    rewrite Ets in E. rewrite Dp in E. cbn [bind] in E. injection E as E.
    exists start, d, n, full, k. split; [exact Ch|]. split; [|split; [exact Fk|split; [|split]]].
    + rewrite <- E. rewrite <- (map_id (repeat (0, Num 0) k ++ skipn k full)) at 2. apply map_ext. intros [a b]. reflexivity.
    + intros H1 H2 H3. apply Nk. unfold near_start. rewrite <- Ets.
      assert (nth 0 (map fst rows) 0 = first) as ->; [|auto].
      destruct (map fst rows); [discriminate|]. injection Hf as ->. reflexivity.
    + intros ms ->. destruct (ms <? 0); [discriminate|]. injection Ei as <-. reflexivity.
    + intros H1 ->. apply (mode_start_near walk); auto.
Qed.
