(** Proofs about compaction across schema changes. *)
From Verif Require Import Prelude MergeModel MergeSpec MergeProofs CompactModel CompactSpec CompactProofs EvolveModel EvolveSpec.
Open Scope Z_scope.

(** ** Merging commutes with looking at columns *)
Section Commute.
Variable f : mrow -> mrow.
Variables w w' : nat.
Hypothesis f_ts : forall r, r_ts (f r) = r_ts r.
Hypothesis f_same : forall l, merge_same w' (map f l) = map f (merge_same w l).

Definition fb (b : builder) : builder := BB (b_last b) (map f (b_same b)) (map f (b_out b)).
Definition fc (cur : list (option (list mrow))) := map (option_map (map f)) cur.
Definition fs (st : mstate) : mstate :=
  MS (m_tree st) (m_adj st) (fc (m_cur st)) (map (map (map f)) (m_src st)) (fb (m_bld st)).

Lemma take_last_f b : take_last w' (fb b) = fb (take_last w b).
Proof. unfold take_last, fb. cbn [b_last b_same b_out]. rewrite f_same, map_app. reflexivity. Qed.
Lemma push_row_f b r : push_row w' (fb b) (f r) = option_map fb (push_row w b r).
Proof.
  unfold push_row. cbn [fb b_last]. rewrite f_ts. destruct (b_last b) as [t|].
  2:{ cbn [option_map]. unfold fb. cbn [b_last b_same b_out]. rewrite map_app. reflexivity. }
  destruct (t ?= r_ts r); cbn [option_map]; [| |reflexivity].
  - unfold fb. cbn [b_last b_same b_out]. rewrite map_app. reflexivity.
  - unfold fb, take_last. cbn [b_last b_same b_out]. rewrite f_same, !map_app. reflexivity.
Qed.
Lemma build_f b : build (fb b) = (option_map (map f) (fst (build b)), fb (snd (build b))).
Proof. destruct b as [t sm o]. unfold build, fb. cbn [b_out b_last b_same]. destruct o; reflexivity. Qed.
Lemma set_nth_f {A B} (g : A -> B) i x l : set_nth i (g x) (map g l) = map g (set_nth i x l).
Proof. unfold set_nth. rewrite map_app, firstn_map. cbn [map]. rewrite skipn_map. reflexivity. Qed.
Lemma cur_at_f cur i : cur_at (fc cur) i = option_map (map f) (cur_at cur i).
Proof. unfold cur_at, fc. revert i. induction cur as [|c cur IH]; intros [|i]; cbn [map nth]; auto. Qed.
Lemma next_batch_f s : next_batch (map (map f) s) = (option_map (map f) (fst (next_batch s)), map (map f) (snd (next_batch s))).
Proof. induction s as [|b s IH]; auto. destruct b as [|r b]; cbn [map next_batch]; [exact IH|reflexivity]. Qed.
Lemma nth_src_f i src : nth i (map (map (map f)) src) [] = map (map f) (nth i src []).
Proof. revert i. induction src as [|c cur IH]; intros [|i]; cbn [map nth]; auto. Qed.
Lemma maybe_poll_f i st : maybe_poll i (fs st) = fs (maybe_poll i st).
Proof.
  unfold maybe_poll. cbn [fs m_cur]. rewrite cur_at_f. destruct (cur_at (m_cur st) i) as [x|]; cbn [option_map]; auto.
  cbn [fs m_src]. rewrite nth_src_f, next_batch_f.
  change (@nth (list (list mrow)) i (m_src st) []) with (@nth (list batch) i (m_src st) []).
  destruct (next_batch (@nth (list batch) i (m_src st) [])) as [[b|] s]; cbn [fst snd option_map].
  - unfold fs. cbn [m_tree m_adj m_cur m_src m_bld]. f_equal.
    + unfold fc. change (Some (map f b)) with (option_map (map f) (Some b)). apply set_nth_f.
    + apply set_nth_f.
  - unfold fs. cbn [m_tree m_adj m_cur m_src m_bld]. f_equal. apply set_nth_f.
Qed.
Lemma is_gt_f cur a b : is_gt (fc cur) a b = is_gt cur a b.
Proof.
  unfold is_gt. rewrite !cur_at_f. destruct (cur_at cur a) as [[|x l]|], (cur_at cur b) as [[|y m]|]; cbn [option_map map]; auto.
  rewrite !f_ts. reflexivity.
Qed.
Lemma climb_init_f fuel : forall cur t x n, climb_init fuel (fc cur) t x n = climb_init fuel cur t x n.
Proof.
  induction fuel as [|k IH]; intros cur t x n; cbn [climb_init]; auto. destruct n; auto. destruct (tget t (S n)); auto.
  rewrite is_gt_f. destruct (is_gt cur x n0); apply IH.
Qed.
Lemma climb_f fuel : forall cur t x n, climb fuel (fc cur) t x n = climb fuel cur t x n.
Proof.
  induction fuel as [|k IH]; intros cur t x n; cbn [climb]; auto. destruct n; auto. destruct (tget t (S n)); auto.
  rewrite is_gt_f. destruct (is_gt cur x n0); apply IH.
Qed.
Lemma fc_length cur : length (fc cur) = length cur.
Proof. apply map_length. Qed.
Lemma init_tree_f cur : init_tree (fc cur) = init_tree cur.
Proof.
  unfold init_tree. rewrite fc_length. cbn zeta. generalize (repeat (@None nat) (length cur)) as t. generalize (seq 0 (length cur)) as l.
  induction l as [|i l IH]; intros t; cbn [fold_left]; auto. rewrite climb_init_f. apply IH.
Qed.
Lemma update_tree_f cur t : update_tree (fc cur) t = update_tree cur t.
Proof. unfold update_tree. rewrite fc_length. destruct (tget t 0); auto. cbn zeta. apply climb_f. Qed.
Definition fp (p : pass_res) : pass_res :=
  match p with Cont st => Cont (fs st) | Ret b st => Ret (option_map (map f) b) (fs st) | Fail => Fail end.
Lemma pass_f bs st : pass w' bs (fs st) = fp (pass w bs st).
Proof.
  unfold pass. change (m_tree (fs st)) with (m_tree st). destruct (tget (m_tree st) 0) as [i|]; auto.
  assert (E : (if m_adj (fs st) then fs st
               else let s := maybe_poll i (fs st) in MS (update_tree (m_cur s) (m_tree s)) true (m_cur s) (m_src s) (m_bld s))
              = fs (if m_adj st then st
               else let s := maybe_poll i st in MS (update_tree (m_cur s) (m_tree s)) true (m_cur s) (m_src s) (m_bld s))).
  { change (m_adj (fs st)) with (m_adj st). destruct (m_adj st); auto. rewrite maybe_poll_f. generalize (maybe_poll i st) as s. intros s.
    cbv zeta. unfold fs. cbn [m_tree m_adj m_cur m_src m_bld]. rewrite update_tree_f. reflexivity. }
  cbv zeta in *. rewrite E. clear E.
  match goal with |- context [fs (if m_adj st then ?a else ?b)] => generalize (if m_adj st then a else b) as s end. intros s.
  change (m_tree (fs s)) with (m_tree s). destruct (tget (m_tree s) 0) as [j|]; auto. change (m_cur (fs s)) with (fc (m_cur s)). rewrite cur_at_f.
  destruct (cur_at (m_cur s) j) as [[|r rest]|]; cbn [option_map map].
  - change (m_bld (fs s)) with (fb (m_bld s)). rewrite take_last_f, build_f. destruct (build (take_last w (m_bld s))) as [o b']. reflexivity.
  - change (m_bld (fs s)) with (fb (m_bld s)). rewrite push_row_f. destruct (push_row w (m_bld s) r) as [b|]; cbn [option_map]; auto.
    change (b_out (fb b)) with (map f (b_out b)). rewrite map_length.
    assert (EC : set_nth j (match map f rest with [] => None | _ :: _ => Some (map f rest) end) (fc (m_cur s))
               = fc (set_nth j (match rest with [] => None | _ :: _ => Some rest end) (m_cur s))).
    { unfold fc. rewrite <- set_nth_f. f_equal. destruct rest; reflexivity. }
    rewrite EC. destruct (Nat.ltb (length (b_out b)) bs); [reflexivity|].
    rewrite build_f. destruct (build b) as [o b']. reflexivity.
  - change (m_bld (fs s)) with (fb (m_bld s)). rewrite take_last_f, build_f. destruct (build (take_last w (m_bld s))) as [o b']. reflexivity.
Qed.
Lemma drain_f bs fuel : forall st, drain fuel w' bs (fs st) = option_map (map (map f)) (drain fuel w bs st).
Proof.
  induction fuel as [|k IH]; intros st; cbn [drain]; auto. rewrite pass_f. destruct (pass w bs st) as [st'|[b|] st'|]; cbn [fp option_map]; auto.
  rewrite IH. destruct (drain k w bs st'); reflexivity.
Qed.
Definition mstart (n : nat) (streams : list (list batch)) : mstate := MS [] false (repeat None n) streams (BB None [] []).
Lemma mstart_f n streams : mstart n (map (map (map f)) streams) = fs (mstart n streams).
Proof. unfold fs, mstart. cbn. unfold fc. f_equal. induction n as [|n IH]; cbn; f_equal; auto. Qed.
Lemma polls_f l : forall s, fold_left (fun st i => maybe_poll i st) l (fs s) = fs (fold_left (fun st i => maybe_poll i st) l s).
Proof. induction l as [|i l IH]; intros s; cbn [fold_left]; auto. rewrite maybe_poll_f. apply IH. Qed.
Definition start2 (n : nat) (s0 : mstate) : mstate :=
  let s := fold_left (fun st i => maybe_poll i st) (seq 0 n) s0 in MS (init_tree (m_cur s)) true (m_cur s) (m_src s) (m_bld s).
Lemma start2_f n s0 : start2 n (fs s0) = fs (start2 n s0).
Proof. unfold start2. cbv zeta. rewrite polls_f. unfold fs. cbn [m_tree m_adj m_cur m_src m_bld]. rewrite init_tree_f. reflexivity. Qed.
Lemma start_f (streams : list (list batch)) : start (map (map (map f)) streams) = fs (start streams).
Proof.
  change (start2 (length (map (map (map f)) streams)) (mstart (length (map (map (map f)) streams)) (map (map (map f)) streams))
          = fs (start2 (length streams) (mstart (length streams) streams))).
  rewrite (map_length (map (map f))), <- start2_f, <- mstart_f. reflexivity.
Qed.
Lemma merge_batches_f bs l : merge_batches w' bs (map (map f) l) = option_map (map (map f)) (merge_batches w bs l).
Proof.
  unfold merge_batches. destruct l as [|b l]; auto.
  change (map (map f) (b :: l)) with (map f b :: map (map f) l) at 1. cbn [map].
  unfold sort_merge.
  assert (E : start ([map f b] :: map (fun rows => [rows]) (map (map f) l)) = fs (start ([b] :: map (fun rows => [rows]) l))).
  { rewrite <- (start_f ([b] :: map (fun rows => [rows]) l)). f_equal. cbn [map]. f_equal. rewrite !map_map. reflexivity. }
  assert (EL : length (concat (map f b :: map (map f) l)) = length (concat (b :: l))).
  { change (map f b :: map (map f) l) with (map (map f) (b :: l)). rewrite <- concat_map. apply map_length. }
  rewrite E, EL. apply drain_f.
Qed.
End Commute.

(** ** Views *)
Lemma value_find u cols vals : value u cols vals = match find_col u cols with Some i => nth i vals None | None => None end.
Proof.
  revert vals. induction cols as [|c cols IH]; intros vals; [destruct vals; reflexivity|]. cbn [find_col]. destruct vals as [|v vals]; cbn [value].
  - destruct (sc_id c =? u); [reflexivity|]. destruct (find_col u cols) as [i|]; cbn [option_map]; [destruct i|]; reflexivity.
  - destruct (sc_id c =? u); [reflexivity|]. rewrite IH. destruct (find_col u cols); reflexivity.
Qed.
Lemma find_col_some u cols i : find_col u cols = Some i -> (i < length cols)%nat /\ exists c, nth_error cols i = Some c /\ sc_id c = u.
Proof.
  revert i. induction cols as [|c cols IH]; intros i H; cbn [find_col] in H; [discriminate|]. destruct (Z.eqb_spec (sc_id c) u) as [E|E].
  - injection H as <-. cbn [length]. split; [lia|]. exists c. split; auto.
  - destruct (find_col u cols) as [j|]; [|discriminate]. injection H as <-. destruct (IH j eq_refl) as (L & c' & H1 & H2).
    cbn [length]. split; [lia|]. exists c'. auto.
Qed.
Lemma find_col_none u cols : find_col u cols = None <-> ~ In u (map sc_id cols).
Proof.
  induction cols as [|c cols IH]; cbn [find_col map In]; [tauto|]. destruct (Z.eqb_spec (sc_id c) u) as [E|E].
  - split; [discriminate|]. intros H. destruct H. auto.
  - destruct (find_col u cols); cbn [option_map]; split; intros H; try discriminate; try tauto.
    + exfalso. assert (Hn : ~ In u (map sc_id cols)) by tauto. apply IH in Hn. discriminate.
Qed.
Lemma nth_map_seq {A} (g : nat -> A) w p d : (p < w)%nat -> nth p (map g (seq 0 w)) d = g p.
Proof.
  intros H. rewrite (nth_indep _ d (g 0%nat)) by (rewrite map_length, seq_length; auto). rewrite map_nth, seq_nth by auto. reflexivity.
Qed.
Lemma pick_rev_ext c c' (g : mrow -> mrow) l : (forall r, col c' (g r) = col c r) -> pick_rev c' (map g l) = pick_rev c l.
Proof. intros H. induction l as [|r l IH]; auto. cbn [map pick_rev]. destruct l; cbn [map] in *; rewrite H; auto. rewrite IH. reflexivity. Qed.
Lemma pick_rev_nulls c l : (forall r, In r l -> col c r = None) -> pick_rev c l = None.
Proof. intros H. induction l as [|r l IH]; auto. cbn [pick_rev]. rewrite (H r) by (left; auto). destruct l; auto. apply IH. intros x Hx. apply H. right; auto. Qed.
Lemma map_seq_nth {A B} (g : A -> B) (l : list A) d : map (fun i => g (nth i l d)) (seq 0 (length l)) = map g l.
Proof. apply map_nth_seq. Qed.
Lemma view_same U cols l : merge_same (length U) (map (view U cols) l) = map (view U cols) (merge_same (length cols) l).
Proof.
  destruct l as [|r l]; auto. destruct l as [|r2 l]; auto. cbn [map merge_same].
  set (l0 := r :: r2 :: l). change (view U cols r :: view U cols r2 :: map (view U cols) l) with (map (view U cols) l0).
  cbn [map]. f_equal. unfold view at 3. cbn [r_ts r_cols]. f_equal.
  transitivity (map (fun j => (fun u => value u cols (map (fun c => pick_rev c (rev l0)) (seq 0 (length cols)))) (nth j U 0)) (seq 0 (length U)));
    [|exact (map_seq_nth (fun u => value u cols (map (fun c => pick_rev c (rev l0)) (seq 0 (length cols)))) U 0)].
  apply map_ext_in. intros j Hj. apply in_seq in Hj. cbv beta. rewrite value_find, <- map_rev.
  assert (HC : forall x, col j (view U cols x) = value (nth j U 0) cols (r_cols x)).
  { intros x. unfold col, view. cbn [r_cols]. rewrite (nth_indep _ None (value (nth j U 0) cols (r_cols x))) by (rewrite map_length; lia).
    rewrite (nth_indep _ _ ((fun u => value u cols (r_cols x)) 0)) by (rewrite map_length; lia).
    rewrite (map_nth (fun u => value u cols (r_cols x))). reflexivity. }
  destruct (find_col (nth j U 0) cols) as [p|] eqn:E.
  - apply find_col_some in E as E'. destruct E' as [L _]. rewrite nth_map_seq by auto. apply pick_rev_ext. intros x. rewrite HC, value_find, E. reflexivity.
  - apply pick_rev_nulls. intros x Hx. apply in_map_iff in Hx as (y & <- & Hy). rewrite HC, value_find, E. reflexivity.
Qed.
Lemma view_project U cols b r : (forall u, In u U -> In u (map sc_id (rb_cols b)) -> In u (map sc_id cols)) ->
  view U cols (MR (r_ts r) (map (fun c => match find_col (sc_id c) (rb_cols b) with Some i => nth i (r_cols r) None | None => None end) cols))
  = view U (rb_cols b) r.
Proof.
  intros H. unfold view. cbn [r_ts r_cols]. f_equal. apply map_ext_in. intros u Hu. rewrite !value_find.
  destruct (find_col u cols) as [p|] eqn:E.
  - apply find_col_some in E as (L & c & Hc & <-).
    set (g := fun c0 : scol => match find_col (sc_id c0) (rb_cols b) with Some i => nth i (r_cols r) None | None => None end).
    assert (Hn : nth_error (map g cols) p = Some (g c)) by (rewrite nth_error_map, Hc; reflexivity).
    rewrite (nth_error_nth _ _ _ Hn). reflexivity.
  - apply find_col_none in E. assert (E2 : find_col u (rb_cols b) = None) by (apply find_col_none; intros X; apply E, H; auto). rewrite E2. reflexivity.
Qed.

(** ** The schema-aware compaction follows the one of CompactModel on the views *)
Lemma target_acc l : forall a, exists t, fold_left (fun acc b => match acc with None => Some b | Some a => if rb_ver a <=? rb_ver b then Some b else Some a end) l (Some a) = Some t /\
  In t (a :: l) /\ forall b, In b (a :: l) -> rb_ver b <= rb_ver t.
Proof.
  induction l as [|b l IH]; intros a; cbn [fold_left].
  - exists a. split; auto. split; [left; auto|]. intros x [<- | []]. lia.
  - destruct (Z.leb_spec (rb_ver a) (rb_ver b)) as [L|L].
    + destruct (IH b) as (t & E & H1 & H2). exists t. split; auto. split.
      * destruct H1 as [<- | H1]; [right; left; auto|right; right; auto].
      * intros x [<- | Hx]; [specialize (H2 b (or_introl eq_refl)); lia|auto].
    + destruct (IH a) as (t & E & H1 & H2). exists t. split; auto. split.
      * destruct H1 as [<- | H1]; [left; auto|right; right; auto].
      * intros x [<- | [<- | Hx]]; [apply H2; left; auto|specialize (H2 a (or_introl eq_refl)); lia|apply H2; right; auto].
Qed.
Lemma target_ok l : l <> [] -> exists t, target l = Some t /\ In t l /\ forall b, In b l -> rb_ver b <= rb_ver t.
Proof. destruct l as [|a l]; intros H; [congruence|]. unfold target. cbn [fold_left]. apply target_acc. Qed.

Section Refine.
Variable U : list Z.
Variable P : Z -> list scol -> Prop.
Hypothesis P_good : forall v c v' c', P v c -> P v' c' -> v <= v' -> forall u, In u U -> In u (map sc_id c) -> In u (map sc_id c').

Definition alr (b : rbatch) : list mrow := map (view U (rb_cols b)) (rb_rows b).
Definition alo (o : oblock) : list mrow := alr (decode o).
Definition alb (b : sblock) : cblock := CB (sb_min b) (sb_max b) (map (view U (sb_cols b)) (sb_raw b)) (map (view U (sb_cols b)) (sb_live b)).
Definition alm (m : sbm) : cbm := BM (sm_idx m) (sm_tomb m) (alb (sm_blk m)).
Definition alg (g : sgroup) : bgroup := BG (sg_lo g) (sg_hi g) (map alm (sg_blks g)).
Definition Pb (b : rbatch) : Prop := P (rb_ver b) (rb_cols b).
Definition Po (o : oblock) : Prop := Pb (decode o).
Definition Pm (m : sbm) : Prop := P (sm_label m) (sb_cols (sm_blk m)).

Lemma s_merge_al bs l : Forall Pb l ->
  merge_batches (length U) bs (map alr l) = option_map (map alr) (s_merge bs l) /\
  forall out, s_merge bs l = Some out -> Forall Pb out.
Proof.
  intros HP. unfold s_merge. destruct l as [|a l0]; [split; [reflexivity|discriminate]|].
  destruct (target_ok (a :: l0)) as (t & E & T1 & T2); [discriminate|]. rewrite E. set (l := a :: l0) in *. clearbody l. clear a l0.
  assert (HT : Pb t) by (rewrite Forall_forall in HP; auto).
  assert (EA : map alr l = map (map (view U (rb_cols t))) (map (project (rb_cols t)) l)).
  { rewrite map_map. apply map_ext_in. intros b Hb. unfold alr, project. rewrite map_map. apply map_ext. intros r. symmetry.
    apply view_project. intros u Hu. rewrite Forall_forall in HP. apply (P_good (rb_ver b) (rb_cols b) (rb_ver t) (rb_cols t)); auto. apply HP; auto. }
  rewrite EA. rewrite (merge_batches_f (view U (rb_cols t)) (length (rb_cols t)) (length U)); [|reflexivity|apply view_same].
  split.
  - destruct (merge_batches _ _ _) as [o|]; auto. cbn [option_map]. f_equal. rewrite map_map. reflexivity.
  - intros out H. destruct (merge_batches _ _ _) as [o|]; [|discriminate]. injection H as <-. apply Forall_forall. intros b Hb.
    apply in_map_iff in Hb as (rows & <- & _). exact HT.
Qed.

Lemma s_le_al a b : blk_le (alm a) (alm b) = s_le a b.
Proof. reflexivity. Qed.
Lemma s_insert_al b l : insert_blk (alm b) (map alm l) = map alm (s_insert b l).
Proof. induction l as [|x l IH]; auto. cbn [map insert_blk s_insert]. rewrite s_le_al. destruct (s_le b x); cbn [map]; congruence. Qed.
Lemma s_sort_al l : sort_blks (map alm l) = map alm (s_sort l).
Proof. induction l as [|x l IH]; auto. cbn [map sort_blks s_sort]. rewrite IH. apply s_insert_al. Qed.
Lemma s_absorb_al l : forall h, absorb (alg h) (map alg l) = (alg (fst (s_absorb h l)), map alg (snd (s_absorb h l))).
Proof.
  induction l as [|g l IH]; intros h; auto. cbn [map absorb s_absorb]. cbn [alg g_lo g_hi g_blks].
  destruct (tr_overlaps (sg_lo h) (sg_hi h) (sg_lo g) (sg_hi g)).
  - rewrite <- IH. f_equal. unfold alg. cbn [sg_lo sg_hi sg_blks]. rewrite map_app. reflexivity.
  - fold (alg h). rewrite IH. destruct (s_absorb h l) as [h' r]. reflexivity.
Qed.
Lemma s_group_all_al fuel : forall l, group_all fuel (map alg l) = map alg (s_group_all fuel l).
Proof.
  induction fuel as [|k IH]; intros l; auto. destruct l as [|h l]; auto. cbn [map group_all s_group_all]. rewrite s_absorb_al.
  destruct (s_absorb h l) as [h' r]. cbn [fst snd map]. rewrite IH. reflexivity.
Qed.
Lemma s_groups_al c : block_groups (map alm c) = map alg (s_groups c).
Proof.
  unfold block_groups, s_groups. rewrite map_length, s_sort_al, <- s_group_all_al. f_equal. rewrite !map_map. reflexivity.
Qed.
Lemma s_insert_idx_al b l : insert_idx (alm b) (map alm l) = map alm (s_insert_idx b l).
Proof. induction l as [|x l IH]; auto. cbn [map insert_idx s_insert_idx]. cbn [alm m_idx]. destruct (sm_idx b <=? sm_idx x)%nat; cbn [map]; auto. fold (alm b). rewrite IH. reflexivity. Qed.
Lemma s_sort_idx_al l : sort_idx (map alm l) = map alm (s_sort_idx l).
Proof. induction l as [|x l IH]; auto. cbn [map sort_idx s_sort_idx]. rewrite IH. apply s_insert_idx_al. Qed.
Lemma s_insert_idx_in b l m : In m (s_insert_idx b l) -> m = b \/ In m l.
Proof. induction l as [|x l IH]; cbn [s_insert_idx]; [intros [<- | []]; auto|]. destruct (_ <=? _)%nat; intros [<- | H]; cbn [In]; auto. destruct (IH H); auto. Qed.
Lemma s_sort_idx_in l m : In m (s_sort_idx l) -> In m l.
Proof. induction l as [|x l IH]; cbn [s_sort_idx]; auto. intros H. apply s_insert_idx_in in H as [<- | H]; cbn [In]; auto. Qed.
Lemma s_insert_in b l m : In m (s_insert b l) -> m = b \/ In m l.
Proof. induction l as [|x l IH]; cbn [s_insert]; [intros [<- | []]; auto|]. destruct (s_le _ _); intros [<- | H]; cbn [In]; auto. destruct (IH H); auto. Qed.
Lemma s_sort_in l m : In m (s_sort l) -> In m l.
Proof. induction l as [|x l IH]; cbn [s_sort]; auto. intros H. apply s_insert_in in H as [<- | H]; cbn [In]; auto. Qed.
Lemma s_absorb_in l : forall h g m, In g (fst (s_absorb h l) :: snd (s_absorb h l)) -> In m (sg_blks g) -> exists g', In g' (h :: l) /\ In m (sg_blks g').
Proof.
  induction l as [|x l IH]; intros h g m; cbn [s_absorb]; [intros [<- | []] Hm; exists h; cbn; auto|].
  destruct (tr_overlaps _ _ _ _).
  - intros Hg Hm. destruct (IH _ g m Hg Hm) as (g' & [<- | Hg'] & Hm').
    + cbn [sg_blks] in Hm'. apply in_app_iff in Hm' as [H | H]; [exists h|exists x]; cbn; auto.
    + exists g'. cbn; auto.
  - specialize (IH h). destruct (s_absorb h l) as [h' r]. cbn [fst snd] in *. intros [<- | [<- | Hg]] Hm.
    + destruct (IH h' m (or_introl eq_refl) Hm) as (g' & [<- | Hg'] & Hm'); [exists h|exists g']; cbn; auto.
    + exists x. cbn; auto.
    + destruct (IH g m (or_intror Hg) Hm) as (g' & [<- | Hg'] & Hm'); [exists h|exists g']; cbn; auto.
Qed.
Lemma s_group_all_in fuel : forall l g m, In g (s_group_all fuel l) -> In m (sg_blks g) -> exists g', In g' l /\ In m (sg_blks g').
Proof.
  induction fuel as [|k IH]; intros l g m; [destruct l; intros []|]. destruct l as [|h l]; [intros []|]. cbn [s_group_all].
  pose proof (s_absorb_in l h) as HA. destruct (s_absorb h l) as [h' r]. cbn [fst snd] in HA. intros [<- | Hg] Hm.
  - apply (HA h' m); auto. left; auto.
  - destruct (IH r g m Hg Hm) as (g' & Hg' & Hm'). apply (HA g' m); auto. right; auto.
Qed.
Lemma s_groups_in c g m : In g (s_groups c) -> In m (sg_blks g) -> In m c.
Proof.
  intros Hg Hm. destruct (s_group_all_in _ _ g m Hg Hm) as (g' & Hg' & Hm'). apply in_map_iff in Hg' as (x & <- & Hx). destruct Hm' as [<- | []].
  apply s_sort_in; auto.
Qed.

Lemma cut_view lo hi cols rows : cut lo hi (map (view U cols) rows) = map (view U cols) (cut lo hi rows).
Proof. unfold cut. induction rows as [|r rows IH]; auto. cbn [map filter]. change (r_ts (view U cols r)) with (r_ts r). destruct (tr_contains lo hi (r_ts r)); cbn [map]; congruence. Qed.
Lemma cut_batch_al lo hi b : alr (cut_batch lo hi b) = cut lo hi (alr b).
Proof. unfold alr, cut_batch. cbn [rb_cols rb_rows]. rewrite cut_view. reflexivity. Qed.
Lemma s_get_al lo hi m : get_batch lo hi (m_blk (alm m)) = option_map alr (s_get lo hi m).
Proof.
  unfold get_batch, s_get. cbn [alm m_blk alb b_live b_min b_max]. cbv zeta. destruct (boundless lo hi); [reflexivity|].
  destruct (tr_overlaps _ _ _ _); [|reflexivity]. cbn [option_map]. destruct (tr_includes _ _ _ _); [reflexivity|].
  rewrite cut_batch_al. reflexivity.
Qed.
Lemma s_get_P lo hi m b : Pm m -> s_get lo hi m = Some b -> Pb b.
Proof.
  intros H. unfold s_get. cbv zeta. destruct (boundless lo hi); [injection 1 as <-; exact H|]. destruct (tr_overlaps _ _ _ _); [|discriminate].
  injection 1 as <-. destruct (tr_includes _ _ _ _); exact H.
Qed.
Lemma opt_list_map {A B} (g : A -> B) o : opt_list (option_map g o) = map g (opt_list o).
Proof. destruct o; reflexivity. Qed.
Lemma concat_gets_al lo hi l : concat (map (fun m => opt_list (get_batch lo hi (m_blk m))) (map alm l)) = map alr (concat (map (fun m => opt_list (s_get lo hi m)) l)).
Proof.
  induction l as [|m l IH]; auto. cbn [map concat]. rewrite map_app, IH, s_get_al, opt_list_map. reflexivity.
Qed.

Lemma s_merge_prev_al bs lo hi prev g : (forall p, prev = Some p -> Po p) -> (forall m, In m (sg_blks g) -> Pm m) ->
  merge_prev (length U) bs lo hi (option_map alo prev) (alg g) = option_map (map alo) (s_merge_prev bs lo hi prev g) /\
  forall out, s_merge_prev bs lo hi prev g = Some out -> Forall Po out.
Proof.
  intros HP HM. unfold merge_prev, s_merge_prev. cbn [alg g_blks]. rewrite s_sort_idx_al.
  assert (HS : forall m, In m (s_sort_idx (sg_blks g)) -> Pm m) by (intros m Hm; apply HM, s_sort_idx_in; auto).
  set (l := s_sort_idx (sg_blks g)) in *. clearbody l. clear g HM. cbv zeta.
  destruct l as [|m0 l]; [split; [reflexivity|injection 1 as <-; constructor]|].
  set (batches := concat (map (fun m => opt_list (s_get lo hi m)) (m0 :: l)) ++ opt_list (option_map (fun p => cut_batch lo hi (decode p)) prev)).
  assert (HB : Forall Pb batches).
  { apply Forall_app. split.
    - apply Forall_forall. intros b Hb. apply in_concat in Hb as (x & Hx & Hb). apply in_map_iff in Hx as (m & <- & Hm).
      destruct (s_get lo hi m) as [y|] eqn:E; [|destruct Hb]. destruct Hb as [<- | []]. eapply s_get_P; eauto.
    - destruct prev as [p|]; cbn [option_map opt_list]; constructor; [|constructor]. exact (HP p eq_refl). }
  assert (EB : concat (map (fun m => opt_list (get_batch lo hi (m_blk m))) (map alm (m0 :: l))) ++ opt_list (option_map (cut lo hi) (option_map alo prev)) = map alr batches).
  { unfold batches. rewrite map_app, concat_gets_al. f_equal. destruct prev as [p|]; auto. cbn [option_map opt_list map]. rewrite cut_batch_al. reflexivity. }
  assert (HMERGE : forall x, merge_batches (length U) bs (concat (map (fun m => opt_list (get_batch lo hi (m_blk m))) (map alm (m0 :: l))) ++ opt_list (option_map (cut lo hi) (option_map alo prev)))
     = option_map (map alo) (option_map (map (Decoded x)) (s_merge bs batches)) /\
     forall out, option_map (map (Decoded x)) (s_merge bs batches) = Some out -> Forall Po out).
  { intros x. rewrite EB. destruct (s_merge_al bs batches HB) as [M1 M2]. rewrite M1. split.
    - destruct (s_merge bs batches) as [o|]; auto. cbn [option_map]. f_equal. rewrite map_map. reflexivity.
    - intros out H. destruct (s_merge bs batches) as [o|]; [|discriminate]. injection H as <-. specialize (M2 o eq_refl).
      apply Forall_forall. intros y Hy. apply in_map_iff in Hy as (b & <- & Hb). rewrite Forall_forall in M2. apply M2; auto. }
  destruct l as [|m1 l]; [|cbn [map] in *; apply HMERGE].
  cbn [map]. cbn [alm m_tomb m_blk alb b_min b_max b_raw]. rewrite map_length.
  destruct (negb (sm_tomb m0) && tr_includes lo hi (sb_min (sm_blk m0)) (sb_max (sm_blk m0))).
  2:{ specialize (HMERGE (sm_label m0)). cbn [map] in HMERGE. exact HMERGE. }
  assert (HR : Po (Raw (sm_label m0) (sm_blk m0))) by (apply (HS m0); left; auto).
  destruct (bs <=? length (sb_raw (sm_blk m0)))%nat.
  - cbn [option_map]. split.
    + f_equal. rewrite map_app. f_equal. apply opt_list_map.
    + injection 1 as <-. apply Forall_app. split; [|repeat constructor; auto]. destruct prev as [p|]; cbn [opt_list]; repeat constructor. auto.
  - destruct prev as [p|]; cbn [option_map].
    + set (b2 := [decode (Raw (sm_label m0) (sm_blk m0)); cut_batch lo hi (decode p)]).
      assert (HB2 : Forall Pb b2) by (repeat constructor; [exact HR|exact (HP p eq_refl)]).
      destruct (s_merge_al bs b2 HB2) as [M1 M2].
      assert (E2 : [map (view U (sb_cols (sm_blk m0))) (sb_raw (sm_blk m0)); cut lo hi (alo p)] = map alr b2).
      { unfold b2. cbn [map]. rewrite cut_batch_al. reflexivity. }
      rewrite E2, M1. split.
      * destruct (s_merge bs b2) as [o|]; auto. cbn [option_map]. f_equal. rewrite map_map. reflexivity.
      * intros out H. destruct (s_merge bs b2) as [o|]; [|discriminate]. injection H as <-. specialize (M2 o eq_refl).
        apply Forall_forall. intros y Hy. apply in_map_iff in Hy as (b & <- & Hb). rewrite Forall_forall in M2. apply M2; auto.
    + split; [reflexivity|]. injection 1 as <-. repeat constructor. auto.
Qed.
Lemma o_len_al o : length (alo o) = o_len o.
Proof. apply map_length. Qed.
Lemma s_split_last_al bs l : split_last bs (map alo l) = (map alo (fst (s_split_last bs l)), option_map alo (snd (s_split_last bs l))).
Proof.
  induction l as [|b l IH]; auto. destruct l as [|b2 l].
  - cbn [map split_last s_split_last]. rewrite o_len_al. destruct (_ <? _)%nat; reflexivity.
  - change (map alo (b :: b2 :: l)) with (alo b :: map alo (b2 :: l)).
    change (split_last bs (alo b :: map alo (b2 :: l))) with (let (w, p) := split_last bs (map alo (b2 :: l)) in (alo b :: w, p)).
    change (s_split_last bs (b :: b2 :: l)) with (let (w, p) := s_split_last bs (b2 :: l) in (b :: w, p)).
    rewrite IH. destruct (s_split_last bs (b2 :: l)) as [w p]. reflexivity.
Qed.
Lemma s_split_last_P bs l : Forall Po l -> Forall Po (fst (s_split_last bs l)) /\ forall p, snd (s_split_last bs l) = Some p -> Po p.
Proof.
  induction l as [|b l IH]; intros H; [split; [constructor|discriminate]|]. inversion H as [|? ? H1 H2]; subst. destruct l as [|b2 l].
  - cbn [s_split_last]. destruct (_ <? _)%nat; cbn [fst snd]; split; try constructor; try discriminate; auto. injection 1 as <-; auto.
  - change (s_split_last bs (b :: b2 :: l)) with (let (w, p) := s_split_last bs (b2 :: l) in (b :: w, p)).
    destruct (IH H2) as [I1 I2]. destruct (s_split_last bs (b2 :: l)) as [w p]. cbn [fst snd] in *. split; auto.
Qed.
Lemma s_compact_groups_al bs lo hi gs : forall prev, (forall p, prev = Some p -> Po p) -> (forall g m, In g gs -> In m (sg_blks g) -> Pm m) ->
  compact_groups (length U) bs lo hi (option_map alo prev) (map alg gs)
  = option_map (fun wp => (map alo (fst wp), option_map alo (snd wp))) (s_compact_groups bs lo hi prev gs).
Proof.
  induction gs as [|g gs IH]; intros prev HP HM; auto. cbn [map compact_groups s_compact_groups].
  destruct (s_merge_prev_al bs lo hi prev g HP) as [E1 E2]; [intros m Hm; apply (HM g m); auto; left; auto|].
  rewrite E1. destruct (s_merge_prev bs lo hi prev g) as [blks|]; auto. cbn [option_map]. specialize (E2 blks eq_refl).
  rewrite s_split_last_al. pose proof (s_split_last_P bs blks E2) as [S1 S2]. destruct (s_split_last bs blks) as [w p]. cbn [fst snd] in *.
  rewrite IH; auto; [|intros g' m Hg Hm; apply (HM g' m); auto; right; auto].
  destruct (s_compact_groups bs lo hi p gs) as [[w' p']|]; auto. cbn [option_map fst snd]. rewrite map_app. reflexivity.
Qed.
End Refine.

(** ** The whole compaction *)
Definition alf (U : list Z) (i : nat) (f : sfile) : cfile := CF i (sf_tomb f) [(0, map (alb U) (sf_blocks f))].
Fixpoint alfs (U : list Z) (i : nat) (fs : list sfile) : list cfile :=
  match fs with [] => [] | f :: fs' => alf U i f :: alfs U (S i) fs' end.
Lemma s_chunk_al U lo hi i f : head_blocks lo hi 0 (alf U i f) = map (alm U) (s_chunk lo hi i f).
Proof.
  unfold head_blocks, alf. cbn [f_series]. rewrite Z.eqb_refl. unfold chunk_blocks, s_chunk. cbn [f_idx f_tomb]. rewrite map_map.
  induction (sf_blocks f) as [|b l IH]; auto. cbn [map filter]. cbn [alb b_min b_max].
  destruct (boundless lo hi || tr_overlaps (sb_min b) (sb_max b) lo hi); cbn [map]; rewrite IH; reflexivity.
Qed.
Lemma s_collect_al U lo hi fs : forall i, concat (map (head_blocks lo hi 0) (alfs U i fs)) = map (alm U) (s_collect lo hi i fs).
Proof. induction fs as [|f fs IH]; intros i; auto. cbn [alfs map concat s_collect]. rewrite s_chunk_al, IH, map_app. reflexivity. Qed.
Lemma alb_ok U tomb b : sblock_ok tomb b -> block_ok (length U) tomb (alb U b).
Proof.
  intros (B1 & B2 & B3 & B4 & B5 & B6). cbn [b_min b_max b_raw b_live] in *.
  assert (HR : forall rows, rows_ok (length (sb_cols b)) (sb_min b) (sb_max b) rows -> rows_ok (length U) (sb_min b) (sb_max b) (map (view U (sb_cols b)) rows)).
  { intros rows [S F]. split.
    - clear F. induction S as [|r l S IH F]; cbn [map]; [constructor|]. constructor; auto. rewrite Forall_forall in *. intros y Hy.
      apply in_map_iff in Hy as (z & <- & Hz). exact (F z Hz).
    - rewrite Forall_forall in *. intros y Hy. apply in_map_iff in Hy as (z & <- & Hz). split; [apply (F z Hz)|]. cbn [view r_cols]. apply map_length. }
  split; [exact B1|]. split; [exact B2|]. split; [exact B3|]. split; [apply HR; exact B4|]. split; [apply HR; exact B5|].
  intros T. cbn [alb b_live b_raw]. rewrite (B6 T). reflexivity.
Qed.
Lemma alf_ok U i f : sfile_ok f -> file_ok (length U) (alf U i f).
Proof.
  intros [S F]. split; cbn [alf f_series f_tomb]; [constructor; constructor|]. constructor; [|constructor]. cbn [snd]. split.
  - clear F. induction S as [|b l S IH F]; cbn [map]; [constructor|]. constructor; auto. rewrite Forall_forall in *. intros y Hy.
    apply in_map_iff in Hy as (z & <- & Hz). exact (F z Hz).
  - rewrite Forall_forall in *. intros y Hy. apply in_map_iff in Hy as (z & <- & Hz). apply alb_ok; auto.
Qed.
Lemma alfs_ok U fs : forall i, Forall sfile_ok fs -> Forall (file_ok (length U)) (alfs U i fs).
Proof. induction fs as [|f fs IH]; intros i H; cbn [alfs]; [constructor|]. inversion H; subst. constructor; auto. apply alf_ok; auto. Qed.
Lemma alfs_idx U fs : forall i f, In f (alfs U i fs) -> (i <= f_idx f)%nat.
Proof. induction fs as [|g fs IH]; intros i f; cbn [alfs]; [intros []|]. intros [<- | H]; [cbn; lia|]. specialize (IH _ _ H). lia. Qed.
Lemma alfs_sorted U fs : forall i, StronglySorted (fun a b => (f_idx a < f_idx b)%nat) (alfs U i fs).
Proof.
  induction fs as [|f fs IH]; intros i; cbn [alfs]; constructor; auto. apply Forall_forall. intros g Hg. apply alfs_idx in Hg. cbn [alf f_idx]. lia.
Qed.
Lemma alfs_ge U fs : forall i f, In f (alfs U i fs) -> sids_ge 0 f.
Proof.
  induction fs as [|g fs IH]; intros i f; cbn [alfs]; [intros []|]. intros [<- | H]; [|eapply IH; eauto]. intros s [<- | []]. cbn; lia.
Qed.
Lemma alfs_rows U fs : forall i, live_rows 0 (alfs U i fs) = rows_before U fs.
Proof.
  unfold live_rows, rows_before. induction fs as [|f fs IH]; intros i; auto. cbn [alfs map concat]. rewrite IH. f_equal.
  unfold file_rows. cbn [alf f_series map fst snd]. rewrite Z.eqb_refl. cbn [concat]. rewrite app_nil_r, map_map. reflexivity.
Qed.
Lemma s_collect_in lo hi fs : forall i m, In m (s_collect lo hi i fs) -> exists f, In f fs /\ In (sm_blk m) (sf_blocks f) /\ sm_label m = sf_label f.
Proof.
  induction fs as [|f fs IH]; intros i m; cbn [s_collect]; [intros []|]. intros H. apply in_app_iff in H as [H | H].
  - unfold s_chunk in H. apply in_map_iff in H as (b & <- & Hb). apply filter_In in Hb as [Hb _]. exists f. split; [left; auto|]. auto.
  - destruct (IH _ _ H) as (g & Hg & G). exists g. split; [right; auto|auto].
Qed.
Lemma cut_window lo hi rows : cut lo hi rows = in_window lo hi rows.
Proof. reflexivity. Qed.

Theorem s_compact_ok U bs lo hi fs : (1 <= bs)%nat -> Forall sfile_ok fs -> labels_ok U fs ->
  exists out, s_compact bs lo hi fs = Some out /\ merged (length U) (in_window lo hi (rows_before U fs)) (rows_after U out).
Proof.
  intros Hbs Hok HL.
  set (P := fun v c => exists f b, In f fs /\ In b (sf_blocks f) /\ v = sf_label f /\ c = sb_cols b).
  assert (HPg : forall v c v' c', P v c -> P v' c' -> v <= v' -> forall u, In u U -> In u (map sc_id c) -> In u (map sc_id c')).
  { intros v c v' c' (f & b & Hf & Hb & -> & ->) (f' & b' & Hf' & Hb' & -> & ->) L u Hu H. exact (HL f b f' b' Hf Hb Hf' Hb' L u Hu H). }
  destruct (series_ok (length U) bs lo hi (map (alm U) (s_collect lo hi 0 fs)) (map (alm U) (s_collect lo hi 0 fs))) as (w & p & E & M); auto.
  - intros m Hm. rewrite <- s_collect_al in Hm. eapply heads_mok; [|exact Hm]. apply alfs_ok; auto.
  - intros t. rewrite <- s_collect_al. apply (heads_hit_sorted (length U)); [apply alfs_ok; auto|apply alfs_sorted].
  - rewrite s_groups_al in E. change (@None (list mrow)) with (option_map (alo U) None) in E.
    rewrite (s_compact_groups_al U P HPg) in E; [|discriminate|].
    2:{ intros g m Hg Hm. apply (s_groups_in _ g m Hg) in Hm. apply s_collect_in in Hm as (f & Hf & Hb & El). exists f, (sm_blk m). auto. }
    unfold s_compact. destruct (s_compact_groups bs lo hi None _) as [[w' p']|]; [|discriminate]. cbn [option_map fst snd] in *.
    injection E as <- <-. eexists. split; [reflexivity|].
    rewrite <- s_collect_al, (heads_rows (length U)) in M; [|apply alfs_ok; auto|intros f Hf; eapply alfs_ge; eauto].
    rewrite alfs_rows in M. rewrite cut_window in M.
    assert (EO : forall o, map (view U (sb_cols (stored o))) (sb_raw (stored o)) = alo U o) by (intros [ts b|ts b]; reflexivity).
    assert (ER : rows_after U (w' ++ opt_list p') = concat (map (alo U) w') ++ concat (opt_list (option_map (alo U) p'))).
    { unfold rows_after. rewrite (map_ext _ (alo U) EO), map_app, concat_app, opt_list_map. reflexivity. }
    rewrite ER. exact M.
Qed.
