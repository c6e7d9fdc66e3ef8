From Verif Require Import Prelude TimeRangeModel PickModel PickSpec.
From Coq Require Import Permutation Sorted.
Open Scope Z_scope.

Lemma eqb_in i l : existsb (Z.eqb i) l = true <-> In i l.
Proof. rewrite existsb_exists. split. - intros (x & I & E). apply Z.eqb_eq in E. congruence. - intros I. exists i. split; auto. apply Z.eqb_refl. Qed.
Lemma eqb_notin i l : existsb (Z.eqb i) l = false <-> ~ In i l.
Proof. rewrite <- eqb_in. destruct (existsb (Z.eqb i) l); split; intros H; try congruence; exfalso; auto. Qed.
Lemma marked_in m f : marked m f = true <-> In (p_id f) m.
Proof. apply eqb_in. Qed.
Lemma marked_free m f : marked m f = false <-> is_free m f.
Proof. apply eqb_notin. Qed.
Lemma unmark_in m ids i : In i (unmark m ids) <-> In i m /\ ~ In i ids.
Proof.
  unfold unmark. rewrite (filter_In _ i m). rewrite Bool.negb_true_iff. rewrite eqb_notin. tauto.
Qed.

(** ** the sort *)
Lemma file_le_total a b : file_le a b = false -> file_le b a = true.
Proof. unfold file_le. intros H. destruct (Z.ltb_spec (tmin (p_range b)) (tmin (p_range a))); cbn in *; auto. lia. Qed.
Lemma file_le_trans a b c : file_le a b = true -> file_le b c = true -> file_le a c = true.
Proof. unfold file_le. lia. Qed.
Lemma ins_perm x l : Permutation (ins_file x l) (x :: l).
Proof. induction l as [|y l IH]; cbn [ins_file]; auto. destruct (file_le x y); auto. rewrite IH. apply perm_swap. Qed.
Lemma sort_perm l : Permutation (sort_pfiles l) l.
Proof. induction l as [|x l IH]; cbn; auto. rewrite ins_perm. auto. Qed.
Lemma ins_sorted x l : StronglySorted (fun a b => file_le a b = true) l -> StronglySorted (fun a b => file_le a b = true) (ins_file x l).
Proof.
  induction 1 as [|y l H IH F]; cbn [ins_file]. { constructor; constructor. }
  destruct (file_le x y) eqn:E.
  - constructor. { constructor; auto. } constructor; auto. rewrite Forall_forall in *. intros z I. apply (file_le_trans x y z); auto.
  - constructor; auto. rewrite Forall_forall in *. intros z I. apply (Permutation_in _ (ins_perm x l)) in I.
    destruct I as [<-|I]; auto. apply file_le_total; auto.
Qed.
Lemma sort_sorted l : StronglySorted (fun a b => file_le a b = true) (sort_pfiles l).
Proof. induction l; cbn; [constructor|apply ins_sorted; auto]. Qed.

(** ** pick_files *)
Lemma pick_upto_ok max : forall fs picked m r m', pick_upto max picked fs m = (r, m') -> NoDup (map p_id fs) ->
  (exists keep, r = filter keep fs) /\ (forall f, In f r -> is_free m f) /\
  (forall i, In i m' <-> In i (map p_id r) \/ In i m) /\
  (max <= picked + sizes r \/ forall f, In f fs -> In (p_id f) m') /\
  (picked < max -> forall a x, r = a ++ [x] -> picked + sizes a < max).
Proof.
  induction fs as [|f fs IH]; intros picked m r m' P N.
  { cbn in P. injection P as <- <-. split; [exists (fun _ => true); auto|]. split; [intros f []|]. split; [intros i; cbn; tauto|].
    split; [right; intros f []|]. intros _ a x E. destruct a; discriminate. }
  cbn in N. apply NoDup_cons_iff in N. destruct N as [N1 N2]. cbn [pick_upto] in P. destruct (marked m f) eqn:E.
  - destruct (IH _ _ _ _ P N2) as ((keep & K) & A & B & C & D). apply marked_in in E.
    split. { exists (fun g => keep g && negb (p_id g =? p_id f)). cbn [filter]. rewrite Z.eqb_refl, Bool.andb_false_r, K.
             apply filter_ext_in. intros g I. destruct (Z.eqb_spec (p_id g) (p_id f)) as [Q|Q]; [|rewrite Bool.andb_true_r; auto].
             exfalso. apply N1. rewrite <- Q. exact (in_map p_id _ _ I). }
    split; auto. split; auto. split; auto. destruct C as [C|C]; auto. right. intros g [<-|I]; auto. apply B. auto.
  - apply marked_free in E. destruct (Z.leb_spec max (picked + p_size f)) as [L|L].
    + injection P as <- <-. split. { exists (fun g => p_id g =? p_id f). cbn [filter]. rewrite Z.eqb_refl. f_equal. symmetry.
        rewrite (filter_ext_in _ (fun _ => false) fs). { clear. induction fs; auto. }
        intros g I. apply Z.eqb_neq. intros Q. apply N1. rewrite <- Q. exact (in_map p_id _ _ I). }
      split. { intros g [<-|[]]; auto. } split. { intros i. cbn. tauto. } split. { left. cbn. lia. }
      intros Lp a x Q. destruct a as [|y [|z a]]; try discriminate. cbn. lia.
    + destruct (pick_upto max (picked + p_size f) fs (p_id f :: m)) as [r1 m2] eqn:P1. injection P as <- <-.
      destruct (IH _ _ _ _ P1 N2) as ((keep & K) & A & B & C & D).
      split. { exists (fun g => keep g || (p_id g =? p_id f)). cbn [filter]. rewrite Z.eqb_refl, Bool.orb_true_r, K. f_equal.
        apply filter_ext_in. intros g I. destruct (Z.eqb_spec (p_id g) (p_id f)) as [Q|Q]; [|rewrite Bool.orb_false_r; auto].
        exfalso. apply N1. rewrite <- Q. exact (in_map p_id _ _ I). }
      split. { intros g [<-|I]; auto. intros Q. apply (A g I). right; auto. }
      split. { intros i. rewrite B. cbn. tauto. }
      split. { destruct C as [C|C]; [left; change (sizes (f :: r1)) with (p_size f + sizes r1); lia|right]. intros g [<-|I]; auto. apply B. right. left. auto. }
      intros Lp a x Q. destruct a as [|y a]. { cbn. lia. } cbn in Q. injection Q as <- Q.
      pose proof (D L a x Q). change (sizes (f :: a)) with (p_size f + sizes a); lia.
Qed.
Lemma nodup_filter {A B} (g : A -> B) keep l : NoDup (map g l) -> NoDup (map g (filter keep l)).
Proof.
  induction l as [|x l IH]; cbn; auto. intros N. apply NoDup_cons_iff in N. destruct N as [N1 N2]. destruct (keep x); cbn; auto.
  constructor; auto. intros I. apply N1. apply in_map_iff in I. destruct I as (y & E & I). apply filter_In in I. rewrite <- E. apply in_map; tauto.
Qed.
Lemma sorted_filter {A} (R : A -> A -> Prop) keep l : StronglySorted R l -> StronglySorted R (filter keep l).
Proof.
  induction 1 as [|x l H IH F]; cbn; [constructor|]. destruct (keep x); auto. constructor; auto.
  rewrite Forall_forall in *. intros y I. apply filter_In in I. apply F. tauto.
Qed.

(** ** levels *)
Lemma best_in score m ls l : best_level score m ls = Some l -> In l ls /\ candidate l = true /\
  forall l', In l' ls -> candidate l' = true ->
    let sc l := score (l_level l) (Z.of_nat (length (filter (fun f => negb (marked m f)) (l_files l)))) in sc l' <= sc l.
Proof.
  unfold best_level. set (sc := fun l => score (l_level l) (Z.of_nat (length (filter (fun f => negb (marked m f)) (l_files l))))).
  set (stepf := fun best l => match best with None => Some l | Some b => if sc b <? sc l then Some l else Some b end).
  assert (G : forall cs b, fold_left stepf cs b = Some l ->
     (In l cs \/ b = Some l) /\ (forall l', In l' cs \/ b = Some l' -> sc l' <= sc l)).
  { induction cs as [|c cs IH]; cbn [fold_left]; intros b H.
    - split; auto. intros l' [[]|Q]. rewrite H in Q. injection Q as <-. lia.
    - destruct (IH _ H) as [A B]. destruct b as [b|]; cbn [stepf] in *.
      + destruct (Z.ltb_spec (sc b) (sc c)) as [L|L].
        * split. { destruct A as [A|A]; [left; right; auto|]. injection A as <-. left; left; auto. }
          pose proof (B c (or_intror eq_refl)). intros l' [[<-|I]|Q]; auto. injection Q as <-. lia.
        * split. { destruct A as [A|A]; [left; right; auto|]. auto. }
          pose proof (B b (or_intror eq_refl)). intros l' [[<-|I]|Q]; auto. lia.
      + split. { destruct A as [A|A]; [left; right; auto|]. injection A as <-. left; left; auto. }
        pose proof (B c (or_intror eq_refl)). intros l' [[<-|I]|Q]; auto. discriminate. }
  intros H. destruct (G _ _ H) as [A B]. destruct A as [A|A]; [|discriminate]. apply filter_In in A. destruct A as [A1 A2].
  split; auto. split; auto. intros l' I C. apply B. left. apply filter_In. auto.
Qed.
Lemma vnode_file ls l f : In l ls -> In f (l_files l) -> In f (vnode_files ls).
Proof. intros A B. unfold vnode_files. apply in_concat. exists (l_files l). split; auto. apply in_map; auto. Qed.
Lemma nodup_app_l {A} (a b : list A) : NoDup (a ++ b) -> NoDup a.
Proof. induction a as [|x a IH]; cbn; intros N; [constructor|]. apply NoDup_cons_iff in N. destruct N as [N1 N2]. constructor; auto.
  intros I. apply N1. apply in_or_app; auto. Qed.
Lemma nodup_app_r {A} (a b : list A) : NoDup (a ++ b) -> NoDup b.
Proof. induction a as [|x a IH]; cbn; auto. intros N. apply NoDup_cons_iff in N. apply IH; tauto. Qed.
Lemma nodup_app {A} (a b : list A) : NoDup a -> NoDup b -> (forall x, In x a -> ~ In x b) -> NoDup (a ++ b).
Proof.
  induction a as [|x a IH]; cbn; auto. intros N M D. apply NoDup_cons_iff in N. destruct N as [N1 N2]. constructor.
  - intros I. apply in_app_or in I. destruct I as [I|I]; auto. exact (D x (or_introl eq_refl) I).
  - apply IH; auto.
Qed.
Lemma level_nodup ls l : NoDup (map p_id (vnode_files ls)) -> In l ls -> NoDup (map p_id (l_files l)).
Proof.
  unfold vnode_files. induction ls as [|x ls IH]; cbn; intros N I; [destruct I|]. rewrite map_app in N. destruct I as [<-|I].
  - exact (nodup_app_l _ _ N). - apply IH; auto. exact (nodup_app_r _ _ N).
Qed.
Lemma level_num ls l : map l_level ls = [0; 1; 2; 3; 4] -> In l ls -> 0 <= l_level l <= 4.
Proof. intros E I. pose proof (in_map l_level _ _ I) as J. rewrite E in J. cbn in J. lia. Qed.

Lemma normal_ok score max m ls q m' : vnode_ok ls -> pick_normal score max m ls = (Some q, m') ->
  exists l keep, In l ls /\ candidate l = true /\ q_in q = l_level l /\ 1 <= q_in q <= 4 /\ q_out q = Z.min 4 (q_in q + 1) /\ q_range q = tr_all /\
    q_files q = filter keep (sort_pfiles (l_files l)) /\ q_files q <> [] /\ NoDup (map p_id (q_files q)) /\
    (forall f, In f (q_files q) -> is_free m f) /\ (forall i, In i m' <-> In i (map p_id (q_files q)) \/ In i m) /\
    (max <= sizes (q_files q) \/ forall f, In f (l_files l) -> In (p_id f) m') /\
    (0 < max -> forall a x, q_files q = a ++ [x] -> sizes a < max) /\
    (forall l', In l' ls -> candidate l' = true ->
       let sc l := score (l_level l) (Z.of_nat (length (filter (fun f => negb (marked m f)) (l_files l)))) in sc l' <= sc l).
Proof.
  intros [W N] P. unfold pick_normal in P. destruct (best_level score m ls) as [l|] eqn:B; [|discriminate].
  destruct (best_in _ _ _ _ B) as (B1 & B2 & B3). pose proof (level_num _ _ W B1) as Lv.
  destruct (pick_upto max 0 (sort_pfiles (l_files l)) m) as [fs m1] eqn:U.
  assert (Ns : NoDup (map p_id (sort_pfiles (l_files l)))).
  { apply (Permutation_NoDup (Permutation_sym (Permutation_map p_id (sort_perm (l_files l))))). exact (level_nodup _ _ N B1). }
  destruct (pick_upto_ok _ _ _ _ _ _ U Ns) as ((keep & K) & A & M & C & D).
  destruct fs as [|f fs']; [discriminate|]. injection P as <- <-. cbn [q_files q_in q_out q_range].
  assert (L0 : l_level l <> 0). { unfold candidate in B2. apply Bool.negb_true_iff in B2. lia. }
  exists l, keep. split; auto. split; auto. split; auto. split; [lia|].
  split. { destruct (Z.eqb_spec (l_level l) 4); lia. } split; auto. split; auto. split; [discriminate|].
  split. { rewrite K. apply nodup_filter; auto. } split; auto. split; auto.
  split. { destruct C as [C|C]; [left; lia|right]. intros g I. apply C. apply (Permutation_in _ (Permutation_sym (sort_perm _))); auto. }
  split; auto.
Qed.
Lemma normal_none score max m ls m' : vnode_ok ls -> pick_normal score max m ls = (None, m') -> forall i, In i m' <-> In i m.
Proof.
  intros [W N] P. unfold pick_normal in P. destruct (best_level score m ls) as [l|] eqn:B; [|injection P as <-; tauto].
  destruct (best_in _ _ _ _ B) as (B1 & _).
  destruct (pick_upto max 0 (sort_pfiles (l_files l)) m) as [fs m1] eqn:U.
  assert (Ns : NoDup (map p_id (sort_pfiles (l_files l)))).
  { apply (Permutation_NoDup (Permutation_sym (Permutation_map p_id (sort_perm (l_files l))))). exact (level_nodup _ _ N B1). }
  destruct (pick_upto_ok _ _ _ _ _ _ U Ns) as (_ & _ & M & _). destruct fs; [|discriminate]. injection P as <-.
  intros i. rewrite M. cbn. tauto.
Qed.

(** ** the delta picker *)
Lemma advise_zero t r : advise t r = 0 <-> newer r t.
Proof.
  unfold advise, newer, tr_is_none. destruct ((tmax (r 1) <? tmin t) || (tmin (r 1) >? tmax (r 1))) eqn:E.
  - split; auto. intros _. lia.
  - split; [|lia]. intros Q. exfalso. repeat match type of Q with (if ?b then _ else _) = _ => destruct b; [lia|] end.
    destruct (find (fun n => tr_overlaps (r n) t) [1; 2; 3; 4]) as [n|] eqn:F; [|lia]. apply find_some in F. destruct F as [F _]. cbn in F. lia.
Qed.
Lemma advise_bounds t r : 0 <= advise t r <= 4.
Proof.
  unfold advise. repeat match goal with |- context [if ?b then _ else _] => destruct b; [lia|] end.
  destruct (find (fun n => tr_overlaps (r n) t) [1; 2; 3; 4]) as [n|] eqn:F; [|lia]. apply find_some in F. destruct F as [F _]. cbn in F. lia.
Qed.

Definition picked_ok (m : marks) r (fs : list pfile) (rng : trange) : Prop :=
  (forall f, In f fs -> is_free m f /\ exists t, p_rest f = Some t /\ newer r t /\ (nonempty_range t -> tr_includes rng t = true)).
Definition other_ok (m : marks) r (all : list pfile) (o : option (pfile * Z * trange)) : Prop :=
  match o with None => True | Some (f, a, t) => In f all /\ is_free m f /\ p_rest f = Some t /\ a = advise t r /\ a <> 0 end.
Lemma scan_ok trigger m r all : forall fs pre s, all = pre ++ fs -> (exists keep, s_picked s = filter keep pre) -> NoDup (map p_id all) ->
  picked_ok m r (s_picked s) (s_range s) -> (Z.of_nat (length (s_picked s)) < trigger \/ s_picked s = []) -> other_ok m r all (s_other s) ->
  match scan_l0 trigger m r fs s with
  | inl (ps, rng) => (exists keep, ps = filter keep all) /\ picked_ok m r ps rng /\ Z.of_nat (length ps) = Z.max trigger 1
  | inr s' => other_ok m r all (s_other s')
  end.
Proof.
  induction fs as [|f fs IH]; intros pre s E (keep & K) N P L O; cbn [scan_l0]; auto.
  assert (E' : all = (pre ++ [f]) ++ fs) by (rewrite <- app_assoc; auto).
  assert (Nf : forall g, In g pre -> p_id g <> p_id f).
  { intros g I Q. rewrite E, map_app in N. cbn in N. apply NoDup_remove_2 in N. apply N. apply in_or_app. left. rewrite <- Q. exact (in_map p_id _ _ I). }
  assert (Kd : exists keep', s_picked s = filter keep' (pre ++ [f])).
  { exists (fun g => keep g && negb (p_id g =? p_id f)). rewrite filter_app. cbn [filter]. rewrite Z.eqb_refl, Bool.andb_false_r, app_nil_r, K.
    apply filter_ext_in. intros g I. apply Nf in I. apply Z.eqb_neq in I. rewrite I. cbn. rewrite Bool.andb_true_r; auto. }
  destruct (marked m f) eqn:Mk; [apply (IH (pre ++ [f])); auto|]. apply marked_free in Mk.
  destruct (p_rest f) as [t|] eqn:Rt; [|apply (IH (pre ++ [f])); auto]. cbv zeta.
  set (rng := if tr_is_none (s_range s) then t else s_range s).
  destruct (Z.eqb_spec (advise t r) 0) as [Az|Az].
  - assert (Kc : exists keep', s_picked s ++ [f] = filter keep' (pre ++ [f])).
    { exists (fun g => keep g || (p_id g =? p_id f)). rewrite filter_app. cbn [filter]. rewrite Z.eqb_refl, Bool.orb_true_r, K. f_equal.
      apply filter_ext_in. intros g I. apply Nf in I. apply Z.eqb_neq in I. rewrite I. rewrite Bool.orb_false_r; auto. }
    assert (P' : picked_ok m r (s_picked s ++ [f]) (tr_merge rng t)).
    { intros g I. apply in_app_or in I. destruct I as [I|[<-|[]]].
      - destruct (P g I) as (Fr & t' & R' & Nw & C). split; auto. exists t'. split; auto. split; auto. intros Ne. specialize (C Ne).
        unfold tr_includes in *. unfold rng, tr_is_none, nonempty_range in *. destruct (tmin (s_range s) >? tmax (s_range s)) eqn:Q; cbn [tmin tmax tr_merge]; lia.
      - split; auto. exists t. split; auto. split; [apply advise_zero; auto|]. intros _. unfold tr_includes. cbn [tmin tmax tr_merge]. lia. }
    destruct (Z.leb_spec trigger (Z.of_nat (length (s_picked s ++ [f])))) as [Le|Le].
    + split. { destruct Kc as (k' & Kc). exists (fun g => k' g && existsb (Z.eqb (p_id g)) (map p_id (pre ++ [f]))). rewrite E', filter_app, Kc.
        rewrite (filter_ext_in _ (fun _ => false) fs).
        { replace (filter (fun _ => false) fs) with (@nil pfile) by (clear; induction fs; auto). rewrite app_nil_r. apply filter_ext_in.
          intros g I. replace (existsb (Z.eqb (p_id g)) (map p_id (pre ++ [f]))) with true; [rewrite Bool.andb_true_r; auto|]. symmetry. apply eqb_in. exact (in_map p_id _ _ I). }
        intros g I. replace (existsb (Z.eqb (p_id g)) (map p_id (pre ++ [f]))) with false; [rewrite Bool.andb_false_r; auto|]. symmetry. apply eqb_notin.
        intros J. rewrite E', map_app in N. apply in_split in J. destruct J as (u & w & J). rewrite J in N. rewrite <- app_assoc in N. cbn in N.
        apply NoDup_remove_2 in N. apply N. apply in_or_app. right. apply in_or_app. right. exact (in_map p_id _ _ I). }
      split; auto. rewrite app_length in *. cbn [length] in *. destruct L as [L|L]; [lia|]. rewrite L in *. cbn [length] in *. lia.
    + apply (IH (pre ++ [f])); auto.
  - apply (IH (pre ++ [f])); auto; cbn [s_picked s_range s_other].
    + exists (fun _ => false). clear. induction (pre ++ [f]); auto.
    + intros g [].
    + destruct (s_other s) as [[[f' a'] t']|]; auto. cbn. split; [|auto]. rewrite E. apply in_or_app. right; left; auto.
Qed.
Lemma scan_levels_ok m f t : forall ls q ids, scan_levels m f t ls = Some (q, ids) ->
  exists l, In l ls /\ tr_overlaps (l_range l) t = true /\ q_in q = 0 /\ q_out q = l_level l /\
   ((exists g, In g (l_files l) /\ is_free m g /\ tr_overlaps (p_range g) t = true /\ q_files q = [f; g] /\ q_range q = p_range g /\ ids = [p_id g; p_id f]) \/
    (q_files q = [f] /\ tr_intersect t (l_range l) = Some (q_range q) /\ ids = [] /\
     forall g, In g (l_files l) -> tr_overlaps (p_range g) t = true -> ~ is_free m g)).
Proof.
  induction ls as [|l ls IH]; cbn [scan_levels]; intros q ids H; [discriminate|].
  assert (G : scan_levels m f t ls = Some (q, ids) -> exists l0, In l0 (l :: ls) /\ tr_overlaps (l_range l0) t = true /\ q_in q = 0 /\ q_out q = l_level l0 /\
   ((exists g, In g (l_files l0) /\ is_free m g /\ tr_overlaps (p_range g) t = true /\ q_files q = [f; g] /\ q_range q = p_range g /\ ids = [p_id g; p_id f]) \/
    (q_files q = [f] /\ tr_intersect t (l_range l0) = Some (q_range q) /\ ids = [] /\
     forall g, In g (l_files l0) -> tr_overlaps (p_range g) t = true -> ~ is_free m g))).
  { intros Q. destruct (IH _ _ Q) as (l0 & I & R). exists l0. split; [right; auto|auto]. }
  destruct (tr_overlaps (l_range l) t) eqn:O; [|auto].
  destruct (find (fun g => negb (marked m g) && tr_overlaps (p_range g) t) (l_files l)) as [g|] eqn:F.
  - injection H as <- <-. apply find_some in F. destruct F as [F1 F2]. apply Bool.andb_true_iff in F2. destruct F2 as [F2 F3].
    apply Bool.negb_true_iff in F2. apply marked_free in F2. exists l. split; [left; auto|]. split; auto. split; auto. split; auto.
    left. exists g. auto 10.
  - destruct (tr_intersect t (l_range l)) as [rng|] eqn:X; [|auto]. injection H as <- <-.
    exists l. split; [left; auto|]. split; auto. split; auto. split; auto. right. split; auto. split; auto. split; auto.
    intros g I Og Fr. apply (find_none _ _ F) in I. rewrite Og, Bool.andb_true_r in I. apply Bool.negb_false_iff in I. apply marked_in in I. auto.
Qed.
Lemma scan_levels_none m f t : forall ls, scan_levels m f t ls = None -> forall l, In l ls -> tr_overlaps (l_range l) t = false.
Proof.
  induction ls as [|l ls IH]; cbn [scan_levels]; intros H l' I; [destruct I|]. destruct (tr_overlaps (l_range l) t) eqn:O.
  - destruct (find _ _) as [g|]; [discriminate|]. exfalso. unfold tr_intersect in H.
    replace (tr_overlaps t (l_range l)) with true in H; [discriminate|]. unfold tr_overlaps in *. lia.
  - destruct I as [<-|I]; auto.
Qed.
Lemma range_of_in ls l : NoDup (map l_level ls) -> In l ls -> range_of ls (l_level l) = l_range l.
Proof.
  unfold range_of. induction ls as [|x ls IH]; cbn; intros N I; [destruct I|]. apply NoDup_cons_iff in N. destruct N as [N1 N2]. destruct I as [<-|I].
  - rewrite Z.eqb_refl. auto.
  - destruct (Z.eqb_spec (l_level x) (l_level l)) as [Q|Q]; auto. exfalso. apply N1. rewrite Q. exact (in_map l_level _ _ I).
Qed.
Lemma levels_nodup ls : map l_level ls = [0; 1; 2; 3; 4] -> NoDup (map l_level ls).
Proof. intros ->. repeat (constructor; [cbn; lia|]). constructor. Qed.

Lemma level_files_at ls l : NoDup (map l_level ls) -> In l ls -> level_files ls (l_level l) = l_files l.
Proof.
  unfold level_files. induction ls as [|x ls IH]; cbn [map filter concat]; intros N I; [destruct I|]. apply NoDup_cons_iff in N. destruct N as [N1 N2].
  destruct I as [<-|I].
  - rewrite Z.eqb_refl. cbn [map concat]. replace (filter (fun l => l_level l =? l_level x) ls) with (@nil plevel); [cbn; apply app_nil_r|].
    clear IH N2. induction ls as [|y ls IH]; auto. cbn [filter]. destruct (Z.eqb_spec (l_level y) (l_level x)) as [Q|Q].
    + exfalso. apply N1. left. auto. + apply IH. intros J. apply N1. right; auto.
  - destruct (Z.eqb_spec (l_level x) (l_level l)) as [Q|Q]; auto. exfalso. apply N1. rewrite Q. exact (in_map l_level _ _ I).
Qed.
Lemma delta_ok trigger m ls q m' : vnode_ok ls -> pick_delta trigger m ls = (Some q, m') ->
  q_in q = 0 /\ 1 <= q_out q <= 4 /\ (forall f, In f (q_files q) -> is_free m f /\ In f (vnode_files ls)) /\ NoDup (map p_id (q_files q)) /\
  q_files q <> [] /\ delta_shape trigger m ls q m'.
Proof.
  intros [W N] P. pose proof (levels_nodup _ W) as Nl. unfold pick_delta in P. destruct ls as [|l0 rest] eqn:El; [discriminate|]. rewrite <- El in *.
  assert (I0 : In l0 ls) by (rewrite El; left; auto).
  assert (Z0 : l_level l0 = 0) by (rewrite El in W; cbn in W; injection W; auto).
  assert (F0 : level_files ls 0 = l_files l0) by (rewrite <- Z0; apply level_files_at; auto).
  assert (Rs : forall l, In l rest -> In l ls /\ 1 <= l_level l <= 4).
  { intros l I. rewrite El. split; [right; auto|]. rewrite El in W. cbn in W. injection W as _ W. pose proof (in_map l_level _ _ I) as J. rewrite W in J. cbn in J. lia. }
  destruct (Z.of_nat (length (l_files l0)) <? trigger); [discriminate|].
  assert (N0 : NoDup (map p_id (l_files l0))) by exact (level_nodup _ _ N I0).
  pose proof (scan_ok trigger m (range_of ls) (l_files l0) (l_files l0) [] (SCN [] tr_none None) eq_refl (ex_intro _ (fun _ => true) eq_refl) N0
    (fun f (F : In f []) => match F with end) (or_intror eq_refl) I) as SO.
  destruct (scan_l0 trigger m (range_of ls) (l_files l0) (SCN [] tr_none None)) as [[fs rng]|s] eqn:Sc.
  - injection P as <- <-. destruct SO as ((keep & K) & PO & Ln). cbn [q_files q_in q_out q_range]. split; auto. split; [lia|].
    split. { intros f I. split; [apply PO; auto|]. apply (vnode_file ls l0); auto. rewrite K in I. apply filter_In in I. tauto. }
    split. { rewrite K. apply nodup_filter; auto. }
    split. { intros Q. rewrite Q in Ln. cbn in Ln. lia. }
    apply d_level0; auto. { exists keep. rewrite F0. auto. } intros f I. destruct (PO f I) as (_ & R). auto.
  - destruct (s_other s) as [[[f a] t]|] eqn:So; [|discriminate]. destruct SO as (Fi & Ff & Fr & Fa & Fn).
    assert (Vf : In f (vnode_files ls)) by (apply (vnode_file ls l0); auto).
    destruct (scan_levels m f t rest) as [[q' ids]|] eqn:Sl.
    + injection P as <- <-. destruct (scan_levels_ok _ _ _ _ _ _ Sl) as (l & Il & Ov & Qi & Qo & [(g & Gi & Gf & Go & Qf & Qr & ->)|(Qf & Qr & -> & Cv)]).
      * destruct (Rs l Il) as [Il' Lv]. rewrite Qf. split; auto. split; [lia|].
        split. { intros x [<-|[<-|[]]]; auto. split; auto. apply (vnode_file ls l); auto. }
        split. { cbn. constructor; [|constructor; [intros []|constructor]]. intros [Q|[]].
          assert (Ng : In (p_id g) (map p_id (concat (map l_files rest)))). { apply in_map. apply in_concat. exists (l_files l). split; auto. apply in_map; auto. }
          unfold vnode_files in N. rewrite El in N. cbn [map concat] in N. rewrite map_app in N.
          pose proof (in_map p_id _ _ Fi) as Fi'. rewrite Q in Ng. apply in_split in Fi'. destruct Fi' as (u & w & Fi'). rewrite Fi' in N. rewrite <- app_assoc in N. cbn in N.
          apply NoDup_remove_2 in N. apply N. apply in_or_app. right. apply in_or_app. right. exact Ng. }
        split; [discriminate|]. apply (d_two _ _ _ _ _ f g t); auto.
        { rewrite F0; auto. } { rewrite Qo. rewrite level_files_at; auto. }
      * destruct (Rs l Il) as [Il' Lv]. rewrite Qf. split; auto. split; [lia|]. split. { intros x [<-|[]]; auto. }
        split. { cbn. constructor; [intros []|constructor]. } split; [discriminate|]. apply (d_gap _ _ _ _ _ f t); auto.
        { rewrite F0; auto. } { rewrite Qo, range_of_in; auto. } { rewrite Qo, level_files_at; auto. }
    + destruct (Z.ltb_spec 1 a) as [La|La]; [|discriminate]. injection P as <- <-. cbn [q_files q_in q_out q_range].
      pose proof (advise_bounds t (range_of ls)) as Ab. split; auto. split; [lia|]. split. { intros x [<-|[]]; auto. }
      split. { cbn. constructor; [intros []|constructor]. } split; [discriminate|]. apply (d_one _ _ _ _ _ f t); auto.
      { rewrite F0; auto. }
      intros n Hn. assert (J : In n (map l_level rest)) by (rewrite El in W; cbn in W; injection W as _ W; rewrite W; cbn; lia).
      apply in_map_iff in J. destruct J as (l & <- & J). rewrite range_of_in; auto; [|apply Rs; auto]. exact (scan_levels_none _ _ _ _ Sl l J).
Qed.
Lemma delta_none trigger m ls m' : pick_delta trigger m ls = (None, m') -> m' = m.
Proof.
  unfold pick_delta. destruct ls as [|l0 rest]; [intros [= <-]; auto|]. destruct (_ <? _); [intros [= <-]; auto|].
  destruct (scan_l0 _ _ _ _ _) as [[fs rng]|s]; [discriminate|]. destruct (s_other s) as [[[f a] t]|]; [|intros [= <-]; auto].
  destruct (scan_levels m f t rest) as [[q ids]|]; [discriminate|]. destruct (1 <? a); [discriminate|intros [= <-]; auto].
Qed.

(** ** histories *)
Lemma vnode_put n out ls : NoDup (map l_level ls) ->
  Permutation (vnode_files (put_files n out ls)) (vnode_files ls ++ if existsb (Z.eqb n) (map l_level ls) then out else []).
Proof.
  unfold vnode_files. induction ls as [|l ls IH]; cbn [map put_files concat existsb]; intros N; auto.
  apply NoDup_cons_iff in N. destruct N as [N1 N2]. specialize (IH N2). destruct (Z.eqb_spec (l_level l) n) as [E|E].
  - rewrite <- E, Z.eqb_refl. cbn [orb level_of l_files].
    assert (Q : put_files (l_level l) out ls = ls).
    { unfold put_files. clear IH N2. induction ls as [|x ls IH]; auto. cbn [map]. destruct (Z.eqb_spec (l_level x) (l_level l)) as [X|X].
      - exfalso. apply N1. left. auto. - f_equal. apply IH. intros J. apply N1. right. auto. }
    fold (put_files (l_level l) out ls). rewrite Q. rewrite <- !app_assoc. apply Permutation_app_head. apply Permutation_app_comm.
  - replace (n =? l_level l) with false by lia. cbn [orb]. rewrite <- app_assoc. apply Permutation_app_head. exact IH.
Qed.
Lemma put_levels n out ls : map l_level (put_files n out ls) = map l_level ls.
Proof. unfold put_files. rewrite map_map. apply map_ext_in. intros l _. destruct (Z.eqb_spec (l_level l) n); auto. Qed.
Lemma drop_perm {A} (l : list A) : forall k x, nth_error l k = Some x -> Permutation l (x :: drop_nth k l).
Proof.
  induction l as [|y l IH]; intros [|k] x H; try discriminate. - injection H as <-. cbn. auto.
  - cbn in *. rewrite (IH _ _ H) at 1. apply perm_swap.
Qed.
Lemma drop_none {A} (l : list A) : forall k, nth_error l k = None -> drop_nth k l = l.
Proof. induction l as [|y l IH]; intros [|k] H; try discriminate; auto. cbn. f_equal. auto. Qed.
Lemma concat_perm {A} (a b : list (list A)) : Permutation a b -> Permutation (concat a) (concat b).
Proof.
  induction 1 as [|x l l' _ IH|x y l|l l1 l2 _ IH1 _ IH2]; cbn; auto.
  - apply Permutation_app_head; auto. - rewrite !app_assoc. apply Permutation_app_tail. apply Permutation_app_comm. - rewrite IH1; auto.
Qed.

Definition vids (s : pstate) : list Z := map p_id (vnode_files (ps_levels s)).
Record inv (s : pstate) : Prop := INV {
  i_ok : vnode_ok (ps_levels s); i_used : incl (vids s) (ps_used s); i_marks : incl (ps_marks s) (ps_used s);
  i_jobs : forall q, In q (ps_jobs s) -> incl (ids_of (q_files q)) (ps_used s) }.
Definition jids (s : pstate) : list Z := concat (map (fun q => ids_of (q_files q)) (ps_jobs s)).
Definition held (s : pstate) : Prop := NoDup (jids s) /\ incl (jids s) (ps_marks s) /\ incl (jids s) (vids s).
Definition owned (s : pstate) : Prop := forall i, In i (vids s) -> In i (ps_marks s) -> In i (jids s).

Lemma prun_snoc h e : prun (h ++ [e]) = pstep e (prun h).
Proof. unfold prun. rewrite fold_left_app. auto. Qed.

Definition fin_levels (q : preq) gone rest (ls : list plevel) : list plevel :=
  let input i := existsb (Z.eqb i) (ids_of (q_files q)) in
  let change f := if input (p_id f) then PF (p_id f) (p_range f) (p_size f) (rest (p_id f)) else f in
  map (fun l => level_of (l_level l) (map change (filter (fun f => negb (input (p_id f) && gone (p_id f))) (l_files l)))) ls.
Lemma fin_ids q gone rest ls : map p_id (vnode_files (fin_levels q gone rest ls)) =
  map p_id (filter (fun f => negb (existsb (Z.eqb (p_id f)) (ids_of (q_files q)) && gone (p_id f))) (vnode_files ls)).
Proof.
  unfold vnode_files, fin_levels. induction ls as [|l ls IH]; auto. cbn [map concat level_of l_files]. rewrite filter_app, !map_app. f_equal; [|exact IH].
  rewrite map_map. apply map_ext. intros f. destruct (existsb (Z.eqb (p_id f)) (ids_of (q_files q))); auto.
Qed.
Lemma fin_in q gone rest ls i : In i (map p_id (vnode_files (fin_levels q gone rest ls))) <->
  In i (map p_id (vnode_files ls)) /\ ~ (In i (ids_of (q_files q)) /\ gone i = true).
Proof.
  rewrite fin_ids. split.
  - intros J. apply in_map_iff in J. destruct J as (f & <- & J). apply filter_In in J. destruct J as [J1 J2]. split; [apply in_map; auto|].
    intros [A B]. apply eqb_in in A. rewrite A, B in J2. discriminate.
  - intros [J N]. apply in_map_iff in J. destruct J as (f & <- & J). apply in_map. apply filter_In. split; auto.
    apply Bool.negb_true_iff. destruct (existsb (Z.eqb (p_id f)) (ids_of (q_files q))) eqn:A; auto. apply eqb_in in A. cbn.
    destruct (gone (p_id f)) eqn:B; auto. exfalso; auto.
Qed.
Lemma fin_levels_num q gone rest ls : map l_level (fin_levels q gone rest ls) = map l_level ls.
Proof. unfold fin_levels. rewrite map_map. auto. Qed.
Lemma put_ids n out ls i : map l_level ls = [0; 1; 2; 3; 4] ->
  In i (map p_id (vnode_files (put_files n out ls))) -> In i (map p_id (vnode_files ls)) \/ In i (map p_id out).
Proof.
  intros W J. apply (Permutation_in _ (Permutation_map p_id (vnode_put n out ls (levels_nodup _ W)))) in J.
  rewrite map_app in J. apply in_app_or in J. destruct J as [J|J]; auto. destruct (existsb _ _); auto. destruct J.
Qed.
Lemma put_keeps n out ls i : map l_level ls = [0; 1; 2; 3; 4] ->
  In i (map p_id (vnode_files ls)) -> In i (map p_id (vnode_files (put_files n out ls))).
Proof.
  intros W J. apply (Permutation_in _ (Permutation_sym (Permutation_map p_id (vnode_put n out ls (levels_nodup _ W))))).
  rewrite map_app. apply in_or_app. auto.
Qed.
Lemma put_ok n out ls used : map l_level ls = [0; 1; 2; 3; 4] -> NoDup (map p_id (vnode_files ls)) -> incl (map p_id (vnode_files ls)) used ->
  NoDup (map p_id out) -> (forall f, In f out -> ~ In (p_id f) used) -> vnode_ok (put_files n out ls).
Proof.
  intros W N U No Nu. split; [rewrite put_levels; auto|].
  apply (Permutation_NoDup (Permutation_sym (Permutation_map p_id (vnode_put n out ls (levels_nodup _ W))))).
  rewrite map_app. destruct (existsb _ _); [|cbn; rewrite app_nil_r; auto].
  apply nodup_app; auto. intros x A B. apply in_map_iff in B. destruct B as (f & <- & B). exact (Nu f B (U _ A)).
Qed.
Lemma fin_wf q gone rest ls : vnode_ok ls -> vnode_ok (fin_levels q gone rest ls).
Proof. intros [W N]. split; [rewrite fin_levels_num; auto|]. rewrite fin_ids. apply nodup_filter; auto. Qed.

Lemma pick_marks s e x : inv s -> (match e with PNormal score max => x = pick_normal score max (ps_marks s) (ps_levels s)
    | PDelta trigger => x = pick_delta trigger (ps_marks s) (ps_levels s) | _ => False end) ->
  match fst x with
  | None => forall i, In i (snd x) <-> In i (ps_marks s)
  | Some q => NoDup (ids_of (q_files q)) /\ (forall i, In i (ids_of (q_files q)) -> ~ In i (ps_marks s) /\ In i (vids s)) /\
      (forall i, In i (snd x) -> In i (ids_of (q_files q)) \/ In i (ps_marks s)) /\ incl (ps_marks s) (snd x) /\
      (match e with PNormal _ _ => True | _ => ~ in_gap (ps_levels s) q end -> incl (ids_of (q_files q)) (snd x))
  end.
Proof.
  intros V H. pose proof (i_ok _ V) as OK. destruct e as [f|score max|trigger|k g r o|k|]; try contradiction; subst x.
  - destruct (pick_normal score max (ps_marks s) (ps_levels s)) as [[q|] m'] eqn:P; cbn [fst snd].
    + destruct (normal_ok _ _ _ _ _ _ OK P) as (l & keep & Il & _ & _ & _ & _ & _ & K & _ & N & F & M & _). split; auto.
      split. { intros i J. apply in_map_iff in J. destruct J as (f & <- & J). split; [apply F; auto|]. apply in_map. apply (vnode_file _ l); auto.
        rewrite K in J. apply filter_In in J. destruct J as [J _]. apply (Permutation_in _ (sort_perm _)); auto. }
      split. { intros i J. apply M; auto. } split. { intros i J. apply M; auto. } intros _ i J. apply M. auto.
    + exact (normal_none _ _ _ _ _ OK P).
  - destruct (pick_delta trigger (ps_marks s) (ps_levels s)) as [[q|] m'] eqn:P; cbn [fst snd].
    + destruct (delta_ok _ _ _ _ _ OK P) as (Qi & Qo & F & N & _ & Sh). split; auto.
      split. { intros i J. apply in_map_iff in J. destruct J as (f & <- & J). destruct (F f J). split; auto. apply in_map; auto. }
      destruct Sh as [_ _ _ _ ->|f g t Qf _ _ _ _ _ ->|f t Qf _ Fr X _ ->|f t Qf _ _ _ _ _ ->].
      * split. { intros i J. apply in_app_or in J. auto. } split. { intros i J. apply in_or_app; auto. } intros _ i J. apply in_or_app; auto.
      * unfold ids_of. rewrite Qf. cbn [map]. split. { intros i J. cbn in *. tauto. } split. { intros i J. cbn. auto. } intros _ i J. cbn in *. tauto.
      * split; auto. split. { intros i J; auto. } intros G. exfalso. apply G. split; auto. exists f, t. split; auto. split; auto.
        unfold tr_intersect in X. destruct (tr_overlaps t (range_of (ps_levels s) (q_out q))) eqn:O; [|discriminate]. unfold tr_overlaps in *. lia.
      * unfold ids_of. rewrite Qf. cbn [map]. split. { intros i J. cbn in *. tauto. } split. { intros i J. cbn. auto. } intros _ i J. cbn in *. tauto.
    + apply delta_none in P. subst. tauto.
Qed.

Lemma launch_inv s e x : inv s -> (match e with PNormal score max => x = pick_normal score max (ps_marks s) (ps_levels s)
    | PDelta trigger => x = pick_delta trigger (ps_marks s) (ps_levels s) | _ => False end) -> inv (launch s x).
Proof.
  intros V H. pose proof (pick_marks s e x V H) as P. destruct V as [A B C D]. unfold launch. destruct x as [[q|] m']; cbn [fst snd] in *.
  - destruct P as (N & F & M1 & M2 & _). constructor; auto; cbn [ps_levels ps_marks ps_jobs ps_used].
    + intros i J. apply M1 in J. destruct J as [J|J]; [|apply C; auto]. apply B. apply F. auto.
    + intros q' J. apply in_app_or in J. destruct J as [J|[<-|[]]]; auto. intros i K. apply B. apply F. auto.
  - constructor; auto. cbn. intros i J. apply C. apply P. auto.
Qed.
Lemma step_inv s e : inv s -> pev_ok s e -> inv (pstep e s).
Proof.
  intros V O. destruct e as [f|score max|trigger|k gone rest out|k|].
  - destruct V as [[W N] B C D]. destruct O as [O1 O2]. constructor; cbn [ps_levels ps_marks ps_jobs ps_used flush_file pstep].
    + apply (put_ok _ _ _ (ps_used s)); auto.
    + intros i J. apply put_ids in J; auto. destruct J as [J|[<-|[]]]; [right; apply B; auto|left; auto].
    + intros i J. right; auto.
    + intros q J i K. right. apply (D q); auto.
  - exact (launch_inv s (PNormal score max) _ V eq_refl).
  - exact (launch_inv s (PDelta trigger) _ V eq_refl).
  - cbn [pstep]. unfold finish. destruct (nth_error (ps_jobs s) k) as [q|] eqn:E; auto. cbv zeta.
    change (map (fun l => level_of (l_level l) _) (ps_levels s)) with (fin_levels q gone rest (ps_levels s)).
    destruct V as [A B C D]. destruct O as [O1 O2]. destruct (fin_wf q gone rest _ A) as [W N].
    assert (Sub : incl (map p_id (vnode_files (fin_levels q gone rest (ps_levels s)))) (ps_used s)). { intros i J. apply B. apply fin_in in J. tauto. }
    constructor; cbn [ps_levels ps_marks ps_jobs ps_used].
    + apply (put_ok _ _ _ (ps_used s)); auto.
    + intros i J. apply put_ids in J; auto. apply in_or_app. destruct J as [J|J]; auto.
    + intros i J. apply unmark_in in J. apply in_or_app. right. apply C. tauto.
    + intros q' J i K. apply in_or_app. right. apply (D q'); auto. apply (Permutation_in _ (Permutation_sym (drop_perm _ _ _ E))). right; auto.
  - destruct V as [A B C D]. constructor; auto. cbn. intros q J. apply D. destruct (nth_error (ps_jobs s) k) as [q0|] eqn:E.
    + apply (Permutation_in _ (Permutation_sym (drop_perm _ _ _ E))). right; auto. + rewrite (drop_none _ _ E) in J. auto.
  - destruct V as [A B C D]. constructor; auto; cbn; intros ? [].
Qed.
Lemma new_inv : inv ps_new.
Proof.
  constructor; cbn; try (intros ? []). split; [reflexivity|constructor].
Qed.
Lemma hist_ok_snoc h e : hist_ok (h ++ [e]) -> hist_ok h /\ pev_ok (prun h) e.
Proof.
  intros H. split. { intros h1 x h2 E. apply (H h1 x (h2 ++ [e])). rewrite E, <- app_assoc. auto. } apply (H h e []). auto.
Qed.
Lemma no_gap_snoc h e : no_gap (h ++ [e]) -> no_gap h.
Proof. intros H h1 t h2 q m E. apply (H h1 t (h2 ++ [e])). rewrite E, <- app_assoc. auto. Qed.
Lemma run_inv h : hist_ok h -> inv (prun h).
Proof.
  induction h as [|e h IH] using rev_ind; intros H; [exact new_inv|]. apply hist_ok_snoc in H. destruct H as [H O]. rewrite prun_snoc. apply step_inv; auto.
Qed.

Lemma jids_perm s k q : nth_error (ps_jobs s) k = Some q ->
  Permutation (jids s) (ids_of (q_files q) ++ concat (map (fun q => ids_of (q_files q)) (drop_nth k (ps_jobs s)))).
Proof. intros E. unfold jids. apply (concat_perm _ _ (Permutation_map (fun q => ids_of (q_files q)) (drop_perm _ _ _ E))). Qed.
Lemma launch_held s e x : inv s -> held s -> (match e with PNormal score max => x = pick_normal score max (ps_marks s) (ps_levels s)
    | PDelta trigger => x = pick_delta trigger (ps_marks s) (ps_levels s) /\ (forall q m, x = (Some q, m) -> ~ in_gap (ps_levels s) q) | _ => False end) ->
  held (launch s x).
Proof.
  intros V (N & M & L) H. unfold held, launch, jids, vids.
  pose proof (pick_marks s e x V) as P. destruct x as [[q|] m']; cbn [ps_levels ps_marks ps_jobs fst snd] in *.
  - assert (P' : match e with PNormal _ _ => True | _ => ~ in_gap (ps_levels s) q end).
    { destruct e; auto; try contradiction. destruct H as [_ H]. exact (H q m' eq_refl). }
    destruct P as (Nq & F & M1 & M2 & M3). { destruct e; auto. apply H. }
    specialize (M3 P'). rewrite map_app, concat_app. cbn [map concat]. rewrite app_nil_r. fold (jids s).
    split. { apply nodup_app; auto. intros i A B. apply (F i B). auto. }
    split. { intros i J. apply in_app_or in J. destruct J as [J|J]; auto. } intros i J. apply in_app_or in J. destruct J as [J|J]; [apply L; auto|apply F; auto].
  - split; auto. split; auto. intros i J. apply P; auto. destruct e; auto. apply H.
Qed.
Lemma run_held h : hist_ok h -> no_gap h -> held (prun h).
Proof.
  induction h as [|e h IH] using rev_ind; intros H G.
  { split; [constructor|]. split; intros i []. }
  pose proof (no_gap_snoc _ _ G) as G'. apply hist_ok_snoc in H. destruct H as [H O]. specialize (IH H G'). pose proof (run_inv h H) as V.
  rewrite prun_snoc. remember (prun h) as s eqn:Es. destruct e as [f|score max|trigger|k gone rest out|k|].
  - destruct IH as (N & M & L). split; auto. split; auto. intros i J. cbn. apply put_keeps; [apply (i_ok _ V)|]. apply L; auto.
  - apply (launch_held s (PNormal score max)); auto.
  - apply (launch_held s (PDelta trigger)); auto. split; auto. intros q m E. rewrite Es in *. apply (G h trigger [] q m); auto.
  - cbn [pstep]. unfold finish. destruct (nth_error (ps_jobs s) k) as [q|] eqn:E; auto. cbv zeta.
    change (map (fun l => level_of (l_level l) _) (ps_levels s)) with (fin_levels q gone rest (ps_levels s)).
    destruct IH as (N & M & L). unfold held, jids, vids. cbn [ps_levels ps_marks ps_jobs]. pose proof (jids_perm s k q E) as P.
    pose proof (Permutation_NoDup P N) as N'.
    assert (D : forall i, In i (concat (map (fun q => ids_of (q_files q)) (drop_nth k (ps_jobs s)))) -> ~ In i (ids_of (q_files q)) /\ In i (jids s)).
    { intros i J. split. - intros A. apply in_split in A. destruct A as (u & w & A). rewrite A in N'. rewrite <- app_assoc in N'. cbn in N'.
        apply NoDup_remove_2 in N'. apply N'. apply in_or_app. right. apply in_or_app. auto.
      - apply (Permutation_in _ (Permutation_sym P)). apply in_or_app. auto. }
    split. { exact (nodup_app_r _ _ N'). }
    split. { intros i J. destruct (D i J) as [D1 D2]. apply unmark_in. split; auto. intros A. apply filter_In in A. tauto. }
    intros i J. destruct (D i J) as [D1 D2]. apply put_keeps. { rewrite fin_levels_num. apply (i_ok _ V). } apply fin_in. split; [apply L; auto|tauto].
  - destruct IH as (N & M & L). unfold held, jids, vids, pstep, fail_job. cbn [ps_levels ps_marks ps_jobs].
    destruct (nth_error (ps_jobs s) k) as [q|] eqn:E.
    + pose proof (jids_perm s k q E) as P. split. { exact (nodup_app_r _ _ (Permutation_NoDup P N)). }
      assert (D : incl (concat (map (fun q => ids_of (q_files q)) (drop_nth k (ps_jobs s)))) (jids s)).
      { intros i J. apply (Permutation_in _ (Permutation_sym P)). apply in_or_app. auto. }
      split; intros i J; auto.
    + rewrite (drop_none _ _ E). auto.
  - split; [constructor|]. split; intros i [].
Qed.
Lemma run_owned h : hist_ok h -> Forall (fun e => is_fail e = false) h -> owned (prun h).
Proof.
  induction h as [|e h IH] using rev_ind; intros H G.
  { intros i []. }
  apply hist_ok_snoc in H. destruct H as [H O]. apply Forall_app in G. destruct G as [G Ge]. inversion Ge as [|? ? Ge' _]; subst.
  specialize (IH H G). pose proof (run_inv h H) as V. rewrite prun_snoc. remember (prun h) as s eqn:Es.
  assert (La : forall e x, (match e with PNormal score max => x = pick_normal score max (ps_marks s) (ps_levels s)
    | PDelta trigger => x = pick_delta trigger (ps_marks s) (ps_levels s) | _ => False end) -> owned (launch s x)).
  { intros e' x Hx. pose proof (pick_marks s e' x V Hx) as P. intros i A B. unfold launch, jids in *. cbn [ps_levels ps_marks ps_jobs] in *.
    destruct x as [[q|] m']; cbn [fst snd] in *.
    - rewrite map_app, concat_app. cbn [map concat]. rewrite app_nil_r. apply in_or_app. destruct P as (_ & _ & M1 & _). apply M1 in B. destruct B as [B|B]; [right; auto|left; apply (IH i A B)].
    - apply IH; auto. apply P; auto. }
  destruct e as [f|score max|trigger|k gone rest out|k|].
  - intros i A B. cbn in A. apply put_ids in A; [|apply (i_ok _ V)]. destruct A as [A|[<-|[]]]; [apply IH; auto|]. exfalso. destruct O as [_ O].
    apply (O f); [left; auto|]. apply (i_marks _ V). auto.
  - apply (La (PNormal score max)). auto.
  - apply (La (PDelta trigger)). auto.
  - cbn [pstep]. unfold finish. destruct (nth_error (ps_jobs s) k) as [q|] eqn:E; auto. cbv zeta.
    change (map (fun l => level_of (l_level l) _) (ps_levels s)) with (fin_levels q gone rest (ps_levels s)).
    intros i A B. unfold vids, jids in *. cbn [ps_levels ps_marks ps_jobs] in *. apply unmark_in in B. destruct B as [B B'].
    apply put_ids in A. 2:{ rewrite fin_levels_num. apply (i_ok _ V). } destruct A as [A|A].
    + apply fin_in in A. destruct A as [A A']. specialize (IH i A B). apply (Permutation_in _ (jids_perm s k q E)) in IH. apply in_app_or in IH.
      destruct IH as [J|J]; auto. exfalso. destruct (gone i) eqn:Gi; [apply A'; auto|]. apply B'. apply filter_In. rewrite Gi. auto.
    + exfalso. destruct O as [_ O]. apply in_map_iff in A. destruct A as (f & <- & A). apply (O f A). apply (i_marks _ V). auto.
  - discriminate.
  - intros i A [].
Qed.
Lemma jobs_disjoint s a b qa qb i : held s -> a <> b -> nth_error (ps_jobs s) a = Some qa -> nth_error (ps_jobs s) b = Some qb ->
  works_on qa i -> ~ works_on qb i.
Proof.
  intros (N & _ & _) D A B Wa Wb. pose proof (Permutation_NoDup (jids_perm s a qa A) N) as N'.
  assert (J : In qb (drop_nth a (ps_jobs s))).
  { clear - D B. revert a b D B. induction (ps_jobs s) as [|q l IH]; intros [|a] [|b] D B; try discriminate; cbn in *; try congruence.
    - apply nth_error_In in B; auto. - left; congruence. - right. apply (IH a b); auto. }
  apply in_split in Wa. destruct Wa as (u & w & Wa). unfold ids_of in N'. rewrite Wa, <- app_assoc in N'. cbn in N'. apply NoDup_remove_2 in N'. apply N'.
  apply in_or_app. right. apply in_or_app. right. apply in_concat. exists (map p_id (q_files qb)). split; auto. apply (in_map (fun q => map p_id (q_files q)) _ _ J).
Qed.
