(** Proofs about the life of data files. *)
From Verif Require Import Prelude LifeModel LifeSpec.
From Coq Require Import Lia.
Open Scope Z_scope.

Lemma mem_true : forall l i, mem l i = true <-> In i l.
Proof.
  intros. unfold mem. rewrite existsb_exists. split.
  - intros (x & I & E). apply Z.eqb_eq in E. subst. exact I.
  - intros I. exists i. split; [exact I | apply Z.eqb_refl].
Qed.
Lemma path_eqb_true : forall p q, path_eqb p q = true <-> p = q.
Proof.
  intros [a b] [c d]. unfold path_eqb. cbn [fst snd]. rewrite andb_true_iff, Z.eqb_eq. split.
  - intros (A & B). apply Bool.eqb_prop in A. congruence.
  - intros E. injection E. intros -> ->. split; [apply Bool.eqb_reflx | reflexivity].
Qed.
Lemma path_eqb_false : forall p q, p <> q -> path_eqb p q = false.
Proof. intros p q N. destruct (path_eqb p q) eqn:E; [|reflexivity]. apply path_eqb_true in E. contradiction. Qed.

Record good (s : state) : Prop := {
  g_one : forall o x y, In (o, x) (objs s) -> In (o, y) (objs s) -> x = y;
  g_oid : forall o x, In (o, x) (objs s) -> o < oid s;
  g_path : forall o x q y, In (o, x) (objs s) -> In (q, y) (objs s) -> path x = path y -> o = q;
  g_gen : forall o x, In (o, x) (objs s) -> o_id x < gen s;
  g_disk : forall o x, In (o, x) (objs s) -> In (path x, o) (disk s);
  g_del : forall o x, In (o, x) (objs s) -> o_del x = true -> ~ In o (target s);
  g_ref : forall o, In o (refs s) -> exists x, In (o, x) (objs s)
}.
Record clean (s : state) : Prop := {
  c_disk : forall p o, In (p, o) (disk s) -> exists x, In (o, x) (objs s) /\ path x = p;
  c_obj : forall o x, In (o, x) (objs s) -> In o (refs s);
  c_del : forall o x, In (o, x) (objs s) -> ~ In o (target s) -> o_del x = true;
  c_fun : forall p o q, In (p, o) (disk s) -> In (p, q) (disk s) -> o = q
}.

Lemma fresh_in : forall ls o i q x, In (q, x) (fresh o i ls) ->
  o <= q < o + Z.of_nat (length ls) /\ o_id x = i + (q - o) /\ o_del x = false.
Proof.
  induction ls as [|l r IH]; intros o i q x; cbn [fresh length]; [intros []|].
  intros [E | I].
  - injection E. intros <- <-. cbn. repeat split; lia.
  - apply IH in I. destruct I as (A & B & C). repeat split; try lia. exact C.
Qed.
Lemma fresh_one : forall ls o i q x y, In (q, x) (fresh o i ls) -> In (q, y) (fresh o i ls) -> x = y.
Proof.
  induction ls as [|l r IH]; intros o i q x y; cbn [fresh]; [intros []|].
  intros [E | I] [F | J].
  - congruence.
  - exfalso. injection E. intros _ ->. apply fresh_in in J. lia.
  - exfalso. injection F. intros _ ->. apply fresh_in in I. lia.
  - apply (IH _ _ _ _ _ I J).
Qed.

(* what a write does to the disk *)
Lemma write_new : forall new d o x, In (o, x) new ->
  (forall q y, In (q, y) new -> path y = path x -> q = o) -> In (path x, o) (write new d).
Proof.
  induction new as [|(q, y) r IH]; intros d o x I U; [destruct I|].
  cbn [write]. destruct I as [E | I].
  - injection E. intros <- <-. left. reflexivity.
  - destruct (path_eqb (path x) (path y)) eqn:P.
    + apply path_eqb_true in P. left. f_equal; [congruence|]. apply (U q y); [left; reflexivity | congruence].
    + right. apply filter_In. split.
      * apply IH; [exact I|]. intros. apply (U q0 y0); [right; assumption | assumption].
      * cbn [fst]. rewrite P. reflexivity.
Qed.
Lemma write_old : forall new d p o, In (p, o) d ->
  (forall q y, In (q, y) new -> path y <> p) -> In (p, o) (write new d).
Proof.
  induction new as [|(q, y) r IH]; intros d p o I U; [exact I|].
  cbn [write]. right. apply filter_In. split.
  - apply IH; [exact I|]. intros. apply (U q0 y0). right. assumption.
  - cbn [fst]. rewrite path_eqb_false; [reflexivity|]. intros E. apply (U q y); [left; reflexivity | congruence].
Qed.
Lemma write_back : forall new d p o, In (p, o) (write new d) ->
  (exists x, In (o, x) new /\ path x = p) \/ In (p, o) d.
Proof.
  induction new as [|(q, y) r IH]; intros d p o I; [right; exact I|].
  cbn [write] in I. destruct I as [E | I].
  - injection E. intros <- <-. left. exists y. split; [left; reflexivity | reflexivity].
  - apply filter_In in I. destruct (IH _ _ _ (proj1 I)) as [(x & A & B) | J].
    + left. exists x. split; [right; exact A | exact B].
    + right. exact J.
Qed.
Lemma write_fun : forall new d, (forall p o q, In (p, o) d -> In (p, q) d -> o = q) ->
  forall p o q, In (p, o) (write new d) -> In (p, q) (write new d) -> o = q.
Proof.
  induction new as [|(z, y) r IH]; intros d F p o q I J; [apply (F _ _ _ I J)|].
  cbn [write] in I, J. destruct I as [E | I], J as [G | J].
  - congruence.
  - apply filter_In in J. destruct J as (_ & J). cbn [fst] in J. injection E. intros _ <-.
    rewrite (proj2 (path_eqb_true _ _) eq_refl) in J. discriminate.
  - apply filter_In in I. destruct I as (_ & I). cbn [fst] in I. injection G. intros _ <-.
    rewrite (proj2 (path_eqb_true _ _) eq_refl) in I. discriminate.
  - apply filter_In in I, J. apply (IH d F p o q (proj1 I) (proj1 J)).
Qed.

Lemma refs_gc : forall s, refs (gc s) = refs s.
Proof. reflexivity. Qed.
Lemma target_gc : forall s, target (gc s) = target s.
Proof. reflexivity. Qed.

(* the invariant of [gc]: as [good], but objects may be unreferenced *)
Lemma gc_good : forall s, good s -> good (gc s).
Proof.
  intros s G. destruct G.
  assert (B : forall o x, In (o, x) (objs (gc s)) -> In (o, x) (objs s) /\ mem (refs s) o = true).
  { intros o x I. cbn [gc objs] in I. apply filter_In in I. exact I. }
  split.
  - intros o x y I J. apply (g_one0 o); [apply (B _ _ I) | apply (B _ _ J)].
  - intros o x I. apply (g_oid0 o x). apply (B _ _ I).
  - intros o x q y I J. apply g_path0; [apply (B _ _ I) | apply (B _ _ J)].
  - intros o x I. apply (g_gen0 o x). apply (B _ _ I).
  - intros o x I. destruct (B _ _ I) as (I' & M). cbn [gc disk]. apply filter_In. split; [apply g_disk0; exact I'|].
    cbn [fst]. destruct (dropped s (path x)) eqn:D; [|reflexivity].
    unfold dropped in D. apply existsb_exists in D. destruct D as ((q, y) & J & H). cbn [fst snd] in H.
    apply andb_true_iff in H. destruct H as (H & P). apply andb_true_iff in H. destruct H as (N & _).
    apply path_eqb_true in P. rewrite (g_path0 _ _ _ _ J I' P) in N. rewrite M in N. discriminate.
  - intros o x I. rewrite target_gc. apply (g_del0 o x). apply (B _ _ I).
  - intros o R. rewrite refs_gc in R. destruct (g_ref0 o R) as (x & I). exists x. cbn [gc objs].
    apply filter_In. split; [exact I|]. cbn [fst]. apply mem_true. exact R.
Qed.
Lemma in_refs : forall s o, In o (refs s) <-> In o (cur s) \/ In o (target s) \/ exists v, In v (map snd (readers s)) /\ In o v.
Proof.
  intros. unfold refs. rewrite !in_app_iff. rewrite in_concat. tauto.
Qed.
(* [clean] without the clause that all objects are referenced *)
Lemma gc_clean : forall s, good s ->
  (forall p o, In (p, o) (disk s) -> exists x, In (o, x) (objs s) /\ path x = p) ->
  (forall o x, In (o, x) (objs s) -> ~ In o (target s) -> o_del x = true) ->
  (forall p o q, In (p, o) (disk s) -> In (p, q) (disk s) -> o = q) ->
  clean (gc s).
Proof.
  intros s G CD CL CF. destruct G. split.
  - intros p o I. cbn [gc disk] in I. apply filter_In in I. destruct I as (I & N). cbn [fst] in N.
    destruct (CD p o I) as (x & J & P). exists x. split; [|exact P]. cbn [gc objs]. apply filter_In. split; [exact J|].
    cbn [fst]. destruct (mem (refs s) o) eqn:M; [reflexivity|]. exfalso.
    assert (D : dropped s p = true).
    { unfold dropped. apply existsb_exists. exists (o, x). split; [exact J|]. cbn [fst snd]. rewrite M. cbn [negb andb].
      rewrite (CL o x J); [cbn [andb]; apply path_eqb_true; exact P|].
      intros T. assert (R : mem (refs s) o = true) by (apply mem_true, in_refs; right; left; exact T). congruence. }
    rewrite D in N. discriminate.
  - intros o x I. cbn [gc objs] in I. apply filter_In in I. rewrite refs_gc. apply mem_true. apply (proj2 I).
  - intros o x I. rewrite target_gc. cbn [gc objs] in I. apply filter_In in I. apply CL. apply (proj1 I).
  - intros p o q I J. cbn [gc disk] in I, J. apply filter_In in I, J. apply (CF p); [apply (proj1 I) | apply (proj1 J)].
Qed.

Lemma start_good : good start.
Proof.
  split; cbn; try (intros; contradiction).
Qed.
Lemma start_clean : clean start.
Proof. split; cbn; intros; contradiction. Qed.

Lemma edit_old : forall (hit : Z * obj -> bool) l o x,
  In (o, x) (map (fun ox => if hit ox then (fst ox, OB (o_level (snd ox)) (o_id (snd ox)) true) else ox) l) ->
  exists y, In (o, y) l /\ path x = path y /\ o_id x = o_id y /\ o_level x = o_level y
    /\ o_del x = (hit (o, y) || o_del y).
Proof.
  intros hit l o x I. apply in_map_iff in I. destruct I as ((q, y) & E & I).
  destruct (hit (q, y)) eqn:H; cbn [fst snd] in E; injection E; intros <- <-; exists y; rewrite H;
    repeat split; try assumption.
Qed.
Lemma edit_old_fwd : forall (hit : Z * obj -> bool) l o y, In (o, y) l ->
  exists x, In (o, x) (map (fun ox => if hit ox then (fst ox, OB (o_level (snd ox)) (o_id (snd ox)) true) else ox) l)
    /\ path x = path y.
Proof.
  intros hit l o y I. destruct (hit (o, y)) eqn:H.
  - exists (OB (o_level y) (o_id y) true). split; [|reflexivity]. apply in_map_iff. exists (o, y). rewrite H. split; [reflexivity | exact I].
  - exists y. split; [|reflexivity]. apply in_map_iff. exists (o, y). rewrite H. split; [reflexivity | exact I].
Qed.
Lemma path_id : forall x y, path x = path y -> o_id x = o_id y.
Proof. intros x y E. injection E. intros. assumption. Qed.

Lemma step_good : forall s e s', (forall l, e <> FSnapshot l) -> good s -> step s e = Some s' -> good s'.
Proof.
  intros s e s' NS G E. destruct e as [r | r | levels dels | | levels | g]; cbn [step] in E.
  - destruct (mem (map fst (readers s)) r); [discriminate|]. injection E. intros <-. destruct G.
    split; cbn [objs cur pend readers disk gen oid]; try assumption.
    intros o R. apply g_ref0. apply in_refs in R. cbn [cur readers map snd] in R. apply in_refs.
    destruct R as [R | [R | (v & [V | V] & R)]].
    + left. exact R.
    + right. left. exact R.
    + left. subst v. exact R.
    + right. right. exists v. split; assumption.
  - injection E. intros <-. apply gc_good. destruct G.
    split; cbn [objs cur pend readers disk gen oid]; try assumption.
    intros o R. apply g_ref0. apply in_refs in R. cbn [cur readers] in R. apply in_refs.
    destruct R as [R | [R | (v & V & R)]]; [left; exact R | right; left; exact R | right; right].
    exists v. split; [|exact R]. apply in_map_iff in V. destruct V as (w & W & V). apply filter_In in V.
    apply in_map_iff. exists w. split; [exact W | apply (proj1 V)].
  - destruct (pend s) eqn:PE; [discriminate|]. injection E. intros <-. clear E.
    set (hit := fun ox : Z * obj => mem (cur s) (fst ox) && named dels (snd ox)).
    set (new := fresh (oid s) (gen s) levels).
    assert (TG : target s = cur s) by (unfold target; rewrite PE; reflexivity).
    destruct G.
    assert (NN : forall o x q y, In (o, x) new -> In (q, y) new -> path x = path y -> o = q).
    { intros o x q y I J P. apply path_id in P. apply fresh_in in I, J. lia. }
    assert (NO : forall o x q y, In (o, x) new -> In (q, y) (objs s) -> path x = path y -> False).
    { intros o x q y I J P. apply path_id in P. apply fresh_in in I. pose proof (g_gen0 _ _ J). lia. }
    split; cbn [objs cur pend readers disk gen oid].
    + intros o x y I J. apply in_app_iff in I, J. destruct I as [I | I], J as [J | J].
      * apply (fresh_one _ _ _ _ _ _ I J).
      * exfalso. apply edit_old in J. destruct J as (z & J & _). apply g_oid0 in J. apply fresh_in in I. lia.
      * exfalso. apply edit_old in I. destruct I as (z & I & _). apply g_oid0 in I. apply fresh_in in J. lia.
      * apply (edit_old hit) in I, J. destruct I as (z & I & _ & A & B & C), J as (w & J & _ & A' & B' & C').
        pose proof (g_one0 _ _ _ I J). subst w. destruct x, y. cbn in *. congruence.
    + intros o x I. apply in_app_iff in I. destruct I as [I | I].
      * apply fresh_in in I. lia.
      * apply edit_old in I. destruct I as (z & I & _). apply g_oid0 in I. lia.
    + intros o x q y I J P. apply in_app_iff in I, J. destruct I as [I | I], J as [J | J].
      * apply (NN _ _ _ _ I J P).
      * exfalso. apply edit_old in J. destruct J as (z & J & Q & _). apply (NO _ _ _ _ I J). congruence.
      * exfalso. apply edit_old in I. destruct I as (z & I & Q & _). apply (NO _ _ _ _ J I). congruence.
      * apply edit_old in I, J. destruct I as (z & I & Q & _), J as (w & J & Q' & _). apply (g_path0 _ _ _ _ I J). congruence.
    + intros o x I. apply in_app_iff in I. destruct I as [I | I].
      * apply fresh_in in I. lia.
      * apply edit_old in I. destruct I as (z & I & _ & Q & _). apply g_gen0 in I. lia.
    + intros o x I. apply in_app_iff in I. destruct I as [I | I].
      * apply write_new; [exact I|]. intros q y J P. apply (NN _ _ _ _ J I P).
      * apply edit_old in I. destruct I as (z & I & Q & _). rewrite Q. apply write_old; [apply g_disk0; exact I|].
        intros q y J P. apply (NO _ _ _ _ J I P).
    + unfold target. cbn [pend]. intros o x I D T. apply in_app_iff in I, T. destruct I as [I | I].
      * apply fresh_in in I. destruct I as (_ & _ & I). congruence.
      * apply (edit_old hit) in I. destruct I as (z & I & _ & _ & _ & C). rewrite D in C. symmetry in C. destruct T as [T | T].
        { apply in_map_iff in T. destruct T as ((q, y) & <- & T). apply fresh_in in T. apply g_oid0 in I. cbn [fst] in *. lia. }
        { apply in_map_iff in T. destruct T as ((q, y) & Q & T). cbn [fst] in Q. subst q. apply filter_In in T. destruct T as (T & N).
          pose proof (g_one0 _ _ _ I T). subst y. cbn [fst snd] in N. apply andb_true_iff in N. destruct N as (M & N).
          unfold hit in C. cbn [fst snd] in C. rewrite M in C. apply negb_true_iff in N. rewrite N in C. cbn in C.
          apply (g_del0 _ _ I C). rewrite TG. apply mem_true. exact M. }
    + intros o R. apply in_refs in R. unfold target in R. cbn [pend cur readers] in R.
      assert (OLD : In o (refs s) -> exists x, In (o, x) (new ++ map (fun ox => if hit ox then (fst ox, OB (o_level (snd ox)) (o_id (snd ox)) true) else ox) (objs s))).
      { intros O. destruct (g_ref0 o O) as (y & I). destruct (edit_old_fwd hit _ _ _ I) as (x & J & _). exists x.
        apply in_app_iff. right. exact J. }
      destruct R as [R | [R | R]].
      * apply OLD, in_refs. left. exact R.
      * apply in_app_iff in R. destruct R as [R | R].
        { apply in_map_iff in R. destruct R as ((q, y) & Q & T). cbn [fst] in Q. subst q. exists y. apply in_app_iff. left. exact T. }
        { apply OLD, in_refs. left. apply in_map_iff in R. destruct R as ((q, y) & Q & T). cbn [fst] in Q. subst q.
          apply filter_In in T. destruct T as (_ & T). apply andb_true_iff in T. apply mem_true. apply (proj1 T). }
      * apply OLD, in_refs. right. right. exact R.
  - destruct (pend s) as [n|] eqn:PE; [|discriminate]. injection E. intros <-. apply gc_good. destruct G.
    assert (TG : target s = n) by (unfold target; rewrite PE; reflexivity).
    split; cbn [objs cur pend readers disk gen oid]; try assumption.
    + intros o x I D. change (~ In o n). rewrite <- TG. apply (g_del0 _ _ I D).
    + intros o R. apply g_ref0. apply in_refs in R. unfold target in R. cbn [pend cur readers] in R. apply in_refs. rewrite TG. tauto.
  - exfalso. apply (NS levels). reflexivity.
  - destruct (forallb _ _) eqn:F; [|discriminate]. injection E. intros <-. clear E. destruct G.
    assert (B : forall o x, In (o, x) (filter (fun ox => mem (target s) (fst ox)) (objs s)) -> In (o, x) (objs s) /\ In o (target s)).
    { intros o x I. apply filter_In in I. split; [apply (proj1 I)|]. apply mem_true. apply (proj2 I). }
    split; cbn [objs cur pend readers disk gen oid].
    + intros o x y I J. apply (g_one0 o); [apply (B _ _ I) | apply (B _ _ J)].
    + intros o x I. apply (g_oid0 o x). apply (B _ _ I).
    + intros o x q y I J. apply g_path0; [apply (B _ _ I) | apply (B _ _ J)].
    + intros o x I. rewrite forallb_forall in F. apply (F _) in I. cbn [snd] in I. lia.
    + intros o x I. apply g_disk0. apply (B _ _ I).
    + intros o x I D. exfalso. apply (g_del0 o x (proj1 (B _ _ I)) D). apply (B _ _ I).
    + intros o R. apply in_refs in R. cbn in R. assert (T : In o (target s)) by (destruct R as [R | [R | (v & [] & _)]]; exact R).
      destruct (g_ref0 o) as (x & I); [apply in_refs; tauto|]. exists x. apply filter_In. split; [exact I | apply mem_true; exact T].
Qed.

Lemma step_clean : forall s e s', (forall l, e <> FSnapshot l) -> (forall g, e <> FCrash g) ->
  good s -> clean s -> step s e = Some s' -> clean s'.
Proof.
  intros s e s' NS NC G C E. pose proof (step_good s e s' NS G E) as G'.
  destruct e as [r | r | levels dels | | levels | g]; cbn [step] in E.
  - destruct (mem (map fst (readers s)) r); [discriminate|]. injection E. intros <-. destruct C.
    split; cbn [objs cur pend readers disk gen oid]; try assumption.
    intros o x I. apply in_refs. cbn [cur readers map snd]. apply c_obj0, in_refs in I.
    destruct I as [R | [R | (v & V & R)]]; [left; exact R | right; left; exact R | right; right].
    exists v. split; [right; exact V | exact R].
  - injection E. intros <-. destruct C. apply gc_clean; cbn [objs cur pend readers disk gen oid]; try assumption.
    destruct G. split; cbn [objs cur pend readers disk gen oid]; try assumption.
    intros o R. apply g_ref0. apply in_refs in R. cbn [cur readers] in R. apply in_refs.
    destruct R as [R | [R | (v & V & R)]]; [left; exact R | right; left; exact R | right; right].
    exists v. split; [|exact R]. apply in_map_iff in V. destruct V as (w & W & V). apply filter_In in V.
    apply in_map_iff. exists w. split; [exact W | apply (proj1 V)].
  - destruct (pend s) eqn:PE; [discriminate|]. injection E. intros <-. clear E.
    set (hit := fun ox : Z * obj => mem (cur s) (fst ox) && named dels (snd ox)).
    set (new := fresh (oid s) (gen s) levels).
    assert (TG : target s = cur s) by (unfold target; rewrite PE; reflexivity).
    destruct C. split; cbn [objs cur pend readers disk gen oid].
    + intros p o I. apply write_back in I. destruct I as [(x & I & P) | I].
      * exists x. split; [apply in_app_iff; left; exact I | exact P].
      * destruct (c_disk0 _ _ I) as (y & J & P). destruct (edit_old_fwd hit _ _ _ J) as (x & K & Q). exists x.
        split; [apply in_app_iff; right; exact K | congruence].
    + intros o x I. apply in_refs. unfold target. cbn [pend cur readers]. apply in_app_iff in I. destruct I as [I | I].
      * right. left. apply in_app_iff. left. apply in_map_iff. exists (o, x). split; [reflexivity | exact I].
      * apply edit_old in I. destruct I as (y & I & _). apply c_obj0, in_refs in I. rewrite TG in I. tauto.
    + unfold target. cbn [pend]. intros o x I T. apply in_app_iff in I. destruct I as [I | I].
      * exfalso. apply T. apply in_app_iff. left. apply in_map_iff. exists (o, x). split; [reflexivity | exact I].
      * apply (edit_old hit) in I. destruct I as (y & I & _ & _ & _ & D). rewrite D.
        destruct (mem (cur s) o) eqn:M.
        { unfold hit. cbn [fst snd]. rewrite M. cbn [andb]. destruct (named dels y) eqn:N; [reflexivity|]. exfalso. apply T.
          apply in_app_iff. right. apply in_map_iff. exists (o, y). split; [reflexivity|]. apply filter_In. split; [exact I|].
          cbn [fst snd]. rewrite M, N. reflexivity. }
        { rewrite (c_del0 _ _ I); [apply orb_true_r|]. rewrite TG. intros K. apply mem_true in K. congruence. }
    + apply write_fun. exact c_fun0.
  - destruct (pend s) as [n|] eqn:PE; [|discriminate]. injection E. intros <-.
    assert (TG : target s = n) by (unfold target; rewrite PE; reflexivity).
    destruct C. apply gc_clean; cbn [objs cur pend readers disk gen oid]; try assumption.
    + destruct G. split; cbn [objs cur pend readers disk gen oid]; try assumption.
      * intros o x I D. change (~ In o n). rewrite <- TG. apply (g_del0 _ _ I D).
      * intros o R. apply g_ref0. apply in_refs in R. unfold target in R. cbn [pend cur readers] in R. apply in_refs. rewrite TG. tauto.
    + intros o x I T. apply (c_del0 _ _ I). rewrite TG. exact T.
  - exfalso. apply (NS levels). reflexivity.
  - exfalso. apply (NC g). reflexivity.
Qed.

Lemma run_good : forall h s s', no_snapshot h -> good s -> run s h = Some s' -> good s'.
Proof.
  induction h as [|e r IH]; intros s s' N G R; cbn [run] in R.
  - injection R. intros <-. exact G.
  - destruct (step s e) as [s1|] eqn:E; [|discriminate]. apply (IH s1); [intros l I; apply (N l); right; exact I | | exact R].
    apply (step_good s e); [intros l -> ; apply (N l); left; reflexivity | exact G | exact E].
Qed.
Lemma run_clean : forall h s s', no_snapshot h -> no_restart h -> good s -> clean s -> run s h = Some s' -> clean s'.
Proof.
  induction h as [|e r IH]; intros s s' N M G C R; cbn [run] in R.
  - injection R. intros <-. exact C.
  - destruct (step s e) as [s1|] eqn:E; [|discriminate].
    assert (NE : forall l, e <> FSnapshot l) by (intros l ->; apply (N l); left; reflexivity).
    assert (ME : forall l, e <> FCrash l) by (intros l ->; apply (M l); left; reflexivity).
    apply (IH s1); [intros l I; apply (N l); right; exact I | intros l I; apply (M l); right; exact I | | | exact R].
    + apply (step_good s e s1 NE G E).
    + apply (step_clean s e s1 NE ME G C E).
Qed.

Lemma good_intact : forall s o, good s -> In o (refs s) -> intact s o.
Proof. intros s o G R. destruct (g_ref s G o R) as (x & I). exists x. split; [exact I | apply (g_disk s G); exact I]. Qed.
Lemma holds_ref : forall s r o, holds s r o -> In o (refs s).
Proof. intros s r o (v & V & O). apply in_refs. right. right. exists v. split; [|exact O]. apply in_map_iff. exists (r, v). split; [reflexivity | exact V]. Qed.

Lemma files_stay : forall h s, no_snapshot h -> run start h = Some s ->
  (forall o, live s o -> intact s o) /\ (forall r o, holds s r o -> intact s o).
Proof.
  intros h s N R. pose proof (run_good h start s N start_good R) as G. split.
  - intros o L. apply good_intact; [exact G | apply in_refs; left; exact L].
  - intros r o H. apply good_intact; [exact G | apply (holds_ref _ r); exact H].
Qed.

Lemma held_step : forall s e s' r v, (forall g, e <> FCrash g) -> e <> FClose r -> step s e = Some s' ->
  In (r, v) (readers s) -> In (r, v) (readers s').
Proof.
  intros s e s' r v NC NL E I. destruct e as [q | q | levels dels | | levels | g]; cbn [step] in E.
  - destruct (mem (map fst (readers s)) q); [discriminate|]. injection E. intros <-. right. exact I.
  - injection E. intros <-. cbn [gc readers]. apply filter_In. split; [exact I|]. cbn [fst]. apply negb_true_iff, Z.eqb_neq.
    intros ->. apply NL. reflexivity.
  - destruct (pend s); [discriminate|]. injection E. intros <-. exact I.
  - destruct (pend s); [|discriminate]. injection E. intros <-. exact I.
  - destruct (pend s); [discriminate|]. injection E. intros <-. exact I.
  - exfalso. apply (NC g). reflexivity.
Qed.
Lemma held : forall h s s' r v, no_restart h -> not_closed r h -> run s h = Some s' ->
  In (r, v) (readers s) -> In (r, v) (readers s').
Proof.
  induction h as [|e t IH]; intros s s' r v NC NL R I; cbn [run] in R.
  - injection R. intros <-. exact I.
  - destruct (step s e) as [s1|] eqn:E; [|discriminate].
    apply (IH s1); [intros g J; apply (NC g); right; exact J | intros J; apply NL; right; exact J | exact R|].
    apply (held_step s e s1 r v); [intros g ->; apply (NC g); left; reflexivity | intros ->; apply NL; left; reflexivity | exact E | exact I].
Qed.
Lemma run_app : forall h1 h2 s s', run s (h1 ++ h2) = Some s' <-> exists m, run s h1 = Some m /\ run m h2 = Some s'.
Proof.
  induction h1 as [|e r IH]; intros h2 s s'; cbn [run app].
  - split; [intros H; exists s; split; [reflexivity | exact H] | intros (m & A & B); injection A; intros ->; exact B].
  - destruct (step s e); [apply IH|]. split; [discriminate | intros (m & A & _); discriminate].
Qed.
Lemma query_stays : forall h r h' s s', no_snapshot (h ++ FOpen r :: h') -> no_restart h' -> not_closed r h' ->
  run start h = Some s -> run s (FOpen r :: h') = Some s' -> forall o, live s o -> intact s' o.
Proof.
  intros h r h' s s' N NC NL R R' o L.
  assert (RR : run start (h ++ FOpen r :: h') = Some s') by (apply run_app; exists s; split; assumption).
  apply (proj2 (files_stay _ _ N RR) r). exists (cur s). split; [|exact L].
  cbn [run] in R'. destruct (step s (FOpen r)) as [s1|] eqn:E; [|discriminate].
  apply (held h' s1); [exact NC | exact NL | exact R'|]. cbn [step] in E.
  destruct (mem (map fst (readers s)) r); [discriminate|]. injection E. intros <-. left. reflexivity.
Qed.
Lemma space : forall h s, no_snapshot h -> no_restart h -> run start h = Some s -> idle s ->
  forall p o, In (p, o) (disk s) ->
    (exists x, In (o, x) (objs s) /\ path x = p) /\ (live s o \/ exists r, holds s r o).
Proof.
  intros h s N M R P p o I.
  pose proof (run_clean h start s N M start_good start_clean R) as C. destruct C.
  destruct (c_disk0 p o I) as (x & J & Q). split; [exists x; split; assumption|].
  apply c_obj0, in_refs in J. unfold target in J. unfold idle in P. rewrite P in J.
  destruct J as [J | [J | (v & V & J)]]; [left; exact J | left; exact J | right].
  apply in_map_iff in V. destruct V as ((r, w) & W & V). cbn [snd] in W. subst w. exists r, v. split; assumption.
Qed.

Lemma fresh_nth : forall ls o i l j, (exists q x, In (q, x) (fresh o i ls) /\ o_level x = l /\ o_id x = j) <->
  exists k, nth_error ls k = Some l /\ j = i + Z.of_nat k.
Proof.
  induction ls as [|a r IH]; intros o i l j; cbn [fresh].
  - split; [intros (q & x & [] & _) | intros ([|k] & H & _); discriminate].
  - split.
    + intros (q & x & [E | I] & L & J).
      * injection E. intros <- <-. cbn in L, J. exists 0%nat. split; [cbn; congruence | lia].
      * destruct (proj1 (IH (o + 1) (i + 1) l j)) as (k & A & B); [exists q, x; tauto|]. exists (S k). split; [exact A | lia].
    + intros ([|k] & A & B).
      * cbn in A. injection A. intros <-. exists o, (OB a i false). cbn. split; [left; reflexivity | split; [reflexivity | lia]].
      * destruct (proj2 (IH (o + 1) (i + 1) l j)) as (q & x & I & L & J); [exists k; split; [exact A | lia]|].
        exists q, x. split; [right; exact I | split; assumption].
Qed.
Lemma named_true : forall dels x, named dels x = true <-> In (o_level x, o_id x) dels.
Proof.
  intros. unfold named. rewrite existsb_exists. split.
  - intros ((a, b) & I & E). cbn [fst snd] in E. apply andb_true_iff in E. destruct E as (A & B).
    apply Z.eqb_eq in A, B. congruence.
  - intros I. exists (o_level x, o_id x). split; [exact I|]. cbn [fst snd]. rewrite !Z.eqb_refl. reflexivity.
Qed.
(* the files of the version that the summary holds *)
Definition tversion (s : state) (l i : Z) : Prop :=
  exists o x, In o (target s) /\ In (o, x) (objs s) /\ o_level x = l /\ o_id x = i.
Lemma edit_target : forall s levels dels s', good s -> step s (FEdit levels dels) = Some s' ->
  forall l i, tversion s' l i <->
    (version s l i /\ ~ In (l, i) dels) \/ exists k, nth_error levels k = Some l /\ i = gen s + Z.of_nat k.
Proof.
  intros s levels dels s' G E l i. cbn [step] in E. destruct (pend s) eqn:PE; [discriminate|].
  injection E. intros <-. clear E. rewrite <- (fresh_nth levels (oid s) (gen s) l i).
  set (hit := fun ox : Z * obj => mem (cur s) (fst ox) && named dels (snd ox)).
  unfold tversion, target. cbn [pend objs]. split.
  - intros (o & x & T & I & L & J). apply in_app_iff in I, T. destruct I as [I | I].
    + right. exists o, x. tauto.
    + apply (edit_old hit) in I. destruct I as (y & I & _ & Q & W & _). destruct T as [T | T].
      * exfalso. apply in_map_iff in T. destruct T as ((q, z) & <- & T). apply fresh_in in T. apply (g_oid s G) in I. cbn [fst] in *. lia.
      * apply in_map_iff in T. destruct T as ((q, z) & Z1 & T). cbn [fst] in Z1. subst q. apply filter_In in T. destruct T as (T & N).
        pose proof (g_one s G _ _ _ I T). subst z. cbn [fst snd] in N. apply andb_true_iff in N. destruct N as (M & N).
        left. split.
        { exists o, y. apply mem_true in M. repeat split; [exact M | exact I | congruence | congruence]. }
        { intros D. replace l with (o_level y) in D by congruence. replace i with (o_id y) in D by congruence.
          apply named_true in D. rewrite D in N. discriminate. }
  - intros [((o & x & C & I & L & J) & D) | (o & x & I & L & J)].
    + assert (N : named dels x = false).
      { destruct (named dels x) eqn:N; [|reflexivity]. exfalso. apply D. apply named_true in N. congruence. }
      exists o, x. repeat split; [| | exact L | exact J].
      * apply in_app_iff. right. apply in_map_iff. exists (o, x). split; [reflexivity|]. apply filter_In. split; [exact I|].
        cbn [fst snd]. rewrite N. apply mem_true in C. rewrite C. reflexivity.
      * apply in_app_iff. right. apply in_map_iff. exists (o, x). split; [|exact I]. cbn [fst snd]. rewrite N, andb_false_r. reflexivity.
    + exists o, x. repeat split; [| | exact L | exact J].
      * apply in_app_iff. left. apply in_map_iff. exists (o, x). split; [reflexivity | exact I].
      * apply in_app_iff. left. exact I.
Qed.
Lemma install_version : forall s e s', e = FInstall \/ (exists g, e = FCrash g) -> step s e = Some s' ->
  forall l i, version s' l i <-> tversion s l i.
Proof.
  intros s e s' K E l i. destruct K as [-> | (g & ->)]; cbn [step] in E.
  - destruct (pend s) as [n|] eqn:PE; [|discriminate]. injection E. intros <-. unfold version, tversion.
    assert (TG : target s = n) by (unfold target; rewrite PE; reflexivity). rewrite TG. cbn [gc cur objs]. split.
    + intros (o & x & C & I & P). apply filter_In in I. exists o, x. tauto.
    + intros (o & x & C & I & P). exists o, x. split; [exact C | split; [|exact P]]. apply filter_In. split; [exact I|].
      cbn [fst]. apply mem_true, in_refs. left. exact C.
  - destruct (forallb _ _); [|discriminate]. injection E. intros <-. unfold version, tversion. cbn [cur objs]. split.
    + intros (o & x & C & I & P). apply filter_In in I. exists o, x. tauto.
    + intros (o & x & C & I & P). exists o, x. split; [exact C | split; [|exact P]]. apply filter_In. split; [exact I|].
      apply mem_true. exact C.
Qed.
Lemma edit_version : forall h s levels dels e s', no_snapshot h -> run start h = Some s ->
  e = FInstall \/ (exists g, e = FCrash g) -> run s [FEdit levels dels; e] = Some s' ->
  forall l i, version s' l i <->
    (version s l i /\ ~ In (l, i) dels) \/ exists k, nth_error levels k = Some l /\ i = gen s + Z.of_nat k.
Proof.
  intros h s levels dels e s' N R K R' l i. pose proof (run_good h start s N start_good R) as G.
  cbn [run] in R'. destruct (step s (FEdit levels dels)) as [s1|] eqn:E; [|discriminate].
  destruct (step s1 e) as [s2|] eqn:F; [|discriminate]. injection R'. intros <-.
  rewrite (install_version s1 e s2 K F l i). apply (edit_target s levels dels s1 G E).
Qed.
Lemma quiet_version : forall s e s', idle s -> (exists r, e = FOpen r \/ e = FClose r \/ e = FCrash r) -> step s e = Some s' ->
  forall l i, version s' l i <-> version s l i.
Proof.
  intros s e s' P (r & [-> | [-> | ->]]) E l i.
  - cbn [step] in E. destruct (mem (map fst (readers s)) r); [discriminate|]. injection E. intros <-. reflexivity.
  - cbn [step] in E. injection E. intros <-. unfold version. cbn [gc cur objs]. split.
    + intros (o & x & C & I & Q). apply filter_In in I. exists o, x. tauto.
    + intros (o & x & C & I & Q). exists o, x. split; [exact C | split; [|exact Q]]. apply filter_In. split; [exact I|].
      cbn [fst]. apply mem_true, in_refs. left. exact C.
  - rewrite (install_version s (FCrash r) s'); [|right; exists r; reflexivity | exact E].
    unfold tversion, target. unfold idle in P. rewrite P. reflexivity.
Qed.
(* a new file id is new *)
Lemma gen_new : forall h s, no_snapshot h -> run start h = Some s -> forall l i, version s l i -> i < gen s.
Proof.
  intros h s N R l i (o & x & _ & I & _ & J). pose proof (run_good h start s N start_good R) as G.
  apply (g_gen s G) in I. lia.
Qed.

(* a file that a crash left behind *)
Record orphan (s : state) : Prop := {
  or_objs : forall ox, In ox (objs s) -> ox = (1, OB 1 2 false);
  or_cur : forall o, In o (cur s) -> o = 1;
  or_pend : pend s = None;
  or_held : forall r v o, In (r, v) (readers s) -> In o v -> o = 1;
  or_disk : In ((true, 1), 0) (disk s)
}.
Lemma orphan_gc : forall s, orphan s -> orphan (gc s).
Proof.
  intros s H. destruct H. split; cbn [gc objs cur pend readers disk]; try assumption.
  - intros ox I. apply filter_In in I. apply or_objs0, I.
  - apply filter_In. split; [assumption|]. cbn [fst]. destruct (dropped s (true, 1)) eqn:D; [|reflexivity].
    unfold dropped in D. apply existsb_exists in D. destruct D as (ox & I & D). apply or_objs0 in I. subst ox.
    cbn [fst snd o_del] in D. rewrite andb_false_r in D. discriminate.
Qed.
Lemma orphan_step : forall s e s', (forall l, e <> FSnapshot l) -> (forall ls dl, e <> FEdit ls dl) ->
  orphan s -> step s e = Some s' -> orphan s'.
Proof.
  intros s e s' NS NE H E. destruct e as [r | r | levels dels | | levels | g]; cbn [step] in E.
  - destruct (mem (map fst (readers s)) r); [discriminate|]. injection E. intros <-. destruct H.
    split; cbn [objs cur pend readers disk]; try assumption.
    intros q v o [I | I] J; [injection I; intros <- _; apply or_cur0; exact J | apply (or_held0 q v o I J)].
  - injection E. intros <-. apply orphan_gc. destruct H. split; cbn [objs cur pend readers disk]; try assumption.
    intros q v o I J. apply filter_In in I. apply (or_held0 q v o (proj1 I) J).
  - exfalso. apply (NE levels dels). reflexivity.
  - destruct H. rewrite or_pend0 in E. discriminate.
  - exfalso. apply (NS levels). reflexivity.
  - destruct (forallb _ _); [|discriminate]. injection E. intros <-. destruct H.
    split; cbn [objs cur pend readers disk]; try assumption.
    + intros ox I. apply filter_In in I. apply or_objs0, I.
    + unfold target. rewrite or_pend0. exact or_cur0.
    + reflexivity.
    + intros r v o [].
Qed.
Lemma orphan_run : forall h s s', no_snapshot h -> (forall ls dl, ~ In (FEdit ls dl) h) -> orphan s -> run s h = Some s' -> orphan s'.
Proof.
  induction h as [|e r IH]; intros s s' N M H R; cbn [run] in R.
  - injection R. intros <-. exact H.
  - destruct (step s e) as [s1|] eqn:E; [|discriminate].
    apply (IH s1); [intros l I; apply (N l); right; exact I | intros ls dl I; apply (M ls dl); right; exact I | | exact R].
    apply (orphan_step s e s1); [intros l ->; apply (N l); left; reflexivity | intros ls dl ->; apply (M ls dl); left; reflexivity | exact H | exact E].
Qed.
Lemma orphan_stays : forall h s', no_snapshot h -> (forall ls dl, ~ In (FEdit ls dl) h) ->
  run (LS [(1, OB 1 2 false)] [1] None [] [((false, 2), 1); ((true, 1), 0)] 3 2) h = Some s' ->
  In ((true, 1), 0) (disk s') /\ ~ live s' 0 /\ forall r, ~ holds s' r 0.
Proof.
  intros h s' N M R.
  assert (H : orphan s').
  { apply (orphan_run h _ s' N M) with (2 := R). split; cbn [objs cur pend readers disk].
    - intros ox [<- | []]. reflexivity.
    - intros o [<- | []]. reflexivity.
    - reflexivity.
    - intros r v o [].
    - right. left. reflexivity. }
  destruct H. split; [assumption|]. split.
  - intros I. apply or_cur0 in I. discriminate.
  - intros r (v & I & J). pose proof (or_held0 r v 0 I J). discriminate.
Qed.
