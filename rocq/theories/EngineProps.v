(** Queries against a history of writes, deletes, flushes and compactions (C22, C28). *)
From Verif Require Import Prelude MergeModel MergeSpec MergeProofs MemModel MemSpec MemProofs ReadModel ReadSpec ReadProofs CompactModel CompactSpec EngineModel EngineSpec EngineProofs.
Open Scope Z_scope.

(** For every history without compactions, flushes in any state of progress and applied in any
    order, a query returns the rows that exist, each column with the value written last.
    Missing: histories with compactions, see below. *)
Theorem C22_latest_write_partial : forall cols bs h l, NoDup cols -> (1 <= bs)%nat ->
  Forall (op_ok cols) h -> deletes_idle cols bs h -> Forall (fun o => is_compaction o = false) h ->
  time_sorted (chunks (erun cols bs h)) l ->
  exists out, read_series (length cols) bs (fun _ => true) l = Some out /\ merged (length cols) (rows_after h) out.
Proof. intros. apply engine_latest; auto. Qed.
Print Assumptions C22_latest_write_partial.

Lemma shows_once w L out : shows w L out -> NoDup (map r_ts L) -> Forall (fun r => length (r_cols r) = w) L -> merged w L out.
Proof.
  intros (S1 & S2 & S3) N F. split; auto. split; auto. intros r Hr. destruct (S3 r Hr) as [L1 C1]. split; auto. intros c Hc. specialize (C1 c Hc).
  assert (HI : In (r_ts r) (map r_ts L)) by (apply S2, in_map; auto). apply in_map_iff in HI as (x & Ex & Hx). rewrite <- Ex, (rows_at_nodup L x N Hx).
  cbn [map]. unfold last_value. cbn [fold_left]. destruct (col c r) as [v|].
  - destruct C1 as (y & Hy & Ey & Ev). assert (y = x) as -> by (apply (nodup_row L); auto; congruence). rewrite Ev. reflexivity.
  - rewrite (C1 x Hx Ex). reflexivity.
Qed.
Lemma rows_written_app a b : rows_written (a ++ b) = rows_written a ++ rows_written b.
Proof. unfold rows_written. rewrite map_app, concat_app. reflexivity. Qed.
Lemma nodup_filter_ts f (l : list mrow) : NoDup (map r_ts l) -> NoDup (map r_ts (filter f l)).
Proof.
  induction l as [|x l IH]; intros H; auto. cbn [map filter] in *. inversion H; subst. destruct (f x); auto. cbn [map]. constructor; auto.
  intros HI. apply H2. apply in_map_iff in HI as (y & E & Hy). apply filter_In in Hy as [Hy _]. apply in_map_iff. eauto.
Qed.
Lemma rows_after_written h : (forall r, In r (rows_after h) -> In r (rows_written h)) /\
  (NoDup (map r_ts (rows_written h)) -> NoDup (map r_ts (rows_after h))).
Proof.
  induction h as [|o h [IH1 IH2]] using rev_ind; [cbn; auto|]. rewrite rows_written_app, rows_after_snoc.
  destruct o; cbn [rstep]; try (unfold rows_written at 2 4; cbn [map concat]; rewrite app_nil_r; auto; fail).
  - unfold rows_written at 2 4. cbn [map concat]. rewrite app_nil_r. split.
    + intros r Hr. apply in_app_iff in Hr. apply in_app_iff. destruct Hr; auto.
    + rewrite !map_app, !nodup_app_iff. intros (N1 & N2 & N3). split; auto. split; auto.
      intros x Hx. apply N3. apply in_map_iff in Hx as (r & <- & Hr). apply in_map; auto.
  - unfold rows_written at 2 4. cbn [map concat]. rewrite app_nil_r. split.
    + intros r Hr. apply filter_In in Hr as [Hr _]. auto.
    + intros N. apply nodup_filter_ts. auto.
Qed.
Lemma written_width cols h : Forall (op_ok cols) h -> Forall (fun r => length (r_cols r) = length cols) (rows_written h).
Proof.
  induction h as [|o h IH]; intros H; [constructor|]. inversion H; subst. change (o :: h) with ([o] ++ h). rewrite rows_written_app. apply Forall_app. split; auto.
  unfold rows_written. cbn [map concat]. rewrite app_nil_r. destruct o; try constructor. destruct H2 as (_ & _ & F). eapply Forall_impl; [|exact F]. cbn. tauto.
Qed.

(** With compactions, in any state of progress, whatever files they pick in whatever order: if no
    time stamp is written twice, a query returns exactly the rows that exist. *)
Theorem C22_written_once : forall cols bs h l, NoDup cols -> (1 <= bs)%nat ->
  Forall (op_ok cols) h -> deletes_idle cols bs h -> NoDup (map r_ts (rows_written h)) ->
  time_sorted (chunks (erun cols bs h)) l ->
  exists out, read_series (length cols) bs (fun _ => true) l = Some out /\ merged (length cols) (rows_after h) out.
Proof.
  intros cols bs h l Hn Hb Ho Hd HN T. destruct (engine_shows cols Hn bs Hb h l Ho Hd T) as (out & R & S). exists out. split; auto.
  destruct (rows_after_written h) as [W1 W2]. apply shows_once; auto. pose proof (written_width cols h Ho) as F. rewrite Forall_forall in *. auto.
Qed.
Print Assumptions C22_written_once.

(** For every history with compactions: a query returns the time stamps that exist, each value shown
    was written there and not deleted since, and a null is shown only if nothing else was written.
    Only which of several written values is shown can be wrong. *)
Theorem C22_some_write : forall cols bs h l, NoDup cols -> (1 <= bs)%nat ->
  Forall (op_ok cols) h -> deletes_idle cols bs h -> time_sorted (chunks (erun cols bs h)) l ->
  exists out, read_series (length cols) bs (fun _ => true) l = Some out /\ shows (length cols) (rows_after h) out.
Proof. intros. apply engine_shows; auto. Qed.
Print Assumptions C22_some_write.

Local Ltac ss := repeat first [apply SSorted_nil | apply SSorted_cons | apply Forall_nil | apply Forall_cons].
Definition wr (t v : Z) : eop := EWrite [MR t [Some v]].
Lemma wr_ok t v : I64_MIN <= t < I64_MAX -> op_ok [1] (wr t v).
Proof. intros H. cbn. split; [discriminate|]. split; [constructor; [intros []|constructor]|]. constructor; [cbn; auto|constructor]. Qed.
Definition flush (id : Z) : list eop := [EFlushRead id; EFlushApply id].
(** The full statement is false.  The output of a compaction takes a file id higher than that of the
    cache being written: the value written after the compaction loses to the compacted one, before
    and after its own flush. *)
Definition stale : list eop :=
  [wr 1 10; ESwitch] ++ flush 1 ++ [ECompactRead [1] I64_MIN I64_MAX; ECompactApply 3; wr 1 20].
Theorem C22_compaction_refuted : exists cols bs h, NoDup cols /\ (1 <= bs)%nat /\ Forall (op_ok cols) h /\ deletes_idle cols bs h /\
  rows_after h = [MR 1 [Some 10]; MR 1 [Some 20]] /\
  answers cols bs (erun cols bs h) [MR 1 [Some 10]] /\
  answers cols bs (erun cols bs (h ++ ESwitch :: flush 2)) [MR 1 [Some 10]].
Proof.
  exists [1], 4%nat, stale. split; [constructor; [intros []|constructor]|]. split; [lia|]. split.
  { unfold stale, flush. cbn [app]. repeat (apply Forall_cons; [first [exact I | apply wr_ok; i64; cbn; lia]|]). apply Forall_nil. }
  split.
  { intros b trs a E. exfalso. unfold stale, flush in E. cbn [app] in E.
    repeat (destruct b as [|? b]; cbn [app] in E; [discriminate|injection E as ? E]). destruct b; discriminate. }
  split; [reflexivity|]. split.
  - exists (chunks (erun [1] 4 stale)). split; [|vm_compute; reflexivity]. split; [apply Permutation_refl|].
    assert (E : chunks (erun [1] 4 stale) = [CH 3 1 1 [MR 1 [Some 10]]; CH 2 1 1 [MR 1 [Some 20]]]) by (vm_compute; reflexivity).
    rewrite E. ss. right. cbn. lia.
  - set (h2 := stale ++ ESwitch :: flush 2). exists (chunks (erun [1] 4 h2)). split; [|vm_compute; reflexivity]. split; [apply Permutation_refl|].
    assert (E : chunks (erun [1] 4 h2) = [CH 3 1 1 [MR 1 [Some 10]]; CH 2 1 1 [MR 1 [Some 20]]]) by (vm_compute; reflexivity).
    rewrite E. ss. right. cbn. lia.
Qed.
Print Assumptions C22_compaction_refuted.

(** C28.  When deletes are not processed in the middle of a flush or compaction (they may be between
    any two), a row returned inside a deleted range was written after the delete, and so was every
    value shown in it; whatever is flushed and compacted later.
    Missing: deletes in the middle of a flush or a compaction, see below. *)
Theorem C28_stays_deleted_partial : forall cols bs before trs after l out r, NoDup cols -> (1 <= bs)%nat ->
  let h := before ++ EDelete trs :: after in
  Forall (op_ok cols) h -> deletes_idle cols bs h -> time_sorted (chunks (erun cols bs h)) l ->
  read_series (length cols) bs (fun _ => true) l = Some out -> In r out -> in_ranges trs (r_ts r) = true ->
  In (r_ts r) (map r_ts (rows_written after)) /\
  forall c v, (c < length cols)%nat -> col c r = Some v ->
    exists x, In x (rows_written after) /\ r_ts x = r_ts r /\ col c x = Some v.
Proof.
  intros cols bs b trs a l out r Hn Hb h Ho Hd T R Hr Ht. destruct (engine_shows cols Hn bs Hb h l Ho Hd T) as (out' & R' & (S1 & S2 & S3)).
  rewrite R in R'. injection R' as <-.
  assert (HA : forall x, In x (rows_after h) -> in_ranges trs (r_ts x) = true -> In x (rows_written a)).
  { unfold h. clear. intros x Hx Hi. revert x Hx Hi. induction a as [|o a IH] using rev_ind; intros x Hx Hi.
    - exfalso. rewrite rows_after_snoc in Hx. cbn [rstep] in Hx. apply filter_In in Hx as [_ Hx]. rewrite Hi in Hx. discriminate.
    - change (b ++ EDelete trs :: a ++ [o]) with (b ++ (EDelete trs :: a) ++ [o]) in Hx. rewrite app_assoc, rows_after_snoc in Hx. rewrite rows_written_app.
      apply in_app_iff. destruct o; cbn [rstep] in Hx; auto.
      + apply in_app_iff in Hx as [Hx | Hx]; auto. right. unfold rows_written. cbn [map concat]. rewrite app_nil_r. auto.
      + apply filter_In in Hx as [Hx _]. auto. }
  split.
  - assert (HI : In (r_ts r) (map r_ts (rows_after h))) by (apply S2, in_map; auto). apply in_map_iff in HI as (x & Ex & Hx).
    apply in_map_iff. exists x. split; auto. apply HA; auto. rewrite Ex. auto.
  - intros c v Hc Ev. destruct (S3 r Hr) as [_ C]. specialize (C c Hc). rewrite Ev in C. destruct C as (x & Hx & Ex & Evx). exists x. split; auto.
    apply HA; auto. rewrite Ex. auto.
Qed.
Print Assumptions C28_stays_deleted_partial.

Local Ltac one_chunk := split; [apply Permutation_refl|]; ss; try (right; cbn; lia); try (left; cbn; lia).
Local Ltac ops_ok := cbn [app flush]; repeat (apply Forall_cons; [first [exact I | apply wr_ok; i64; cbn; lia | idtac]|]); try apply Forall_nil.
(** The full statement is false, in three ways.  First: a delete that arrives after the flush has read
    the cache and before the flushed file is installed.  The delete is applied to the cache, which is
    dropped, and not to the file. *)
Theorem C28_flush_refuted : exists cols bs before trs after, NoDup cols /\ (1 <= bs)%nat /\
  let h := before ++ EDelete trs :: after in
  Forall (op_ok cols) h /\ rows_written after = [] /\ rows_after h = [] /\
  answers cols bs (erun cols bs (before ++ [EDelete trs])) [] /\
  answers cols bs (erun cols bs h) [MR 1 [Some 10]].
Proof.
  exists [1], 4%nat, [wr 1 10; ESwitch; EFlushRead 1], [(0, 5)], [EFlushApply 1]. split; [constructor; [intros []|constructor]|]. split; [lia|].
  cbn zeta. split; [ops_ok|]. split; [reflexivity|]. split; [reflexivity|]. split.
  - exists [CH 1 1 1 []]. split; [|vm_compute; reflexivity].
    assert (E : chunks (erun [1] 4 ([wr 1 10; ESwitch; EFlushRead 1] ++ [EDelete [(0, 5)]])) = [CH 1 1 1 []]) by (vm_compute; reflexivity). rewrite E. one_chunk.
  - exists [CH 1 1 1 [MR 1 [Some 10]]]. split; [|vm_compute; reflexivity].
    assert (E : chunks (erun [1] 4 ([wr 1 10; ESwitch; EFlushRead 1] ++ EDelete [(0, 5)] :: [EFlushApply 1])) = [CH 1 1 1 [MR 1 [Some 10]]]) by (vm_compute; reflexivity).
    rewrite E. one_chunk.
Qed.
Print Assumptions C28_flush_refuted.

(** Second: a delete that arrives after a compaction has read its inputs.  The tombstone goes to the
    input files, which are dropped. *)
Theorem C28_compaction_refuted : exists cols bs before trs after, NoDup cols /\ (1 <= bs)%nat /\
  let h := before ++ EDelete trs :: after in
  Forall (op_ok cols) h /\ rows_written after = [] /\ rows_after h = [] /\
  answers cols bs (erun cols bs (before ++ [EDelete trs])) [] /\
  answers cols bs (erun cols bs h) [MR 1 [Some 10]].
Proof.
  set (b := [wr 1 10; ESwitch] ++ flush 1 ++ [ECompactRead [1] I64_MIN I64_MAX]).
  exists [1], 4%nat, b, [(0, 5)], [ECompactApply 3]. split; [constructor; [intros []|constructor]|]. split; [lia|].
  cbn zeta. split; [unfold b; ops_ok|]. split; [reflexivity|]. split; [reflexivity|]. split.
  - exists [CH 1 1 1 []]. split; [|vm_compute; reflexivity].
    assert (E : chunks (erun [1] 4 (b ++ [EDelete [(0, 5)]])) = [CH 1 1 1 []]) by (vm_compute; reflexivity). rewrite E. one_chunk.
  - exists [CH 3 1 1 [MR 1 [Some 10]]]. split; [|vm_compute; reflexivity].
    assert (E : chunks (erun [1] 4 (b ++ EDelete [(0, 5)] :: [ECompactApply 3])) = [CH 3 1 1 [MR 1 [Some 10]]]) by (vm_compute; reflexivity).
    rewrite E. one_chunk.
Qed.
Print Assumptions C28_compaction_refuted.

(** Third: a delta compaction that takes over part [0, 5] of a file, and a delete of another part,
    [8, 9], meanwhile.  The tombstone file with the delete is replaced by the one saved before it. *)
Theorem C28_tombstone_lost_refuted : exists cols bs before trs after, NoDup cols /\ (1 <= bs)%nat /\
  let h := before ++ EDelete trs :: after in
  Forall (op_ok cols) h /\ rows_written after = [] /\ rows_after h = [MR 1 [Some 10]] /\
  answers cols bs (erun cols bs (before ++ [EDelete trs])) [MR 1 [Some 10]] /\
  answers cols bs (erun cols bs h) [MR 1 [Some 10]; MR 9 [Some 3]].
Proof.
  set (b := [EWrite [MR 1 [Some 10]; MR 9 [Some 3]]; ESwitch] ++ flush 1 ++ [ECompactRead [1] 0 5]).
  exists [1], 4%nat, b, [(8, 9)], [ECompactApply 3]. split; [constructor; [intros []|constructor]|]. split; [lia|].
  cbn zeta. split.
  { unfold b. ops_ok. split; [discriminate|]. split; [cbn; repeat constructor; cbn; lia || tauto|]. repeat constructor; cbn; i64; cbn; lia. }
  split; [reflexivity|]. split; [reflexivity|]. split.
  - exists [CH 1 1 9 [MR 1 [Some 10]]]. split; [|vm_compute; reflexivity].
    assert (E : chunks (erun [1] 4 (b ++ [EDelete [(8, 9)]])) = [CH 1 1 9 [MR 1 [Some 10]]]) by (vm_compute; reflexivity). rewrite E. one_chunk.
  - exists [CH 3 1 1 [MR 1 [Some 10]]; CH 1 1 9 [MR 9 [Some 3]]]. split; [|vm_compute; reflexivity].
    assert (E : chunks (erun [1] 4 (b ++ EDelete [(8, 9)] :: [ECompactApply 3])) = [CH 1 1 9 [MR 9 [Some 3]]; CH 3 1 1 [MR 1 [Some 10]]]) by (vm_compute; reflexivity).
    rewrite E. split; [apply perm_swap|]. ss. right. cbn. lia.
Qed.
Print Assumptions C28_tombstone_lost_refuted.

(** Non-vacuity: two columns, overlapping flushes applied out of order, a delete between flushes, a
    partial delta compaction, rewrites. *)
Definition busy_day : list eop :=
  [EWrite [MR 5 [Some 1; None]; MR 2 [Some 2; Some 7]]; ESwitch;
   EWrite [MR 5 [None; Some 3]; MR 8 [Some 4; None]]; ESwitch;
   EFlushRead 1; EFlushRead 2; EFlushApply 2; EWrite [MR 2 [Some 9; None]]; EFlushApply 1;
   EDelete [(7, 8); (-3, 1)]; EWrite [MR 8 [None; Some 6]]].
Definition busy_night : list eop := busy_day ++ [ESwitch; EFlushRead 3; ECompactRead [1; 2] 3 9; EFlushApply 3; ECompactApply 5; EWrite [MR 11 [Some 0; None]]].
Definition idleb (e : engine) : bool :=
  match e_jobs e with [] => forallb (fun k => match k_page k with None => true | _ => false end) (e_imm e) | _ => false end.
Fixpoint idlesb (cols : list Z) (bs : nat) (e : engine) (h : list eop) : bool :=
  match h with [] => true | o :: h => (match o with EDelete _ => idleb e | _ => true end) && idlesb cols bs (estep cols bs e o) h end.
Lemma idlesb_ok cols bs h : idlesb cols bs en_new h = true -> deletes_idle cols bs h.
Proof.
  intros H b trs a E. unfold erun. assert (G : forall e h, idlesb cols bs e h = true -> forall b, h = b ++ EDelete trs :: a -> idle (fold_left (estep cols bs) b e)).
  { clear. intros e h. revert e. induction h as [|o h IH]; intros e H b E; [destruct b; discriminate|]. cbn [idlesb] in H. apply andb_true_iff in H as [H1 H2].
    destruct b as [|x b]; cbn [app] in E; injection E as -> E.
    - cbn [fold_left]. unfold idleb in H1. unfold idle. destruct (e_jobs e); [|discriminate]. split; auto. rewrite forallb_forall in H1. apply Forall_forall. intros k Hk.
      specialize (H1 k Hk). destruct (k_page k); [discriminate|auto].
    - cbn [fold_left]. apply IH; auto. }
  apply (G en_new h); auto.
Qed.
Example C22_nonvacuous :
  Forall (op_ok [1; 2]) busy_night /\ deletes_idle [1; 2] 4 busy_night /\
  rows_after busy_day = [MR 5 [Some 1; None]; MR 2 [Some 2; Some 7]; MR 5 [None; Some 3]; MR 2 [Some 9; None]; MR 8 [None; Some 6]] /\
  answers [1; 2] 4 (erun [1; 2] 4 busy_day) [MR 2 [Some 9; Some 7]; MR 5 [Some 1; Some 3]; MR 8 [None; Some 6]] /\
  answers [1; 2] 4 (erun [1; 2] 4 busy_night) [MR 2 [Some 9; Some 7]; MR 5 [Some 1; Some 3]; MR 8 [None; Some 6]; MR 11 [Some 0; None]].
Proof.
  split.
  { unfold busy_night, busy_day. cbn [app]. repeat (apply Forall_cons; [first [exact I | idtac]|]); try apply Forall_nil;
    (split; [discriminate|]; split; [cbn; repeat constructor; cbn; intuition lia|]; repeat constructor; cbn; i64; cbn; lia). }
  split; [apply idlesb_ok; vm_compute; reflexivity|]. split; [reflexivity|]. split.
  - set (c1 := CH 2 5 8 [MR 5 [None; Some 3]]). set (c2 := CH 1 2 5 [MR 2 [Some 2; Some 7]; MR 5 [Some 1; None]]). set (c3 := CH 3 2 8 [MR 2 [Some 9; None]; MR 8 [None; Some 6]]).
    exists [c2; c3; c1]. split; [|vm_compute; reflexivity].
    assert (E : chunks (erun [1; 2] 4 busy_day) = [c1; c2; c3]) by (vm_compute; reflexivity). rewrite E.
    split; [apply (Permutation_app_comm [c1] [c2; c3])|]. ss; unfold range_le; cbn; lia.
  - exists (chunks (erun [1; 2] 4 busy_night)). split; [|vm_compute; reflexivity]. split; [apply Permutation_refl|].
    match goal with |- StronglySorted _ ?x => let y := eval vm_compute in x in assert (E : x = y) by (vm_compute; reflexivity); rewrite E end. ss; unfold range_le; cbn; lia.
Qed.
Example C28_nonvacuous : exists before trs after, busy_night = before ++ EDelete trs :: after /\ in_ranges trs 8 = true /\ In (MR 8 [None; Some 6]) (rows_written after) /\ In (MR 8 [Some 4; None]) (rows_written before).
Proof.
  exists (firstn 9 busy_day), [(7, 8); (-3, 1)], (skipn 10 busy_night). split; [reflexivity|]. split; [reflexivity|]. split; vm_compute; tauto.
Qed.
