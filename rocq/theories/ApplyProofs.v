(** Proofs for C52. *)
From Verif Require Import Prelude ApplyModel ApplySpec.

Section PROOFS.
  Variables (S C : Type) (init : S) (apply : S -> C -> S) (decided : list (option C)).
  Notation node := (node S C). Notation after := (state_after init apply decided).
  Notation at_ := (decided_at decided).

  Lemma after_0 : after 0 = init. Proof. reflexivity. Qed.
  Lemma firstn_snoc {A} : forall (l : list A) k x, nth_error l k = Some x -> firstn (k + 1) l = firstn k l ++ [x].
  Proof. induction l as [|y l IH]; intros [|k] x H; try discriminate; cbn in *; [now injection H as ->|]. f_equal. now apply IH. Qed.
  Lemma after_next i c : at_ (i + 1) = Some c -> 0 <= i -> after (i + 1) = app apply (after i) c.
  Proof.
    unfold decided_at, state_after. destruct (i + 1 <=? 0) eqn:E; [discriminate|]. intros H P.
    replace (i + 1 - 1) with i in H by lia. replace (Z.to_nat (i + 1)) with (Z.to_nat i + 1)%nat by lia.
    rewrite (firstn_snoc _ _ _ H), fold_left_app. reflexivity.
  Qed.

  (** A sorted list whose members are exactly the decided entries of ]a, b] replays to the state after b. *)
  Lemma replay_fold : forall (l : list (entry C)) a b, sorted_log l -> 0 <= a <= b ->
    (forall i c, In (i, c) l -> a < i <= b) -> (forall i, a < i <= b -> exists c, In (i, c) l /\ at_ i = Some c) ->
    fold_left (fun s e => app apply s (snd e)) l (after a) = after b.
  Proof.
    induction l as [|[i c] l IH]; intros a b L R I1 I2.
    - destruct (Z.eq_dec a b) as [->|N]; [reflexivity|]. destruct (I2 (a + 1) ltac:(lia)) as (c & [] & _).
    - inversion L as [|x y L' F]; subst. pose proof (I1 i c (or_introl eq_refl)) as Q.
      assert (i = a + 1) as ->.
      { destruct (I2 (a + 1) ltac:(lia)) as (c1 & [E|I3] & _); [now injection E as -> _|]. rewrite Forall_forall in F. specialize (F _ I3). cbn in F. lia. }
      assert (D : at_ (a + 1) = Some c).
      { destruct (I2 (a + 1) ltac:(lia)) as (c1 & [E|I3] & D); [now injection E as ->|]. rewrite Forall_forall in F. specialize (F _ I3). cbn in F. lia. }
      cbn [fold_left snd]. rewrite <- (after_next a c D ltac:(lia)). apply IH; [exact L'|lia| |].
      + intros j d I3. rewrite Forall_forall in F. specialize (F _ I3). cbn in F. pose proof (I1 j d (or_intror I3)). lia.
      + intros j J. destruct (I2 j ltac:(lia)) as (d & [E|I3] & D'); [injection E as E _; lia|]. now exists d.
  Qed.

  Lemma sorted_filter f (l : list (entry C)) : sorted_log l -> sorted_log (filter f l).
  Proof.
    unfold sorted_log. induction 1 as [|x l L IH F]; [constructor|]. cbn. destruct (f x); [|exact IH]. constructor; [exact IH|].
    rewrite Forall_forall in *. intros y I. apply filter_In in I. now apply F.
  Qed.
  Lemma sorted_app_log (l m : list (entry C)) : sorted_log l -> sorted_log m -> (forall x y, In x l -> In y m -> fst x < fst y) -> sorted_log (l ++ m).
  Proof.
    unfold sorted_log. induction 1 as [|x l L IH F]; intros M H; [exact M|]. cbn. constructor; [apply IH; [exact M|intros; apply H; [now right|assumption]]|].
    rewrite Forall_forall in *. intros y I. apply in_app_or in I as [I|I]; [now apply F|apply H; [now left|exact I]].
  Qed.
  Lemma sorted_unique (l : list (entry C)) i c d : sorted_log l -> In (i, c) l -> In (i, d) l -> c = d.
  Proof.
    unfold sorted_log. induction 1 as [|x l L IH F]; intros A B; [destruct A|]. rewrite Forall_forall in F. destruct A as [A|A], B as [B|B]; subst.
    - now injection B.
    - specialize (F _ B). cbn in F. lia.
    - specialize (F _ A). cbn in F. lia.
    - now apply IH.
  Qed.
  Lemma sorted_append (n : node) es : sorted_log (st_log n) -> sorted_log es -> sorted_log (st_log (append_to_log n es)).
  Proof.
    intros L E. destruct es as [|e es]; [exact L|]. cbn [append_to_log st_log]. apply sorted_app_log; [now apply sorted_filter|exact E|].
    intros x y I J. apply filter_In in I as [_ I]. apply Z.ltb_lt in I. inversion E as [|? ? ? F]; subst. destruct J as [<-|J]; [exact I|].
    rewrite Forall_forall in F. specialize (F _ J). lia.
  Qed.
  (** What is logged and decided stays logged. *)
  Definition holds (l : list (entry C)) (a b : Z) := forall i, a < i <= b -> exists c, In (i, c) l /\ at_ i = Some c.
  Lemma holds_append (n : node) es a b : holds (st_log n) a b -> b <= st_applied n -> Forall (fun e => st_applied n < fst e) es -> holds (st_log (append_to_log n es)) a b.
  Proof.
    intros H B F i I. destruct (H i I) as (c & J & D). exists c. split; [|exact D]. destruct es as [|e es]; [exact J|]. cbn [append_to_log st_log].
    apply in_or_app. left. apply filter_In. split; [exact J|]. cbn [fst]. apply Z.ltb_lt. inversion F; subst. lia.
  Qed.

  (** The invariant of a vnode's replica. *)
  Definition vinv (s : node * phase) : Prop := let (n, p) := s in
    sorted_log (st_log n) /\ 0 <= st_last_seq n /\ st_disk n = after (st_last_seq n) /\ st_mem n = after (st_mem_idx n) /\ st_last_seq n <= st_mem_idx n /\ st_mem_idx n <= st_applied n /\
    match p with
    | Idle => st_mem_idx n = st_applied n /\ holds (st_log n) (st_last_seq n) (st_applied n)
    | Applying => st_mem_idx n = st_applied n - 1 /\ holds (st_log n) (st_last_seq n) (st_applied n)
    | Installing => True
    end.

  Lemma vinv_new : vinv (node_new init, Idle).
  Proof. unfold vinv, node_new; cbn. split; [constructor|]. sp; try lia; try reflexivity. intros i I. lia. Qed.

  Lemma vinv_step s e s' : vstep init apply decided s e s' -> vinv s -> vinv s'.
  Proof.
    intros H. destruct H as [n p es E F|n p i Hi|n p i Hi|n c J D|n c J|n p NP|n i Hi Hl|n|n p NP]; cbn [vinv]; intros (L & P0 & DK & MM & LE1 & LE2 & Q).
    - split; [now apply sorted_append|]. destruct es as [|e es]; [exact (conj P0 (conj DK (conj MM (conj LE1 (conj LE2 Q)))))|].
      cbn [append_to_log st_applied st_last_seq st_disk st_mem st_mem_idx]. split; [exact P0|]. split; [exact DK|]. split; [exact MM|]. split; [exact LE1|]. split; [exact LE2|].
      destruct p; [| |exact I]; destruct Q as [Q1 Q2]; (split; [exact Q1|]); apply (holds_append n (e :: es)); auto; lia.
    - cbn [delete_conflict_logs_since st_applied st_last_seq st_disk st_mem st_mem_idx st_log]. split; [now apply sorted_filter|]. sp; try assumption.
      assert (W : holds (st_log n) (st_last_seq n) (st_applied n) -> holds (filter (fun x => fst x <? i) (st_log n)) (st_last_seq n) (st_applied n)).
      { intros W j Hj. destruct (W j Hj) as (c & J & D). exists c. split; [|exact D]. apply filter_In. split; [exact J|]. apply Z.ltb_lt. cbn. lia. }
      destruct p; [| |exact I]; destruct Q as [Q1 Q2]; split; auto.
    - cbn [purge_logs_upto st_applied st_last_seq st_disk st_mem st_mem_idx st_log]. split; [now apply sorted_filter|]. sp; try assumption.
      assert (W : holds (st_log n) (st_last_seq n) (st_applied n) -> holds (filter (fun x => i <? fst x) (st_log n)) (st_last_seq n) (st_applied n)).
      { intros W j Hj. destruct (W j Hj) as (c & J & D). exists c. split; [|exact D]. apply filter_In. split; [exact J|]. apply Z.ltb_lt. cbn. lia. }
      destruct p; [| |exact I]; destruct Q as [Q1 Q2]; split; auto.
    - cbn [mark_applied st_applied st_last_seq st_disk st_mem st_mem_idx st_log]. destruct Q as [Q1 Q2]. split; [exact L|]. sp; try assumption; try lia.
      intros j Hj. destruct (Z.eq_dec j (st_applied n + 1)) as [->|Nj]; [exists c; now split|apply Q2; lia].
    - cbn [engine_apply st_applied st_last_seq st_disk st_mem st_mem_idx st_log fst snd]. destruct Q as [Q1 Q2]. split; [exact L|]. sp; try assumption; try lia; try reflexivity.
      destruct (Q2 (st_applied n) ltac:(lia)) as (c' & J' & D). rewrite (sorted_unique _ _ _ _ L J J') in *.
      replace (st_applied n) with (st_mem_idx n + 1) in D |- * by lia. rewrite (after_next _ c' D) by lia. now rewrite MM.
    - cbn [flush st_applied st_last_seq st_disk st_mem st_mem_idx st_log]. split; [exact L|]. sp; try assumption; try lia.
      destruct p; [| |exact I]; destruct Q as [Q1 Q2]; (split; [exact Q1|]); intros j Hj; apply Q2; lia.
    - cbn [mark_applied st_applied st_last_seq st_disk st_mem st_mem_idx st_log]. split; [exact L|]. sp; try assumption; try lia; exact I.
    - cbn [install_data st_applied st_last_seq st_disk st_mem st_mem_idx st_log]. split; [exact L|]. sp; try reflexivity; try lia. intros j Hj; lia.
    - cbn [restart_vnode st_applied st_last_seq st_disk st_mem st_mem_idx st_log].
      assert (A : holds (st_log n) (st_last_seq n) (st_applied n)) by (destruct p; [apply Q|apply Q|now destruct NP]).
      destruct (st_applied n =? 0) eqn:Z0; [apply Z.eqb_eq in Z0; split; [exact L|]; sp; try assumption; try lia|].
      apply Z.eqb_neq in Z0. split; [now apply sorted_filter|]. sp; try assumption; try lia.
      + rewrite DK. unfold replayed. apply replay_fold; [now apply sorted_filter|lia| |].
        * intros i c J. apply filter_In in J as [_ J]. cbn [fst] in J. lia.
        * intros i Hi. destruct (A i Hi) as (c & J & D). exists c. split; [|exact D]. apply filter_In. split; [exact J|]. cbn [fst]. lia.
      + intros i Hi. destruct (A i Hi) as (c & J & D). exists c. split; [|exact D]. apply filter_In. split; [exact J|]. cbn [fst]. lia.
  Qed.
  Lemma vinv_run s tr s' : vruns init apply decided s tr s' -> vinv s -> vinv s'.
  Proof. induction 1 as [|s1 s2 s3 e tr H1 H2 IH]; intros I; [exact I|]. apply IH. exact (vinv_step _ _ _ H1 I). Qed.

  (** The invariant of a metadata replica without unsafe crashes. *)
  Definition minv (s : node * phase) : Prop := let (n, p) := s in
    sorted_log (st_log n) /\ 0 <= st_last_seq n /\ st_disk n = after (st_last_seq n) /\ st_mem n = st_disk n /\ st_mem_idx n = st_last_seq n /\
    match p with
    | Idle => st_last_seq n = st_applied n
    | Applying => st_last_seq n = st_applied n - 1 /\ exists c, In (st_applied n, c) (st_log n) /\ at_ (st_applied n) = Some c
    | Installing => st_last_seq n < st_applied n
    end.
  Lemma minv_new : minv (node_new init, Idle).
  Proof. unfold minv, node_new; cbn. split; [constructor|]. sp; try lia; reflexivity. Qed.
  Lemma minv_step s e s' : mstep init apply decided true s e s' -> minv s -> minv s'.
  Proof.
    intros H. destruct H as [n p es E F|n p i Hi|n p i Hi NP|n c J D|n c J|n i Hi Hl|n|n p NP]; cbn [minv]; intros (L & P0 & DK & MM & MI & Q).
    - split; [now apply sorted_append|]. destruct es as [|e es]; [exact (conj P0 (conj DK (conj MM (conj MI Q))))|].
      cbn [append_to_log st_applied st_last_seq st_disk st_mem st_mem_idx]. sp; try assumption. destruct p; [exact Q| |exact Q].
      destruct Q as (Q1 & c & J & D). split; [exact Q1|]. exists c. split; [|exact D]. cbn [st_log]. apply in_or_app; left. apply filter_In. split; [exact J|]. inversion F; subst. cbn [fst]. lia.
    - cbn [delete_conflict_logs_since st_applied st_last_seq st_disk st_mem st_mem_idx st_log]. split; [now apply sorted_filter|]. sp; try assumption.
      destruct p; [exact Q| |exact Q]. destruct Q as (Q1 & c & J & D). split; [exact Q1|]. exists c. split; [|exact D]. apply filter_In. split; [exact J|]. cbn [fst]. lia.
    - subst p. cbn [purge_logs_upto st_applied st_last_seq st_disk st_mem st_mem_idx st_log]. split; [now apply sorted_filter|]. sp; assumption.
    - cbn [mark_applied st_applied st_last_seq st_disk st_mem st_mem_idx st_log]. split; [exact L|]. sp; try assumption; try lia. exists c. now split.
    - cbn [engine_apply_durable engine_apply flush st_applied st_last_seq st_disk st_mem st_mem_idx st_log fst snd]. destruct Q as (Q1 & c' & J' & D). split; [exact L|].
      sp; try reflexivity; try lia. rewrite (sorted_unique _ _ _ _ L J J') in *.
      replace (st_applied n) with (st_last_seq n + 1) in D |- * by lia. rewrite (after_next _ c' D) by lia. now rewrite MM, DK.
    - cbn [mark_applied st_applied st_last_seq st_disk st_mem st_mem_idx st_log]. split; [exact L|]. sp; try assumption; try lia.
    - cbn [install_data st_applied st_last_seq st_disk st_mem st_mem_idx st_log]. split; [exact L|]. sp; try reflexivity; try lia.
    - rewrite (NP eq_refl) in *. cbn [restart_meta st_applied st_last_seq st_disk st_mem st_mem_idx st_log]. split; [exact L|]. sp; try assumption; reflexivity.
  Qed.
  Lemma minv_run s tr s' : mruns init apply decided true s tr s' -> minv s -> minv s'.
  Proof. induction 1 as [|s1 s2 s3 e tr H1 H2 IH]; intros I; [exact I|]. apply IH. exact (minv_step _ _ _ H1 I). Qed.

  Lemma vnode_up_to_date tr n : vruns init apply decided (node_new init, Idle) tr (n, Idle) -> up_to_date init apply decided n.
  Proof. intros R. destruct (vinv_run _ _ _ R vinv_new) as (_ & _ & _ & M & _ & _ & Q & _). split; [now rewrite M, Q|exact Q]. Qed.
  Lemma meta_up_to_date tr n : mruns init apply decided true (node_new init, Idle) tr (n, Idle) -> up_to_date init apply decided n.
  Proof. intros R. destruct (minv_run _ _ _ R minv_new) as (_ & _ & DK & M & MI & Q). split; [now rewrite M, DK, Q|now rewrite MI]. Qed.
  (** What a vnode's replica has flushed is always a state of the agreed history, at an index it has applied. *)
  Lemma vnode_files tr n p : vruns init apply decided (node_new init, Idle) tr (n, p) ->
    st_disk n = after (st_last_seq n) /\ 0 <= st_last_seq n <= st_applied n.
  Proof. intros R. destruct (vinv_run _ _ _ R vinv_new) as (_ & P0 & DK & _ & A & B & _). split; [exact DK|lia]. Qed.
  (** A restart leaves the applied index alone. *)
  Lemma vnode_applied_kept s e s' : vstep init apply decided s e s' -> st_applied (fst s) <= st_applied (fst s').
  Proof.
    intros H. destruct H as [n p es E F|n p i Hi|n p i Hi|n c J D|n c J|n p NP|n i Hi Hl|n|n p NP]; cbn [fst]; try (cbn; lia).
    destruct es; cbn; lia.
  Qed.
  Lemma vnode_applied_run s tr s' : vruns init apply decided s tr s' -> st_applied (fst s) <= st_applied (fst s').
  Proof. induction 1 as [|s1 s2 s3 e tr H1 H2 IH]; [lia|]. pose proof (vnode_applied_kept _ _ _ H1). lia. Qed.
  Lemma run_app s1 tr1 s2 tr2 s3 : vruns init apply decided s1 tr1 s2 -> vruns init apply decided s2 tr2 s3 -> vruns init apply decided s1 (tr1 ++ tr2) s3.
  Proof. induction 1; intros; [assumption|]. cbn. econstructor; eauto. Qed.
End PROOFS.
