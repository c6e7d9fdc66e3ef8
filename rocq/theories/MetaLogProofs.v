(** Proofs about the change log (C38). *)
From Verif Require Import Prelude MetaModel MetaSpec MetaProofs MetaProofs2 MetaProofs3 MetaEffectSpec MetaEffectProofs MetaLogSpec.
Open Scope Z_scope.

(** What insertions, removals and taking ids keep, every command keeps. *)
Section Keep.
Variable P : st -> Prop.
Hypothesis Hi : forall s k v, P s -> P (insert s k v).
Hypothesis Hr : forall s k, P s -> P (remove s k).
Hypothesis Hf : forall s c n, P s -> P (snd (fetch_add s c n)).
Lemma insert_pre s k v : P s -> P (insert s k v). Proof. apply Hi. Qed.
Lemma remove_pre s k : P s -> P (remove s k). Proof. apply Hr. Qed.
Lemma fold_remove_pre {A} (f : A -> str) l : forall s, P s -> P (fold_left (fun s x => remove s (f x)) l s).
Proof. induction l as [|x l IH]; cbn; [auto|]. intros s H. apply IH, remove_pre, H. Qed.
Lemma fold_insert_pre {A} (f : A -> str) (g : A -> value) l : forall s, P s -> P (fold_left (fun s x => insert s (f x) (g x)) l s).
Proof. induction l as [|x l IH]; cbn; [auto|]. intros s H. apply IH, insert_pre, H. Qed.
Lemma try_all_pre {A} (f : st -> A -> st * reply) : (forall s x, P s -> P (fst (f s x))) -> forall l s, P s -> P (fst (try_all f s l)).
Proof.
  intros F l. induction l as [|x l IH]; cbn; [auto|]. intros s H. specialize (F s x H). destruct (f s x) as [s1 []]; cbn in F; auto.
Qed.
Lemma fetch_add_pre s c n : P s -> P (snd (fetch_add s c n)). Proof. apply Hf. Qed.
Lemma set_limiter_pre s c t l : P s -> P (set_limiter s c t l).
Proof. destruct l; cbn; [apply insert_pre|apply remove_pre]. Qed.
Lemma write_mark_pre s c n l : P s -> P (fst (process_write_mark s c n l)).
Proof. intro H. unfold process_write_mark. destruct (read_mark s c) as [[]|]; [|exact H]. destruct (_ || _); [exact H|]. now apply insert_pre. Qed.
Lemma remove_member_pre s c uid t : P s -> P (fst (process_remove_member s c uid t)).
Proof. intro H. unfold process_remove_member. destruct (contains _ _); [now apply remove_pre|exact H]. Qed.
Lemma drop_role_pre s c r t : P s -> P (fst (process_drop_role s c r t)).
Proof. intro H. unfold process_drop_role. destruct (contains _ _); [now apply remove_pre|exact H]. Qed.
Lemma drop_tenant_pre e s c n : P s -> P (fst (process_drop_tenant e s c n)).
Proof.
  intro H. unfold process_drop_tenant. destruct (read_members e s c n) as [ms|]; [|auto]. destruct (read_users e s c) as [us|]; [|auto].
  match goal with |- context [try_all ?f s ?l] => pose proof (try_all_pre f (fun s x => remove_member_pre s c (u_id x) n) l s H) as T1;
    destruct (try_all f s l) as [s1 r1] end. cbn in T1.
  assert (G : P (fst (match read_roles e s1 c n with
       | Some rs => match try_all (fun s r => process_drop_role s c (ro_name r) n) s1 rs with
                    | (s2, Refused) => (s2, Refused)
                    | (s2, _) => (remove (remove s2 (k_tenant c n)) (k_limiter c n), Done) end
       | None => (s1, Refused) end))).
  { destruct (read_roles e s1 c n) as [rs|]; [|apply T1].
    match goal with |- context [try_all ?f s1 ?l] => pose proof (try_all_pre f (fun s x => drop_role_pre s c (ro_name x) n) l s1 T1) as T2;
      destruct (try_all f s1 l) as [s2 r2] end. cbn in T2.
    destruct r2; cbn [fst]; auto using remove_pre. }
  destruct r1; [apply G|apply T1|apply G].
Qed.
Lemma step_pre e s x : P s -> P (fst (step e s x)).
Proof.
  intro H. destruct x; cbn [step]; try (exact H); try (apply insert_pre, H); try (apply remove_pre, H);
    try (apply drop_tenant_pre, H); try (apply remove_member_pre, H); try (apply drop_role_pre, H); try (apply write_mark_pre, H).
  - unfold process_add_node. destruct (children_values _ _ _ _ _); [|auto]. destruct (existsb _ _); [auto|]. cbn [fst].
    apply write_mark_pre, insert_pre, H.
  - unfold process_create_db. destruct (contains _ _); [auto|]. destruct (db_schema_valid _ _ _ _); [|auto].
    rewrite with_meta_fst. apply insert_pre, H.
  - unfold process_alter_db. destruct (contains _ _); [|auto]. destruct (db_schema_valid _ _ _ _); [|auto]. cbn [negb].
    rewrite with_meta_fst. apply insert_pre, H.
  - unfold process_db_hidden. destruct (get_as _ _ _); auto. rewrite with_meta_fst. apply insert_pre, H.
  - unfold process_drop_db. cbn [fst]. apply (fold_remove_pre (fun k => k)). apply (fold_remove_pre (fun k => k)). apply remove_pre, H.
  - unfold process_drop_table. destruct (contains _ _); [|auto]. apply remove_pre, H.
  - unfold process_create_table. destruct (contains s (k_db c t (tb_db tb))); [|auto]. cbn [negb]. destruct (contains _ _); [auto|].
    rewrite with_meta_fst. apply insert_pre, H.
  - unfold process_update_table. destruct (get_as as_table _ _) as [| |a]; [apply insert_pre, H|exact H|].
    destruct (_ && _); [|auto]. destruct (_ =? _); [|auto]. apply insert_pre, H.
  - unfold process_create_bucket. destruct (children_values _ _ _ _ _) as [bs|]; [|auto]. destruct (existsb _ _); [auto|].
    destruct (get_as as_db s (k_db c t d)) as [| |a] eqn:G; auto.
    destruct (valid_nodes e s c) as [ns|]; [|auto]. destruct (negb _); [auto|]. destruct (_ =? 0); [auto|]. destruct (_ <? _); [auto|].
    destruct (fetch_add s c 1) as [id s1] eqn:F. destruct (BucketModel.get_time_range _ _) as [b0 e0].
    assert (M : P s1) by (change s1 with (snd (id, s1)); rewrite <- F; apply Hf, H).
    destruct (BucketModel.allocation_replication_set _ _ _ _) as [[g used]|]; [|exact M].
    rewrite with_meta_fst. apply insert_pre, fetch_add_pre, M.
  - unfold process_create_user. destruct (contains _ _); [auto|]. apply insert_pre, H.
  - unfold process_alter_user. destruct (get_as _ _ _); auto. apply insert_pre, H.
  - unfold process_drop_user. destruct (get_as as_user s (k_user c n)); auto. destruct (children_values _ _ _ _ _); auto.
    cbn [fst]. apply remove_pre. apply (fold_remove_pre (fun t => k_member (t_name t) (t_name t) (u_id a))), H.
  - unfold process_create_tenant. destruct (contains _ _); [auto|]. apply insert_pre, set_limiter_pre, H.
  - unfold process_alter_tenant. destruct (get_as _ _ _); auto. destruct (t_hidden _); [auto|]. apply set_limiter_pre, insert_pre, H.
  - unfold process_tenant_hidden. destruct (get_as _ _ _); auto. apply set_limiter_pre, insert_pre, H.
  - unfold process_add_member. destruct (contains _ _); [auto|]. destruct (role_known _ _ _ _); [|auto]. apply insert_pre, H.
  - unfold process_reasign. destruct (contains _ _); [|auto]. destruct (role_known _ _ _ _); [|auto]. apply insert_pre, H.
  - unfold process_create_role. destruct (contains _ _); [auto|]. apply insert_pre, H.
  - unfold process_grant. destruct (get_as _ _ _); auto. destruct (grant_all _ _ _ _ _); [|auto]. apply insert_pre, H.
  - unfold process_revoke. destruct (get_as _ _ _); auto. destruct (revoke_all _ _); [|auto]. apply insert_pre, H.
  - exact (Hf s c n H).
  - unfold process_update_repl_set. destruct (get_as _ _ _); auto. cbn [fst].
    match goal with |- context [match ?l with [] => _ | _ :: _ => _ end] => destruct l end; [apply remove_pre, H|apply insert_pre, H].
  - unfold process_change_leader. destruct (get_as _ _ _); auto. apply insert_pre, H.
  - unfold process_update_vnode. destruct (get_as _ _ _); auto. apply insert_pre, H.
  - unfold process_limiter. destruct (get_as as_limiter _ _) as [| |a]; auto. destruct (get kind a); [|auto].
    destruct (RateModel.acquire_closed _ _ _). apply set_limiter_pre, H.
  - unfold process_move_query. destruct (children_values _ _ _ _ _) as [qs|]; [|auto]. cbn [fst].
    apply (fold_insert_pre (fun q => k_query c (q_id q)) (fun q => VQuery (QU (q_id q) dst (q_rest q)))), H.
Qed.
End Keep.

Lemma newest_other k k' d v l : k <> k' -> newest k ((v, d, k') :: l) = newest k l.
Proof. intros N. cbn [newest]. destruct (list_eq_dec Z.eq_dec k k'); [contradiction|reflexivity]. Qed.
Lemma newest_self k d v l : newest k ((v, d, k) :: l) = Some d.
Proof. cbn [newest]. destruct (list_eq_dec Z.eq_dec k k); [reflexivity|contradiction]. Qed.
Lemma announced_refl s : announced s s.
Proof. exists []. split; [reflexivity|]. split; [reflexivity|]. intros k. reflexivity. Qed.
Lemma announced_insert s0 s k v : announced s0 s -> announced s0 (insert s k v).
Proof.
  intros (l & A & B & C). exists ((s_ver s + 1, false, k) :: l). split; [cbn [insert s_log]; rewrite A; reflexivity|].
  split; [cbn [counts_down insert s_ver]; split; [reflexivity|]; replace (s_ver s + 1 - 1) with (s_ver s) by lia; exact B|].
  intros k'. cbn [insert s_map]. rewrite get_put_any. destruct (seqb k' k) eqn:E.
  - apply seqb_eq in E. subst k'. rewrite newest_self. eauto.
  - rewrite newest_other; [apply C|]. intros ->. rewrite seqb_refl in E. discriminate.
Qed.
Lemma announced_remove s0 s k : srt s -> announced s0 s -> announced s0 (remove s k).
Proof.
  intros S (l & A & B & C). exists ((s_ver s + 1, true, k) :: l). split; [cbn [remove s_log]; rewrite A; reflexivity|].
  split; [cbn [counts_down remove s_ver]; split; [reflexivity|]; replace (s_ver s + 1 - 1) with (s_ver s) by lia; exact B|].
  intros k'. cbn [remove s_map]. rewrite get_del by exact S. destruct (seqb k' k) eqn:E.
  - apply seqb_eq in E. subst k'. rewrite newest_self. reflexivity.
  - rewrite newest_other; [apply C|]. intros ->. rewrite seqb_refl in E. discriminate.
Qed.
Lemma announced_step s0 e s x : srt s -> announced s0 s -> srt (fst (step e s x)) /\ announced s0 (fst (step e s x)).
Proof.
  intros S A. apply (step_pre (fun s => srt s /\ announced s0 s)); [| | |auto].
  - intros s1 k v [B C]. split; [apply insert_srt, B|apply announced_insert, C].
  - intros s1 k [B C]. split; [apply remove_srt, B|apply announced_remove; assumption].
  - intros s1 c n [B C]. split; [apply fetch_add_srt, B|exact C].
Qed.
Lemma announced_run s0 h : forall s, srt s -> announced s0 s -> srt (run s h) /\ announced s0 (run s h).
Proof.
  induction h as [|[e x] h IH]; intros s S A; cbn [run]; [auto|]. destruct (announced_step s0 e s x S A). auto.
Qed.
Lemma srt_run h : srt (run st0 h).
Proof. apply (announced_run st0 h st0); [|apply announced_refl]. constructor. Qed.
