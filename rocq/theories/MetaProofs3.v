(** Proofs about the metadata state machine: replicas that apply the same commands. *)
From Coq Require Import Permutation Sorted.
From Verif Require Import Prelude MetaModel MetaSpec MetaProofs MetaProofs2.
From Verif Require BucketModel RateModel PrivilegeModel.
Open Scope Z_scope.

(** * The change log has no influence *)
Definition same_out (a b : st * reply) : Prop := same_data (fst a) (fst b) /\ snd a = snd b.
Lemma so_intro a b r : same_data a b -> same_out (a, r) (b, r). Proof. now split. Qed.
Lemma insert_same a b k v : same_data a b -> same_data (insert a k v) (insert b k v).
Proof. intros (A & B & C). split; [|split]; cbn; congruence. Qed.
Lemma remove_same a b k : same_data a b -> same_data (remove a k) (remove b k).
Proof. intros (A & B & C). split; [|split]; cbn; congruence. Qed.
Lemma fold_same {A} (f : st -> A -> st) : (forall a b x, same_data a b -> same_data (f a x) (f b x)) ->
  forall l a b, same_data a b -> same_data (fold_left f l a) (fold_left f l b).
Proof. intros F l. induction l as [|x l IH]; cbn; auto. Qed.
Lemma try_all_same {A} (f : st -> A -> st * reply) : (forall a b x, same_data a b -> same_out (f a x) (f b x)) ->
  forall l a b, same_data a b -> same_out (try_all f a l) (try_all f b l).
Proof.
  intros F l. induction l as [|x l IH]; cbn; intros a b H; [now split|]. specialize (F a b x H). destruct (f a x) as [a1 r], (f b x) as [b1 r'].
  destruct F as [F1 F2]. cbn in F1, F2. subst r'. destruct r; [now apply IH|now split|now apply IH].
Qed.
Lemma set_limiter_same a b c t l : same_data a b -> same_data (set_limiter a c t l) (set_limiter b c t l).
Proof. intro H. destruct l; cbn; auto using insert_same, remove_same. Qed.
Lemma contains_same a b k : same_data a b -> contains a k = contains b k. Proof. intros (A & _). unfold contains. now rewrite A. Qed.
Lemma get_as_same {A} (dec : value -> option A) a b k : same_data a b -> get_as dec a k = get_as dec b k.
Proof. intros (H & _). unfold get_as. now rewrite H. Qed.
Lemma data_same {A} e i (dec : value -> option A) a b p : same_data a b -> children_data e i dec a p = children_data e i dec b p.
Proof. intros (H & _). unfold children_data. now rewrite H. Qed.
Lemma values_same {A} e i (dec : value -> option A) a b p : same_data a b -> children_values e i dec a p = children_values e i dec b p.
Proof. intros H. unfold children_values. now rewrite (data_same e i dec a b p H). Qed.
Lemma meta_same e a b c t : same_data a b -> tenant_meta e a c t = tenant_meta e b c t.
Proof.
  intro H. unfold tenant_meta. rewrite !(data_same e _ _ a b _ H). destruct (children_data e 4 _ _ _); [|reflexivity]. destruct (children_data e 5 _ _ _); [|reflexivity].
  destruct (children_data e 6 _ _ _) as [ds|]; [|reflexivity]. replace (db_infos e a c t ds) with (db_infos e b c t ds); [reflexivity|].
  induction ds as [|(n, d) ds IH]; cbn; [reflexivity|]. now rewrite (values_same e _ _ a b _ H), (data_same e _ _ a b _ H), IH.
Qed.
Lemma with_meta_same e a b c t : same_data a b -> same_out (with_meta e a c t) (with_meta e b c t).
Proof. intro H. unfold with_meta. rewrite (meta_same e a b c t H). now split. Qed.
Lemma valid_same e a b c : same_data a b -> valid_nodes e a c = valid_nodes e b c.
Proof. intro H. unfold valid_nodes. now rewrite !(values_same e _ _ a b _ H). Qed.
Lemma schema_same e a b c d : same_data a b -> db_schema_valid e a c d = db_schema_valid e b c d.
Proof. intro H. unfold db_schema_valid. now rewrite (valid_same e a b c H). Qed.
Lemma fullpath_same a b p : same_data a b -> children_fullpath a p = children_fullpath b p.
Proof. intros (H & _). unfold children_fullpath. now rewrite H. Qed.
Lemma mark_same a b c n l : same_data a b -> same_out (process_write_mark a c n l) (process_write_mark b c n l).
Proof.
  intro H. unfold process_write_mark, read_mark. rewrite (get_as_same as_mark a b _ H). destruct (get_as as_mark b _) as [| |[o ol]]; [| now split |];
    (destruct (_ || _); split; cbn; auto using insert_same).
Qed.
Lemma remove_if_same a b k : same_data a b ->
  same_out (if contains a k then (remove a k, Done) else (a, Refused)) (if contains b k then (remove b k, Done) else (b, Refused)).
Proof. intro H. rewrite (contains_same a b k H). destruct (contains b k); split; cbn; auto using remove_same. Qed.
Lemma fetch_same a b c n : same_data a b -> fst (fetch_add a c n) = fst (fetch_add b c n) /\ same_data (snd (fetch_add a c n)) (snd (fetch_add b c n)).
Proof. intros (A & B & C). unfold fetch_add, incr_id. cbn. rewrite C. split; [reflexivity|]. split; [|split]; cbn; congruence. Qed.
Lemma grant_same a b c t ps : same_data a b -> forall m, grant_all a c t ps m = grant_all b c t ps m.
Proof. intro H. induction ps as [|(p, d) ps IH]; cbn; intro m; [reflexivity|]. now rewrite (contains_same a b _ H), IH. Qed.
Lemma roles_same e a b c t : same_data a b -> read_roles e a c t = read_roles e b c t. Proof. apply values_same. Qed.
Lemma drop_tenant_same e a b c n : same_data a b -> same_out (process_drop_tenant e a c n) (process_drop_tenant e b c n).
Proof.
  intro H. unfold process_drop_tenant, read_members, read_users. rewrite !(data_same e _ _ a b _ H), !(values_same e _ _ a b _ H).
  destruct (children_data e 0 _ b _) as [ms|]; [|now split]. destruct (children_values e 1 _ b _) as [us1|]; [|now split].
  destruct (children_values e 2 _ b _) as [us|]; [|now split].
  match goal with |- context [try_all ?f a ?l] => pose proof (try_all_same f (fun a b x H => remove_if_same a b _ H) l a b H) as [T1 T2];
    destruct (try_all f a l) as [a1 r1]; destruct (try_all f b l) as [b1 r1'] end.
  cbn in T1, T2. subst r1'.
  assert (G : same_out (match read_roles e a1 c n with None => (a1, Refused) | Some rs =>
              match try_all (fun s r => process_drop_role s c (ro_name r) n) a1 rs with
              | (s2, Refused) => (s2, Refused)
              | (s2, _) => (remove (remove s2 (k_tenant c n)) (k_limiter c n), Done) end end)
            (match read_roles e b1 c n with None => (b1, Refused) | Some rs =>
              match try_all (fun s r => process_drop_role s c (ro_name r) n) b1 rs with
              | (s2, Refused) => (s2, Refused)
              | (s2, _) => (remove (remove s2 (k_tenant c n)) (k_limiter c n), Done) end end)).
  { rewrite (roles_same e a1 b1 c n T1). destruct (read_roles e b1 c n) as [rs|]; [|now split].
    match goal with |- context [try_all ?f a1 ?l] => pose proof (try_all_same f (fun a b x H => remove_if_same a b _ H) l a1 b1 T1) as [T3 T4];
      destruct (try_all f a1 l) as [a2 r2]; destruct (try_all f b1 l) as [b2 r2'] end.
    cbn in T3, T4. subst r2'. destruct r2; (split; cbn [fst snd]; auto using remove_same). }
  destruct r1; [exact G|now split|exact G].
Qed.

Lemma step_forget e a b x : same_data a b -> same_out (step e a x) (step e b x).
Proof.
  intro H. destruct x; cbn [step];
    try (apply so_intro; auto using insert_same, remove_same; fail);
    try (apply drop_tenant_same, H); try (apply mark_same, H); try (apply remove_if_same, H).
  - unfold process_add_node. rewrite (values_same e _ _ a b _ H). destruct (children_values _ _ _ _ _); [|now split]. destruct (existsb _ _); [now split|].
    apply so_intro. apply mark_same, insert_same, H.
  - unfold process_create_db. rewrite (contains_same a b _ H), (schema_same e a b _ _ H). destruct (contains _ _); [now split|].
    destruct (db_schema_valid _ _ _ _); [|now split]. apply with_meta_same, insert_same, H.
  - unfold process_alter_db. rewrite (contains_same a b _ H), (schema_same e a b _ _ H). destruct (negb _); [now split|].
    destruct (db_schema_valid _ _ _ _); [|now split]. apply with_meta_same, insert_same, H.
  - unfold process_db_hidden. rewrite (get_as_same as_db a b _ H). destruct (get_as _ _ _); [now split|now split|]. apply with_meta_same, insert_same, H.
  - unfold process_drop_db. apply so_intro.
    assert (F : forall p a b, same_data a b -> same_data (fold_left remove (children_fullpath a p) a) (fold_left remove (children_fullpath b p) b)).
    { intros p a0 b0 H0. rewrite (fullpath_same a0 b0 p H0). apply (fold_same remove); auto using remove_same. }
    apply F, F, remove_same, H.
  - unfold process_create_table. rewrite !(contains_same a b _ H). destruct (negb _); [now split|]. cbv zeta. destruct (contains _ _); [now split|].
    apply with_meta_same, insert_same, H.
  - unfold process_update_table. rewrite (get_as_same as_table a b _ H). destruct (get_as _ _ _) as [| |v]; [apply so_intro, insert_same, H|now split|].
    destruct (_ && _); [|now split]. destruct (_ =? _); [apply so_intro, insert_same, H|now split].
  - unfold process_create_bucket. rewrite (values_same e _ _ a b _ H), (get_as_same as_db a b _ H), (valid_same e a b _ H).
    destruct (children_values _ _ _ _ _); [|now split]. destruct (existsb _ _); [now apply with_meta_same|].
    destruct (get_as _ _ _) as [| |sc]; [now split|now split|]. destruct (valid_nodes _ _ _) as [ns|]; [|now split]. cbv zeta.
    destruct (negb _); [now split|]. destruct (d_shard sc =? 0); [now split|]. destruct (_ <? _); [now split|].
    destruct (fetch_same a b c 1 H) as [F1 F2]. destruct (fetch_add a c 1) as [i a1]; destruct (fetch_add b c 1) as [i' b1]. cbn [fst snd] in F1, F2. subst i'.
    destruct (BucketModel.get_time_range _ _). destruct (BucketModel.allocation_replication_set _ _ _ _) as [[g used]|]; [|now split].
    destruct (fetch_same a1 b1 c used F2) as [_ F3]. apply with_meta_same, insert_same, F3.
  - unfold process_create_user. rewrite (contains_same a b _ H). destruct (contains _ _); split; cbn; auto using insert_same.
  - unfold process_alter_user. rewrite (get_as_same as_user a b _ H). destruct (get_as _ _ _); split; cbn; auto using insert_same.
  - unfold process_drop_user. rewrite (get_as_same as_user a b _ H), (values_same e _ _ a b _ H). destruct (get_as _ _ _); [now split|now split|].
    destruct (children_values _ _ _ _ _); [|now split]. apply so_intro, remove_same. apply fold_same; auto using remove_same.
  - unfold process_create_tenant. rewrite (contains_same a b _ H). destruct (contains _ _); split; cbn [fst snd]; auto using insert_same, set_limiter_same.
  - unfold process_alter_tenant. rewrite (get_as_same as_tenant a b _ H). destruct (get_as _ _ _); [now split|now split|]. destruct (t_hidden _); [now split|].
    apply so_intro. auto using insert_same, set_limiter_same.
  - unfold process_tenant_hidden. rewrite (get_as_same as_tenant a b _ H). destruct (get_as _ _ _); [now split|now split|].
    apply so_intro. auto using insert_same, set_limiter_same.
  - unfold process_add_member, role_known. rewrite !(contains_same a b _ H). destruct (contains _ _); [now split|]. destruct (_ || _); split; cbn; auto using insert_same.
  - unfold process_reasign, role_known. rewrite !(contains_same a b _ H). destruct (negb _); [now split|]. destruct (_ || _); split; cbn; auto using insert_same.
  - unfold process_create_role. rewrite !(contains_same a b _ H). destruct (contains _ _); split; cbn [fst snd]; auto using insert_same.
  - unfold process_grant. rewrite (get_as_same as_role a b _ H). destruct (get_as _ _ _); [now split|now split|]. rewrite (grant_same a b _ _ _ H).
    destruct (grant_all _ _ _ _ _); split; cbn [fst snd]; auto using insert_same.
  - unfold process_revoke. rewrite (get_as_same as_role a b _ H). destruct (get_as _ _ _); [now split|now split|].
    destruct (revoke_all _ _); split; cbn [fst snd]; auto using insert_same.
  - destruct (fetch_same a b c n H) as [F1 F2]. destruct (fetch_add a c n), (fetch_add b c n). cbn [fst snd] in F1, F2. subst. now split.
  - unfold process_update_repl_set. rewrite (get_as_same as_bucket a b _ H). cbv zeta. destruct (get_as _ _ _); [now split|now split|].
    apply so_intro. destruct (filter _ _); auto using insert_same, remove_same.
  - unfold process_change_leader. rewrite (get_as_same as_bucket a b _ H). destruct (get_as _ _ _); [now split|now split|]. apply so_intro, insert_same, H.
  - unfold process_update_vnode. rewrite (get_as_same as_bucket a b _ H). destruct (get_as _ _ _); [now split|now split|]. apply so_intro, insert_same, H.
  - unfold process_limiter. rewrite (get_as_same as_limiter a b _ H). destruct (get_as _ _ _) as [| |l]; [now split|now split|].
    destruct (get kind l); [|now split]. destruct (RateModel.acquire_closed _ _ _). apply so_intro, set_limiter_same, H.
  - unfold process_move_query. rewrite (values_same e _ _ a b _ H). destruct (children_values _ _ _ _ _); [|now split].
    apply so_intro, fold_same; auto using insert_same.
Qed.

(** * The order of hash maps has no influence *)
Lemma so_refl a : same_out a a. Proof. split; [apply same_refl|reflexivity]. Qed.
Lemma decode_perm {A} (dec : value -> option A) l l' : Permutation l l' ->
  match decode dec l, decode dec l' with Some a, Some b => Permutation a b | None, None => True | _, _ => False end.
Proof.
  induction 1 as [|(k, v) l l' P IH|(k, v) (k', v') l|l1 l2 l3 P1 IH1 P2 IH2]; cbn; auto.
  - destruct (dec v); [|exact I]. destruct (decode dec l), (decode dec l'); auto.
  - destruct (dec v), (dec v'); try exact I; destruct (decode dec l); auto using perm_swap.
  - destruct (decode dec l1), (decode dec l2), (decode dec l3); try contradiction; auto. now transitivity l0.
Qed.
Lemma data_perm {A} e1 e2 i j (dec : value -> option A) s p : env_ok e1 -> env_ok e2 ->
  match children_data e1 i dec s p, children_data e2 j dec s p with Some a, Some b => Permutation a b | None, None => True | _, _ => False end.
Proof. intros E1 E2. apply decode_perm. rewrite (E1 i), (E2 j). reflexivity. Qed.
Lemma values_perm {A} e1 e2 i j (dec : value -> option A) s p : env_ok e1 -> env_ok e2 ->
  match children_values e1 i dec s p, children_values e2 j dec s p with Some a, Some b => Permutation a b | None, None => True | _, _ => False end.
Proof.
  intros E1 E2. unfold children_values. pose proof (data_perm e1 e2 i j dec s p E1 E2) as D.
  destruct (children_data e1 i dec s p), (children_data e2 j dec s p); auto. now apply Permutation_map.
Qed.
Lemma existsb_perm {A} (f : A -> bool) l l' : Permutation l l' -> existsb f l = existsb f l'.
Proof. induction 1; cbn; auto; [congruence|destruct (f x), (f y); reflexivity|congruence]. Qed.
Lemma find_perm {A} (f : A -> bool) l l' : Permutation l l' -> (forall x y, In x l -> In y l -> f x = true -> f y = true -> x = y) -> find f l = find f l'.
Proof.
  intros P U. destruct (find f l) as [x|] eqn:F.
  - apply find_some in F. destruct F as [I X]. destruct (find f l') as [y|] eqn:G.
    + apply find_some in G. destruct G as [J Y]. f_equal. apply U; auto. eapply Permutation_in; [symmetry; exact P|exact J].
    + rewrite (find_none _ _ G x) in X; [discriminate|]. eapply Permutation_in; eauto.
  - destruct (find f l') as [y|] eqn:G; [|reflexivity]. apply find_some in G. destruct G as [J Y].
    rewrite (find_none _ _ F y) in Y; [discriminate|]. eapply Permutation_in; [symmetry; exact P|exact J].
Qed.

(** Nodes and their metrics *)
Lemma metric_key s c i m : wf s -> name_ok c -> holds s (path [c; s_data_nodes_metrics; i]) (VMetrics m) -> name_ok i -> i = show (m_id m).
Proof. intros W Oc H Oi. apply W in H. apply legal_path in H; [|auto 10 with nm]. now inversion H. Qed.
Lemma metrics_spec e i s c : wf s -> env_ok e -> name_ok c -> exists ms, children_values e i as_metrics s (k_metrics c) = Some ms /\
  forall m, In m ms -> holds s (k_metric c (m_id m)) (VMetrics m).
Proof.
  intros W E Oc. assert (D : dir (k_metrics c) = path [c; s_data_nodes_metrics] ++ [47]) by dirp.
  destruct (values_spec as_metrics e i s _ _ W E D ltac:(auto 10 with nm) (typed_metrics c)) as (ms & M1 & M2). exists ms. split; [exact M1|].
  intros m I. apply M2 in I. destruct I as (n & v & H & N & X). apply dec_metrics in X. subst v. cbn [app] in H.
  rewrite (metric_key s c n m W Oc H N) in H. exact H.
Qed.
Lemma node_key s c i n : wf s -> name_ok c -> holds s (path [c; s_data_nodes; i]) (VNode n) -> name_ok i -> i = show (n_id n).
Proof. intros W Oc H Oi. apply W in H. apply legal_path in H; [|auto 10 with nm]. now inversion H. Qed.
Lemma nodes_spec e i s c : wf s -> env_ok e -> name_ok c -> exists ns, children_values e i as_node s (k_data_nodes c) = Some ns /\ NoDup (map n_id ns).
Proof.
  intros W E Oc. assert (D : dir (k_data_nodes c) = path [c; s_data_nodes] ++ [47]) by dirp.
  destruct (children_spec as_node e i s _ _ W E D ltac:(auto 10 with nm) (typed_nodes c)) as (l & L1 & L2 & L3).
  exists (map snd l). unfold children_values. rewrite L1. split; [reflexivity|]. apply (nodup_of_map show). rewrite !map_map.
  erewrite map_ext_in; [exact L2|]. intros (n, x) I. cbn. apply L3 in I. destruct I as (v & H & N & X). apply dec_node in X. subst v. cbn [app] in H.
  symmetry. exact (node_key s c n x W Oc H N).
Qed.
Lemma with_metrics_ms ms ms' ns : Permutation ms ms' -> (forall x y, In x ms -> In y ms -> m_id x = m_id y -> x = y) -> with_metrics ms ns = with_metrics ms' ns.
Proof.
  intros P U. induction ns as [|n ns IH]; cbn; [reflexivity|]. unfold find_last. rewrite (find_perm _ (rev ms) (rev ms')).
  - now rewrite IH.
  - rewrite <- !Permutation_rev. exact P.
  - intros x y Ix Iy X Y. apply in_rev in Ix, Iy. apply U; auto. apply N.eqb_eq in X, Y. congruence.
Qed.
Lemma with_metrics_perm ms ns ns' : Permutation ns ns' -> Permutation (with_metrics ms ns) (with_metrics ms ns').
Proof.
  induction 1; cbn; auto.
  - destruct (find_last _ _) as [m|]; [|assumption]. destruct (m_healthy m); auto.
  - destruct (find_last (fun m => (m_id m =? n_id y)%N) ms) as [my|], (find_last (fun m => (m_id m =? n_id x)%N) ms) as [mx|];
      repeat match goal with |- context [if m_healthy ?m then _ else _] => destruct (m_healthy m) end; auto using perm_swap.
  - etransitivity; eauto.
Qed.
Lemma with_metrics_in ms ns n m : In (n, m) (with_metrics ms ns) -> In n ns /\ In m ms /\ m_id m = n_id n.
Proof.
  induction ns as [|x ns IH]; cbn; [contradiction|]. unfold find_last. destruct (find _ (rev ms)) as [y|] eqn:F.
  - destruct (m_healthy y).
    + intros [[= <- <-]|H]; [|apply IH in H; intuition]. apply find_some in F. destruct F as [I X]. apply in_rev in I. apply N.eqb_eq in X. auto.
    + intro H. apply IH in H. intuition.
  - intro H. apply IH in H. intuition.
Qed.
Lemma with_metrics_nodup ms ns : NoDup (map n_id ns) -> NoDup (map (fun x => n_id (fst x)) (with_metrics ms ns)).
Proof.
  induction ns as [|x ns IH]; cbn; intro D; [constructor|]. inversion D as [|? ? N D']; subst. destruct (find_last _ _) as [y|]; [|auto].
  destruct (m_healthy y); [|auto]. cbn. constructor; [|auto]. intro I. apply in_map_iff in I. destruct I as ((n, m) & Q & I). cbn in Q.
  apply with_metrics_in in I. destruct I as [I _]. apply N. rewrite <- Q. now apply in_map.
Qed.
Lemma insert_free_perm x l : Permutation (insert_free x l) (x :: l).
Proof. induction l as [|y l IH]; cbn; [reflexivity|]. destruct (_ <? _); [|reflexivity]. rewrite IH. apply perm_swap. Qed.
Lemma sort_free_perm l : Permutation (sort_free l) l.
Proof. induction l as [|x l IH]; cbn; [reflexivity|]. rewrite insert_free_perm. now rewrite IH. Qed.
Definition free_ge (x y : node * metrics) : Prop := m_free (snd y) <= m_free (snd x).
Lemma insert_free_sorted x l : StronglySorted free_ge l -> StronglySorted free_ge (insert_free x l).
Proof.
  induction 1 as [|y l S IH F]; cbn; [repeat constructor|]. destruct (m_free (snd x) <? m_free (snd y)) eqn:C.
  - constructor; [exact IH|]. eapply Permutation_Forall; [symmetry; apply insert_free_perm|]. constructor; [|exact F]. unfold free_ge. apply Z.ltb_lt in C. lia.
  - apply Z.ltb_ge in C. constructor; [now constructor|]. constructor; [exact C|]. eapply Forall_impl; [|exact F]. unfold free_ge. intros z Hz. lia.
Qed.
Lemma sort_free_sorted l : StronglySorted free_ge (sort_free l).
Proof. induction l; cbn; [constructor|]. now apply insert_free_sorted. Qed.
Lemma sorted_unique (l l' : list (node * metrics)) : StronglySorted free_ge l -> StronglySorted free_ge l' -> Permutation l l' ->
  (forall x y, In x l -> In y l -> m_free (snd x) = m_free (snd y) -> x = y) -> l = l'.
Proof.
  intros S. revert l'. induction S as [|x l S IH F]; intros l' S' P U.
  - apply Permutation_nil in P. now subst.
  - destruct S' as [|y l' S' F']; [symmetry in P; apply Permutation_nil in P; discriminate|].
    assert (x = y).
    { assert (Iy : In y (x :: l)) by (eapply Permutation_in; [symmetry; exact P|now left]).
      assert (Ix : In x (y :: l')) by (eapply Permutation_in; [exact P|now left]).
      apply U; [now left|exact Iy|]. rewrite Forall_forall in F, F'.
      assert (m_free (snd y) <= m_free (snd x)) by (destruct Iy as [->|Iy]; [lia|apply F in Iy; exact Iy]).
      assert (m_free (snd x) <= m_free (snd y)) by (destruct Ix as [->|Ix]; [lia|apply F' in Ix; exact Ix]). lia. }
    subst y. f_equal. apply IH; auto.
    + now apply Permutation_cons_inv in P.
    + intros a b Ia Ib. apply U; now right.
Qed.
Lemma metrics_uniq s c (ms : list metrics) : wf s -> (forall m, In m ms -> holds s (k_metric c (m_id m)) (VMetrics m)) ->
  forall x y, In x ms -> In y ms -> m_id x = m_id y -> x = y.
Proof.
  intros W H x y Ix Iy Q. apply H in Ix, Iy. rewrite Q in Ix. apply holds_get in Ix; [|exact W]. apply holds_get in Iy; [|exact W]. congruence.
Qed.
Lemma valid_perm e1 e2 s c : wf s -> env_ok e1 -> env_ok e2 -> name_ok c -> exists n1 n2, valid_nodes e1 s c = Some n1 /\ valid_nodes e2 s c = Some n2 /\
  length n1 = length n2 /\ (no_ties s c -> n1 = n2).
Proof.
  intros W E1 E2 Oc. unfold valid_nodes. destruct (nodes_spec e1 11 s c W E1 Oc) as (ns1 & A1 & D1). destruct (nodes_spec e2 11 s c W E2 Oc) as (ns2 & A2 & _).
  destruct (metrics_spec e1 12 s c W E1 Oc) as (ms1 & B1 & H1). destruct (metrics_spec e2 12 s c W E2 Oc) as (ms2 & B2 & _).
  pose proof (values_perm e1 e2 11 11 as_node s (k_data_nodes c) E1 E2) as P. pose proof (values_perm e1 e2 12 12 as_metrics s (k_metrics c) E1 E2) as Q.
  rewrite A1, A2 in *. rewrite B1, B2 in *.
  assert (V : Permutation (with_metrics ms1 ns1) (with_metrics ms2 ns2)).
  { rewrite (with_metrics_ms ms1 ms2 ns1 Q (metrics_uniq s c ms1 W H1)). now apply with_metrics_perm. }
  eexists _, _. split; [reflexivity|split; [reflexivity|]]. split.
  - rewrite !map_length. rewrite !(Permutation_length (sort_free_perm _)). now apply Permutation_length.
  - intro T. f_equal. apply sorted_unique; try apply sort_free_sorted.
    + now rewrite !sort_free_perm.
    + intros (n, m) (n', m') I I' F. cbn in F. eapply Permutation_in in I, I'; try apply sort_free_perm.
      destruct (with_metrics_in _ _ _ _ I) as (J & K & L). destruct (with_metrics_in _ _ _ _ I') as (J' & K' & L').
      assert (m_id m = m_id m') by (eapply T; [apply H1, K|apply H1, K'|exact F]).
      assert (m = m') by (eapply metrics_uniq; eauto). subst m'. assert (n_id n = n_id n') by congruence.
      f_equal. clear - D1 J J' H0. induction ns1 as [|z ns IH]; [contradiction|]. cbn in D1. inversion D1 as [|? ? N D']; subst.
      destruct J as [->|J], J' as [->|J']; auto; exfalso; apply N; [rewrite H0|rewrite <- H0]; now apply in_map.
Qed.
Lemma schema_valid_env e1 e2 s c d : wf s -> env_ok e1 -> env_ok e2 -> name_ok c -> db_schema_valid e1 s c d = db_schema_valid e2 s c d.
Proof.
  intros W E1 E2 Oc. unfold db_schema_valid. destruct (valid_perm e1 e2 s c W E1 E2 Oc) as (n1 & n2 & -> & -> & L & _). unfold node_enough. now rewrite L.
Qed.
Lemma with_meta_env e1 e2 s c t : wf s -> env_ok e1 -> env_ok e2 -> name_ok c -> name_ok t -> same_out (with_meta e1 s c t) (with_meta e2 s c t).
Proof.
  intros W E1 E2 Oc Ot. unfold with_meta. destruct (tenant_meta_spec e1 s c t W E1 Oc Ot) as (td1 & -> & _).
  destruct (tenant_meta_spec e2 s c t W E2 Oc Ot) as (td2 & -> & _). now split.
Qed.
(** Inserting under distinct keys *)
Lemma get_fold_insert {A} (f : A -> str) (g : A -> value) l : forall s k, srt s -> NoDup (map f l) ->
  get k (s_map (fold_left (fun s x => insert s (f x) (g x)) l s)) = match find (fun x => seqb k (f x)) l with Some x => Some (g x) | None => get k (s_map s) end.
Proof.
  induction l as [|x l IH]; cbn [fold_left map find]; intros s k S D; [reflexivity|]. inversion D as [|? ? N D']; subst.
  rewrite IH; [|now apply insert_srt|exact D']. cbn [insert s_map]. rewrite get_put by exact S. destruct (seqb k (f x)) eqn:Q; [|reflexivity].
  destruct (find _ l) as [y|] eqn:F; [|reflexivity]. apply find_some in F. destruct F as [I X]. apply seqb_eq in Q, X. exfalso. apply N. rewrite <- Q, X. now apply in_map.
Qed.
Lemma ver_fold_insert {A} (f : A -> str) (g : A -> value) l : forall s,
  s_ver (fold_left (fun s x => insert s (f x) (g x)) l s) = s_ver s + Z.of_nat (length l) /\ s_incr (fold_left (fun s x => insert s (f x) (g x)) l s) = s_incr s.
Proof.
  induction l as [|x l IH]; cbn [fold_left length]; intro s; [split; [lia|reflexivity]|]. destruct (IH (insert s (f x) (g x))) as [A1 B1]. rewrite A1, B1.
  cbn [s_ver s_incr insert]. split; [lia|reflexivity].
Qed.
Lemma fold_insert_perm {A} (f : A -> str) (g : A -> value) l l' s : srt s -> Permutation l l' -> NoDup (map f l) ->
  same_data (fold_left (fun s x => insert s (f x) (g x)) l s) (fold_left (fun s x => insert s (f x) (g x)) l' s).
Proof.
  intros S P D. assert (D' : NoDup (map f l')) by (eapply Permutation_NoDup; [apply Permutation_map, P|exact D]). split; [|split].
  - apply sorted_ext; try (apply fold_insert_srt, S). intro k. rewrite !get_fold_insert by assumption. rewrite (find_perm _ l l' P); [reflexivity|].
    intros x y Ix Iy X Y. apply seqb_eq in X, Y. subst k. clear - D Ix Iy Y. induction l as [|z l IH]; [contradiction|]. cbn in D. inversion D as [|? ? N D']; subst.
    destruct Ix as [->|Ix], Iy as [->|Iy]; auto; exfalso; apply N; [rewrite Y|rewrite <- Y]; now apply in_map.
  - rewrite !(proj1 (ver_fold_insert f g _ _)). now rewrite (Permutation_length P).
  - now rewrite !(proj2 (ver_fold_insert f g _ _)).
Qed.
Lemma filter_perm {A} (f : A -> bool) l l' : Permutation l l' -> Permutation (filter f l) (filter f l').
Proof.
  induction 1; cbn; auto; [destruct (f x); auto| |etransitivity; eauto]. destruct (f x), (f y); auto using perm_swap.
Qed.
Lemma nodup_fst_unique {A B} (l : list (A * B)) n a b : NoDup (map fst l) -> In (n, a) l -> In (n, b) l -> a = b.
Proof.
  induction l as [|(m, z) l IH]; cbn; intros D I J; [contradiction|]. inversion D as [|? ? N D']; subst.
  destruct I as [I|I], J as [J|J].
  - congruence.
  - injection I as -> ->. exfalso. apply N. change n with (fst (n, b)). now apply in_map.
  - injection J as -> ->. exfalso. apply N. change n with (fst (n, a)). now apply in_map.
  - auto.
Qed.
Lemma queries_spec e i s c : wf s -> env_ok e -> name_ok c -> exists qs, children_values e i as_query s (k_queries c) = Some qs /\ NoDup (map (fun q => k_query c (q_id q)) qs).
Proof.
  intros W E Oc. assert (D : dir (k_queries c) = path [c; s_queries] ++ [47]) by dirp.
  destruct (children_spec as_query e i s _ _ W E D ltac:(auto 10 with nm) (typed_queries c)) as (l & L1 & L2 & L3).
  exists (map snd l). unfold children_values. rewrite L1. split; [reflexivity|]. rewrite map_map.
  assert (K : forall n q, In (n, q) l -> n = show (q_id q) /\ name_ok n).
  { intros n q I. apply L3 in I. destruct I as (v & H & N & X). apply dec_query in X. subst v. cbn [app] in H. split; [|exact N].
    apply W in H. apply legal_path in H; [|auto 10 with nm]. now inversion H. }
  apply nodup_map_in; [now apply nodup_of_map in L2|]. intros (n, q) (n', q') I I' Q. cbn in Q.
  apply path_inj in Q; [|auto 10 with nm..]. injection Q as Q. destruct (K _ _ I) as [A _], (K _ _ I') as [B _].
  assert (N : n = n') by congruence. clear A B. subst n'. f_equal. exact (nodup_fst_unique l n q q' L2 I I').
Qed.
Lemma limiter_env e1 e2 t : (match t_limit t with Some _ => true | None => false end = true -> e_now e1 = e_now e2) -> limiter_of e1 t = limiter_of e2 t.
Proof. intro H. unfold limiter_of. destruct (t_limit t); [|reflexivity]. now rewrite H. Qed.

Lemma step_env e1 e2 s x : wf s -> uniq s -> cmd_ok x -> env_ok e1 -> env_ok e2 -> agree s x e1 e2 -> same_out (step e1 s x) (step e2 s x).
Proof.
  intros W U O E1 E2 A. assert (WI : forall k v, legal k v -> wf (insert s k v)) by (intros; now apply wf_insert).
  destruct x; cbn [step]; try apply so_refl; cbn [cmd_ok agree limits] in O, A.
  - unfold process_add_node. pose proof (values_perm e1 e2 10 10 as_node s (k_data_nodes c) E1 E2) as P.
    destruct (children_values e1 _ _ _ _), (children_values e2 _ _ _ _); try contradiction; [|apply so_refl].
    rewrite (existsb_perm _ _ _ P). apply so_refl.
  - destruct O as (Oc & Ot & Od). unfold process_create_db. rewrite (schema_valid_env e1 e2 s c d W E1 E2 Oc). destruct (contains _ _); [apply so_refl|].
    destruct (db_schema_valid _ _ _ _); [|apply so_refl]. apply with_meta_env; auto. apply WI. eexists. split; [reflexivity|split; [auto 10 with nm|constructor]].
  - destruct O as (Oc & Ot & Od). unfold process_alter_db. rewrite (schema_valid_env e1 e2 s c d W E1 E2 Oc). destruct (negb _); [apply so_refl|].
    destruct (db_schema_valid _ _ _ _); [|apply so_refl]. apply with_meta_env; auto. apply WI. eexists. split; [reflexivity|split; [auto 10 with nm|constructor]].
  - destruct O as (Oc & Ot & Od). unfold process_db_hidden. destruct (get_as as_db s _) as [| |d'] eqn:G; [apply so_refl..|].
    apply with_meta_env; auto. apply get_as_holds in G. destruct G as (v & H & _ & X). apply dec_db in X. subst v.
    apply WI. apply W in H. apply legal_path in H; [|auto 10 with nm]. inversion H; subst. eexists. split; [reflexivity|split; [auto 10 with nm|]].
    exact (eo_db c t (DB (d_name d') (d_shard d') (d_replica d') (d_dur d') (d_ttl d') h)).
  - destruct O as (Oc & Ot & Od & On). unfold process_create_table. destruct (negb _); [apply so_refl|]. cbv zeta. destruct (contains _ _); [apply so_refl|].
    apply with_meta_env; auto. apply WI. eexists. split; [reflexivity|split; [auto 10 with nm|now constructor]].
  - destruct O as (Oc & Ot & Od). destruct A as (An & Aa & At). unfold process_create_bucket.
    pose proof (values_perm e1 e2 13 13 as_bucket s (k_buckets c t d) E1 E2) as P.
    destruct (children_values e1 _ _ _ _), (children_values e2 _ _ _ _); try contradiction; [|apply so_refl].
    rewrite (existsb_perm _ _ _ P). destruct (existsb _ _); [now apply with_meta_env|]. destruct (get_as as_db s _) as [| |sc]; [apply so_refl..|].
    destruct (valid_perm e1 e2 s c W E1 E2 Oc) as (n1 & n2 & -> & -> & _ & N). rewrite (N At). cbv zeta. rewrite An.
    rewrite (filter_ext _ _ (fun n => Aa (n_id n))). destruct (negb _); [apply so_refl|]. destruct (d_shard sc =? 0); [apply so_refl|]. destruct (_ <? _); [apply so_refl|].
    destruct (fetch_add s c 1) as [i s1] eqn:F. destruct (BucketModel.get_time_range _ _). destruct (BucketModel.allocation_replication_set _ _ _ _) as [[g used]|]; [|apply so_refl].
    apply with_meta_env; auto. apply wf_insert.
    + injection F as _ <-. destruct W as [S W]. split; [exact S|exact W].
    + eexists. split; [reflexivity|split; [auto 10 with nm|constructor]].
  - unfold process_drop_user. destruct (get_as as_user s _) as [| |u]; [apply so_refl..|].
    pose proof (values_perm e1 e2 14 14 as_tenant s (k_tenants c) E1 E2) as P.
    destruct (children_values e1 _ _ _ _), (children_values e2 _ _ _ _); try contradiction; [|apply so_refl].
    apply so_intro, remove_same. rewrite !(fold_remove_map (fun t => k_member (t_name t) (t_name t) (u_id u))). apply fold_remove_perm; [apply W|]. now apply Permutation_map.
  - unfold process_create_tenant. rewrite (limiter_env e1 e2 t A). apply so_refl.
  - unfold process_alter_tenant. destruct (get_as as_tenant s _) as [| |t]; [apply so_refl..|]. rewrite (limiter_env e1 e2); [apply so_refl|exact A].
  - unfold process_tenant_hidden. destruct (get_as as_tenant s _) as [| |t]; [apply so_refl..|]. rewrite (limiter_env e1 e2); [apply so_refl|intros _; now apply A].
  - destruct O as (Oc & On). destruct (drop_tenant_eq e1 s c n W U E1 Oc On) as (k1 & -> & D1 & K1). destruct (drop_tenant_eq e2 s c n W U E2 Oc On) as (k2 & -> & D2 & K2).
    apply so_intro, fold_remove_perm; [apply W|]. apply NoDup_Permutation; auto. intro k. now rewrite K1, K2.
  - unfold process_create_role. rewrite A. apply so_refl.
  - unfold process_limiter. rewrite (A eq_refl). apply so_refl.
  - unfold process_move_query. destruct (queries_spec e1 9 s c W E1 O) as (q1 & Q1 & D1).
    pose proof (values_perm e1 e2 9 9 as_query s (k_queries c) E1 E2) as P. rewrite Q1 in *. destruct (children_values e2 _ _ _ _) as [q2|]; [|contradiction].
    apply so_intro. apply (fold_insert_perm (fun q => k_query c (q_id q)) (fun q => VQuery (QU (q_id q) dst (q_rest q)))); [apply W|now apply filter_perm|].
    apply nodup_map_in; [apply NoDup_filter, (nodup_of_map _ _ D1)|]. intros x y Ix Iy Q. apply filter_In in Ix, Iy. destruct Ix as [Ix _], Iy as [Iy _].
    clear - D1 Ix Iy Q. induction q1 as [|z l IH]; [contradiction|]. cbn [map] in D1. inversion D1 as [|? ? N D']; subst.
    destruct Ix as [->|Ix], Iy as [->|Iy]; auto; exfalso; apply N; [rewrite Q|rewrite <- Q]; now apply (in_map (fun q => k_query c (q_id q))).
Qed.

Lemma so_trans a b c : same_out a b -> same_out b c -> same_out a c.
Proof. intros [A B] [C D]. split; [eapply same_trans; eauto|congruence]. Qed.
Lemma replicas_same h : forall a b L, same_data a b -> wf a -> uniq a -> ids_in a L ->
  Forall (fun ex => env_ok (fst ex) /\ cmd_ok (snd ex)) (first_replica h) -> NoDup (flat_map (fun ex => created_ids (snd ex)) (first_replica h)) ->
  (forall i, In i (flat_map (fun ex => created_ids (snd ex)) (first_replica h)) -> ~ In i L) -> agree_all a h ->
  same_data (run a (first_replica h)) (run b (second_replica h)) /\ replies a (first_replica h) = replies b (second_replica h).
Proof.
  induction h as [|((e1, e2), x) h IH]; cbn [first_replica second_replica map run replies agree_all fst snd]; intros a b L Sm W U I F D N A; [now split|].
  destruct A as (E2 & A & A'). inversion F as [|? ? [E1 O] F']; subst. cbn [fst snd] in E1, O. cbn [flat_map snd] in D, N.
  pose proof (so_trans _ _ _ (step_env e1 e2 a x W U O E1 E2 A) (step_forget e2 a b x Sm)) as [S1 S2].
  destruct (uniq_step e1 a x L U I) as [U' I']; [intros i Hi; apply N; apply in_or_app; now left|].
  destruct (IH _ _ (created_ids x ++ L) S1 (step_wf e1 a x W O) U' I' F') as [R1 R2]; [| |exact A'|split; [exact R1|f_equal; [exact S2|exact R2]]].
  - clear - D. unfold first_replica in *. induction (created_ids x) as [|z l IHl]; [exact D|]. inversion D; auto.
  - intros i Hi J. apply in_app_or in J. destruct J as [J|J].
    + clear - D Hi J. unfold first_replica in *. induction (created_ids x) as [|z l IHl]; [contradiction|]. cbn in D. inversion D as [|? ? N D']; subst.
      destruct J as [->|J]; [apply N; apply in_or_app; now right|auto].
    + apply (N i); [apply in_or_app; now right|exact J].
Qed.
