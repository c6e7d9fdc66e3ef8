(** Proofs for C46, C47, C48. *)
From Coq Require Import Permutation.
From Verif Require Import Prelude MetaModel MetaSpec MetaProofs MetaProofs2 MetaProofs3 MetaEffectSpec.
Open Scope Z_scope.

(** * The id counter *)
Lemma incr_fold {A} (f : st -> A -> st) : (forall s a, s_incr (f s a) = s_incr s) -> forall l s, s_incr (fold_left f l s) = s_incr s.
Proof. intros F l. induction l as [|a l IH]; intro s; cbn; [reflexivity|]. now rewrite IH, F. Qed.
Lemma incr_try {A} (f : st -> A -> st * reply) : (forall s a, s_incr (fst (f s a)) = s_incr s) -> forall l s, s_incr (fst (try_all f s l)) = s_incr s.
Proof.
  intros F l. induction l as [|a l IH]; intro s; cbn [try_all]; [reflexivity|]. specialize (F s a). destruct (f s a) as [s1 r]. cbn in F.
  destruct r; cbn [fst]; rewrite ?IH; exact F.
Qed.
Lemma incr_set_limiter s c t l : s_incr (set_limiter s c t l) = s_incr s. Proof. now destruct l. Qed.
Lemma incr_mark s c n l : s_incr (fst (process_write_mark s c n l)) = s_incr s.
Proof. unfold process_write_mark. destruct (read_mark s c) as [[o b]|]; [|reflexivity]. now destruct (_ || _). Qed.
Lemma incr_remove_member s c u t : s_incr (fst (process_remove_member s c u t)) = s_incr s.
Proof. unfold process_remove_member. now destruct (contains _ _). Qed.
Lemma incr_drop_role s c r t : s_incr (fst (process_drop_role s c r t)) = s_incr s.
Proof. unfold process_drop_role. now destruct (contains _ _). Qed.
Lemma incr_drop_tenant e s c n : s_incr (fst (process_drop_tenant e s c n)) = s_incr s.
Proof.
  unfold process_drop_tenant. destruct (read_members e s c n) as [ms|]; [|reflexivity]. destruct (read_users e s c) as [us|]; [|reflexivity].
  match goal with |- context [try_all ?f s ?l] => pose proof (incr_try f (fun s x => incr_remove_member s c (u_id x) n) l s) as T1;
    destruct (try_all f s l) as [s1 r1] end. cbn in T1.
  assert (G : s_incr (fst (match read_roles e s1 c n with
       | Some rs => match try_all (fun s r => process_drop_role s c (ro_name r) n) s1 rs with
                    | (s2, Refused) => (s2, Refused)
                    | (s2, _) => (remove (remove s2 (k_tenant c n)) (k_limiter c n), Done) end
       | None => (s1, Refused) end)) = s_incr s).
  { destruct (read_roles e s1 c n) as [rs|]; [|apply T1].
    match goal with |- context [try_all ?f s1 ?l] => pose proof (incr_try f (fun s x => incr_drop_role s c (ro_name x) n) l s1) as T2;
      destruct (try_all f s1 l) as [s2 r2] end. cbn in T2. destruct r2; cbn; congruence. }
  destruct r1; [exact G|exact T1|exact G].
Qed.
Definition takes_ids (x : cmd) : bool := match x with CRetainId _ _ | CCreateBucket _ _ _ _ => true | _ => false end.
Lemma incr_step e s x : takes_ids x = false -> s_incr (fst (step e s x)) = s_incr s.
Proof.
  intro T. destruct x; cbn [step takes_ids] in *; try discriminate; try reflexivity.
  - unfold process_add_node. destruct (children_values _ _ _ _ _); [|reflexivity]. destruct (existsb _ _); [reflexivity|]. cbn [fst]. now rewrite incr_mark.
  - unfold process_create_db. destruct (contains _ _); [reflexivity|]. now destruct (db_schema_valid _ _ _ _).
  - unfold process_alter_db. destruct (contains _ _); [|reflexivity]. now destruct (db_schema_valid _ _ _ _).
  - unfold process_db_hidden. now destruct (get_as _ _ _).
  - unfold process_drop_db. cbn [fst]. rewrite (incr_fold remove) by reflexivity. rewrite (incr_fold remove) by reflexivity. reflexivity.
  - unfold process_drop_table. now destruct (contains _ _).
  - unfold process_create_table. destruct (contains _ _); [|reflexivity]. cbn [negb]. now destruct (contains _ _).
  - unfold process_update_table. destruct (get_as _ _ _); try reflexivity. destruct (_ && _); [|reflexivity]. now destruct (_ =? _).
  - unfold process_create_user. now destruct (contains _ _).
  - unfold process_alter_user. now destruct (get_as _ _ _).
  - unfold process_drop_user. destruct (get_as _ _ _); try reflexivity. destruct (children_values _ _ _ _ _); [|reflexivity].
    cbn [fst]. unfold remove at 1. cbn [s_incr]. now rewrite incr_fold.
  - unfold process_create_tenant. destruct (contains _ _); [reflexivity|]. cbn. apply incr_set_limiter.
  - unfold process_alter_tenant. destruct (get_as as_tenant _ _) as [| |a]; try reflexivity. destruct (t_hidden a); [reflexivity|].
    cbn [fst]. now rewrite incr_set_limiter.
  - unfold process_tenant_hidden. destruct (get_as _ _ _); try reflexivity. cbn [fst]. now rewrite incr_set_limiter.
  - apply incr_drop_tenant.
  - unfold process_add_member. destruct (contains _ _); [reflexivity|]. now destruct (role_known _ _ _ _).
  - apply incr_remove_member.
  - unfold process_reasign. destruct (contains _ _); [|reflexivity]. cbn [negb]. now destruct (role_known _ _ _ _).
  - unfold process_create_role. now destruct (contains _ _).
  - apply incr_drop_role.
  - unfold process_grant. destruct (get_as as_role _ _) as [| |a]; try reflexivity. now destruct (grant_all _ _ _ _ _).
  - unfold process_revoke. destruct (get_as as_role _ _) as [| |a]; try reflexivity. now destruct (revoke_all _ _).
  - unfold process_update_repl_set. destruct (get_as _ _ _); try reflexivity. cbn [fst]. now destruct (filter _ _).
  - unfold process_change_leader. now destruct (get_as _ _ _).
  - unfold process_update_vnode. now destruct (get_as _ _ _).
  - unfold process_limiter. destruct (get_as as_limiter _ _) as [| |a]; try reflexivity. destruct (get kind a); [|reflexivity].
    destruct (RateModel.acquire_closed _ _ _). cbn [fst]. apply incr_set_limiter.
  - apply incr_mark.
  - unfold process_move_query. destruct (children_values _ _ _ _ _); [|reflexivity]. cbn [fst]. now rewrite incr_fold.
Qed.
Lemma get_put_any {A} k (v : A) m k' : get k' (put k v m) = if seqb k' k then Some v else get k' m.
Proof.
  induction m as [|(a, w) m IH]; cbn; [now destruct (seqb k' k)|].
  destruct (scmp k a) eqn:E; cbn.
  - apply scmp_eq in E. subst. now destruct (seqb k' a).
  - reflexivity.
  - rewrite IH. destruct (seqb k' a) eqn:Q; [|reflexivity].
    apply seqb_eq in Q. subst. rewrite seqb_neq; [reflexivity|]. intros ->. rewrite scmp_refl in E. discriminate.
Qed.
Lemma incr_fetch s c n c' : incr_id (snd (fetch_add s c n)) c' = if seqb c' c then incr_id s c + n else incr_id s c'.
Proof. unfold incr_id, fetch_add. cbn [snd s_incr]. rewrite get_put_any. now destruct (seqb c' c). Qed.

(** * Allocation *)
Definition group_ids (g : BucketModel.repl) : list Z := BucketModel.r_id g :: map fst (BucketModel.r_vnodes g).
Lemma bucket_ids_eq b : bucket_ids b = BucketModel.b_id b :: flat_map group_ids (BucketModel.b_group b). Proof. reflexivity. Qed.
Lemma alloc_vnodes_ids nodes n : forall incr index vs incr' index', BucketModel.alloc_vnodes nodes n incr index = Some (vs, incr', index') ->
  incr <= incr' /\ NoDup (map fst vs) /\ forall i, In i (map fst vs) -> incr <= i < incr'.
Proof.
  induction n as [|n IH]; intros incr index vs incr' index'; cbn [BucketModel.alloc_vnodes].
  - intros [= <- <- <-]. split; [lia|]. split; [constructor|intros i []].
  - destruct (_ =? 0); [discriminate|]. destruct (nth_error _ _) as [nd|]; [|discriminate].
    destruct (BucketModel.alloc_vnodes nodes n (incr + 1) (index + 1)) as [[[vs1 i1] x1]|] eqn:E; [|discriminate].
    intros [= <- <- <-]. apply IH in E. destruct E as (L & N & B). cbn [map fst]. split; [lia|]. split.
    + constructor; [|exact N]. intro I. apply B in I. lia.
    + intros i [<-|I]; [lia|]. apply B in I. lia.
Qed.
Lemma alloc_groups_ids nodes replica shards : forall incr index gs fin, BucketModel.alloc_groups nodes shards replica incr index = Some (gs, fin) ->
  incr <= fin /\ NoDup (flat_map group_ids gs) /\ forall i, In i (flat_map group_ids gs) -> incr <= i < fin.
Proof.
  induction shards as [|k IH]; intros incr index gs fin; cbn [BucketModel.alloc_groups].
  - intros [= <- <-]. split; [lia|]. split; [constructor|intros i []].
  - destruct (BucketModel.alloc_vnodes nodes replica (incr + 1) index) as [[[[|(v0, n0) vs] i1] x1]|] eqn:E; try discriminate.
    destruct (BucketModel.alloc_groups nodes k replica i1 x1) as [[gs1 f1]|] eqn:G; [|discriminate].
    intros [= <- <-]. apply alloc_vnodes_ids in E. destruct E as (L & N & B). apply IH in G. destruct G as (L' & N' & B').
    cbn [flat_map group_ids BucketModel.r_id BucketModel.r_vnodes app].
    split; [lia|]. split.
    + constructor.
      * intro I. apply in_app_or in I. destruct I as [I|I]; [apply B in I|apply B' in I]; lia.
      * apply nodup_app_intro; auto. intros i I J. apply B in I. apply B' in J. lia.
    + intros i [<-|I]; [lia|]. apply in_app_or in I. destruct I as [I|I]; [apply B in I|apply B' in I]; lia.
Qed.
Lemma create_bucket_ids e s c t d ts k b : holds (fst (process_create_bucket e s c t d ts)) k (VBucket b) ->
  holds s k (VBucket b) \/
  ((exists i, k = k_bucket c t d i) /\ NoDup (bucket_ids b) /\
   forall i, In i (bucket_ids b) -> incr_id s c <= i < incr_id (fst (process_create_bucket e s c t d ts)) c).
Proof.
  unfold process_create_bucket. destruct (children_values _ _ _ _ _) as [bs|]; [|auto]. destruct (existsb _ _); [auto|].
  destruct (get_as _ _ _) as [| |sc]; auto. destruct (valid_nodes _ _ _) as [ns|]; [|auto]. cbv zeta.
  destruct (negb _); [auto|]. destruct (d_shard sc =? 0); [auto|]. destruct (ts <? _); [auto|].
  destruct (fetch_add s c 1) as [id s1] eqn:F1. destruct (BucketModel.get_time_range ts (d_dur sc)) as [b0 e0].
  assert (Eid : id = incr_id s c) by (unfold fetch_add in F1; now injection F1).
  assert (Es1 : s1 = snd (fetch_add s c 1)) by now rewrite F1.
  destruct (BucketModel.allocation_replication_set _ _ _ _) as [[g used]|] eqn:A.
  2:{ intro H. left. subst s1. exact H. }
  rewrite with_meta_fst. intro H. apply insert_in in H. destruct H as [[-> E]|H].
  2:{ left. subst s1. exact H. }
  injection E as ->. right. split; [eauto|].
  unfold BucketModel.allocation_replication_set in A. destruct (BucketModel.alloc_groups _ _ _ _ _) as [[gs fin]|] eqn:G; [|discriminate].
  injection A as <- <-. apply alloc_groups_ids in G. destruct G as (L & N & B).
  rewrite bucket_ids_eq. cbn [BucketModel.b_id BucketModel.b_group].
  assert (I' : forall v, incr_id (insert (snd (fetch_add s1 c (fin - (id + 1)))) (k_bucket c t d (Z.to_N id)) v) c = fin).
  { intro v. change (incr_id (snd (fetch_add s1 c (fin - (id + 1)))) c = fin). rewrite incr_fetch, seqb_refl. subst s1. rewrite incr_fetch, seqb_refl. lia. }
  rewrite I'. split.
  - constructor; [|exact N]. intro I. apply B in I. lia.
  - intros i [<-|I]; [lia|]. apply B in I. lia.
Qed.
Lemma create_bucket_incr e s c t d ts c' : incr_id s c' <= incr_id (fst (process_create_bucket e s c t d ts)) c' /\
  (c' <> c -> incr_id (fst (process_create_bucket e s c t d ts)) c' = incr_id s c').
Proof.
  unfold process_create_bucket. destruct (children_values _ _ _ _ _) as [bs|]; [|split; [cbn; lia|auto]]. destruct (existsb _ _); [split; [cbn; lia|auto]|].
  destruct (get_as _ _ _) as [| |sc]; try (split; [cbn; lia|auto]). destruct (valid_nodes _ _ _) as [ns|]; [|split; [cbn; lia|auto]]. cbv zeta.
  destruct (negb _); [split; [cbn; lia|auto]|]. destruct (d_shard sc =? 0); [split; [cbn; lia|auto]|]. destruct (ts <? _); [split; [cbn; lia|auto]|].
  destruct (fetch_add s c 1) as [id s1] eqn:F1. destruct (BucketModel.get_time_range ts (d_dur sc)) as [b0 e0].
  assert (Eid : id = incr_id s c) by (unfold fetch_add in F1; now injection F1).
  assert (Es1 : s1 = snd (fetch_add s c 1)) by now rewrite F1.
  destruct (BucketModel.allocation_replication_set _ _ _ _) as [[g used]|] eqn:A.
  - rewrite with_meta_fst. 
    change (incr_id (insert (snd (fetch_add s1 c used)) (k_bucket c t d (Z.to_N id)) (VBucket (BucketModel.Build_bucket id b0 e0 g))) c')
      with (incr_id (snd (fetch_add s1 c used)) c'). rewrite incr_fetch. subst s1. rewrite !incr_fetch, seqb_refl.
    unfold BucketModel.allocation_replication_set in A. destruct (BucketModel.alloc_groups _ _ _ _ _) as [[gs fin]|] eqn:G; [|discriminate].
    injection A as <- <-. apply alloc_groups_ids in G. destruct G as (L & _ & _).
    destruct (seqb c' c) eqn:Q.
    + apply seqb_eq in Q. subst c'. split; [lia|intro X; now contradiction X].
    + split; [lia|auto].
  - cbn [fst]. subst s1. rewrite incr_fetch. destruct (seqb c' c) eqn:Q.
    + apply seqb_eq in Q. subst c'. split; [lia|intro X; now contradiction X].
    + split; [lia|auto].
Qed.

(** * Changes to a replica set *)
Lemma update_group_ids del_ add_ g : group_ids (update_group del_ add_ g) =
  BucketModel.r_id g :: map fst (filter (fun v => negb (existsb (fun d => (fst v =? fst d) && (snd v =? snd d)) del_)) (BucketModel.r_vnodes g)) ++ map fst add_.
Proof.
  unfold update_group. cbv zeta. match goal with |- context [existsb ?f ?l] => set (vs := l); destruct (existsb f vs) end.
  - unfold group_ids. cbn [BucketModel.r_id BucketModel.r_vnodes]. unfold vs. now rewrite map_app.
  - transitivity (BucketModel.r_id g :: map fst vs); [|unfold vs; now rewrite map_app].
    destruct vs as [|(v0, n0) vs']; reflexivity.
Qed.
Lemma nodup_app_l {A} (a b : list A) : NoDup (a ++ b) -> NoDup a.
Proof. induction a as [|x a IH]; cbn; intro H; [constructor|]. inversion H; subst. constructor; [intro I; apply H2; apply in_or_app; now left|auto]. Qed.
Lemma nodup_app_r {A} (a b : list A) : NoDup (a ++ b) -> NoDup b.
Proof. induction a as [|x a IH]; cbn; intro H; [exact H|]. inversion H; subst. auto. Qed.
Lemma nodup_app_disj {A} (a b : list A) x : NoDup (a ++ b) -> In x a -> ~ In x b.
Proof.
  induction a as [|y a IH]; cbn; intros H I J; [contradiction|]. inversion H; subst. destruct I as [->|I]; [|now apply (IH H3 I)].
  apply H2. apply in_or_app. now right.
Qed.
Lemma nodup_map_filter {A B} (f : A -> B) p l : NoDup (map f l) -> NoDup (map f (filter p l)).
Proof.
  induction l as [|a l IH]; cbn; intro N; [constructor|]. inversion N; subst. destruct (p a); cbn; [|auto].
  constructor; [|auto]. intro I. apply H1. apply in_map_iff in I. destruct I as (y & E & I). apply filter_In in I. destruct I as [I _].
  apply in_map_iff. eauto.
Qed.
Lemma filter_sub_map {A B} (f : A -> B) p l i : In i (map f (filter p l)) -> In i (map f l).
Proof. intro I. apply in_map_iff in I. destruct I as (y & E & I). apply filter_In in I. destruct I as [I _]. apply in_map_iff. eauto. Qed.
Lemma groups_id rid (del_ add_ : list (Z * Z)) gs : ~ In rid (map BucketModel.r_id gs) ->
  map (fun g => if BucketModel.r_id g =? rid then update_group del_ add_ g else g) gs = gs.
Proof.
  induction gs as [|g gs IH]; cbn; intro N; [reflexivity|]. destruct (Z.eqb_spec (BucketModel.r_id g) rid) as [E|E]; [exfalso; apply N; now left|].
  f_equal. apply IH. intro I. apply N. now right.
Qed.
Lemma groups_update rid (del_ add_ : list (Z * Z)) gs : NoDup (flat_map group_ids gs) -> NoDup (map fst add_) ->
  (forall i, In i (map fst add_) -> ~ In i (flat_map group_ids gs)) ->
  NoDup (flat_map group_ids (map (fun g => if BucketModel.r_id g =? rid then update_group del_ add_ g else g) gs)) /\
  forall i, In i (flat_map group_ids (map (fun g => if BucketModel.r_id g =? rid then update_group del_ add_ g else g) gs)) ->
    In i (flat_map group_ids gs) \/ In i (map fst add_).
Proof.
  intros N Na. induction gs as [|g gs IH]; intro D; cbn [map flat_map].
  - split; [constructor|intros i []].
  - cbn [flat_map] in N, D. pose proof (nodup_app_l _ _ N) as Ng. pose proof (nodup_app_r _ _ N) as Nr.
    destruct (Z.eqb_spec (BucketModel.r_id g) rid) as [E|E].
    + rewrite groups_id.
      2:{ intro I. apply (nodup_app_disj _ _ rid N).
          - unfold group_ids. left. exact E.
          - apply in_map_iff in I. destruct I as (g' & E' & I). apply in_flat_map. exists g'. split; [exact I|]. left. exact E'. }
      rewrite update_group_ids. unfold group_ids in Ng at 1. inversion Ng as [|? ? H1 H2]; subst x l.
      assert (X : forall i, In i (BucketModel.r_id g :: map fst (filter (fun v => negb (existsb (fun d => (fst v =? fst d) && (snd v =? snd d)) del_)) (BucketModel.r_vnodes g)) ++ map fst add_) ->
                  In i (group_ids g) \/ In i (map fst add_)).
      { intros i [<-|I]; [left; now left|]. apply in_app_or in I. destruct I as [I|I]; [left; right; now apply filter_sub_map in I|now right]. }
      split.
      * apply nodup_app_intro; [|exact Nr|].
        -- constructor.
           ++ intro I. apply in_app_or in I. destruct I as [I|I]; [apply H1; now apply filter_sub_map in I|].
              apply (D _ I). apply in_or_app. left. now left.
           ++ apply nodup_app_intro; [now apply nodup_map_filter|exact Na|]. intros i I J. apply (D _ J). apply in_or_app. left. right.
              now apply filter_sub_map in I.
        -- intros i I J. destruct (X i I) as [K|K]; [now apply (nodup_app_disj _ _ i N)|]. apply (D _ K). apply in_or_app. now right.
      * intros i I. apply in_app_or in I. destruct I as [I|I]; [|left; apply in_or_app; now right].
        destruct (X i I); [left; apply in_or_app; now left|now right].
    + destruct (IH Nr) as [IH1 IH2]; [intros i I J; apply (D _ I); apply in_or_app; now right|]. split.
      * apply nodup_app_intro; [exact Ng|exact IH1|]. intros i I J. destruct (IH2 i J) as [K|K]; [now apply (nodup_app_disj _ _ i N)|].
        apply (D _ K). apply in_or_app. now left.
      * intros i I. apply in_app_or in I. destruct I as [I|I]; [left; apply in_or_app; now left|]. destruct (IH2 i I); [left; apply in_or_app; now right|now right].
Qed.
Lemma flat_map_filter_sub {A B} (f : A -> list B) p l i : In i (flat_map f (filter p l)) -> In i (flat_map f l).
Proof. intro I. apply in_flat_map in I. destruct I as (x & I & J). apply filter_In in I. destruct I. apply in_flat_map. eauto. Qed.
Lemma nodup_flat_filter {A B} (f : A -> list B) p l : NoDup (flat_map f l) -> NoDup (flat_map f (filter p l)).
Proof.
  induction l as [|a l IH]; cbn; intro N; [constructor|]. pose proof (nodup_app_l _ _ N). pose proof (nodup_app_r _ _ N).
  destruct (p a); cbn; [|auto]. apply nodup_app_intro; auto. intros i I J. apply flat_map_filter_sub in J. now apply (nodup_app_disj _ _ i N).
Qed.

(** * The invariant on ids *)
Definition in_cluster (c k : str) : Prop := exists t d i, name_ok t /\ name_ok d /\ k = k_bucket c t d i.
Definition id_inv (c : str) (s : st) (pend : list Z) (seen : str -> Z -> Prop) : Prop :=
  (forall k b, holds s k (VBucket b) -> in_cluster c k -> NoDup (bucket_ids b) /\ forall i, In i (bucket_ids b) -> seen k i) /\
  (forall k k' i, seen k i -> seen k' i -> k = k') /\
  (forall k i, seen k i -> i < incr_id s c /\ ~ In i pend) /\
  NoDup pend /\ (forall i, In i pend -> i < incr_id s c).
Lemma numbers_in a n i : In i (numbers a n) <-> a <= i < a + n.
Proof.
  unfold numbers. rewrite in_map_iff. split.
  - intros (j & <- & I). apply in_seq in I. lia.
  - intros H. exists (Z.to_nat (i - a)). split; [lia|]. apply in_seq. lia.
Qed.
Lemma numbers_nodup a n : NoDup (numbers a n).
Proof. apply FinFun.Injective_map_NoDup; [intros x y H; lia|apply seq_NoDup]. Qed.
Lemma cluster_bucket c t d i c' t' d' i' : name_ok c -> name_ok t -> name_ok d -> name_ok c' -> name_ok t' -> name_ok d' ->
  k_bucket c t d i = k_bucket c' t' d' i' -> c = c' /\ t = t' /\ d = d' /\ i = i'.
Proof.
  intros ? ? ? ? ? ? E. apply path_inj in E; [|auto 12 with nm|auto 12 with nm]. injection E as E1 E2 E3 E4. split; [exact E1|]. split; [exact E2|].
  split; [exact E3|]. now apply show_inj.
Qed.
(** Buckets that a command can put in place, other than by creation. *)
Lemma update_set_bucket s c t d bid rid del_ add_ k b : holds (fst (process_update_repl_set s c t d bid rid del_ add_)) k (VBucket b) ->
  holds s k (VBucket b) \/ (k = k_bucket c t d bid /\ exists b0, holds s k (VBucket b0) /\
    (NoDup (bucket_ids b0) -> NoDup (map fst add_) -> (forall i, In i (map fst add_) -> ~ In i (bucket_ids b0)) ->
     NoDup (bucket_ids b) /\ forall i, In i (bucket_ids b) -> In i (bucket_ids b0) \/ In i (map fst add_))).
Proof.
  unfold process_update_repl_set. destruct (get_as as_bucket s (k_bucket c t d bid)) as [| |b0] eqn:G; auto.
  apply get_as_holds in G. destruct G as (w & G & _ & D). apply dec_bucket in D. subst w. cbn [fst].
  match goal with |- context [match ?l with [] => _ | _ :: _ => _ end] => set (gs := l) end.
  assert (X : forall s', s' = match gs with [] => remove s (k_bucket c t d bid) | _ :: _ => insert s (k_bucket c t d bid) (VBucket (set_groups b0 gs)) end ->
     holds s' k (VBucket b) -> holds s k (VBucket b) \/ (k = k_bucket c t d bid /\ b = set_groups b0 gs)).
  { intros s' -> H. destruct gs; [left; now apply remove_in in H|]. apply insert_in in H. destruct H as [[-> E]|H]; [right; injection E; auto|auto]. }
  intro H. destruct (X _ eq_refl H) as [H'|[-> ->]]; [auto|]. right. split; [reflexivity|]. exists b0. split; [exact G|].
  rewrite !bucket_ids_eq. cbn [set_groups BucketModel.b_id BucketModel.b_group]. intros N Na D. inversion N as [|? ? N1 N2]; subst x l.
  destruct (groups_update rid del_ add_ _ N2 Na) as [U1 U2]; [intros i I J; apply (D i I); now right|].
  split.
  - constructor; [|now apply nodup_flat_filter]. intro I. unfold gs in I. apply flat_map_filter_sub, U2 in I. destruct I as [I|I]; [now apply N1|].
    apply (D _ I). now left.
  - intros i [<-|I]; [left; now left|]. unfold gs in I. apply flat_map_filter_sub, U2 in I. destruct I; [left; now right|now right].
Qed.
Lemma map_leader_ids rid (n v : Z) gs : flat_map group_ids (map (fun g => if BucketModel.r_id g =? rid then
   BucketModel.Build_repl (BucketModel.r_id g) n v (BucketModel.r_vnodes g) else g) gs) = flat_map group_ids gs.
Proof. induction gs as [|g gs IH]; [reflexivity|]. cbn [map flat_map]. rewrite IH. f_equal. now destruct (_ =? _). Qed.
Lemma plain_bucket e s x k b : (match x with CSet _ (VBucket _) | CCreateBucket _ _ _ _ | CUpdateReplSet _ _ _ _ _ _ _ => False | _ => True end) ->
  holds (fst (step e s x)) k (VBucket b) -> exists b0, holds s k (VBucket b0) /\ bucket_ids b = bucket_ids b0.
Proof.
  intros P H. destruct (step_in _ _ _ _ _ H) as [G|G]; [eauto|].
  destruct x; cbn [writes] in G; try contradiction;
    repeat match goal with H : _ /\ _ |- _ => destruct H | H : exists _, _ |- _ => destruct H | H : _ \/ _ |- _ => destruct H end; subst; try discriminate;
    try contradiction.
  - cbn [step] in H. unfold process_change_leader in H.
    destruct (get_as as_bucket s (k_bucket c t d bid)) as [| |b0] eqn:Q; cbn [fst] in H; eauto.
    apply get_as_holds in Q. destruct Q as (w & Q & _ & D). apply dec_bucket in D. subst w.
    apply insert_in in H. destruct H as [[_ E]|H]; [|eauto]. injection E as E. subst b. exists b0. split; [exact Q|].
    rewrite !bucket_ids_eq. cbn [set_groups BucketModel.b_id BucketModel.b_group]. now rewrite map_leader_ids.
  - cbn [step] in H. unfold process_update_vnode in H.
    destruct (get_as as_bucket s (k_bucket c t d bid)) as [| |b0] eqn:Q; cbn [fst] in H; eauto.
    apply get_as_holds in Q. destruct Q as (w & Q & _ & D). apply dec_bucket in D. subst w.
    apply insert_in in H. destruct H as [[_ E]|H]; [|eauto]. injection E as E. subst b. exists b0. now split.
Qed.
Lemma inv_keep c s s' pend seen : incr_id s c <= incr_id s' c -> (forall k b, holds s' k (VBucket b) -> in_cluster c k ->
   exists b0, holds s k (VBucket b0) /\ bucket_ids b = bucket_ids b0) -> id_inv c s pend seen -> id_inv c s' pend seen.
Proof.
  intros L H (A & B & C & D & E). split.
  - intros k b G I. destruct (H k b G I) as (b0 & G0 & ->). exact (A k b0 G0 I).
  - split; [exact B|]. split; [intros k i K; destruct (C k i K); split; [lia|assumption]|]. split; [exact D|]. intros i I. apply E in I. lia.
Qed.
Lemma inv_pend c s pend pend' seen : incl pend' pend -> NoDup pend' -> id_inv c s pend seen -> id_inv c s pend' seen.
Proof.
  intros L N (A & B & C & D & E). split; [exact A|]. split; [exact B|]. split; [intros k i K; destruct (C k i K); split; [assumption|intro I; auto]|].
  split; [exact N|]. auto.
Qed.
Lemma repl_dec (a b : BucketModel.repl) : {a = b} + {a <> b}.
Proof. decide equality; try apply Z.eq_dec. apply list_eq_dec. intros [x y] [x' y']. decide equality; apply Z.eq_dec. Defined.
Lemma bucket_dec (a b : bucket) : {a = b} + {a <> b}.
Proof. decide equality; try apply Z.eq_dec. apply list_eq_dec, repl_dec. Defined.
Lemma key_bucket_dec (a b : str * option bucket) : {a = b} + {a <> b}.
Proof. decide equality; [decide equality; apply bucket_dec|apply list_eq_dec, Z.eq_dec]. Defined.
Lemma classic_holds s k b : holds s k (VBucket b) \/ ~ holds s k (VBucket b).
Proof.
  unfold holds. destruct (in_dec key_bucket_dec (k, Some b) (map (fun kv => (fst kv, as_bucket (snd kv))) (s_map s))) as [I|N].
  - left. apply in_map_iff in I. destruct I as ((k', v) & E & I). cbn in E. injection E as -> E. apply dec_bucket in E. now subst v.
  - right. intro I. apply N. apply in_map_iff. exists (k, VBucket b). now split.
Qed.
(** What one command does to the ids still to be used. *)
Definition pend_after (c : str) (e : env) (s : st) (pend : list Z) (x : cmd) : list Z :=
  match x with
  | CRetainId c' n => if seqb c' c then numbers (match snd (step e s x) with Number a => a | _ => 0 end) n ++ pend else pend
  | CUpdateReplSet c' _ _ _ _ _ add => if seqb c' c then filter (fun i => negb (existsb (Z.eqb i) (map fst add))) pend else pend
  | _ => pend
  end.
Definition step_ids (c : str) (pend : list Z) (x : cmd) : Prop :=
  match x with
  | CSet _ (VBucket _) => False
  | CRetainId c' n => 0 <= n
  | CUpdateReplSet c' _ _ _ _ _ add => c' = c -> NoDup (map fst add) /\ incl (map fst add) pend
  | _ => True
  end.
Lemma ids_ok_step c s pend e x h : ids_ok c s pend ((e, x) :: h) -> step_ids c pend x /\ ids_ok c (fst (step e s x)) (pend_after c e s pend x) h.
Proof.
  destruct x; cbn [ids_ok step_ids pend_after]; auto.
  - destruct v; auto. intros [].
  - destruct (seqb c0 c) eqn:E; [intros (A & B & C); auto|]. intro H. split; [|exact H]. intros ->. rewrite seqb_refl in E. discriminate.
Qed.
Lemma inv_step c e s pend seen x : name_ok c -> wf s -> cmd_ok x -> step_ids c pend x -> id_inv c s pend seen ->
  exists seen' : str -> Z -> Prop, (forall k i, seen k i -> seen' k i) /\ id_inv c (fst (step e s x)) (pend_after c e s pend x) seen'.
Proof.
  intros Oc W O P IV.
  assert (DEF : (match x with CSet _ (VBucket _) | CCreateBucket _ _ _ _ | CUpdateReplSet _ _ _ _ _ _ _ => False | _ => True end) ->
                pend_after c e s pend x = pend -> incr_id s c <= incr_id (fst (step e s x)) c ->
     exists seen' : str -> Z -> Prop, (forall k i, seen k i -> seen' k i) /\ id_inv c (fst (step e s x)) (pend_after c e s pend x) seen').
  { intros Q E L. exists seen. split; [auto|]. rewrite E. eapply inv_keep; [exact L| |exact IV]. intros k b H _. eapply plain_bucket; eauto. }
  assert (INC : takes_ids x = false -> incr_id s c <= incr_id (fst (step e s x)) c).
  { intro T. unfold incr_id. rewrite incr_step by exact T. lia. }
  destruct x; cbn [step_ids] in P; try (apply DEF; [exact I|reflexivity|apply INC; reflexivity]).
  - apply DEF; [destruct v; auto|reflexivity|apply INC; reflexivity].
  - (* create bucket *) cbn [pend_after step]. destruct (create_bucket_incr e s c0 t d ts c) as [L1 L2].
    destruct (seqb c0 c) eqn:Q.
    + apply seqb_eq in Q. subst c0. destruct IV as (A & B & C & D & E).
      set (s' := fst (process_create_bucket e s c t d ts)) in *.
      exists (fun k i => seen k i \/ (incr_id s c <= i < incr_id s' c /\ exists b, holds s' k (VBucket b) /\ In i (bucket_ids b) /\ ~ holds s k (VBucket b))).
      split; [auto|].
      assert (NEW : forall k b, holds s' k (VBucket b) -> ~ holds s k (VBucket b) -> exists i, k = k_bucket c t d i /\ get k (s_map s') = Some (VBucket b)).
      { intros k b H N. destruct (create_bucket_ids e s c t d ts k b H) as [G|((i & ->) & _)]; [contradiction|]. exists i. split; [reflexivity|].
        apply in_get; [|exact H]. apply (step_srt e s (CCreateBucket c t d ts)). apply W. }
      assert (ONE : forall k b k' b', holds s' k (VBucket b) -> ~ holds s k (VBucket b) -> holds s' k' (VBucket b') -> ~ holds s k' (VBucket b') -> k = k').
      { (* only one insertion *) intros k b k' b' H N H' N'. unfold s', process_create_bucket in H, H'.
        destruct (children_values _ _ _ _ _) as [bs|]; [|contradiction]. destruct (existsb _ _); [contradiction|].
        destruct (get_as _ _ _) as [| |sc]; try contradiction. destruct (valid_nodes _ _ _) as [ns|]; [|contradiction]. cbv zeta in H, H'.
        destruct (negb _); [contradiction|]. destruct (d_shard sc =? 0); [contradiction|]. destruct (ts <? _); [contradiction|].
        destruct (fetch_add s c 1) as [id s1] eqn:F1. destruct (BucketModel.get_time_range ts (d_dur sc)) as [b0 e0].
        assert (Es1 : s_map s1 = s_map s) by (unfold fetch_add in F1; now injection F1 as _ <-).
        destruct (BucketModel.allocation_replication_set _ _ _ _) as [[g used]|]; [|unfold holds in *; cbn [fst] in *; rewrite Es1 in *; contradiction].
        rewrite with_meta_fst in H, H'. apply insert_in in H. apply insert_in in H'. unfold holds in *. rewrite fetch_add_map, Es1 in H, H'.
        destruct H as [[-> _]|H]; [|contradiction]. destruct H' as [[-> _]|H']; [reflexivity|contradiction]. }
      assert (RNG : forall k b i, holds s' k (VBucket b) -> ~ holds s k (VBucket b) -> In i (bucket_ids b) -> NoDup (bucket_ids b) /\ incr_id s c <= i < incr_id s' c).
      { intros k b i H N I. destruct (create_bucket_ids e s c t d ts k b H) as [G|(_ & N1 & R)]; [contradiction|]. split; [exact N1|]. now apply R. }
      split; [|split; [|split; [|split]]].
      * intros k b H I. destruct (classic_holds s k b) as [G|G].
        -- destruct (A k b G I) as [A1 A2]. split; [exact A1|]. intros i J. left. now apply A2.
        -- assert (R0 := RNG k b (BucketModel.b_id b) H G (or_introl eq_refl)). destruct R0 as [R1 _]. split; [exact R1|].
           intros i J. right. split; [now apply (RNG k b i H G J)|]. exists b. auto.
      * intros k k' i [S1|(R1 & b1 & H1 & J1 & N1)] [S2|(R2 & b2 & H2 & J2 & N2)].
        -- now apply (B k k' i).
        -- apply C in S1. lia.
        -- apply C in S2. lia.
        -- exact (ONE k b1 k' b2 H1 N1 H2 N2).
      * intros k i [S1|(R1 & _)]; [destruct (C k i S1); split; [lia|assumption]|]. split; [lia|]. intro I. apply E in I. lia.
      * exact D.
      * intros i I. apply E in I. lia.
    + exists seen. split; [auto|]. assert (NE : c <> c0) by (intros ->; rewrite seqb_refl in Q; discriminate).
      eapply inv_keep; [exact L1| |exact IV]. intros k b H (t' & d' & i' & Ot & Od & ->).
      destruct (create_bucket_ids e s c0 t d ts _ b H) as [G|((j & E) & _)]; [eauto|]. cbn [cmd_ok] in O. destruct O as (O1 & O2 & O3).
      apply cluster_bucket in E; auto. destruct E as (E & _). now contradiction NE.
  - (* retain *) cbn [pend_after step]. unfold fetch_add at 1. cbn [snd fst]. fold (incr_id s c0).
    set (s' := ST (s_map s) (s_ver s) (put c0 (incr_id s c0 + n) (s_incr s)) (s_log s)).
    assert (IS : incr_id s' c = if seqb c c0 then incr_id s c0 + n else incr_id s c) by exact (incr_fetch s c0 n c).
    exists seen. split; [auto|]. rewrite (seqb_sym c0 c). destruct (seqb c c0) eqn:Q.
    + apply seqb_eq in Q. subst c0. destruct IV as (A & B & C & D & E). split; [exact A|]. split; [exact B|].
      unfold fetch_add. cbv zeta. cbn [snd]. split; [|split].
      * intros k i K. destruct (C k i K) as [C1 C2]. rewrite IS. split; [lia|]. intro I. apply in_app_or in I.
        destruct I as [I|I]; [apply numbers_in in I; lia|contradiction].
      * apply nodup_app_intro; [apply numbers_nodup|exact D|]. intros i I J. apply numbers_in in I. apply E in J. lia.
      * intros i I. rewrite IS. apply in_app_or in I. destruct I as [I|I]; [apply numbers_in in I; lia|apply E in I; lia].
    + eapply inv_keep; [| |exact IV]; [rewrite IS; lia|]. intros k b H _. exists b. split; [exact H|reflexivity].
  - (* replica set *) cbn [pend_after step]. destruct (seqb c0 c) eqn:Q.
    + apply seqb_eq in Q. subst c0. destruct (P eq_refl) as [P1 P2]. destruct IV as (A & B & C & D & E).
      set (pend' := filter _ pend). assert (SUB : forall i, In i pend' -> In i pend /\ ~ In i (map fst add_)).
      { intros i I. unfold pend' in I. apply filter_In in I. destruct I as [I J]. split; [exact I|]. intro K.
        assert (X : existsb (Z.eqb i) (map fst add_) = true) by (apply existsb_exists; exists i; split; [exact K|apply Z.eqb_refl]). rewrite X in J. discriminate. }
      assert (IS : incr_id (fst (process_update_repl_set s c t d bid rid del_ add_)) c = incr_id s c).
      { unfold incr_id. pose proof (incr_step e s (CUpdateReplSet c t d bid rid del_ add_) eq_refl) as X. cbn [step] in X. now rewrite X. }
      exists (fun k i => seen k i \/ (k = k_bucket c t d bid /\ In i (map fst add_))). split; [auto|].
      split; [|split; [|split; [|split]]].
      * intros k b H I. destruct (update_set_bucket s c t d bid rid del_ add_ k b H) as [G|(-> & b0 & G & F)].
        -- destruct (A k b G I) as [A1 A2]. split; [exact A1|auto].
        -- destruct (A _ b0 G I) as [A1 A2]. destruct F as [F1 F2]; [exact A1|exact P1| |].
           { intros i J K. apply A2 in K. apply C in K. destruct K as [_ K]. apply K. now apply P2. }
           split; [exact F1|]. intros i J. apply F2 in J. destruct J; [left; auto|right; auto].
      * intros k k' i [S1|(-> & J1)] [S2|(-> & J2)]; auto.
        -- now apply (B k k' i).
        -- apply C in S1. destruct S1 as [_ S1]. exfalso. apply S1. now apply P2.
        -- apply C in S2. destruct S2 as [_ S2]. exfalso. apply S2. now apply P2.
      * intros k i [S1|(-> & J1)].
        -- destruct (C k i S1) as [C1 C2]. rewrite IS. split; [exact C1|]. intro I. apply SUB in I. tauto.
        -- rewrite IS. split; [apply E; now apply P2|]. intro I. apply SUB in I. tauto.
      * now apply NoDup_filter.
      * intros i I. rewrite IS. apply E. now apply SUB in I.
    + exists seen. split; [auto|]. assert (NE : c <> c0) by (intros ->; rewrite seqb_refl in Q; discriminate).
      eapply inv_keep; [apply (INC eq_refl)| |exact IV]. intros k b H (t' & d' & i' & Ot & Od & ->).
      destruct (update_set_bucket s c0 t d bid rid del_ add_ _ b H) as [G|(E & _)]; [eauto|]. cbn [cmd_ok] in O. destruct O as (O1 & O2 & O3).
      apply cluster_bucket in E; auto. destruct E as (E & _). now contradiction NE.
Qed.
Definition cmds_ok (h : list (env * cmd)) : Prop := Forall (fun ex => env_ok (fst ex) /\ cmd_ok (snd ex)) h.
Fixpoint pend_run (c : str) (s : st) (pend : list Z) (h : list (env * cmd)) : list Z :=
  match h with [] => pend | (e, x) :: h => pend_run c (fst (step e s x)) (pend_after c e s pend x) h end.
Lemma inv_run c : name_ok c -> forall h s pend seen, wf s -> cmds_ok h -> ids_ok c s pend h -> id_inv c s pend seen ->
  exists seen' : str -> Z -> Prop, (forall k i, seen k i -> seen' k i) /\ id_inv c (run s h) (pend_run c s pend h) seen'.
Proof.
  intros Oc h. induction h as [|(e, x) h IH]; intros s pend seen W F I IV; cbn [run pend_run]; [eauto|].
  inversion F as [|? ? [_ Ox] F']; subst. cbn in Ox. apply ids_ok_step in I. destruct I as [I1 I2].
  destruct (inv_step c e s pend seen x Oc W Ox I1 IV) as (seen1 & S1 & IV1).
  destruct (IH _ _ seen1 (step_wf e s x W Ox) F' I2 IV1) as (seen2 & S2 & IV2). exists seen2. split; auto.
Qed.
Lemma ids_ok_app c h1 : forall s pend h2, ids_ok c s pend (h1 ++ h2) -> ids_ok c s pend h1 /\ ids_ok c (run s h1) (pend_run c s pend h1) h2.
Proof.
  induction h1 as [|(e, x) h1 IH]; intros s pend h2 H; cbn [app run pend_run] in *; [now split|].
  assert (G := ids_ok_step _ _ _ _ _ _ H). destruct G as [G1 G2]. apply IH in G2. destruct G2 as [G2 G3]. split; [|exact G3].
  revert H G2. clear. destruct x; cbn [ids_ok pend_after]; auto; try tauto.
  - destruct v; tauto.
  - destruct (seqb c0 c); tauto.
Qed.
Lemma inv0 c : id_inv c st0 [] (fun _ _ => False).
Proof. split; [intros k b []|]. split; [intros ? ? ? []|]. split; [intros ? ? []|]. split; [constructor|intros i []]. Qed.
Lemma stored_holds s c t d i b : stored s c t d i b -> holds s (k_bucket c t d i) (VBucket b) /\ in_cluster c (k_bucket c t d i).
Proof. intros (Ot & Od & G). split; [now apply get_in|]. exists t, d, i. auto. Qed.
Lemma cmds_app h1 h2 : cmds_ok (h1 ++ h2) -> cmds_ok h1 /\ cmds_ok h2. Proof. apply Forall_app. Qed.

Lemma ids_unique h1 h2 c t1 d1 i1 b1 t2 d2 i2 b2 id : name_ok c -> cmds_ok (h1 ++ h2) -> ids_ok c st0 [] (h1 ++ h2) ->
  stored (run st0 h1) c t1 d1 i1 b1 -> stored (run st0 (h1 ++ h2)) c t2 d2 i2 b2 ->
  In id (bucket_ids b1) -> In id (bucket_ids b2) -> t1 = t2 /\ d1 = d2 /\ i1 = i2.
Proof.
  intros Oc F I S1 S2 J1 J2. apply cmds_app in F. destruct F as [F1 F2]. apply ids_ok_app in I. destruct I as [I1 I2].
  destruct (inv_run c Oc h1 _ _ _ wf0 F1 I1 (inv0 c)) as (seen1 & _ & IV1).
  assert (W1 : wf (run st0 h1)) by (apply run_wf; [exact wf0|exact F1]).
  destruct (inv_run c Oc h2 _ _ _ W1 F2 I2 IV1) as (seen2 & SS & IV2). rewrite run_app in S2.
  pose proof S1 as (Ot1 & Od1 & _). pose proof S2 as (Ot2 & Od2 & _).
  apply stored_holds in S1. apply stored_holds in S2. destruct S1 as [H1 C1]. destruct S2 as [H2 C2].
  destruct IV1 as (A1 & _). destruct IV2 as (A2 & B2 & _).
  assert (K1 : seen2 (k_bucket c t1 d1 i1) id) by (apply SS; now apply (proj2 (A1 _ _ H1 C1))).
  assert (K2 : seen2 (k_bucket c t2 d2 i2) id) by now apply (proj2 (A2 _ _ H2 C2)).
  apply cluster_bucket with (c := c) (c' := c); auto. exact (B2 _ _ _ K1 K2).
Qed.
Lemma ids_nodup h c t d i b : name_ok c -> cmds_ok h -> ids_ok c st0 [] h -> stored (run st0 h) c t d i b -> NoDup (bucket_ids b).
Proof.
  intros Oc F I S. destruct (inv_run c Oc h _ _ _ wf0 F I (inv0 c)) as (seen1 & _ & (A & _)). apply stored_holds in S. destruct S as [H C].
  apply (A _ _ H C).
Qed.
Lemma pend_stays c id h : forall s pend, In id pend -> Forall (fun ex => ~ adds c id (snd ex)) h -> In id (pend_run c s pend h).
Proof.
  induction h as [|(e, x) h IH]; intros s pend I F; cbn [pend_run]; [exact I|]. inversion F as [|? ? N F']; subst. apply IH; [|exact F'].
  cbn [snd] in N. destruct x; cbn [pend_after]; auto.
  - destruct (seqb c0 c); [apply in_or_app; now right|exact I].
  - destruct (seqb c0 c) eqn:Q; [|exact I]. apply seqb_eq in Q. subst c0. apply filter_In. split; [exact I|].
    destruct (existsb (Z.eqb id) (map fst add_)) eqn:X; [|reflexivity]. apply existsb_exists in X. destruct X as (y & Y & E). apply Z.eqb_eq in E. subst y.
    exfalso. apply N. cbn. auto.
Qed.
Lemma retain_fresh h1 e c n h2 a id : name_ok c -> cmds_ok (h1 ++ (e, CRetainId c n) :: h2) -> ids_ok c st0 [] (h1 ++ (e, CRetainId c n) :: h2) ->
  snd (step e (run st0 h1) (CRetainId c n)) = Number a -> a <= id < a + n ->
  (forall t d i b, stored (run st0 h1) c t d i b -> ~ In id (bucket_ids b)) /\
  (Forall (fun ex => ~ adds c id (snd ex)) h2 ->
   forall t d i b, stored (run st0 (h1 ++ (e, CRetainId c n) :: h2)) c t d i b -> ~ In id (bucket_ids b)).
Proof.
  intros Oc F I E R. apply cmds_app in F. destruct F as [F1 F2]. apply ids_ok_app in I. destruct I as [I1 I2].
  destruct (inv_run c Oc h1 _ _ _ wf0 F1 I1 (inv0 c)) as (seen1 & _ & IV1).
  assert (W1 : wf (run st0 h1)) by (apply run_wf; [exact wf0|exact F1]). 
  assert (Ea : a = incr_id (run st0 h1) c) by (cbn [step] in E; unfold fetch_add in E; cbn [snd] in E; now injection E).
  split.
  - intros t d i b S J. apply stored_holds in S. destruct S as [H C]. destruct IV1 as (A & _ & B & _). apply (proj2 (A _ _ H C)) in J. apply B in J. lia.
  - intros N t d i b S J. rewrite run_app in S. pose proof F2 as F2'. inversion F2' as [|? ? [_ Ox] F3]; subst. cbn in Ox. cbn [run] in S.
    destruct (inv_run c Oc ((e, CRetainId c n) :: h2) _ _ _ W1 F2 I2 IV1) as (seen2 & SS & IV2).
    apply stored_holds in S. destruct S as [H C]. destruct IV2 as (A & _ & B & _).
    apply (proj2 (A _ _ H C)) in J. apply B in J. destruct J as [_ J]. apply J. cbn [pend_run]. apply pend_stays; [|exact N].
    cbn [pend_after]. rewrite seqb_refl. apply in_or_app. left. rewrite E. now apply numbers_in.
Qed.
Lemma incr_mono e s x c : (forall c' n, x = CRetainId c' n -> 0 <= n) -> incr_id s c <= incr_id (fst (step e s x)) c.
Proof.
  intro P. destruct (takes_ids x) eqn:T.
  - destruct x; try discriminate; cbn [step].
    + apply create_bucket_incr.
    + specialize (P _ _ eq_refl). change (incr_id s c <= incr_id (snd (fetch_add s c0 n)) c). rewrite incr_fetch.
      destruct (seqb c c0) eqn:Q; [apply seqb_eq in Q; subst|]; lia.
  - unfold incr_id. rewrite incr_step by exact T. lia.
Qed.
Lemma incr_mono_run c h : forall s pend, ids_ok c s pend h -> incr_id s c <= incr_id (run s h) c.
Proof.
  induction h as [|(e, x) h IH]; intros s pend I; cbn [run]; [lia|]. apply ids_ok_step in I. destruct I as [I1 I2].
  etransitivity; [|apply (IH _ _ I2)]. apply incr_mono. intros c' n ->. exact I1.
Qed.
Lemma retain_distinct h1 e1 n1 h2 e2 n2 h3 c a1 a2 : name_ok c ->
  ids_ok c st0 [] (h1 ++ (e1, CRetainId c n1) :: h2 ++ (e2, CRetainId c n2) :: h3) ->
  snd (step e1 (run st0 h1) (CRetainId c n1)) = Number a1 ->
  snd (step e2 (run st0 (h1 ++ (e1, CRetainId c n1) :: h2)) (CRetainId c n2)) = Number a2 -> a1 + n1 <= a2.
Proof.
  intros Oc I E1 E2. apply ids_ok_app in I. destruct I as [_ I]. apply ids_ok_step in I. destruct I as [_ I]. apply ids_ok_app in I. destruct I as [I _].
  apply incr_mono_run in I. rewrite run_app in E2. cbn [run] in E2.
  cbn [step] in E1, E2. unfold fetch_add in E1, E2. cbn [snd] in E1, E2. injection E1 as <-. injection E2 as <-.
  etransitivity; [|exact I]. change (incr_id (run st0 h1) c + n1 <= incr_id (snd (fetch_add (run st0 h1) c n1)) c). rewrite incr_fetch, seqb_refl. lia.
Qed.

(** * Effects (C47) *)
Lemma get_insert s k0 v k : get k (s_map (insert s k0 v)) = if seqb k k0 then Some v else get k (s_map s).
Proof. apply get_put_any. Qed.
Lemma get_insert_ne s k0 v k : k <> k0 -> get k (s_map (insert s k0 v)) = get k (s_map s).
Proof. intro N. now rewrite get_insert, seqb_neq. Qed.
Lemma get_remove s k0 k : srt s -> get k (s_map (remove s k0)) = if seqb k k0 then None else get k (s_map s).
Proof. apply get_del. Qed.
Lemma get_remove_ne s k0 k : srt s -> k <> k0 -> get k (s_map (remove s k0)) = get k (s_map s).
Proof. intros S N. now rewrite get_remove, seqb_neq. Qed.
Lemma get_limiter_ne s c t l k : srt s -> k <> k_limiter c t -> get k (s_map (set_limiter s c t l)) = get k (s_map s).
Proof. intros S N. destruct l; cbn [set_limiter]; [now apply get_insert_ne|now apply get_remove_ne]. Qed.
Lemma get_fold_ne {A} (f : st -> A -> st) k : (forall s a, srt s -> srt (f s a)) -> forall l s, srt s ->
  (forall s a, srt s -> In a l -> get k (s_map (f s a)) = get k (s_map s)) -> get k (s_map (fold_left f l s)) = get k (s_map s).
Proof.
  intros P l. induction l as [|a l IH]; intros s S F; cbn; [reflexivity|]. rewrite IH; [apply F; [exact S|now left]|now apply P|].
  intros s' b S' I. apply F; [exact S'|now right].
Qed.
Lemma child_inside p k n : child_name p k = Some n -> (forall z, rev p <> 47 :: z) -> inside p k.
Proof.
  intros C N. apply child_name_key in C. right. exists n. subst k. unfold dir. destruct (rev p) as [|x r] eqn:R.
  - now rewrite <- app_assoc.
  - destruct x as [|[| | ]|]; try (now rewrite <- app_assoc);
      repeat match goal with |- context [match ?q with xI _ => _ | xO _ => _ | xH => _ end] => destruct q end;
      try (now rewrite <- app_assoc). exfalso. now apply (N r).
Qed.
Lemma path_no_slash cs : Forall name_ok cs -> cs <> [] -> forall z, rev (path cs) <> 47 :: z.
Proof.
  intros F N z E. assert (D := dir_path cs F N). unfold dir in D. rewrite E in D.
  assert (L : length (path cs) = length (path cs ++ [47])) by (rewrite <- D; reflexivity). rewrite app_length in L. cbn in L. lia.
Qed.
Lemma inside_path cs rest : inside (path cs) (path (cs ++ rest)).
Proof. destruct (path_under cs rest) as [H|H]; [left|right]; exact H. Qed.
Lemma inside_trans a b k : inside a b -> inside b k -> inside a k.
Proof.
  intros [->|(r & ->)] [->|(r' & ->)]; [now left|right; eauto|right; eauto|]. right. exists (r ++ 47 :: r'). now rewrite <- app_assoc.
Qed.
Lemma inside_more cs rest k : inside (path (cs ++ rest)) k -> inside (path cs) k.
Proof. intro H. eapply inside_trans; [apply inside_path|exact H]. Qed.
Lemma try_all_ne {A} (f : st -> A -> st * reply) k : (forall s x, srt s -> srt (fst (f s x))) -> forall l s, srt s ->
  (forall s x, srt s -> get k (s_map (fst (f s x))) = get k (s_map s)) -> get k (s_map (fst (try_all f s l))) = get k (s_map s).
Proof.
  intros P l. induction l as [|x l IH]; intros s S F; cbn [try_all]; [reflexivity|]. specialize (P s x S). pose proof (F s x S) as F1.
  destruct (f s x) as [s1 r]. cbn in P, F1. destruct r; cbn [fst]; rewrite ?IH; auto.
Qed.
Lemma remove_member_ne s c u t k : srt s -> k <> k_member c t u -> get k (s_map (fst (process_remove_member s c u t))) = get k (s_map s).
Proof. intros S N. unfold process_remove_member. destruct (contains _ _); [now apply get_remove_ne|reflexivity]. Qed.
Lemma drop_role_ne s c r t k : srt s -> k <> k_role c t r -> get k (s_map (fst (process_drop_role s c r t))) = get k (s_map s).
Proof. intros S N. unfold process_drop_role. destruct (contains _ _); [now apply get_remove_ne|reflexivity]. Qed.
Lemma drop_tenant_ne e s c n k : srt s -> ~ inside (k_tenant c n) k -> get k (s_map (fst (process_drop_tenant e s c n))) = get k (s_map s).
Proof.
  intros S N. unfold process_drop_tenant. destruct (read_members e s c n) as [ms|]; [|reflexivity]. destruct (read_users e s c) as [us|]; [|reflexivity].
  assert (Nm : forall u, k <> k_member c n u) by (intros u ->; apply N; exact (inside_path [c; s_tenants; n] [s_members; show u])).
  assert (Nr : forall r, k <> k_role c n r) by (intros r ->; apply N; exact (inside_path [c; s_tenants; n] [s_roles; r])).
  assert (Nt : k <> k_tenant c n) by (intros ->; apply N; now left).
  assert (Nl : k <> k_limiter c n) by (intros ->; apply N; exact (inside_path [c; s_tenants; n] [s_limiter])).
  match goal with |- context [try_all ?f s ?l] =>
    pose proof (try_all_ne f k (fun s x S => remove_member_srt s c (u_id x) n S) l s S (fun s x S => remove_member_ne s c (u_id x) n k S (Nm _))) as T1;
    pose proof (try_all_srt f (fun s x S => remove_member_srt s c (u_id x) n S) l s S) as S1; destruct (try_all f s l) as [s1 r1] end. cbn in T1, S1.
  assert (G : get k (s_map (fst (match read_roles e s1 c n with
       | Some rs => match try_all (fun s r => process_drop_role s c (ro_name r) n) s1 rs with
                    | (s2, Refused) => (s2, Refused)
                    | (s2, _) => (remove (remove s2 (k_tenant c n)) (k_limiter c n), Done) end
       | None => (s1, Refused) end))) = get k (s_map s)).
  { destruct (read_roles e s1 c n) as [rs|]; [|apply T1].
    match goal with |- context [try_all ?f s1 ?l] =>
      pose proof (try_all_ne f k (fun s x S => drop_role_srt s c (ro_name x) n S) l s1 S1 (fun s x S => drop_role_ne s c (ro_name x) n k S (Nr _))) as T2;
      pose proof (try_all_srt f (fun s x S => drop_role_srt s c (ro_name x) n S) l s1 S1) as S2; destruct (try_all f s1 l) as [s2 r2] end. cbn in T2, S2.
    destruct r2; cbn [fst]; [|congruence|]; rewrite get_remove_ne, get_remove_ne; try congruence; auto; apply remove_srt; auto. }
  destruct r1; [exact G|exact T1|exact G].
Qed.
Lemma mark_ne s c n l k : k <> k_resources_mark c -> get k (s_map (fst (process_write_mark s c n l))) = get k (s_map s).
Proof. intro N. unfold process_write_mark. destruct (read_mark s c) as [[o b]|]; [|reflexivity]. destruct (_ || _); [reflexivity|]. now apply get_insert_ne. Qed.
Lemma drop_db_ne s c t d k : wf s -> name_ok c -> name_ok t -> name_ok d -> ~ inside (k_db c t d) k ->
  get k (s_map (fst (process_drop_db s c t d))) = get k (s_map s).
Proof.
  intros [S _] Oc Ot Od N. unfold process_drop_db. cbn [fst].
  assert (S1 : srt (remove s (k_db c t d))) by now apply remove_srt.
  assert (X : forall p s', srt s' -> (forall z, rev p <> 47 :: z) -> (forall q, inside p q -> inside (k_db c t d) q) ->
      get k (s_map (fold_left remove (children_fullpath s' p) s')) = get k (s_map s')).
  { intros p s' S' Np P. apply (get_fold_ne remove); [intros; now apply remove_srt|exact S'|]. intros s2 a S2 I. apply get_remove_ne; [exact S2|].
    intros ->. apply N. apply P. apply fullpath_in in I. destruct I as [_ I]. destruct (child_name p a) as [n|] eqn:C; [|now contradiction I].
    eapply child_inside; eauto. }
  rewrite X.
  - rewrite X.
    + apply get_remove_ne; [exact S|]. intros ->. apply N. now left.
    + exact S1.
    + apply path_no_slash; [auto 12 with nm|discriminate].
    + intros q. exact (inside_more [c; s_tenants; t; s_dbs; d] [s_buckets] q).
  - apply (fold_remove_srt (fun k => k)), S1.
  - apply path_no_slash; [auto 12 with nm|discriminate].
  - intros q. exact (inside_more [c; s_tenants; t; s_dbs; d] [s_schemas] q).
Qed.
Lemma scope_step e s x k : wf s -> cmd_ok x -> ~ scope x k -> get k (s_map (fst (step e s x))) = get k (s_map s).
Proof.
  intros W O N. pose proof W as [S _]. destruct x; cbn [step scope] in *; try (now apply get_insert_ne); try (now apply get_remove_ne); try reflexivity.
  - unfold process_add_node. destruct (children_values _ _ _ _ _); [|reflexivity]. destruct (existsb _ _); [reflexivity|]. cbn [fst].
    rewrite mark_ne by tauto. apply get_insert_ne. tauto.
  - unfold process_create_db. destruct (contains _ _); [reflexivity|]. destruct (db_schema_valid _ _ _ _); [|reflexivity]. now apply get_insert_ne.
  - unfold process_alter_db. destruct (contains _ _); [|reflexivity]. cbn [negb]. destruct (db_schema_valid _ _ _ _); [|reflexivity]. now apply get_insert_ne.
  - unfold process_db_hidden. destruct (get_as _ _ _); try reflexivity. now apply get_insert_ne.
  - apply drop_db_ne; try tauto; apply O.
  - unfold process_drop_table. destruct (contains _ _); [now apply get_remove_ne|reflexivity].
  - unfold process_create_table. destruct (contains _ _); [|reflexivity]. cbn [negb]. destruct (contains _ _); [reflexivity|]. now apply get_insert_ne.
  - unfold process_update_table. destruct (get_as _ _ _); try reflexivity; [now apply get_insert_ne|]. destruct (_ && _); [|reflexivity].
    destruct (_ =? _); [now apply get_insert_ne|reflexivity].
  - unfold process_create_bucket. destruct (children_values _ _ _ _ _) as [bs|]; [|reflexivity]. destruct (existsb _ _); [reflexivity|].
    destruct (get_as _ _ _) as [| |sc]; try reflexivity. destruct (valid_nodes _ _ _) as [ns|]; [|reflexivity]. cbv zeta.
    destruct (negb _); [reflexivity|]. destruct (d_shard sc =? 0); [reflexivity|]. destruct (ts <? _); [reflexivity|].
    unfold fetch_add. cbv zeta. destruct (BucketModel.get_time_range ts (d_dur sc)) as [b0 e0].
    destruct (BucketModel.allocation_replication_set _ _ _ _) as [[g used]|]; [|reflexivity]. rewrite with_meta_fst.
    rewrite get_insert_ne; [reflexivity|]. intros ->. apply N. apply (inside_path [c; s_tenants; t; s_dbs; d; s_buckets] [show (Z.to_N (incr_id s c))]).
  - unfold process_create_user. destruct (contains _ _); [reflexivity|now apply get_insert_ne].
  - unfold process_alter_user. destruct (get_as _ _ _); try reflexivity. now apply get_insert_ne.
  - unfold process_drop_user. destruct (get_as _ _ _); try reflexivity. destruct (children_values _ _ _ _ _); [|reflexivity]. cbn [fst].
    rewrite get_remove_ne; [|apply (fold_remove_srt (fun t => k_member (t_name t) (t_name t) (u_id a))), S|tauto].
    apply (get_fold_ne (fun s t => remove s (k_member (t_name t) (t_name t) (u_id a)))); [intros; now apply remove_srt|exact S|].
    intros s' t' S' _. apply get_remove_ne; [exact S'|]. intros ->. apply N. right. eauto.
  - unfold process_create_tenant. destruct (contains _ _); [reflexivity|]. cbn [fst]. rewrite get_insert_ne by tauto. apply get_limiter_ne; tauto.
  - unfold process_alter_tenant. destruct (get_as as_tenant _ _) as [| |a]; try reflexivity. destruct (t_hidden a); [reflexivity|]. cbn [fst].
    rewrite get_limiter_ne; [apply get_insert_ne; tauto|now apply insert_srt|tauto].
  - unfold process_tenant_hidden. destruct (get_as as_tenant _ _) as [| |a]; try reflexivity. cbn [fst].
    rewrite get_limiter_ne; [apply get_insert_ne; tauto|now apply insert_srt|tauto].
  - now apply drop_tenant_ne.
  - unfold process_add_member. destruct (contains _ _); [reflexivity|]. destruct (role_known _ _ _ _); [now apply get_insert_ne|reflexivity].
  - now apply remove_member_ne.
  - unfold process_reasign. destruct (contains _ _); [|reflexivity]. cbn [negb]. destruct (role_known _ _ _ _); [now apply get_insert_ne|reflexivity].
  - unfold process_create_role. destruct (contains _ _); [reflexivity|now apply get_insert_ne].
  - now apply drop_role_ne.
  - unfold process_grant. destruct (get_as as_role _ _) as [| |a]; try reflexivity. destruct (grant_all _ _ _ _ _); [now apply get_insert_ne|reflexivity].
  - unfold process_revoke. destruct (get_as as_role _ _) as [| |a]; try reflexivity. destruct (revoke_all _ _); [now apply get_insert_ne|reflexivity].
  - unfold process_update_repl_set. destruct (get_as as_bucket _ _) as [| |b]; try reflexivity. cbn [fst].
    match goal with |- context [match ?l with [] => _ | _ :: _ => _ end] => destruct l end; [now apply get_remove_ne|now apply get_insert_ne].
  - unfold process_change_leader. destruct (get_as _ _ _); try reflexivity. now apply get_insert_ne.
  - unfold process_update_vnode. destruct (get_as _ _ _); try reflexivity. now apply get_insert_ne.
  - unfold process_limiter. destruct (get_as as_limiter _ _) as [| |a]; try reflexivity. destruct (get kind a); [|reflexivity].
    destruct (RateModel.acquire_closed _ _ _). cbn [fst]. now apply get_limiter_ne.
  - now apply mark_ne.
  - unfold process_move_query. destruct (children_values _ _ _ _ _) as [qs|]; [|reflexivity]. cbn [fst].
    apply (get_fold_ne (fun s q => insert s (k_query c (q_id q)) (VQuery (QU (q_id q) dst (q_rest q))))); [intros; now apply insert_srt|exact S|].
    intros s' q S' _. apply get_insert_ne. intros ->. apply N. apply (inside_path [c; s_queries] [show (q_id q)]).
Qed.

(** Tenants are separate. *)
Lemma inside_one c t t' k : name_ok t -> name_ok t' -> inside (k_tenant c t) k -> inside (k_tenant c t') k -> t = t'.
Proof.
  intros [_ N] [_ N'] H H'. unfold k_tenant in *. rewrite !(path_cons c) in *. rewrite !(path_cons s_tenants) in *.
  assert (P : forall x, path [x] = 47 :: x) by (intro; unfold path; cbn; now rewrite app_nil_r). rewrite !P in *.
  set (pre := c ++ 47 :: s_tenants) in *.
  assert (E : forall x r, 47 :: c ++ (47 :: s_tenants ++ (47 :: x)) ++ r = (47 :: pre) ++ 47 :: x ++ r).
  { intros. unfold pre. cbn [app]. rewrite <- ?app_assoc. cbn [app]. now rewrite <- ?app_assoc. }
  assert (X : exists Y, (Y = [] \/ exists r, Y = 47 :: r) /\ k = (47 :: pre) ++ 47 :: t ++ Y).
  { destruct H as [->|(r & ->)]; [exists []; split; [now left|]|exists (47 :: r); split; [right; eauto|]].
    - rewrite <- E. cbn [app]. now rewrite !app_nil_r.
    - rewrite <- E. cbn [app]. rewrite <- !app_assoc. cbn [app]. now rewrite <- !app_assoc. }
  assert (X' : exists Y, (Y = [] \/ exists r, Y = 47 :: r) /\ k = (47 :: pre) ++ 47 :: t' ++ Y).
  { destruct H' as [->|(r & ->)]; [exists []; split; [now left|]|exists (47 :: r); split; [right; eauto|]].
    - rewrite <- E. cbn [app]. now rewrite !app_nil_r.
    - rewrite <- E. cbn [app]. rewrite <- !app_assoc. cbn [app]. now rewrite <- !app_assoc. }
  destruct X as (Y & HY & ->). destruct X' as (Y' & HY' & E2). apply app_inv_head in E2. injection E2 as E2.
  destruct HY as [->|(r & ->)]; destruct HY' as [->|(r' & ->)].
  - rewrite !app_nil_r in E2. exact E2.
  - rewrite app_nil_r in E2. exfalso. apply N. rewrite E2. apply in_or_app. right. now left.
  - rewrite app_nil_r in E2. exfalso. apply N'. rewrite <- E2. apply in_or_app. right. now left.
  - destruct (no_slash_split t t' r (47 :: r') N N' E2); eauto.
Qed.
Lemma scope_about x c0 t0 k : about x = Some (c0, t0) -> scope x k -> inside (k_tenant c0 t0) k.
Proof.
  intros A S. destruct x; cbn [about scope] in *; try discriminate; injection A as <- <-;
    try (rewrite S; first
      [ exact (inside_path [c; s_tenants; t] [s_dbs; d_name d])
      | exact (inside_path [c; s_tenants; t] [s_dbs; d])
      | exact (inside_path [c; s_tenants; t] [s_dbs; d; s_schemas; n])
      | exact (inside_path [c; s_tenants; t] [s_dbs; tb_db tb; s_schemas; tb_name tb])
      | exact (inside_path [c; s_tenants; t] [s_dbs; d; s_buckets; show id])
      | exact (inside_path [c; s_tenants; t] [s_dbs; d; s_buckets; show bid])
      | exact (inside_path [c; s_tenants; t] [s_members; show uid])
      | exact (inside_path [c; s_tenants; t] [s_roles; r])
      | exact (inside_path [c; s_tenants; t] [s_limiter]) ]).
  - exact (inside_more [c; s_tenants; t] [s_dbs; d] k S).
  - exact (inside_more [c; s_tenants; t] [s_dbs; d; s_buckets] k S).
  - destruct S as [->| ->]; [now left|exact (inside_path [c; s_tenants; t_name t] [s_limiter])].
  - destruct S as [->| ->]; [now left|exact (inside_path [c; s_tenants; n] [s_limiter])].
  - destruct S as [->| ->]; [now left|exact (inside_path [c; s_tenants; n] [s_limiter])].
  - exact S.
Qed.
Lemma about_ok x c t : cmd_ok x -> about x = Some (c, t) -> name_ok c /\ name_ok t.
Proof. intros O A. destruct x; cbn [about cmd_ok] in *; try discriminate; injection A as <- <-; tauto. Qed.
Lemma tenants_apart e s x c t t' k : wf s -> cmd_ok x -> about x = Some (c, t) -> name_ok t' -> t <> t' -> inside (k_tenant c t') k ->
  get k (s_map (fst (step e s x))) = get k (s_map s).
Proof.
  intros W O A Ot N I. apply scope_step; auto. intro S. apply N. destruct (about_ok x c t O A) as [_ Ot1].
  apply (inside_one c t t' k Ot1 Ot); [|exact I]. now apply (scope_about x).
Qed.

(** Clusters are separate, except for DROP USER. *)
Lemma scope_cluster x c0 k : cluster_of x = Some c0 -> (forall n, x <> CDropUser c0 n) -> scope x k -> inside (path [c0]) k.
Proof.
  intros A D S. destruct x; cbn [cluster_of scope] in *; try discriminate; try contradiction; injection A as <-;
    try (rewrite S; first
      [ exact (inside_path [c] [s_data_nodes_metrics; show (m_id m)])
      | exact (inside_path [c] [s_tenants; t; s_dbs; d_name d])
      | exact (inside_path [c] [s_tenants; t; s_dbs; d])
      | exact (inside_path [c] [s_tenants; t; s_dbs; d; s_schemas; n])
      | exact (inside_path [c] [s_tenants; t; s_dbs; tb_db tb; s_schemas; tb_name tb])
      | exact (inside_path [c] [s_tenants; t; s_dbs; d; s_buckets; show id])
      | exact (inside_path [c] [s_tenants; t; s_dbs; d; s_buckets; show bid])
      | exact (inside_path [c] [s_tenants; t; s_members; show uid])
      | exact (inside_path [c] [s_tenants; t; s_roles; r])
      | exact (inside_path [c] [s_tenants; t; s_limiter])
      | exact (inside_path [c] [s_users; u_name u])
      | exact (inside_path [c] [s_users; n])
      | exact (inside_path [c] [s_resourceinfos; n])
      | exact (inside_path [c] [s_resourceinfosmark])
      | exact (inside_path [c] [s_queries; show id]) ]).
  - destruct S as [->| ->]; [exact (inside_path [c] [s_data_nodes; show (n_id n)])|exact (inside_path [c] [s_resourceinfosmark])].
  - exact (inside_more [c] [s_tenants; t; s_dbs; d] k S).
  - exact (inside_more [c] [s_tenants; t; s_dbs; d; s_buckets] k S).
  - now contradiction (D n).
  - destruct S as [->| ->]; [exact (inside_path [c] [s_tenants; t_name t])|exact (inside_path [c] [s_tenants; t_name t; s_limiter])].
  - destruct S as [->| ->]; [exact (inside_path [c] [s_tenants; n])|exact (inside_path [c] [s_tenants; n; s_limiter])].
  - destruct S as [->| ->]; [exact (inside_path [c] [s_tenants; n])|exact (inside_path [c] [s_tenants; n; s_limiter])].
  - exact (inside_more [c] [s_tenants; n] k S).
  - exact (inside_more [c] [s_queries] k S).
Qed.
Lemma inside_split a b k : name_ok a -> name_ok b -> inside (path [a]) k -> inside (path [b]) k -> a = b.
Proof.
  intros [_ N] [_ N'] H H'. assert (P : forall x, path [x] = 47 :: x) by (intro; unfold path; cbn; now rewrite app_nil_r). rewrite !P in *.
  destruct H as [->|(r & ->)]; destruct H' as [E|(r' & E)]; injection E as E.
  - exact E.
  - exfalso. apply N. rewrite E. apply in_or_app. right. now left.
  - exfalso. apply N'. rewrite <- E. apply in_or_app. right. now left.
  - destruct (no_slash_split a b r (47 :: r') N N' E); eauto.
Qed.
Lemma clusters_apart e s x c c' k : wf s -> cmd_ok x -> cluster_of x = Some c -> (forall n, x <> CDropUser c n) -> name_ok c -> name_ok c' -> c <> c' ->
  inside (path [c']) k -> get k (s_map (fst (step e s x))) = get k (s_map s).
Proof.
  intros W O A D Oc Oc' N I. apply scope_step; auto. intro S. apply N. apply (inside_split c c' k Oc Oc'); [|exact I]. now apply (scope_cluster x).
Qed.

(** A refused command changes nothing. *)
Lemma with_meta_done e s c t : wf s -> env_ok e -> name_ok c -> name_ok t -> snd (with_meta e s c t) = Done.
Proof. intros W E Oc Ot. destruct (tenant_meta_spec e s c t W E Oc Ot) as (td & T & _). unfold with_meta. now rewrite T. Qed.
Lemma refused_same e s x : wf s -> uniq s -> env_ok e -> cmd_ok x -> snd (step e s x) = Refused -> s_map (fst (step e s x)) = s_map s.
Proof.
  intros W U E O R. pose proof (step_wf e s x W O) as W'.
  destruct x; cbn [step cmd_ok] in *; try discriminate; try reflexivity.
  - unfold process_add_node in *. destruct (children_values _ _ _ _ _); [|reflexivity]. destruct (existsb _ _); [reflexivity|]. discriminate.
  - unfold process_create_db in *. destruct (contains _ _); [reflexivity|]. destruct (db_schema_valid _ _ _ _); [|reflexivity].
    rewrite with_meta_done in R; try discriminate; try apply O; try exact E. exact W'.
  - unfold process_alter_db in *. destruct (contains _ _); [|reflexivity]. cbn [negb] in *. destruct (db_schema_valid _ _ _ _); [|reflexivity].
    rewrite with_meta_done in R; try discriminate; try apply O; try exact E. exact W'.
  - unfold process_db_hidden in *. destruct (get_as _ _ _); try reflexivity.
    rewrite with_meta_done in R; try discriminate; try apply O; try exact E. exact W'.
  - unfold process_drop_table in *. destruct (contains _ _); [discriminate|reflexivity].
  - unfold process_create_table in *. destruct (contains _ _); [|reflexivity]. cbn [negb] in *. destruct (contains _ _); [reflexivity|].
    rewrite with_meta_done in R; try discriminate; try apply O; try exact E. exact W'.
  - unfold process_update_table in *. destruct (get_as _ _ _); try reflexivity; try discriminate. destruct (_ && _); [|reflexivity].
    destruct (_ =? _); [discriminate|reflexivity].
  - unfold process_create_bucket in *. destruct (children_values _ _ _ _ _) as [bs|]; [|reflexivity]. destruct (existsb _ _).
    { reflexivity. }
    destruct (get_as _ _ _) as [| |sc]; try reflexivity. destruct (valid_nodes _ _ _) as [ns|]; [|reflexivity]. cbv zeta in *.
    destruct (negb _); [reflexivity|]. destruct (d_shard sc =? 0); [reflexivity|]. destruct (ts <? _); [reflexivity|].
    unfold fetch_add in *. cbv zeta in *. destruct (BucketModel.get_time_range ts (d_dur sc)) as [b0 e0].
    destruct (BucketModel.allocation_replication_set _ _ _ _) as [[g used]|]; [|reflexivity].
    rewrite with_meta_done in R; try discriminate; try apply O; try exact E. exact W'.
  - unfold process_create_user in *. destruct (contains _ _); [reflexivity|discriminate].
  - unfold process_alter_user in *. destruct (get_as _ _ _); try reflexivity. discriminate.
  - unfold process_drop_user in *. destruct (get_as _ _ _); try reflexivity. destruct (children_values _ _ _ _ _); [discriminate|reflexivity].
  - unfold process_create_tenant in *. destruct (contains _ _); [reflexivity|discriminate].
  - unfold process_alter_tenant in *. destruct (get_as as_tenant _ _) as [| |a]; try reflexivity. destruct (t_hidden a); [reflexivity|discriminate].
  - unfold process_tenant_hidden in *. destruct (get_as as_tenant _ _) as [| |a]; try reflexivity. discriminate.
  - destruct (drop_tenant_holds e s c n W U E (proj1 O) (proj2 O)) as [D _]. cbn [step] in D. rewrite D in R. discriminate.
  - unfold process_add_member in *. destruct (contains _ _); [reflexivity|]. destruct (role_known _ _ _ _); [discriminate|reflexivity].
  - unfold process_remove_member in *. destruct (contains _ _); [discriminate|reflexivity].
  - unfold process_reasign in *. destruct (contains _ _); [|reflexivity]. cbn [negb] in *. destruct (role_known _ _ _ _); [discriminate|reflexivity].
  - unfold process_create_role in *. destruct (contains _ _); [reflexivity|discriminate].
  - unfold process_drop_role in *. destruct (contains _ _); [discriminate|reflexivity].
  - unfold process_grant in *. destruct (get_as as_role _ _) as [| |a]; try reflexivity. destruct (grant_all _ _ _ _ _); [discriminate|reflexivity].
  - unfold process_revoke in *. destruct (get_as as_role _ _) as [| |a]; try reflexivity. destruct (revoke_all _ _); [discriminate|reflexivity].
  - unfold process_update_repl_set in *. destruct (get_as as_bucket _ _) as [| |b]; try reflexivity. discriminate.
  - unfold process_change_leader in *. destruct (get_as _ _ _); try reflexivity. discriminate.
  - unfold process_update_vnode in *. destruct (get_as _ _ _); try reflexivity. discriminate.
  - unfold process_limiter in *. destruct (get_as as_limiter _ _) as [| |a]; try reflexivity. destruct (get kind a); [|reflexivity].
    destruct (RateModel.acquire_closed _ _ _). discriminate.
  - unfold process_write_mark in *. destruct (read_mark s c) as [[o b]|]; [|reflexivity]. destruct (_ || _); [reflexivity|discriminate].
  - unfold process_move_query in *. destruct (children_values _ _ _ _ _) as [qs|]; [discriminate|reflexivity].
Qed.

(** What an acknowledged command stores. *)
Definition role_maps (s : st) : Prop := forall k ro, holds s k (VRole ro) -> sorted (ro_privs ro).
Lemma fold_put_sorted {A} (l : list (str * A)) : forall m, sorted m -> sorted (fold_left (fun m kv => put (fst kv) (snd kv) m) l m).
Proof. induction l as [|a l IH]; intros m S; cbn; [exact S|]. apply IH. now apply put_sorted. Qed.
Lemma to_map_sorted {A} (l : list (str * A)) : sorted (to_map l). Proof. apply fold_put_sorted. constructor. Qed.
Lemma find_app_r {A} (f : A -> bool) a b : find f (a ++ b) = match find f a with Some x => Some x | None => find f b end.
Proof. induction a as [|x a IH]; cbn; [reflexivity|]. now destruct (f x). Qed.
Lemma fold_put_get {A} (l : list (str * A)) : forall m d, get d (fold_left (fun m kv => put (fst kv) (snd kv) m) l m) =
  match find (fun p => seqb (fst p) d) (rev l) with Some (_, q) => Some q | None => get d m end.
Proof.
  induction l as [|(k, v) l IH]; intros m d; cbn [fold_left rev]; [reflexivity|]. rewrite IH, find_app_r. cbn [fst snd].
  destruct (find _ (rev l)) as [[k' v']|]; [reflexivity|]. cbn [find fst]. rewrite get_put_any, (seqb_sym d k). now destruct (seqb k d).
Qed.
Lemma grant_all_spec s c t ps : forall m m', grant_all s c t ps m = Some m' ->
  (sorted m -> sorted m') /\ forall d, get d m' = match granted d ps with Some q => Some q | None => get d m end.
Proof.
  induction ps as [|(p, d0) ps IH]; intros m m'; cbn [grant_all].
  - intros [= <-]. split; [auto|]. reflexivity.
  - destruct (contains _ _); [|discriminate]. intro G. apply IH in G. destruct G as [G1 G2]. split; [intro S; apply G1; now apply put_sorted|].
    intro d. rewrite G2. unfold granted. cbn [rev]. rewrite find_app_r. destruct (find _ (rev ps)) as [[q x]|]; [reflexivity|]. cbn [find snd].
    rewrite get_put_any, (seqb_sym d d0). now destruct (seqb d0 d).
Qed.
Lemma db_eqb_eq p q : PrivilegeModel.db_eqb p q = true -> p = q. Proof. now destruct p, q. Qed.
Lemma revoke_all_spec ps : forall m m', sorted m -> revoke_all ps m = Some m' ->
  sorted m' /\ (forall d, get d m' = if mentioned d ps then None else get d m) /\ (forall p d, In (p, d) ps -> get d m = Some p).
Proof.
  induction ps as [|(p, d0) ps IH]; intros m m' S; cbn [revoke_all].
  - intros [= <-]. split; [exact S|]. split; [reflexivity|intros p d []].
  - destruct (get d0 m) as [q|] eqn:G; [|discriminate]. destruct (PrivilegeModel.db_eqb q p) eqn:B; [|discriminate]. apply db_eqb_eq in B. subst q.
    intro R. apply IH in R; [|now apply del_sorted]. destruct R as (R1 & R2 & R3). split; [exact R1|]. split.
    + intro d. rewrite R2, get_del by exact S. unfold mentioned. cbn [existsb snd]. rewrite (seqb_sym d d0). destruct (seqb d0 d); cbn [orb]; [now destruct (existsb _ _)|reflexivity].
    + intros p' d [[= <- <-]|I]; [exact G|]. apply R3 in I. rewrite get_del in I by exact S. now destruct (seqb d d0).
Qed.
Lemma role_maps_step e s x : maps_ok x -> role_maps s -> role_maps (fst (step e s x)).
Proof.
  intros M R k ro H. destruct (step_in _ _ _ _ _ H) as [G|G]; [now apply (R k)|].
  destruct x; cbn [writes] in G; try contradiction;
    repeat match goal with H : _ /\ _ |- _ => destruct H | H : exists _, _ |- _ => destruct H | H : _ \/ _ |- _ => destruct H end; subst; try discriminate.
  - cbn [maps_ok] in M. destruct M as (l & ->). apply to_map_sorted.
  - cbn [step] in H. unfold process_create_role in H. destruct (contains _ _); [now apply (R _ _ H)|]. cbn [fst] in H. apply insert_in in H.
    destruct H as [[_ E]|H]; [|now apply (R _ _ H)]. injection E as ->. apply to_map_sorted.
  - cbn [step] in H. unfold process_grant in H. destruct (get_as as_role s (k_role c t r)) as [| |a] eqn:Q; try now apply (R _ _ H).
    apply get_as_holds in Q. destruct Q as (w & Q & _ & D). apply dec_role in D. subst w.
    destruct (grant_all _ _ _ _ _) as [m|] eqn:GA; [|now apply (R _ _ H)]. cbn [fst] in H. apply insert_in in H.
    destruct H as [[_ E]|H]; [|now apply (R _ _ H)]. injection E as ->. cbn [ro_privs]. apply grant_all_spec in GA. apply GA. now apply (R _ _ Q).
  - cbn [step] in H. unfold process_revoke in H. destruct (get_as as_role s (k_role c t r)) as [| |a] eqn:Q; try now apply (R _ _ H).
    apply get_as_holds in Q. destruct Q as (w & Q & _ & D). apply dec_role in D. subst w.
    destruct (revoke_all _ _) as [m|] eqn:GA; [|now apply (R _ _ H)]. cbn [fst] in H. apply insert_in in H.
    destruct H as [[_ E]|H]; [|now apply (R _ _ H)]. injection E as ->. cbn [ro_privs]. apply revoke_all_spec in GA; [apply GA|]. now apply (R _ _ Q).
Qed.
Lemma role_maps_run h : forall s, Forall (fun ex => maps_ok (snd ex)) h -> role_maps s -> role_maps (run s h).
Proof.
  induction h as [|(e, x) h IH]; intros s F R; cbn [run]; [exact R|]. inversion F; subst. apply IH; [assumption|]. now apply role_maps_step.
Qed.
Lemma get_as_got {A} (dec : value -> option A) s k a : get_as dec s k = Got a -> exists v, get k (s_map s) = Some v /\ dec v = Some a.
Proof. intro G. apply get_as_holds in G. destruct G as (v & _ & G & D). eauto. Qed.
Lemma get_self s k v : get k (s_map (insert s k v)) = Some v. Proof. now rewrite get_insert, seqb_refl. Qed.
Lemma stores_step e s x : wf s -> role_maps s -> cmd_ok x -> has_effect x = true -> snd (step e s x) = Done ->
  exists k v, stores x k (get k (s_map s)) v /\ get k (s_map (fst (step e s x))) = Some v.
Proof.
  intros W RM O HE D. destruct x; cbn [has_effect] in HE; try discriminate; cbn [step cmd_ok stores] in *.
  - unfold process_add_node in *. destruct (children_values _ _ _ _ _); [|discriminate]. destruct (existsb _ _); [discriminate|]. cbn [fst].
    exists (k_data_node c (n_id n)), (VNode n). split; [auto|]. rewrite mark_ne; [apply get_self|]. intro Q. apply path_inj in Q; [|auto 10 with nm|auto 10 with nm]. discriminate.
  - exists (k_metric c (m_id m)), (VMetrics m). split; [auto|apply get_self].
  - unfold process_create_db in *. destruct (contains _ _) eqn:C; [discriminate|]. destruct (db_schema_valid _ _ _ _); [|discriminate].
    rewrite with_meta_fst. exists (k_db c t (d_name d)), (VDb d). split; [|apply get_self]. apply contains_false in C. auto.
  - unfold process_alter_db in *. destruct (contains _ _) eqn:C; [|discriminate]. cbn [negb] in *. destruct (db_schema_valid _ _ _ _); [|discriminate].
    rewrite with_meta_fst. exists (k_db c t (d_name d)), (VDb d). split; [|apply get_self]. apply contains_true in C. destruct C as (v & C). rewrite C. split; [auto|]. split; [discriminate|auto].
  - unfold process_db_hidden in *. destruct (get_as as_db s (k_db c t d)) as [| |a] eqn:G; try discriminate. apply get_as_got in G. destruct G as (v & G & Dv).
    apply dec_db in Dv. subst v. rewrite with_meta_fst. eexists _, _. split; [|apply get_self]. rewrite G. split; [auto|]. eexists. split; reflexivity.
  - unfold process_create_table in *. destruct (contains _ _); [|discriminate]. cbn [negb] in *. destruct (contains _ _) eqn:C; [discriminate|].
    rewrite with_meta_fst. exists (k_schema c t (tb_db tb) (tb_name tb)), (VTable tb). split; [|apply get_self]. apply contains_false in C. auto.
  - unfold process_update_table in *. destruct (get_as as_table s (k_schema c t (tb_db tb) (tb_name tb))) as [| |a] eqn:G; try discriminate.
    + exists (k_schema c t (tb_db tb) (tb_name tb)), (VTable tb). split; [|apply get_self]. split; [auto|]. split; [auto|].
      unfold get_as in G. destruct (get _ _) as [v|]; [destruct (as_table v); discriminate|exact I].
    + apply get_as_got in G. destruct G as (v & G & Dv). apply dec_table in Dv. subst v.
      destruct (_ && _); [|discriminate]. destruct (_ =? _) eqn:V; [|discriminate].
      exists (k_schema c t (tb_db tb) (tb_name tb)), (VTable tb). split; [|apply get_self]. split; [auto|]. split; [auto|]. rewrite G. exists a. split; [auto|]. apply Z.eqb_eq in V. lia.
  - unfold process_create_user in *. destruct (contains _ _) eqn:C; [discriminate|]. apply contains_false in C.
    exists (k_user c (u_name u)), (VUser u). split; [auto|apply get_self].
  - unfold process_alter_user in *. destruct (get_as as_user s (k_user c n)) as [| |a] eqn:G; try discriminate. apply get_as_got in G. destruct G as (v & G & Dv).
    apply dec_user in Dv. subst v. eexists _, _. split; [|apply get_self]. rewrite G. split; [auto|]. exists a. split; [auto|]. eexists. split; [reflexivity|].
    intro q. rewrite fold_put_get. reflexivity.
  - unfold process_create_tenant in *. destruct (contains _ _) eqn:C; [discriminate|]. apply contains_false in C.
    exists (k_tenant c (t_name t)), (VTenant t). split; [auto|apply get_self].
  - unfold process_alter_tenant in *. destruct (get_as as_tenant s (k_tenant c n)) as [| |a] eqn:G; try discriminate. apply get_as_got in G. destruct G as (v & G & Dv).
    apply dec_tenant in Dv. subst v. destruct (t_hidden a) eqn:Hd; [discriminate|]. cbn [fst]. eexists (k_tenant c n), _. split; [rewrite G; split; [auto|]; exists a; split; [auto|split; [exact Hd|reflexivity]]|].
    rewrite get_limiter_ne; [apply get_self|apply insert_srt, W|]. intro Q. apply path_inj in Q; [|destruct O; auto 10 with nm|destruct O; auto 10 with nm]. discriminate.
  - unfold process_tenant_hidden in *. destruct (get_as as_tenant s (k_tenant c n)) as [| |a] eqn:G; try discriminate. apply get_as_got in G. destruct G as (v & G & Dv).
    apply dec_tenant in Dv. subst v. cbn [fst]. eexists (k_tenant c n), _. split; [rewrite G; split; [auto|]; exists a; split; [auto|reflexivity]|].
    rewrite get_limiter_ne; [apply get_self|apply insert_srt, W|]. intro Q. apply path_inj in Q; [|destruct O; auto 10 with nm|destruct O; auto 10 with nm]. discriminate.
  - unfold process_add_member in *. destruct (contains _ _) eqn:C; [discriminate|]. apply contains_false in C. destruct (role_known _ _ _ _); [|discriminate].
    exists (k_member c t uid), (VMember r). split; [auto|apply get_self].
  - unfold process_reasign in *. destruct (contains _ _) eqn:C; [|discriminate]. cbn [negb] in *. apply contains_true in C. destruct C as (v & C).
    destruct (role_known _ _ _ _); [|discriminate]. exists (k_member c t uid), (VMember r). split; [|apply get_self]. rewrite C. split; [auto|]. split; [discriminate|auto].
  - unfold process_create_role in *. destruct (contains _ _) eqn:C; [discriminate|]. apply contains_false in C. cbn [fst].
    eexists (k_role c t r), _. split; [|apply get_self]. split; [auto|]. split; [exact C|]. eexists. split; [reflexivity|]. cbn. split; [auto|]. split; [auto|].
    intro d. unfold to_map. now rewrite fold_put_get.
  - unfold process_grant in *. destruct (get_as as_role s (k_role c t r)) as [| |a] eqn:G; try discriminate. apply get_as_got in G. destruct G as (v & G & Dv).
    apply dec_role in Dv. subst v. destruct (grant_all _ _ _ _ _) as [m|] eqn:GA; [|discriminate]. cbn [fst]. eexists (k_role c t r), _. split; [|apply get_self].
    split; [auto|]. exists a, m. split; [exact G|]. split; [reflexivity|]. now apply grant_all_spec in GA.
  - unfold process_revoke in *. destruct (get_as as_role s (k_role c t r)) as [| |a] eqn:G; try discriminate. apply get_as_got in G. destruct G as (v & G & Dv).
    apply dec_role in Dv. subst v. destruct (revoke_all _ _) as [m|] eqn:GA; [|discriminate]. cbn [fst]. eexists (k_role c t r), _. split; [|apply get_self].
    split; [auto|]. exists a, m. split; [exact G|]. split; [reflexivity|]. apply revoke_all_spec in GA; [tauto|]. apply (RM (k_role c t r)). now apply get_in.
  - exists (k_resource c n), (VResource r). split; [auto|apply get_self].
  - unfold process_write_mark in *. destruct (read_mark s c) as [[o b]|]; [|discriminate]. destruct (_ || _); [discriminate|].
    eexists _, _. split; [|apply get_self]. auto.
  - eexists _, _. split; [|apply get_self]. auto.
Qed.
Lemma removes_step e s x k : wf s -> uniq s -> env_ok e -> cmd_ok x -> removes x = Some k -> snd (step e s x) <> Refused ->
  get k (s_map (fst (step e s x))) = None.
Proof.
  intros W U E O R D. destruct x; cbn [removes] in R; try discriminate; injection R as <-; cbn [cmd_ok] in O.
  - destruct O as (Oc & Ot & Od). pose proof (drop_db_trace s c t d W Oc Ot Od) as N. cbn [step].
    destruct (get _ _) as [v|] eqn:G; [|reflexivity]. apply get_in in G. apply N in G. now destruct G.
  - cbn [step] in *. unfold process_drop_table in *. destruct (contains _ _); [|now contradiction D]. cbn [fst]. rewrite get_remove by apply W. now rewrite seqb_refl.
  - cbn [step fst]. rewrite get_remove by apply W. now rewrite seqb_refl.
  - now apply drop_user_gone.
  - destruct O as [Oc On]. destruct (drop_tenant_holds e s c n W U E Oc On) as [_ H].
    destruct (get _ _) as [v|] eqn:G; [|reflexivity]. apply get_in in G. apply H in G. exfalso. apply G. now left.
  - cbn [step] in *. unfold process_remove_member in *. destruct (contains _ _); [|now contradiction D]. cbn [fst]. rewrite get_remove by apply W. now rewrite seqb_refl.
  - apply role_gone, W.
  - cbn [step fst]. rewrite get_remove by apply W. now rewrite seqb_refl.
Qed.

(** * C48 *)
Lemma schema_writer s x c t d n v : cmd_ok x -> plain x -> name_ok c -> name_ok t -> name_ok d -> name_ok n ->
  writes s x (k_schema c t d n) v -> exists tb, v = VTable tb /\ tb_db tb = d /\ tb_name tb = n /\ (x = CCreateTable c t tb \/ x = CUpdateTable c t tb).
Proof.
  intros O P Oc Ot Od On H. destruct x; cbn [writes cmd_ok plain] in *; try contradiction;
    repeat match goal with H : _ /\ _ |- _ => destruct H | H : exists _, _ |- _ => destruct H | H : _ \/ _ |- _ => destruct H end; subst;
    match goal with E : k_schema c t d n = ?k |- _ => apply path_inj in E; [|auto 10 with nm|auto 10 with nm] end; try discriminate;
    match goal with E : _ = _ :: _ |- _ => injection E as E1 E2 E3 E4; subst end; eauto 10.
Qed.
Lemma version_step e s x c t d n tb0 : wf s -> cmd_ok x -> plain x -> name_ok c -> name_ok t -> name_ok d -> name_ok n ->
  get (k_schema c t d n) (s_map s) = Some (VTable tb0) -> contains (fst (step e s x)) (k_schema c t d n) = true ->
  exists tb, get (k_schema c t d n) (s_map (fst (step e s x))) = Some (VTable tb) /\ tb_ver tb0 <= tb_ver tb /\
    (forall tb', x = CUpdateTable c t tb' -> tb_db tb' = d -> tb_name tb' = n -> snd (step e s x) = Done -> tb_ver tb' = tb_ver tb0 + 1).
Proof.
  intros W O P Oc Ot Od On G C. pose proof (step_wf e s x W O) as W'. apply contains_true in C. destruct C as (v & C).
  assert (UPD : forall tb', x = CUpdateTable c t tb' -> tb_db tb' = d -> tb_name tb' = n -> snd (step e s x) = Done ->
            tb_ver tb' = tb_ver tb0 + 1 /\ get (k_schema c t d n) (s_map (fst (step e s x))) = Some (VTable tb')).
  { intros tb' -> <- <- D. cbn [step] in *. unfold process_update_table in *. unfold get_as in *. rewrite G in *. cbn [as_table] in *.
    destruct (_ && _); [|discriminate]. destruct (_ =? _) eqn:V; [|discriminate]. apply Z.eqb_eq in V. split; [lia|]. apply get_self. }
  destruct (step_in e s x _ _ (get_in _ _ _ C)) as [H|H].
  - apply (in_get _ _ _ (proj1 W)) in H. rewrite H in G. injection G as ->. exists tb0. split; [exact C|]. split; [lia|]. intros tb' X1 X2 X3 X4.
    destruct (UPD tb' X1 X2 X3 X4) as [V _]. exact V.
  - destruct (schema_writer s x c t d n v O P Oc Ot Od On H) as (tb & -> & <- & <- & [X|X]).
    + exists tb0. subst x. cbn [step] in *. unfold process_create_table in *. destruct (contains _ _) eqn:C1; cbn [negb] in *.
      * assert (C2 : contains s (k_schema c t (tb_db tb) (tb_name tb)) = true) by (unfold contains; now rewrite G). rewrite C2 in *. cbn [fst] in *.
        split; [exact G|]. split; [lia|]. intros ? [=].
      * cbn [fst] in *. split; [exact G|]. split; [lia|]. intros ? [=].
    + destruct (snd (step e s x)) eqn:D.
      * destruct (UPD tb X eq_refl eq_refl eq_refl) as [V G']. exists tb. split; [exact G'|]. split; [lia|]. intros tb' X' _ _ _. rewrite X in X'. injection X' as <-. exact V.
      * exists tb0. subst x. cbn [step] in *. unfold process_update_table in *. unfold get_as in *. rewrite G in *. cbn [as_table] in *. destruct (_ && _).
        -- destruct (_ =? _); [discriminate|]. cbn [fst]. split; [exact G|]. split; [lia|]. intros ? ? ? ? [=].
        -- cbn [fst]. split; [exact G|]. split; [lia|]. intros ? ? ? ? [=].
      * exfalso. subst x. cbn [step] in D. unfold process_update_table in D. destruct (get_as _ _ _); try discriminate. destruct (_ && _); [|discriminate]. destruct (_ =? _); discriminate.
Qed.
Lemma version_run c t d n h : forall s tb0, wf s -> Forall (fun ex => cmd_ok (snd ex) /\ plain (snd ex)) h ->
  name_ok c -> name_ok t -> name_ok d -> name_ok n -> get (k_schema c t d n) (s_map s) = Some (VTable tb0) -> stays (k_schema c t d n) s h ->
  exists tb, get (k_schema c t d n) (s_map (run s h)) = Some (VTable tb) /\ tb_ver tb0 <= tb_ver tb.
Proof.
  induction h as [|(e, x) h IH]; intros s tb0 W F Oc Ot Od On G St; cbn [run].
  - exists tb0. split; [exact G|lia].
  - inversion F as [|? ? [O P] F']; subst. cbn [stays snd] in *. destruct St as [_ St].
    assert (C : contains (fst (step e s x)) (k_schema c t d n) = true) by (destruct h as [|[? ?] ?]; cbn [stays] in St; apply St).
    destruct (version_step e s x c t d n tb0 W O P Oc Ot Od On G C) as (tb1 & G1 & L1 & _).
    destruct (IH _ tb1 (step_wf e s x W O) F' Oc Ot Od On G1 St) as (tb & G2 & L2). exists tb. split; [exact G2|lia].
Qed.
Lemma no_lost_update e1 e2 c t tb1 tb2 h : forall s, wf s -> cmd_ok (CUpdateTable c t tb1) -> 
  Forall (fun ex => cmd_ok (snd ex) /\ plain (snd ex)) h -> tb_db tb2 = tb_db tb1 -> tb_name tb2 = tb_name tb1 ->
  snd (step e1 s (CUpdateTable c t tb1)) = Done -> let s1 := fst (step e1 s (CUpdateTable c t tb1)) in
  stays (k_schema c t (tb_db tb1) (tb_name tb1)) s1 h ->
  snd (step e2 (run s1 h) (CUpdateTable c t tb2)) = Done -> tb_ver tb1 < tb_ver tb2.
Proof.
  intros s W O F E1 E2 D1 s1 St D2. destruct O as (Oc & Ot & Od & On) eqn:QQ; clear QQ.
  assert (W1 : wf s1) by (apply step_wf; [exact W|cbn [cmd_ok]; tauto]).
  assert (G : get (k_schema c t (tb_db tb1) (tb_name tb1)) (s_map s1) = Some (VTable tb1)).
  { unfold s1. cbn [step] in *. unfold process_update_table in *. destruct (get_as _ _ _) as [| |a]; try discriminate; [apply get_self|].
    destruct (_ && _); [|discriminate]. destruct (_ =? _); [|discriminate]. apply get_self. }
  destruct (version_run c t _ _ h s1 tb1 W1 F Oc Ot Od On G St) as (tb & G2 & L).
  cbn [step] in D2. unfold process_update_table, get_as in D2. rewrite E1, E2, G2 in D2. cbn [as_table] in D2. destruct (_ && _); [|discriminate].
  destruct (_ =? _) eqn:V; [|discriminate]. apply Z.eqb_eq in V. lia.
Qed.

Lemma mark_writer s x c v : cmd_ok x -> plain x -> name_ok c -> writes s x (k_resources_mark c) v ->
  (exists n, x = CAddNode c n /\ v = VMark (n_id n) true) \/ (exists n l, x = CMark c n l /\ v = VMark n l).
Proof.
  intros O P Oc H. destruct x; cbn [writes cmd_ok plain] in *; try contradiction;
    repeat match goal with H : _ /\ _ |- _ => destruct H | H : exists _, _ |- _ => destruct H | H : _ \/ _ |- _ => destruct H end; subst;
    match goal with E : k_resources_mark c = ?k |- _ => apply path_inj in E; [|auto 10 with nm|auto 10 with nm] end; try discriminate;
    match goal with E : _ = _ :: _ |- _ => injection E as E1; subst end; eauto 10.
Qed.
Definition slashes (k : str) : nat := count_occ Z.eq_dec k 47.
Lemma slashes_app a b : slashes (a ++ b) = (slashes a + slashes b)%nat. Proof. apply count_occ_app. Qed.
Lemma slashes_path cs : (length cs <= slashes (path cs))%nat.
Proof.
  induction cs as [|a cs IH]; cbn [length]; [lia|]. rewrite path_cons. change (47 :: a ++ path cs) with ([47] ++ a ++ path cs). rewrite !slashes_app.
  change (slashes [47]) with 1%nat. lia.
Qed.
Lemma slashes_name c : name_ok c -> slashes c = 0%nat. Proof. intros [_ N]. now apply count_occ_not_In. Qed.
Lemma slashes_mark c : name_ok c -> slashes (k_resources_mark c) = 2%nat.
Proof.
  intro Oc. unfold k_resources_mark. rewrite !path_cons. change (path []) with (@nil Z). 
  change (47 :: c ++ 47 :: s_resourceinfosmark ++ []) with ([47] ++ c ++ [47] ++ s_resourceinfosmark ++ []). rewrite !slashes_app, (slashes_name c Oc). reflexivity.
Qed.
Lemma slashes_inside p k : inside p k -> (slashes p <= slashes k)%nat.
Proof. intros [->|(r & ->)]; [lia|]. rewrite slashes_app. lia. Qed.
Lemma mark_same e s x c : wf s -> cmd_ok x -> plain x -> name_ok c -> (forall n, x <> CAddNode c n) -> (forall n l, x <> CMark c n l) ->
  get (k_resources_mark c) (s_map (fst (step e s x))) = get (k_resources_mark c) (s_map s).
Proof.
  intros W O P Oc N1 N2. apply scope_step; auto. intro S. pose proof (slashes_mark c Oc) as M.
  assert (L : forall cs, (2 < length cs)%nat -> k_resources_mark c <> path cs).
  { intros cs L E. rewrite E in M. pose proof (slashes_path cs). lia. }
  assert (LI : forall cs, (2 < length cs)%nat -> ~ inside (path cs) (k_resources_mark c)).
  { intros cs L' I. apply slashes_inside in I. pose proof (slashes_path cs). lia. }
  assert (INJ : forall c', name_ok c' -> k_resources_mark c = k_resources_mark c' -> c = c').
  { intros c' Oc' E. apply path_inj in E; [|auto 10 with nm|auto 10 with nm]. now injection E. }
  destruct x; cbn [scope cmd_ok plain] in *; try contradiction;
    try (eapply L; [|exact S]; cbn; lia);
    try (eapply LI; [|exact S]; cbn; lia).
  - destruct S as [S|S]; [eapply L; [|exact S]; cbn; lia|]. apply INJ in S; [|exact O]. subst. now apply (N1 n).
  - destruct S as [S|(t & u & S)]; (eapply L; [|exact S]; cbn; lia).
  - destruct S as [S|S]; (eapply L; [|exact S]; cbn; lia).
  - destruct S as [S|S]; (eapply L; [|exact S]; cbn; lia).
  - destruct S as [S|S]; (eapply L; [|exact S]; cbn; lia).
  - apply INJ in S; [|exact O]. subst. now apply (N2 n lock).
  - destruct S as [S|(r & S)].
    + apply path_inj in S; [|auto 10 with nm|auto 10 with nm]. discriminate.
    + rewrite S, slashes_app in M. change (slashes (47 :: r)) with (1 + slashes r)%nat in M. pose proof (slashes_path [c0; s_queries]) as Q. cbn [length] in Q. unfold k_queries in M. lia.
Qed.
Lemma mark_cases s c : wf s -> name_ok c -> read_mark s c = match get (k_resources_mark c) (s_map s) with Some (VMark n b) => Some (n, b) | None => Some (0%N, false) | _ => None end.
Proof. intros W Oc. unfold read_mark, get_as. destruct (get _ _) as [v|]; [|reflexivity]. now destruct v. Qed.
Lemma holder_insert s c n b : holder (insert s (k_resources_mark c) (VMark n b)) c = if b then Some n else None.
Proof. unfold holder. rewrite get_self. now destruct b. Qed.
Lemma holder_keep s k v c : k <> k_resources_mark c -> holder (insert s k v) c = holder s c.
Proof. intro N. unfold holder. rewrite get_insert_ne; [reflexivity|congruence]. Qed.
Lemma mark_step e s c n l : wf s -> name_ok c -> snd (step e s (CMark c n l)) = Done ->
  (if l then holder s c = None else holder s c = None \/ holder s c = Some n) /\ holder (fst (step e s (CMark c n l))) c = if l then Some n else None.
Proof.
  intros W Oc. cbn [step]. unfold process_write_mark. rewrite mark_cases by auto. destruct (get (k_resources_mark c) (s_map s)) as [v|] eqn:G.
  - destruct v as [ | | | | | | | | | | |m lk| ]; cbn [snd]; try discriminate. destruct l, lk; cbn [negb andb orb fst snd]; try discriminate.
    + intros _. rewrite holder_insert. unfold holder; rewrite ?G; auto.
    + destruct (m =? n)%N eqn:E; cbn [negb fst snd]; [|discriminate]. intros _. rewrite holder_insert. unfold holder; rewrite ?G. apply N.eqb_eq in E. subst. auto.
    + destruct (m =? n)%N eqn:E; cbn [negb fst snd]; [|discriminate]. intros _. rewrite holder_insert. unfold holder; rewrite ?G; auto.
  - destruct l; cbn [negb andb orb fst snd].
    + intros _. rewrite holder_insert. unfold holder; rewrite ?G; auto.
    + destruct (0 =? n)%N eqn:E; cbn [negb fst snd]; [|discriminate]. intros _. rewrite holder_insert. unfold holder; rewrite ?G; auto.
Qed.
Lemma mark_refused e s c n l : snd (step e s (CMark c n l)) = Refused -> fst (step e s (CMark c n l)) = s.
Proof. cbn [step]. unfold process_write_mark. destruct (read_mark s c) as [[o b]|]; [|reflexivity]. destruct (_ || _); [reflexivity|discriminate]. Qed.
Lemma mark_reply e s c n l : snd (step e s (CMark c n l)) = Done \/ snd (step e s (CMark c n l)) = Refused.
Proof. cbn [step]. unfold process_write_mark. destruct (read_mark s c) as [[o b]|]; [|auto]. destruct (_ || _); auto. Qed.
Lemma add_node_holder e s c n : wf s -> name_ok c ->
  holder (fst (step e s (CAddNode c n))) c = holder s c \/ (holder s c = None /\ holder (fst (step e s (CAddNode c n))) c = Some (n_id n)).
Proof.
  intros W Oc. cbn [step]. unfold process_add_node. destruct (children_values _ _ _ _ _); [|auto]. destruct (existsb _ _); [auto|]. cbn [fst].
  assert (N : k_data_node c (n_id n) <> k_resources_mark c) by (intro E; apply path_inj in E; [discriminate|auto 10 with nm|auto 10 with nm]).
  rewrite <- (holder_keep s _ (VNode n) c N). set (s1 := insert s _ _). unfold process_write_mark. destruct (read_mark s1 c) as [[o b]|] eqn:R; [|auto].
  destruct b; cbn [negb andb orb]; [auto|]. cbn [fst]. rewrite holder_insert. right. split; [|auto].
  unfold read_mark, get_as in R. unfold holder. destruct (get _ _) as [v|]; [|reflexivity]. destruct v; try reflexivity. cbn in R. now injection R as -> ->.
Qed.
Lemma cmd_cases x c : (exists n, x = CAddNode c n) \/ (exists n l, x = CMark c n l) \/ ((forall n, x <> CAddNode c n) /\ (forall n l, x <> CMark c n l)).
Proof.
  destruct x; try (right; right; split; intros; discriminate).
  - destruct (seqb c0 c) eqn:E; [apply seqb_eq in E; subst; eauto|]. right. right. split; intros; try discriminate. intros [= -> _]. now rewrite seqb_refl in E.
  - destruct (seqb c0 c) eqn:E; [apply seqb_eq in E; subst; eauto 6|]. right. right. split; intros; try discriminate. intros [= -> _]. now rewrite seqb_refl in E.
Qed.
Lemma holder_step e s x c a : wf s -> cmd_ok x -> plain x -> name_ok c -> holder s c = Some a -> x <> CMark c a false -> holder (fst (step e s x)) c = Some a.
Proof.
  intros W O P Oc H N. destruct (cmd_cases x c) as [(n & ->)|[(n & l & ->)|[N1 N2]]].
  - destruct (add_node_holder e s c n W Oc) as [E|[E _]]; congruence.
  - destruct (mark_reply e s c n l) as [D|D]; [|now rewrite mark_refused]. destruct (mark_step e s c n l W Oc D) as [D1 D2].
    destruct l; [congruence|]. destruct D1 as [D1|D1]; [congruence|]. rewrite H in D1. injection D1 as ->. contradiction.
  - unfold holder in *. rewrite mark_same; auto.
Qed.
Lemma holder_run c a h : forall s, wf s -> Forall (fun ex => cmd_ok (snd ex) /\ plain (snd ex) /\ snd ex <> CMark c a false) h -> name_ok c ->
  holder s c = Some a -> holder (run s h) c = Some a.
Proof.
  induction h as [|(e, x) h IH]; intros s W F Oc H; cbn [run]; [exact H|]. inversion F as [|? ? (O & P & N) F']; subst. cbn [snd] in *.
  apply IH; auto; [now apply step_wf|]. now apply holder_step.
Qed.
Lemma holder_from e s x c n : wf s -> cmd_ok x -> plain x -> name_ok c -> holder s c <> Some n -> holder (fst (step e s x)) c = Some n ->
  holder s c = None /\ (x = CMark c n true \/ exists nd, x = CAddNode c nd /\ n_id nd = n).
Proof.
  intros W O P Oc H G. destruct (cmd_cases x c) as [(nd & ->)|[(m & l & ->)|[N1 N2]]].
  - destruct (add_node_holder e s c nd W Oc) as [E|[E1 E2]]; [congruence|]. split; [exact E1|]. right. exists nd. split; [auto|]. congruence.
  - destruct (mark_reply e s c m l) as [D|D]; [|rewrite mark_refused in G by exact D; contradiction]. destruct (mark_step e s c m l W Oc D) as [D1 D2].
    rewrite D2 in G. destruct l; [|discriminate]. injection G as ->. auto.
  - unfold holder in *. rewrite mark_same in G; auto. contradiction.
Qed.
Lemma mark_free e s c n : wf s -> name_ok c -> holder s c = None -> snd (step e s (CMark c n true)) = Done.
Proof.
  intros W Oc H. cbn [step]. unfold process_write_mark. rewrite mark_cases by auto. unfold holder in H. destruct (get _ _) as [v|] eqn:G; [|reflexivity].
  destruct (proj2 W _ _ (get_in _ _ _ G)) as (cs & E & F & K). apply path_inj in E; [|auto 10 with nm|exact F]. subst cs.
  inversion K; subst. destruct l; [discriminate|]. reflexivity.
Qed.
