(** C18, C19, C20: the series index.  The hash used by the read cache is arbitrary throughout. *)
From Verif Require Import Prelude Bytes IndexModel IndexSpec IndexProofs.
Open Scope Z_scope.

(** * C18 *)
(** Whatever the operations, what they return is what a dictionary returns (with table names and keys
    the storage can take, and fewer than 2^32 operations). *)
Theorem C18_dictionary_partial : forall (hash : series -> Z) h, Forall iop_ok h -> Z.of_nat (length h) < 2 ^ 32 ->
  exists D, dsteps d_new h (snd (irun hash h)) D /\ dict_ok D.
Proof. intros hash h F L. destruct (irun_ok hash h F L) as (P & D & _ & K & _ & _ & S). eauto. Qed.
Print Assumptions C18_dictionary_partial.

(** Registering a series again, after any further operations that do not delete, update or crash,
    gives the same id; looking up the series gives the id and looking up the id gives the series. *)
Theorem C18_same_id_partial : forall hash a k b, Forall iop_ok a -> key_ok k -> Forall iop_ok b -> Z.of_nat (length a + length b) + 2 < 2 ^ 32 -> Forall keeps b ->
  exists x1 i, istep hash (fst (irun hash a)) (IAdd k) = (x1, OId (ROk i)) /\
  let x2 := fst (iruns hash x1 b) in
  snd (istep hash x2 (IAdd k)) = OId (ROk i) /\ snd (istep hash x2 (IGetId k)) = OId (ROk i) /\ snd (istep hash x2 (IGetKey i)) = OKey (Some (Some k)).
Proof.
  intros hash a k b Fa K Fb L Q. destruct (two_stretches hash a k b Fa K Fb L) as (P & D & x1 & i & P1 & D1 & x2 & P2 & D2 & rs & R & Dk & E & R1 & Dk1 & M1 & _ & -> & R2 & Dk2 & S & B).
  exists x1, i. split; auto. cbn zeta. eapply probe; eauto. revert S Q M1. apply (dsteps_ind_keep (fun D => maps D i k) keeps). intros; eapply dstep_keeps; eauto.
Qed.
Print Assumptions C18_same_id_partial.

(** The same with crashes in between, once a flush succeeded. *)
Theorem C18_durable_partial : forall hash a k b, Forall iop_ok a -> key_ok k -> Forall iop_ok b -> Z.of_nat (length a + length b) + 3 < 2 ^ 32 -> Forall keeps_flushed b ->
  exists x1 i x2, istep hash (fst (irun hash a)) (IAdd k) = (x1, OId (ROk i)) /\ istep hash x1 IFlush = (x2, ODone true) /\
  let x3 := fst (iruns hash x2 b) in
  snd (istep hash x3 (IAdd k)) = OId (ROk i) /\ snd (istep hash x3 (IGetId k)) = OId (ROk i) /\ snd (istep hash x3 (IGetKey i)) = OKey (Some (Some k)).
Proof.
  intros hash a k b Fa K Fb L Q. destruct (two_stretches hash a k (IFlush :: b) Fa K) as (P & D & x1 & i & P1 & D1 & x2 & P2 & D2 & rs & R & Dk & E & R1 & Dk1 & M1 & _ & -> & R2 & Dk2 & S & B).
  { constructor; auto. exact I. } { cbn [length]. lia. }
  cbn [iruns] in *. inversion S as [|? r D3 ? rs' ? S1 S2]; subst. inversion S1; subst.
  destruct (istep hash x1 IFlush) as [x3 r3] eqn:EF. exists x1, i, x3. split; auto.
  assert (r3 = ODone true) as ->.
  { cbn [istep] in EF. destruct (check_ok hash true x1 P1 (rl_inv _ _ _ _ R1)) as (x' & P' & E' & _). rewrite E' in EF. congruence. }
  split; auto. cbn zeta. destruct (iruns hash x3 b) as [x4 rs4]. cbn [fst] in *. apply (probe hash x4 P2 D2); auto.
  assert (SV : saved D2 i k).
  { revert S2 Q. intros S2 Q. refine (dsteps_ind_keep (fun D => saved D i k) keeps_flushed _ _ _ _ _ S2 Q _); [intros; eapply dstep_saved; eauto|].
    destruct M1 as (e & He & E1 & E2). exists (EN (n_id e) (n_key e) true). cbn [d_live]. split; [apply in_map_iff; eauto | auto]. }
  destruct SV as (e & He & E1 & E2 & _). exists e. auto.
Qed.
Print Assumptions C18_durable_partial.

(** Two different series never get the same id, not even after the first is deleted. *)
Theorem C18_distinct_partial : forall hash a k b k' i i' x1, Forall iop_ok a -> key_ok k -> Forall iop_ok b -> key_ok k' -> Z.of_nat (length a + length b) + 2 < 2 ^ 32 -> Forall no_reuse b ->
  istep hash (fst (irun hash a)) (IAdd k) = (x1, OId (ROk i)) -> snd (istep hash (fst (iruns hash x1 b)) (IAdd k')) = OId (ROk i') -> k <> k' -> i <> i'.
Proof.
  intros hash a k b k' i i' y1 Fa K Fb K' L Q EY E' NE EI. destruct (two_stretches hash a k b Fa K Fb L) as (P & D & x1 & j & P1 & D1 & x2 & P2 & D2 & rs & R & Dk & E & R1 & Dk1 & M1 & I1 & -> & R2 & Dk2 & S & B).
  rewrite E in EY. injection EY as <- <-. subst i'.
  assert (DD : j <= d_last D2 /\ forall q, maps D2 j q -> q = k).
  { refine (dsteps_ind_keep (fun D => j <= d_last D /\ forall q, maps D j q -> q = k) no_reuse _ _ _ _ _ S Q _).
    - intros D0 o r D' S0 O0 [A1 A2]. eapply dstep_dead; eauto.
    - split; [lia|]. intros q Hq. exact (maps_fun D1 j q k Dk1 Hq M1). }
  destruct (step_ok hash _ P2 D2 (IAdd k') R2 K' B) as (x3 & P3 & D3 & r & E3 & _ & S3 & _). rewrite E3 in E'. cbn [snd] in E'. subst r.
  destruct (dstep_fun_add _ _ _ _ Dk2 S3) as [_ [M | [_ M]]]; [apply NE; symmetry; apply DD; auto | lia].
Qed.
Print Assumptions C18_distinct_partial.

Definition cpu (host : Z) : series := SK [99; 112; 117] [([49], [104; host])].
Definition rename_to (host : Z) : list (bytes * option bytes) := [([49], Some [104; host])].
(** Finding: a flushed series whose tag is then updated is lost in a crash, under its old and its new
    name: the update removes the stored records at once and keeps the new ones in memory. *)
Theorem C18_update_crash_refuted : exists (hash : series -> Z) k upd, key_ok k /\ key_ok (retag upd k) /\
  snd (irun hash [IAdd k; IFlush; IUpdate upd [k]; ICrash; IGetId k; IGetId (retag upd k); IGetKey 1]) =
  [OId (ROk 1); ODone true; ODone true; ODone true; OId RNo; OId RNo; OKey (Some None)].
Proof.
  exists series_hash, (cpu 49), (rename_to 50). assert (G : forall c, key_ok (cpu c)).
  { intros c. unfold key_ok, cpu, name_ok, tag_name, digit. cbn [sk_table sk_tags]. split; [cbn; intuition (discriminate || lia)|]. split; [|apply Nat.ltb_lt; vm_compute; reflexivity].
    constructor; [|constructor]. cbn. split; [discriminate|]. constructor; [lia | constructor]. }
  split; [apply G|]. split; [apply (G 50)|]. vm_compute. reflexivity.
Qed.
Print Assumptions C18_update_crash_refuted.

(** Finding: replaying a tag update after a restart does not check for conflicts and can leave two ids
    with the same series: here the write-ahead log holds an insert, an update and an insert of the old
    name, all of which reached the stored index before the crash, and the update is replayed. *)
Theorem C18_replay_refuted : exists (hash : series -> Z) h upd k, Forall iop_ok h /\
  let x := fst (ix_update hash (fst (irun hash h)) upd [k] false) in
  exists q, snd (istep hash x (IGetKey 1)) = OKey (Some (Some q)) /\ snd (istep hash x (IGetKey 2)) = OKey (Some (Some q)).
Proof.
  exists series_hash, [IAdd (cpu 49); IUpdate (rename_to 50) [cpu 49]; IAdd (cpu 49); IFlush; ICrash], (rename_to 50), (cpu 49).
  assert (G : forall c, key_ok (cpu c)).
  { intros c. unfold key_ok, cpu, name_ok, tag_name, digit. cbn [sk_table sk_tags]. split; [cbn; intuition (discriminate || lia)|]. split; [|apply Nat.ltb_lt; vm_compute; reflexivity].
    constructor; [|constructor]. cbn. split; [discriminate|]. constructor; [lia | constructor]. }
  split; [repeat (apply Forall_cons; [cbn [iop_ok]; first [apply G | exact I | idtac]|]); try apply Forall_nil|].
  - split; [apply G | apply (G 50)].
  - exists (cpu 50). split; vm_compute; reflexivity.
Qed.
Print Assumptions C18_replay_refuted.

(** Finding: after one series with a key longer than 511 bytes is registered, no flush of the index
    succeeds, and the series registered afterwards do not survive a crash. *)
Theorem C18_long_key_refuted : exists (hash : series -> Z) long k, key_ok k /\ name_ok (sk_table long) /\
  snd (irun hash [IAdd long; IFlush; IAdd k; IFlush; ICrash; IGetId k]) =
  [OId (ROk 1); ODone false; OId (ROk 2); ODone false; ODone true; OId RNo].
Proof.
  exists series_hash, (SK [99; 112; 117] [([49], repeat 97 600)]), (cpu 49). split; [|split].
  - unfold key_ok, cpu, name_ok, tag_name, digit. cbn [sk_table sk_tags]. split; [cbn; intuition (discriminate || lia)|]. split; [|apply Nat.ltb_lt; vm_compute; reflexivity].
    constructor; [|constructor]. cbn. split; [discriminate|]. constructor; [lia | constructor].
  - cbn. unfold name_ok. cbn. intuition (discriminate || lia).
  - vm_compute. reflexivity.
Qed.
Print Assumptions C18_long_key_refuted.

(** Finding: tag lengths are stored in 16 bits, so two different series can have the same key bytes
    and then get the same id (from the write cache). *)
Definition w64k : bytes := repeat 97 (Z.to_nat 65531).
Definition twin1 : series := SK [99] [([49], enc_str [50] ++ enc_str w64k)].
Definition twin2 : series := SK [99] [([49], []); ([50], w64k)].
Theorem C18_truncation_refuted : exists (hash : series -> Z) a b, a <> b /\ snd (irun hash [IAdd a; IAdd b]) = [OId (ROk 1); OId (ROk 1)].
Proof. exists (fun _ => 0), twin1, twin2. split; [discriminate|]. vm_compute. reflexivity. Qed.
Print Assumptions C18_truncation_refuted.

(** * C19 *)
(** A query by tag conditions returns, each once, the ids of the live series of the table that satisfy
    all conditions. *)
Theorem C19_query_exact_partial : forall hash h tab doms, Forall iop_ok h -> Z.of_nat (length h) + 1 < 2 ^ 32 -> iop_ok (IQuery tab doms) ->
  let x := fst (irun hash h) in
  exists s, snd (istep hash x (IQuery tab doms)) = OSet (Some s) /\ NoDup s /\
    (forall i, In i s -> 0 <= i < 2 ^ 32) /\
    forall i, 0 <= i < 2 ^ 32 -> (In i s <-> exists k, snd (istep hash x (IGetKey i)) = OKey (Some (Some k)) /\ selected k tab doms).
Proof.
  intros hash h tab doms F L [N G]. cbn zeta. destruct (irun_ok hash h F ltac:(lia)) as (P & D & R & K & D0 & B & _).
  destruct (query_ok hash _ P tab doms (rl_inv _ _ _ _ R) N G) as (s & E & Nd & M). exists s. split; [cbn [istep snd]; rewrite E; reflexivity|]. split; auto. split.
  - intros i Hi. apply M in Hi as (k & Hk & _). destruct (inv_all_ok hash _ P i k (rl_inv _ _ _ _ R) Hk) as [[A _] _]. exact A.
  - intros i Hi. rewrite M. split; intros (k & Hk & S); exists k; (split; [|auto]).
    + apply (probe_key hash _ P D i k R K Hi ltac:(lia)). apply (rl_maps _ _ _ _ R). auto.
    + apply (rl_maps _ _ _ _ R). apply (probe_key hash _ P D i k R K Hi ltac:(lia)). auto.
Qed.
Print Assumptions C19_query_exact_partial.

Definition sys : bytes := [115; 121; 115].
(** Finding: the stored index of table "sys" is searched by the prefix "sys.", which also finds the
    series of a table named "sys.cpu". *)
Theorem C19_dotted_table_refuted : exists (hash : series -> Z) k tab, sk_table k <> tab /\
  snd (irun hash [IAdd k; IQuery tab (Some []); IFlush; IQuery tab (Some [])]) = [OId (ROk 1); OSet (Some []); ODone true; OSet (Some [1])].
Proof. exists series_hash, (SK (sys ++ [46; 99; 112; 117]) [([49], [97])]), sys. split; [discriminate|]. vm_compute. reflexivity. Qed.
Print Assumptions C19_dotted_table_refuted.

(** Finding: looking up series by several tags at once (get_series_id_list) starts over when the
    intersection in the write cache becomes empty: it returns a series without the first tag. *)
Theorem C19_multi_tag_refuted : exists (hash : series -> Z) a b tags,
  key_ok a /\ key_ok b /\ ix_list (fst (irun hash [IAdd a; IAdd b])) sys tags = Some [2] /\ exists t, In t tags /\ ~ In t (sk_tags b).
Proof.
  exists series_hash, (SK sys [([49], [97])]), (SK sys [([50], [98]); ([51], [99])]), [([49], [97]); ([50], [98]); ([51], [99])].
  assert (G : forall l, Forall (fun t : bytes * bytes => tag_name (fst t)) l -> (length (enc_key (SK sys l)) < MAX_KEY)%nat -> key_ok (SK sys l)).
  { intros l H1 H2. split; [cbn; unfold name_ok; cbn; intuition (discriminate || lia)|]. auto. }
  split; [apply G; [|apply Nat.ltb_lt; vm_compute; reflexivity]|]. { constructor; [|constructor]. cbn. split; [discriminate|]. constructor; [unfold digit; lia | constructor]. }
  split; [apply G; [|apply Nat.ltb_lt; vm_compute; reflexivity]|]. { constructor; [|constructor; [|constructor]]; cbn; (split; [discriminate|]); (constructor; [unfold digit; lia | constructor]). }
  split; [vm_compute; reflexivity|]. exists ([49], [97]). split; [left; reflexivity|]. cbn. intuition discriminate.
Qed.
Print Assumptions C19_multi_tag_refuted.

(** * C20 *)
(** Two different series are never stored under the same key: if the storage took the key of [a], no
    other series has that key. *)
Theorem C20_stored_key_unique : forall st a v st', st_put st (enc_key a) v = Some st' -> forall b, enc_key b = enc_key a -> b = a.
Proof.
  intros st a v st' H b E. unfold st_put in H. destruct ((length (enc_key a) <=? MAX_KEY)%nat) eqn:L; [|discriminate]. apply Nat.leb_le in L. symmetry. apply enc_key_stored; auto.
Qed.
Print Assumptions C20_stored_key_unique.
(** The same for the records of deleted series. *)
Theorem C20_stored_tomb_unique : forall st a v st', st_put st (enc_tomb a) v = Some st' -> forall b, enc_tomb b = enc_tomb a -> b = a.
Proof.
  intros st a v st' H b E. unfold st_put in H. destruct ((length (enc_tomb a) <=? MAX_KEY)%nat) eqn:L; [|discriminate]. apply Nat.leb_le in L.
  apply enc_key_stored.
  - rewrite <- E in L. unfold enc_tomb, enc_key, enc_with in *. rewrite app_length in *. change (length P_KEY) with 5%nat. change (length P_TOMB) with 6%nat in L. unfold MAX_KEY in *. lia.
  - unfold enc_tomb, enc_key, enc_with in *. apply app_inv_head in E. f_equal. auto.
Qed.
Print Assumptions C20_stored_tomb_unique.
(** Keys of series, of ids and of deleted series are never confused, and ids have different keys. *)
Theorem C20_kinds_apart : forall a b i j, 0 <= i < 2 ^ 32 -> 0 <= j < 2 ^ 32 ->
  enc_key a <> enc_id i /\ enc_key a <> enc_tomb b /\ enc_tomb a <> enc_id i /\ enc_key a <> K_AUTO /\ enc_tomb a <> K_AUTO /\ enc_id i <> K_AUTO /\ (enc_id i = enc_id j -> i = j).
Proof.
  intros a b i j Hi Hj. unfold enc_key, enc_tomb, enc_id, enc_with, P_KEY, P_TOMB, P_ID, K_AUTO. repeat (split; [discriminate|]). intros E. apply enc_id_inj; auto.
Qed.
Print Assumptions C20_kinds_apart.
(** Without the limit on stored keys, the encoding is injective up to 65535 bytes per name and value... *)
Theorem C20_key_injective : forall a b,
  Z.of_nat (length (sk_table a)) < 65536 -> Z.of_nat (length (sk_table b)) < 65536 ->
  Forall (fun t => Z.of_nat (length (fst t)) < 65536 /\ Z.of_nat (length (snd t)) < 65536) (sk_tags a) ->
  Forall (fun t => Z.of_nat (length (fst t)) < 65536 /\ Z.of_nat (length (snd t)) < 65536) (sk_tags b) ->
  enc_key a = enc_key b -> a = b.
Proof. intros a b A1 B1 A2 B2 E. eapply enc_with_inj; [split; eauto | split; eauto | exact E]. Qed.
Print Assumptions C20_key_injective.
(** ... and not beyond: lengths are cut to 16 bits. *)
Theorem C20_truncation_refuted : exists a b, a <> b /\ enc_key a = enc_key b.
Proof. exists twin1, twin2. split; [discriminate|]. apply beq_eq. vm_cast_no_check (eq_refl true). Qed.
Print Assumptions C20_truncation_refuted.

(** * The hypotheses hold in a concrete case *)
Definition day : list iop :=
  [IAdd (cpu 49); IAdd (cpu 50); IGetId (cpu 49); IFlush; IAdd (cpu 51); IEvict (fun _ => false) (fun _ => false); IAdd (cpu 50);
   IUpdate (rename_to 52) [cpu 50]; IDel 1; IAdd (cpu 49); IFlush; IAdd (cpu 53); ICrash; IAdd (cpu 54); IClearTombs;
   IQuery [99; 112; 117] (Some [([49], TIn [[104; 51]; [104; 52]; [104; 50]])]);
   IQuery [99; 112; 117] (Some [([49], TRange [(BEx [104; 49], BUn)]); ([49], TNotIn [[104; 52]])]);
   IGetKey 2; IGetKey 1].
Example C18_nonvacuous : Forall iop_ok day /\
  snd (irun series_hash day) =
  [OId (ROk 1); OId (ROk 2); OId (ROk 1); ODone true; OId (ROk 3); ODone true; OId (ROk 2); ODone true; ODone true; OId (ROk 4); ODone true; OId (ROk 5); ODone true;
   OId (ROk 5); ODone true; OSet (Some [3; 2]); OSet (Some [5; 2; 3]); OKey (Some (Some (cpu 52))); OKey (Some None)].
Proof.
  assert (G : forall c, key_ok (cpu c)).
  { intros c. unfold key_ok, cpu, name_ok, tag_name, digit. cbn [sk_table sk_tags]. split; [cbn; intuition (discriminate || lia)|]. split; [|apply Nat.ltb_lt; vm_compute; reflexivity].
    constructor; [|constructor]. cbn. split; [discriminate|]. constructor; [lia | constructor]. }
  assert (NM : name_ok [99; 112; 117]) by (unfold name_ok; cbn; intuition (discriminate || lia)).
  assert (TN : tag_name [49]) by (split; [discriminate|]; constructor; [unfold digit; lia | constructor]).
  split; [|vm_compute; reflexivity]. unfold day.
  repeat (apply Forall_cons; [cbn [iop_ok]; first [apply G | exact I | lia | idtac]|]); try apply Forall_nil.
  - split; [apply G | apply (G 52)].
  - split; auto. apply Forall_cons; [split; [exact TN | exact I] | apply Forall_nil].
  - split; auto. apply Forall_cons; [split; [exact TN |] | apply Forall_cons; [split; [exact TN | exact I] | apply Forall_nil]]. apply Forall_cons; [reflexivity | apply Forall_nil].
Qed.
Example C20_nonvacuous : exists st', st_put [] (enc_key (cpu 49)) (VId 1) = Some st' /\ enc_key (cpu 49) <> enc_key (cpu 50).
Proof. eexists. split; [vm_compute; reflexivity | vm_compute; discriminate]. Qed.
