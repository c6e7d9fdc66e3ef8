(** C15, C16, C17, C43: the raft log. *)
From Verif Require Import Prelude Bytes RecordModel RecordSpec RingModel WalModel WalSpec WalProofs NodeModel NodeSpec NodeProofs.

(** *** Histories used as examples: entries are pairs of an index and a one-byte payload *)
Definition e_enc (e : Z * Z) : list Z := be_bytes 8 (fst e) ++ [snd e].
Definition e_dec (l : list Z) : option (Z * Z) := Some (of_be (firstn 8 l), nth 8 l 0).
Definition e_type (e : Z * Z) : Z := 102.
Definition ents (a : Z) (n : nat) (v : Z) : list (Z * Z) := map (fun i => (a + Z.of_nat i, v)) (seq 0 n).
Notation exec32 := (exec crc32 fst e_type e_enc e_dec).
Notation runs32 := (runs crc32 fst e_type e_enc e_dec).
Definition codedb (e : Z * Z) : bool := ((0 <=? fst e) && (fst e <? 2 ^ 64) && (0 <=? snd e) && (snd e <? 256))%bool.
Lemma codedb_ok e : codedb e = true -> coded e_type e_enc e_dec e.
Proof.
  unfold codedb. rewrite !Bool.andb_true_iff. intros [[[H1 H2] H3] H4]. destruct e as [i v]. cbn [fst snd] in *. unfold coded, e_enc, e_dec. cbn [fst snd].
  assert (L : length (be_bytes 8 i) = 8%nat) by apply be_bytes_length.
  split; [unfold is_byte, e_type; lia|]. split; [apply Forall_app; split; [apply be_bytes_bytes|repeat constructor; unfold is_byte; lia]|].
  split; [unfold zlen; rewrite app_length, L; reflexivity|].
  rewrite firstn_app, L, Nat.sub_diag, <- L, firstn_all. cbn [firstn]. rewrite app_nil_r, L, of_be_be_bytes. rewrite app_nth2 by lia. rewrite L. cbn [Nat.sub nth].
  rewrite Z.mod_small; auto. change (256 ^ Z.of_nat 8) with (2 ^ 64). lia.
Qed.
Fixpoint fromb (i : Z) (l : list (Z * Z)) : bool := match l with [] => true | e :: l' => ((fst e =? i) && fromb (i + 1) l')%bool end.
Lemma fromb_ok l : forall i, fromb i l = true -> from fst i l.
Proof. induction l as [|e l IH]; intros i; cbn [fromb from]; auto. rewrite Bool.andb_true_iff. intros [H1 H2]. split; [lia|auto]. Qed.
Definition consb (l : list (Z * Z)) : bool :=
  match l with [] => true | e :: _ => ((0 <=? fst e) && (fst e + zlen l <=? U64_MAX) && fromb (fst e) l)%bool end.
Lemma consb_ok l : consb l = true -> consecutive fst l.
Proof.
  destruct l as [|e l]; [exists 0; split; [lia|split; [discriminate|exact I]]|]. unfold consb. rewrite !Bool.andb_true_iff. intros [[H1 H2] H3].
  exists (fst e). split; [lia|]. split; [lia|]. apply fromb_ok. auto.
Qed.
Definition none {A} (o : option A) : bool := match o with None => true | _ => false end.
(** Every record of these entries takes 32 bytes. *)
Definition footersb (s : store (Z * Z)) : bool :=
  forallb (fun f => forallb (fun n => none (read_footer crc32 (firstn (4 + 32 * n) (snd f)))) (seq 0 (S (Nat.div (length (snd f)) 32)))) (s_dir s).
Lemma len32 es : length (wal_bytes crc32 fst e_type e_enc es) = (32 * length es)%nat.
Proof.
  induction es as [|e es IH]; auto. unfold wal_bytes in *. cbn [flat_map]. rewrite app_length, IH. unfold record_bytes, wal_data, e_enc. rewrite !app_length. cbn [length]. rewrite !app_length, !be_bytes_length. cbn [length RECORD_MAGIC]. lia.
Qed.
Lemma footersb_ok s : footersb s = true -> footers_ok crc32 fst e_type e_enc s.
Proof.
  unfold footersb. rewrite forallb_forall. intros H id es1 es2 Hi. specialize (H _ Hi). cbn [snd] in H. rewrite forallb_forall in H.
  pose proof (len32 es1) as L1. pose proof (len32 (es1 ++ es2)) as L2. specialize (H (length es1)). rewrite app_length in H, L2. rewrite L2 in H.
  assert (HE : wal_bytes crc32 fst e_type e_enc (es1 ++ es2) = wal_bytes crc32 fst e_type e_enc es1 ++ wal_bytes crc32 fst e_type e_enc es2) by apply flat_map_app.
  rewrite HE, app_assoc in H. set (A := FILE_MAGIC ++ wal_bytes crc32 fst e_type e_enc es1) in *.
  assert (LA : length A = (4 + 32 * length es1)%nat) by (unfold A; rewrite app_length, L1; reflexivity).
  rewrite <- LA, firstn_app, firstn_all, Nat.sub_diag in H. cbn [firstn] in H. rewrite app_nil_r in H.
  apply RecordProofs.no_footer_read. destruct (read_footer crc32 A); auto. enough (none (Some (A := list Z) []) = true) by discriminate. apply H. apply in_seq.
  split; [lia|]. cbn [Nat.add]. apply Nat.lt_succ_r. apply Nat.div_le_lower_bound; [lia|]. cbn [length FILE_MAGIC]. lia.
Qed.
Definition op_okb (s : store (Z * Z)) (o : op (Z * Z)) : bool :=
  match o with
  | OAppend es => (forallb codedb es && consb es && ((max_sequence s =? U64_MAX) || match es with [] => true | e :: _ => fst e =? max_sequence s + 1 end))%bool
  | ODelBefore k => ((0 <=? k) && (k <=? U64_MAX))%bool
  | ODelAfter k => ((0 <=? k) && forallb (fun m => forallb (fun p => negb (fst p =? k) || (r_pos (m_reader m) - r_use (m_reader m) + r_len (m_reader m) <=? snd p))%bool (m_index m)) (s_metas s))%bool
  | ORestart (Some a) => ((0 <=? a) && ((max_sequence s <=? a) || forallb (fun f => zlen (snd f) <=? 4 + READER_BUF_SIZE) (s_dir s)))%bool
  | _ => true
  end.
Lemma op_okb_ok s o : op_okb s o = true -> op_ok fst e_type e_enc e_dec s o.
Proof.
  destruct o as [es|k|k|k|a b| | |[a|]]; cbn [op_okb op_ok]; auto; rewrite ?Bool.andb_true_iff, ?Bool.orb_true_iff.
  - intros [[H1 H2] H3]. rewrite forallb_forall in H1. split; [apply Forall_forall; intros e He; apply codedb_ok; auto|]. split; [apply consb_ok; auto|].
    destruct H3 as [H3|H3]; [left; lia|right]. destruct es; auto. lia.
  - lia.
  - intros [H1 H2]. split; [lia|]. intros m pos Hm Hp. rewrite forallb_forall in H2. specialize (H2 m Hm). rewrite forallb_forall in H2. specialize (H2 (k, pos) Hp). cbn [fst snd] in H2. lia.
  - intros [H1 [H2|H2]]; (split; [lia|]); [left; lia|right]. rewrite forallb_forall in H2. intros id f Hf. specialize (H2 (id, f) Hf). cbn [snd] in H2. lia.
Qed.
Definition ent_eqb (a b : Z * Z) : bool := ((fst a =? fst b) && (snd a =? snd b))%bool.
Fixpoint ents_eqb (a b : list (Z * Z)) : bool :=
  match a, b with [], [] => true | x :: a', y :: b' => (ent_eqb x y && ents_eqb a' b')%bool | _, _ => false end.
Definition ans_eqb (a b : ans (Z * Z)) : bool :=
  match a, b with
  | AOk, AOk | AError, AError | AEntry None, AEntry None => true
  | AEntry (Some x), AEntry (Some y) => ent_eqb x y
  | AEntries x, AEntries y => ents_eqb x y
  | AMetrics x y, AMetrics z t => ((x =? z) && (y =? t))%bool
  | _, _ => false
  end.
Lemma ent_eqb_ok a b : ent_eqb a b = true -> a = b.
Proof. destruct a, b. unfold ent_eqb. cbn [fst snd]. rewrite Bool.andb_true_iff. intros [H1 H2]. f_equal; lia. Qed.
Lemma ents_eqb_ok a : forall b, ents_eqb a b = true -> a = b.
Proof. induction a as [|x a IH]; intros [|y b]; cbn [ents_eqb]; try discriminate; auto. rewrite Bool.andb_true_iff. intros [H1 H2]. f_equal; auto using ent_eqb_ok. Qed.
Lemma ans_eqb_ok a b : ans_eqb a b = true -> a = b.
Proof.
  destruct a as [| |[x|]|x|x y], b as [| |[z|]|z|z t]; cbn [ans_eqb]; try discriminate; auto.
  - intros H. do 2 f_equal. apply ent_eqb_ok. auto.
  - intros H. f_equal. apply ents_eqb_ok. auto.
  - rewrite Bool.andb_true_iff. intros [H1 H2]. f_equal; lia.
Qed.
(** Runs a history and compares the answers; [strict] checks [op_ok] and [footers_ok] before every operation. *)
Fixpoint check (strict : bool) (max_size : Z) (s : store (Z * Z)) (tr : list (op (Z * Z) * ans (Z * Z))) : bool :=
  match tr with
  | [] => true
  | (o, a) :: tr' =>
      (if strict then (op_okb s o && footersb s)%bool else true) &&
      match step crc32 fst e_type e_enc e_dec max_size s o with
      | Some (a', s1) => (ans_eqb a' a && check strict max_size s1 tr')%bool
      | None => false
      end
  end%bool.
Lemma check_runs max_size tr : forall s, check true max_size s tr = true -> exists s', runs32 max_size s tr s'.
Proof.
  induction tr as [|[o a] tr IH]; intros s H; cbn [check] in H; [eexists; constructor|]. rewrite !Bool.andb_true_iff in H. destruct H as [[HO HF] H].
  destruct (step _ _ _ _ _ _ s o) as [[a' s1]|] eqn:ES; [|discriminate]. rewrite Bool.andb_true_iff in H. destruct H as [H1 H2]. apply ans_eqb_ok in H1 as ->.
  destruct (IH s1 H2) as (s'&H3). exists s'. econstructor; eauto using op_okb_ok, footersb_ok.
Qed.
Lemma check_exec max_size tr : forall s, check false max_size s tr = true -> exists s', exec32 max_size s (map fst tr) = Some (map snd tr, s').
Proof.
  induction tr as [|[o a] tr IH]; intros s H; cbn [check] in H; [eexists; reflexivity|]. cbn [andb] in H.
  cbn [map fst snd exec]. destruct (step _ _ _ _ _ _ s o) as [[a' s1]|] eqn:ES; [|discriminate]. rewrite Bool.andb_true_iff in H. destruct H as [H1 H2]. apply ans_eqb_ok in H1 as ->.
  destruct (IH s1 H2) as (s'&H3). exists s'. rewrite H3. reflexivity.
Qed.
(** Small files (100 bytes), so that the history rolls, purges and truncates across files. *)
Definition history1 : list (op (Z * Z) * ans (Z * Z)) :=
  [(OAppend (ents 1 5 7), AOk); (OEntry 2, AEntry (Some (2, 7))); (OEntries 1 6, AEntries (ents 1 5 7)); (OLast, AEntry (Some (5, 7)));
   (ODelAfter 5, AOk); (OAppend (ents 5 4 8), AOk); (OEntries 2 6, AEntries (ents 2 3 7 ++ ents 5 1 8)); (ODelBefore 4, AOk); (OEntries 0 10, AEntries (ents 4 1 7 ++ ents 5 4 8));
   (ORestart None, AOk); (OEntries 0 10, AEntries (ents 1 4 7 ++ ents 5 4 8)); (OMetrics, AMetrics 1 8); (ORestart (Some 6), AOk);
   (OEntries 0 10, AEntries (ents 1 4 7 ++ ents 5 2 8)); (OLast, AEntry (Some (6, 8)))].
Example history1_runs : exists s, runs32 100 (store_new crc32 []) history1 s.
Proof. apply check_runs. vm_cast_no_check (eq_refl true). Qed.

(** ** C15 *)
(** Full statement: every history of appends, truncations, purges and reads is answered as by a plain list of entries.
    Missing: truncating at an entry whose bytes are already in a reader's buffer (see C15_stale_read_refuted); files whose prefixes
    look like a closed file (C13_footer_refuted).  Restarts are included; what they may do to the list is stated in [spec_step]. *)
Theorem C15_log_refines_partial : forall crc E (e_index e_type : E -> Z) enc dec max_size tr s, crc32_like crc ->
  runs crc e_index e_type enc dec max_size (store_new crc []) tr s ->
  exists l, spec_run e_index (Log [] [] 0) tr l.
Proof.
  intros crc E e_index e_type enc dec max_size tr s Hc Hr.
  destruct (run_inv crc Hc e_index e_type enc dec max_size _ _ _ Hr _ (init_inv crc e_index e_type enc dec)) as (L&H&_). eauto.
Qed.
(** No operation of such a history panics, runs for ever or fails. *)
Theorem C15_log_total_partial : forall crc E (e_index e_type : E -> Z) enc dec max_size tr s o, crc32_like crc ->
  runs crc e_index e_type enc dec max_size (store_new crc []) tr s ->
  op_ok e_index e_type enc dec s o -> footers_ok crc e_index e_type enc s ->
  exists a s', step crc e_index e_type enc dec max_size s o = Some (a, s') /\ a <> AError.
Proof.
  intros crc E e_index e_type enc dec max_size tr s o Hc Hr Ho Hf.
  destruct (run_inv crc Hc e_index e_type enc dec max_size _ _ _ Hr _ (init_inv crc e_index e_type enc dec)) as (L&_&HI).
  destruct (sim crc Hc e_index e_type enc dec max_size s L o HI Ho Hf) as (a&s'&L'&H1&H2&_). exists a, s'. split; auto. destruct H2; discriminate.
Qed.
(** Reading entry 2 fills a buffer with the file's bytes; the truncation at 3 and the 300 entries that follow do not change what that
    buffer holds, and entry 3 is answered from it: the entry that was truncated, not the one appended since. *)
Theorem C15_stale_read_refuted : exists l1 l2 s,
  consecutive fst l1 /\ consecutive fst l2 /\ nth 0 l1 (0, 0) = (1, 7) /\ nth 0 l2 (0, 0) = (3, 8) /\ Forall (coded e_type e_enc e_dec) (l1 ++ l2) /\
  exec32 100000 (store_new crc32 []) [OAppend l1; OEntry 2; ODelAfter 3; OAppend l2; OEntry 3] =
    Some ([AOk; AEntry (Some (2, 7)); AOk; AOk; AEntry (Some (3, 7))], s).
Proof.
  destruct (check_exec 100000 [(OAppend (ents 1 260 7), AOk); (OEntry 2, AEntry (Some (2, 7))); (ODelAfter 3, AOk); (OAppend (ents 3 300 8), AOk); (OEntry 3, AEntry (Some (3, 7)))]
              (store_new crc32 []) ltac:(vm_cast_no_check (eq_refl true))) as (s&H).
  exists (ents 1 260 7), (ents 3 300 8), s. split; [apply consb_ok; vm_cast_no_check (eq_refl true)|]. split; [apply consb_ok; vm_cast_no_check (eq_refl true)|]. split; [reflexivity|]. split; [reflexivity|].
  split; [|exact H]. assert (H0 : forallb codedb (ents 1 260 7 ++ ents 3 300 8) = true) by (vm_cast_no_check (eq_refl true)). rewrite forallb_forall in H0. apply Forall_forall. intros e He. apply codedb_ok. auto.
Qed.

(** ** C16 *)
(** An answer to "last entry" is the last entry. *)
Theorem C16_last_sound_partial : forall crc E (e_index e_type : E -> Z) enc dec max_size tr s e s', crc32_like crc ->
  runs crc e_index e_type enc dec max_size (store_new crc []) tr s ->
  step crc e_index e_type enc dec max_size s OLast = Some (AEntry (Some e), s') ->
  forall k x s'', step crc e_index e_type enc dec max_size s (OEntry k) = Some (AEntry (Some x), s'') -> k <= e_index e.
Proof.
  intros crc E e_index e_type enc dec max_size tr s e s' Hc Hr HL k x s'' HE.
  destruct (run_inv crc Hc e_index e_type enc dec max_size _ _ _ Hr _ (init_inv crc e_index e_type enc dec)) as (L&_&HI).
  destruct (max_seq_inv crc e_index e_type enc dec s L HI) as (_&_&i&I0&IU&IF).
  cbn [step] in HL, HE. rewrite (last_ok crc e_index e_type enc dec s L HI) in HL. destruct (read_entry_ok crc Hc e_index e_type enc dec s L k HI) as (s2&E1&_). rewrite E1 in HE.
  destruct (find (fun e => e_index e =? k) (l_entries L)) as [y|] eqn:EF; cbn [to_g] in HE; [|discriminate]. apply find_some in EF as [E2 E3].
  destruct (l_cached L =? 0)%nat; [discriminate|]. unfold last_of in HL. destruct (rev (l_entries L)) as [|z r] eqn:ER; [discriminate|]. injection HL as <- _.
  apply (f_equal (@rev E)) in ER. rewrite rev_involutive in ER. cbn [rev] in ER. rewrite ER in IF, E2. apply from_app in IF as [IF [IF2 _]]. apply in_app_or in E2 as [E2|[E2|[]]].
  - pose proof (from_in e_index _ _ _ IF E2). lia.
  - subst. lia.
Qed.
Definition reads {E} (o : op E) : bool := match o with OEntry _ | OEntries _ _ | OLast | OMetrics => true | _ => false end.
Lemma reads_run {E} (e_index : E -> Z) L tr L' : spec_run e_index L tr L' -> Forall (fun x => reads (fst x) = true) tr -> L' = L.
Proof. induction 1 as [|L o a L1 tr L2 H _ IH]; intros HF; auto. pose proof (Forall_inv HF) as H1. rewrite (IH (Forall_inv_tail HF)). cbn [fst] in H1. destruct H; auto; discriminate. Qed.
Lemma spec_app {E} (e_index : E -> Z) L tr1 tr2 L' : spec_run e_index L (tr1 ++ tr2) L' -> exists L1, spec_run e_index L tr1 L1 /\ spec_run e_index L1 tr2 L'.
Proof.
  revert L. induction tr1 as [|[o a] tr1 IH]; intros L H; [exists L; split; [constructor|exact H]|]. cbn [app] in H. inversion H as [|L0 o0 a0 L1 tr L2 H1 H2]; subst.
  apply IH in H2 as (L3&H3&H4). exists L3. split; auto. econstructor; eauto.
Qed.
(** After appending entries, and any reads, the last entry is the last one appended.
    Full statement: whenever the log is not empty.  See C16_last_refuted for what is missing. *)
Theorem C16_last_partial : forall crc E (e_index e_type : E -> Z) enc dec max_size tr es e a tr' s, crc32_like crc ->
  runs crc e_index e_type enc dec max_size (store_new crc []) (tr ++ (OAppend (es ++ [e]), a) :: tr') s ->
  Forall (fun x => reads (fst x) = true) tr' ->
  step crc e_index e_type enc dec max_size s OLast = Some (AEntry (Some e), s).
Proof.
  intros crc E e_index e_type enc dec max_size tr es e a tr' s Hc Hr Ht.
  destruct (run_inv crc Hc e_index e_type enc dec max_size _ _ _ Hr _ (init_inv crc e_index e_type enc dec)) as (L&HS&HI).
  cbn [step]. rewrite (last_ok crc e_index e_type enc dec s L HI). apply spec_app in HS as (L1&_&HS). inversion HS as [|L0 o0 a0 L2 tr0 L3 H1 H2]; subst.
  apply reads_run in H2; auto. subst L. inversion H1; subst. cbn [l_cached l_entries]. rewrite app_length. cbn [length].
  destruct (Nat.min 256 (n + (length es + 1)) =? 0)%nat eqn:EZ; [apply Nat.eqb_eq in EZ; lia|]. rewrite app_assoc. rewrite last_of_snoc. auto.
Qed.
(** After a truncation that removes as many entries as the cache holds, the log is reported empty although entry 9 is there. *)
Theorem C16_last_refuted : exists s,
  runs32 100000 (store_new crc32 []) [(OAppend (ents 1 300 7), AOk); (ODelAfter 10, AOk); (OLast, AEntry None); (OEntry 9, AEntry (Some (9, 7)))] s.
Proof. apply check_runs. vm_cast_no_check (eq_refl true). Qed.

(** ** C17 *)
(** Full statement: every entry that was appended, and not truncated, is in the log after a restart.  Here: those that had been
    applied, or all when no applied index was stored.  See C17_unapplied_lost_refuted.  Missing too: a crash in the middle
    of a write (C14 states what a reader of the record file then sees). *)
Theorem C17_restart_partial : forall crc E (e_index e_type : E -> Z) enc dec max_size tr s apply, crc32_like crc ->
  runs crc e_index e_type enc dec max_size (store_new crc []) tr s ->
  op_ok e_index e_type enc dec s (ORestart apply) -> footers_ok crc e_index e_type enc s ->
  exists s', step crc e_index e_type enc dec max_size s (ORestart apply) = Some (AOk, s') /\
    forall k e s1, step crc e_index e_type enc dec max_size s (OEntry k) = Some (AEntry (Some e), s1) ->
      match apply with None => True | Some a => k <= a end ->
      exists s2, step crc e_index e_type enc dec max_size s' (OEntry k) = Some (AEntry (Some e), s2).
Proof.
  intros crc E e_index e_type enc dec max_size tr s ap Hc Hr Ho Hf.
  destruct (run_inv crc Hc e_index e_type enc dec max_size _ _ _ Hr _ (init_inv crc e_index e_type enc dec)) as (L&_&HI).
  destruct (restart_ok crc Hc e_index e_type enc dec s L ap HI Hf Ho) as (s'&pre&old&E1&E2&HI'). exists s'. cbn [step]. rewrite E1. split; auto.
  intros k e s1 HE Hk. destruct (read_entry_ok crc Hc e_index e_type enc dec s L k HI) as (s2&R1&_). rewrite R1 in HE.
  destruct (find (fun e => e_index e =? k) (l_entries L)) as [y|] eqn:EF; cbn [to_g] in HE; [|discriminate]. injection HE as <- _. apply find_some in EF as [F1 F2].
  destruct (read_entry_ok crc Hc e_index e_type enc dec s' _ k HI') as (s3&R3&_). cbn [l_entries] in R3. rewrite R3.
  destruct (max_seq_inv crc e_index e_type enc dec s' _ HI') as (_&_&i&I0&IU&IF). cbn [l_entries] in IF.
  rewrite (find_in e_index i _ y k IF) in R3 |- *; try lia; [cbn [to_g]; eauto|..]; (rewrite keep_filter; apply filter_In; split; [apply in_or_app; auto|destruct ap; cbn [kept]; lia]).
Qed.
(** When nothing was purged, and nothing is above the applied index, the log after the restart answers every read as before. *)
Definition is_purge {E} (o : op E) : bool := match o with ODelBefore _ => true | _ => false end.
Lemma no_purge {E} (e_index : E -> Z) L tr L' : spec_run e_index L tr L' -> l_purged L = [] -> Forall (fun x => is_purge (fst x) = false) tr -> l_purged L' = [].
Proof.
  induction 1 as [|L o a L1 tr L2 H _ IH]; intros HP HF; auto. apply IH; [|apply (Forall_inv_tail HF)]. pose proof (Forall_inv HF) as H1. cbn [fst] in H1.
  destruct H; cbn [l_purged] in *; auto; try discriminate. apply app_eq_nil in HP. tauto.
Qed.
Theorem C17_restart_exact_partial : forall crc E (e_index e_type : E -> Z) enc dec max_size tr s apply, crc32_like crc ->
  runs crc e_index e_type enc dec max_size (store_new crc []) tr s -> Forall (fun x => is_purge (fst x) = false) tr ->
  footers_ok crc e_index e_type enc s -> match apply with None => True | Some a => 0 <= a /\ max_sequence s <= a end ->
  exists s', step crc e_index e_type enc dec max_size s (ORestart apply) = Some (AOk, s') /\
    forall a b, exists l s1 s2, step crc e_index e_type enc dec max_size s (OEntries a b) = Some (AEntries l, s1) /\
                                step crc e_index e_type enc dec max_size s' (OEntries a b) = Some (AEntries l, s2).
Proof.
  intros crc E e_index e_type enc dec max_size tr s ap Hc Hr Hp Hf Ha.
  destruct (run_inv crc Hc e_index e_type enc dec max_size _ _ _ Hr _ (init_inv crc e_index e_type enc dec)) as (L&HS&HI).
  apply no_purge in HS; auto. assert (Ho : op_ok e_index e_type enc dec s (ORestart ap)) by (destruct ap; cbn [op_ok]; tauto).
  destruct (restart_ok crc Hc e_index e_type enc dec s L ap HI Hf Ho) as (s'&pre&old&E1&E2&HI'). exists s'. cbn [step]. rewrite E1. split; auto.
  intros a b. destruct (read_entries_ok crc Hc e_index e_type enc dec s L a b HI) as (s1&R1&_). destruct (read_entries_ok crc Hc e_index e_type enc dec s' _ a b HI') as (s2&R2&_).
  rewrite R1, R2. cbn [l_entries]. rewrite HS in E2. symmetry in E2. apply app_eq_nil in E2 as [_ ->]. cbn [app].
  do 3 eexists. split; [reflexivity|]. do 4 f_equal. rewrite keep_filter. apply all_kept. intros e He.
  destruct ap as [k|]; cbn [kept]; auto. destruct Ha as [_ Ha]. destruct (max_seq_inv crc e_index e_type enc dec s L HI) as (MX&_&i&I0&IU&IF).
  rewrite MX, (from_last e_index i) in Ha; auto; [|intros X; rewrite X in He; destruct He]. pose proof (from_in e_index _ _ _ IF He). lia.
Qed.
(** Six entries appended, five of them applied: the restart drops the sixth. *)
Theorem C17_unapplied_lost_refuted : exists s,
  runs32 100 (store_new crc32 []) [(OAppend (ents 1 6 7), AOk); (ORestart (Some 5), AOk); (OEntry 6, AEntry None); (OEntry 5, AEntry (Some (5, 7)))] s.
Proof. apply check_runs. vm_cast_no_check (eq_refl true). Qed.

(** ** C43 *)
Lemma empty_range {E} (e_index : E -> Z) a l : filter (fun e => (a <=? e_index e) && (e_index e <? a))%bool l = [].
Proof. induction l as [|x l IH]; cbn [filter]; auto. replace (_ && _)%bool with false by lia. auto. Qed.
(** The contract of the consensus library's storage interface, over every history of its calls.  Partial in the conditions of
    [nop_ok]; restarts are not included (see C43_purged_resurface_refuted). *)
Theorem C43_contract_partial : forall crc E (e_index e_type : E -> Z) enc dec max_size tr n, crc32_like crc ->
  nruns crc e_index e_type enc dec max_size (node_new crc) tr n ->
  let call := nstep crc e_index e_type enc dec max_size in let ok := nop_ok crc e_index e_type enc dec in
  (** appended entries are readable, and those below them still are *)
  (forall es, ok n (NAppend es) -> exists n', call n (NAppend es) = Some (NOk, n') /\
     forall e, In e es -> exists n2, call n' (NGet (e_index e) (e_index e + 1)) = Some (NEntries [e], n2)) /\
  (** nothing at or above a truncation is readable, everything below it still is *)
  (forall k, ok n (NTruncate k) -> exists n', call n (NTruncate k) = Some (NOk, n') /\
     forall a b, exists l n1 n2, call n (NGet a b) = Some (NEntries l, n1) /\ call n' (NGet a b) = Some (NEntries (filter (fun e => e_index e <? k) l), n2)) /\
  (** nothing at or below a purge is readable, everything above it still is *)
  (forall k, ok n (NPurge k) -> exists n', call n (NPurge k) = Some (NOk, n') /\
     forall a b, exists l n1 n2, call n (NGet a b) = Some (NEntries l, n1) /\ call n' (NGet a b) = Some (NEntries (filter (fun e => k <? e_index e) l), n2)) /\
  (** the reported last id is not below the purged one *)
  (forall a n', ok n NState -> call n NState = Some (a, n') -> exists p l, a = NLogState p l /\ match p, l with Some p, Some l => p <= l | Some _, None => False | None, _ => True end).
Proof.
  intros crc E e_index e_type enc dec max_size tr n Hc Hr call ok.
  destruct (nrun_inv crc Hc e_index e_type enc dec max_size _ _ _ Hr _ (new_ninv crc e_index e_type enc dec)) as (l&HI).
  assert (GET : forall n l a b, NInv crc e_index e_type enc dec n l -> exists n2, call n (NGet a b) = Some (NEntries (range e_index a b l), n2)).
  { intros n0 l0 a b (_&p&c&H0). unfold call. cbn [nstep]. unfold log_step. cbn [step]. destruct (read_entries_ok crc Hc e_index e_type enc dec (n_log n0) _ a b H0) as (s1&E1&_). rewrite E1. cbn [l_entries]. eauto. }
  assert (COMM : forall (f : E -> bool) a b, filter f (range e_index a b l) = range e_index a b (filter f l)).
  { intros f a b. unfold range. clear. induction l as [|x r IH]; cbn [filter]; auto. destruct ((a <=? e_index x) && (e_index x <? b))%bool eqn:EA; destruct (f x) eqn:EF; cbn [filter]; rewrite ?EA, ?EF, IH; auto. }
  split; [|split; [|split]].
  - intros es Ho. destruct (nsim crc Hc e_index e_type enc dec max_size n l (NAppend es) HI Ho) as (a&n'&l'&E1&E2&E3). destruct es as [|e0 es].
    { destruct E3 as [-> _]. exists n'. split; auto. intros e []. }
    destruct E3 as [-> ->]. exists n'. split; auto. intros e He. destruct (GET n' _ (e_index e) (e_index e + 1) E2) as (n2&->). exists n2. do 3 f_equal.
    destruct E2 as (_&p&c&E2). destruct (max_seq_inv crc e_index e_type enc dec _ _ E2) as (_&_&i&_&_&IF). cbn [l_entries] in IF.
    assert (HK : In e (filter (fun x => e_index x <? e_index e0) l ++ e0 :: es)) by (apply in_or_app; right; exact He). unfold range.
    rewrite (from_filter_range_head e_index i _ e (e_index e) (e_index e + 1)); auto; [|lia]. f_equal. apply empty_range.
  - intros k Ho. destruct (nsim crc Hc e_index e_type enc dec max_size n l (NTruncate k) HI Ho) as (a&n'&l'&E1&E2&->&->). exists n'. split; auto.
    intros a b. destruct (GET n l a b HI) as (n1&G1). destruct (GET n' _ a b E2) as (n2&G2). rewrite G1, G2, <- COMM. eauto.
  - intros k Ho. destruct (nsim crc Hc e_index e_type enc dec max_size n l (NPurge k) HI Ho) as (a&n'&l'&E1&E2&->&->&_). exists n'. split; auto.
    intros a b. destruct (GET n l a b HI) as (n1&G1). destruct (GET n' _ a b E2) as (n2&G2). rewrite G1, G2, <- COMM. eauto.
  - intros a n' Ho HC. destruct (nsim crc Hc e_index e_type enc dec max_size n l NState HI Ho) as (a'&n2&l'&E1&E2&E3&last&->&H). unfold call in HC. rewrite E1 in HC. injection HC as <- <-.
    exists (n_purged n), last. split; auto. destruct HI as [HA _]. destruct (n_purged n) as [p|]; auto. cbn [above] in HA. destruct H as [->|(e&He&->)]; [lia|]. specialize (HA e He). lia.
Qed.
(** The hypotheses are met: a history that truncates and purges across small files. *)
Definition nok_b (n : node (Z * Z)) (o : nop (Z * Z)) : bool :=
  (footersb (n_log n) &&
   match o with
   | NAppend [] => true
   | NAppend (e :: es) => forallb codedb (e :: es) && consb (e :: es) && ((max_sequence (n_log n) =? U64_MAX) || (fst e <=? max_sequence (n_log n) + 1)) &&
       match n_purged n with None => true | Some p => p <? fst e end && op_okb (n_log n) (ODelAfter (fst e))
   | NTruncate k => op_okb (n_log n) (ODelAfter k)
   | NPurge k => (0 <=? k) && (k <? U64_MAX) && match n_purged n with None => true | Some p => p <=? k end
   | NGet _ _ | NState => true
   end)%bool.
Lemma nok_b_ok n o : nok_b n o = true -> nop_ok crc32 fst e_type e_enc e_dec n o.
Proof.
  unfold nok_b. rewrite Bool.andb_true_iff. intros [HF H]. split; [apply footersb_ok; auto|]. destruct o as [[|e es]|k|k|a b|]; auto.
  - rewrite !Bool.andb_true_iff, Bool.orb_true_iff in H. destruct H as [[[[H1 H2] H3] H4] H5]. split; [apply Forall_forall; rewrite forallb_forall in H1; intros x Hx; apply codedb_ok; auto|].
    split; [apply consb_ok; auto|]. split; [lia|]. split; [destruct (n_purged n); auto; lia|apply op_okb_ok; auto].
  - apply op_okb_ok; auto.
  - rewrite !Bool.andb_true_iff in H. destruct H as [[H1 H2] H3]. split; [lia|]. destruct (n_purged n); auto; lia.
Qed.
Fixpoint nexec (max_size : Z) (n : node (Z * Z)) (os : list (nop (Z * Z))) : option (list (nop (Z * Z) * nans (Z * Z)) * node (Z * Z)) :=
  match os with
  | [] => Some ([], n)
  | o :: os' => if nok_b n o then
                  match nstep crc32 fst e_type e_enc e_dec max_size n o with
                  | Some (a, n1) => match nexec max_size n1 os' with Some (l, n2) => Some ((o, a) :: l, n2) | None => None end
                  | None => None
                  end
                else None
  end.
Lemma nexec_ok max_size os : forall n l n', nexec max_size n os = Some (l, n') -> nruns crc32 fst e_type e_enc e_dec max_size n l n'.
Proof.
  induction os as [|o os IH]; intros s l s' H; cbn [nexec] in H; [injection H as <- <-; constructor|].
  destruct (nok_b s o) eqn:EO; [|discriminate].
  destruct (nstep _ _ _ _ _ _ s o) as [[a s1]|] eqn:ES; [|discriminate]. destruct (nexec max_size s1 os) as [[l1 s2]|] eqn:EX; [|discriminate]. injection H as <- <-.
  econstructor; eauto using nok_b_ok.
Qed.
Example C43_history : exists tr n, nruns crc32 fst e_type e_enc e_dec 100 (node_new crc32) tr n /\ n_purged n = Some 3 /\
  nth 6 (map snd tr) NError = NEntries (ents 4 1 7 ++ ents 5 3 8) /\ nth 7 (map snd tr) NError = NLogState (Some 3) (Some 7).
Proof.
  set (os := [NAppend (ents 1 6 7); NTruncate 6; NAppend (ents 5 4 8); NPurge 3; NTruncate 8; NAppend []; NGet 0 100; NState]).
  destruct (nexec 100 (node_new crc32) os) as [[l n]|] eqn:EX; [|vm_compute in EX; discriminate].
  exists l, n. split; [apply nexec_ok with os; exact EX|]. vm_compute in EX. injection EX as <- <-. vm_compute. auto.
Qed.
(** Purged entries come back after a restart. *)
Theorem C43_purged_resurface_refuted : exists s,
  runs32 100 (store_new crc32 []) [(OAppend (ents 1 6 7), AOk); (ODelBefore 3, AOk); (OEntry 2, AEntry None); (ORestart None, AOk); (OEntry 2, AEntry (Some (2, 7)))] s.
Proof. apply check_runs. vm_cast_no_check (eq_refl true). Qed.

Print Assumptions C15_log_refines_partial.
Print Assumptions C15_log_total_partial.
Print Assumptions C15_stale_read_refuted.
Print Assumptions C16_last_sound_partial.
Print Assumptions C16_last_partial.
Print Assumptions C16_last_refuted.
Print Assumptions C17_restart_partial.
Print Assumptions C17_restart_exact_partial.
Print Assumptions C17_unapplied_lost_refuted.
Print Assumptions C43_contract_partial.
Print Assumptions C43_purged_resurface_refuted.
