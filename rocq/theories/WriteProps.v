(** C56: every point of a request is stored under its table, tags, fields and time.
    C57: a column id means one column for ever, and writers use the ids the metadata gives. *)
From Verif Require Import Prelude PrecisionModel WriteModel WriteSpec WriteProofs WriteProofs6 WriteProofs5 WriteProofs4 WriteProofs3.

(** ** C56 *)
(** A request whose points each name their tags and fields once and use no name of a table in two ways, written with schemas that have
    its columns and read under schemas that know them by the same ids: the node makes rows of it, and under the later schemas these
    are the points of the request, each exactly once, with its table, tags, fields and time.  A series gets one group. *)
Theorem C56_stored_partial : forall from prec sid sch (mt : str -> schema) ls,
  clean ls -> (forall a b, sid a = sid b -> a = b) ->
  (forall l, In l ls -> exists s, sch (l_table l) = Ok s /\ good s /\ good (mt (l_table l)) /\ known s (mt (l_table l)) l) ->
  (forall l, In l ls -> timestamp_convert from prec (l_ts l) <> None) ->
  exists gs out, write from prec sid sch ls = Ok gs /\ NoDup (map fst gs) /\ (forall x g, In (x, g) gs -> x = sid (g_key g))
    /\ Permutation out (stored gs) /\ Forall2 (fun kr l => reads from prec (mt (l_table l)) kr l) out ls.
Proof. exact write_ok. Qed.
Print Assumptions C56_stored_partial.

(** The table [t] with a tag [h] and an integer field [f], and later fields [a] and [b]. *)
Definition T : str := [116].
Definition host : str := [104].
Definition fa : str := [97].
Definition fb : str := [98].
Definition f : str := [102].
Definition s0 : schema := SCH 0 3 [TC 0 TIME KTime; TC 1 host KTag; TC 2 f (KField TI)].
Definition sa : schema := SCH 1 4 [TC 0 TIME KTime; TC 1 host KTag; TC 2 f (KField TI); TC 3 fa (KField TI)].
Definition sb : schema := SCH 1 4 [TC 0 TIME KTime; TC 1 host KTag; TC 2 f (KField TI); TC 3 fb (KField TI)].
(** [f] renamed to [a] *)
Definition sr : schema := SCH 1 3 [TC 0 TIME KTime; TC 1 host KTag; TC 2 fa (KField TI)].
Definition nr (k : skey) : Z := match k_tags k with (_, [x]) :: _ => x | _ => 0 end.
Definition pts : list line := [LN T [(host, [49])] [(f, CI 1)] 5; LN T [(host, [50])] [(f, CI 2); (fa, CI 3)] 6; LN T [(host, [49])] [(fa, CI 4)] 7].

Lemma pts_uses l n k : In l pts -> uses l n k -> (n = host /\ k = KTag) \/ (n = f /\ k = KField TI) \/ (n = fa /\ k = KField TI) \/ (n = TIME /\ k = KTime).
Proof.
  intros I [[-> [v J]]|[[v [J ->]]|[-> ->]]]; [| |auto].
  - left. split; [|reflexivity]. destruct I as [<-|[<-|[<-|[]]]]; destruct J as [J|[]]; injection J as <- _; reflexivity.
  - destruct I as [<-|[<-|[<-|[]]]]; repeat (destruct J as [J|J]; [injection J as <- <-; auto|]); destruct J.
Qed.
Lemma pts_clean : clean pts.
Proof.
  split.
  - intros l [<-|[<-|[<-|[]]]]; (split; [|split]); try discriminate; cbn; repeat (constructor; [cbn; intuition discriminate|]); constructor.
  - intros l1 l2 n k1 k2 I1 I2 _ U1 U2. apply (pts_uses l1) in U1; [|exact I1]. apply (pts_uses l2) in U2; [|exact I2].
    destruct U1 as [[-> ->]|[[-> ->]|[[-> ->]|[-> ->]]]]; destruct U2 as [[Q ->]|[[Q ->]|[[Q ->]|[Q ->]]]]; reflexivity || discriminate Q.
Qed.
Lemma sa_good : good sa. Proof. split; cbn; repeat (constructor; [cbn; intuition discriminate|]); constructor. Qed.
Example C56_stored_case :
  clean pts /\ (forall a b, number a = number b -> a = b)
  /\ (forall l, In l pts -> exists s, (fun _ : str => Ok sa) (l_table l) = Ok s /\ good s /\ good sa /\ known s sa l)
  /\ (forall l, In l pts -> timestamp_convert MS NS (l_ts l) <> None)
  /\ write MS NS nr (fun _ => Ok sa) pts =
       Ok [(49, GR (SK T [(1, [49])]) sa [RW 5000000 [Some (CI 1); None]; RW 7000000 [None; Some (CI 4)]]);
           (50, GR (SK T [(1, [50])]) sa [RW 6000000 [Some (CI 2); Some (CI 3)]])].
Proof.
  split; [exact pts_clean|]. split; [exact number_inj|]. split.
  { intros l I. exists sa. split; [reflexivity|]. split; [exact sa_good|]. split; [exact sa_good|]. intros n k U NK.
    apply (pts_uses l) in U; [|exact I]. destruct U as [[-> ->]|[[-> ->]|[[-> ->]|[-> ->]]]]; [| | |congruence].
    - exists (TC 1 host KTag), (TC 1 host KTag). cbn. intuition.
    - exists (TC 2 f (KField TI)), (TC 2 f (KField TI)). cbn. intuition.
    - exists (TC 3 fa (KField TI)), (TC 3 fa (KField TI)). cbn. intuition. }
  split; [|vm_compute; reflexivity]. intros l [<-|[<-|[<-|[]]]]; vm_compute; discriminate.
Qed.

(** A field has one type in a request: an accepted request never uses a field name of a table with values of two types, so no value
    is stored as a value of another type. *)
Theorem C56_types : forall from prec sid sch ls gs, write from prec sid sch ls = Ok gs ->
  forall l1 l2 n v1 v2, In l1 ls -> In l2 ls -> l_table l1 = l_table l2 -> In (n, v1) (l_fields l1) -> In (n, v2) (l_fields l2) ->
  type_of v1 = type_of v2.
Proof.
  intros from prec sid sch ls gs H l1 l2 n v1 v2 I1 I2 T F1 F2.
  apply (one_type from prec sid sch ls gs H l1 l2 n (KField (type_of v1)) (KField (type_of v2)) I1 I2 T).
  - right. left. exists v1. auto.
  - right. left. exists v2. auto.
Qed.
Print Assumptions C56_types.
Example C56_types_case :
  (exists gs, write MS NS nr (fun _ => Ok sa) pts = Ok gs)
  /\ write MS NS nr (fun _ => Ok sa) [LN T [(host, [49])] [(f, CI 1)] 5; LN T [(host, [49])] [(f, CS [50])] 6] = Err.
Proof. split; [eexists|]; vm_compute; reflexivity. Qed.

(** What is missing: a point may use one name as a tag and as a text field.  The text becomes the tag's value and the point is
    stored in another series, without a word. *)
Theorem C56_tag_field_refuted : exists l gs,
  clean_line l /\ In (host, [49]) (l_tags l) /\ In (host, CS [50]) (l_fields l)
  /\ write NS NS nr (fun _ => Ok s0) [l] = Ok gs
  /\ map (fun '(k, s, r) => (named s0 (k_tags k), named s0 (values s r))) (stored gs) = [([(host, [50])], [(f, CI 1)])].
Proof.
  exists (LN T [(host, [49])] [(f, CI 1); (host, CS [50])] 5). eexists. split.
  { split; [|split]; try discriminate; cbn; repeat (constructor; [cbn; intuition discriminate|]); constructor. }
  split; [left; reflexivity|]. split; [right; left; reflexivity|]. split; [vm_compute; reflexivity|]. vm_compute. reflexivity.
Qed.
Print Assumptions C56_tag_field_refuted.
(** When the database is strict the schema is taken as it is.  A field it does not have is dropped from an acknowledged point... *)
Theorem C56_strict_drop_refuted : exists ls gs, clean ls /\ good s0 /\ write NS NS nr (fun _ => Ok s0) ls = Ok gs
  /\ map l_fields ls = [[(f, CI 1); (fa, CI 2)]] /\ map (fun '(k, s, r) => named s0 (values s r)) (stored gs) = [[(f, CI 1)]].
Proof.
  exists [LN T [(host, [49])] [(f, CI 1); (fa, CI 2)] 5]. eexists. split.
  { split.
    - intros l [<-|[]]. split; [|split]; try discriminate; cbn; repeat (constructor; [cbn; intuition discriminate|]); constructor.
    - intros l1 l2 n k1 k2 [<-|[]] [<-|[]] _ U1 U2.
      destruct U1 as [[-> [v [J|[]]]]|[[v [[J|[J|[]]] ->]]|[-> ->]]]; try (injection J as <- <-);
      destruct U2 as [[-> [w [K|[]]]]|[[w [[K|[K|[]]] ->]]|[-> K]]]; try discriminate K; try reflexivity; injection K as <-; reflexivity. }
  split; [split; cbn; repeat (constructor; [cbn; intuition discriminate|]); constructor|].
  split; [vm_compute; reflexivity|]. split; [reflexivity|]. vm_compute. reflexivity.
Qed.
Print Assumptions C56_strict_drop_refuted.
(** ... a value of another type than the column's is kept in the column ... *)
Theorem C56_strict_type_refuted : exists ls gs, write NS NS nr (fun _ => Ok s0) ls = Ok gs
  /\ In (TC 2 f (KField TI)) (s_cols s0) /\ map (fun '(k, s, r) => values s r) (stored gs) = [[(2, CS [49])]].
Proof. exists [LN T [(host, [49])] [(f, CS [49])] 5]. eexists. split; [vm_compute; reflexivity|]. split; [cbn; auto|]. vm_compute. reflexivity. Qed.
Print Assumptions C56_strict_type_refuted.
(** ... and a field with the name of a tag of the table stops the writer. *)
Theorem C56_strict_panic_refuted : exists ls, Forall clean_line ls /\ good s0 /\ write NS NS nr (fun _ => Ok s0) ls = Panic.
Proof.
  exists [LN T [] [(host, CI 1)] 5]. split; [|split; [split; cbn; repeat (constructor; [cbn; intuition discriminate|]); constructor|vm_compute; reflexivity]].
  constructor; [|constructor]. split; [constructor|]. split; [|discriminate]. cbn. repeat (constructor; [cbn; intuition discriminate|]); constructor.
Qed.
Print Assumptions C56_strict_panic_refuted.
(** After a restart the requests of the log are written again, in the strict way and with the schema of that time.  If its columns are
    still there under the same ids and names the points are there as before ... *)
Theorem C56_replay : forall from prec sid sch sch' (mt : str -> schema) ls,
  clean ls -> (forall a b, sid a = sid b -> a = b) ->
  (forall l, In l ls -> good (mt (l_table l)) /\ exists s s', sch (l_table l) = Ok s /\ sch' (l_table l) = Ok s' /\ good s /\ good s'
       /\ known s (mt (l_table l)) l /\ known s' (mt (l_table l)) l) ->
  (forall l, In l ls -> timestamp_convert from prec (l_ts l) <> None) ->
  exists gs gs' out out', write from prec sid sch ls = Ok gs /\ write from prec sid sch' ls = Ok gs'
    /\ Permutation out (stored gs) /\ Permutation out' (stored gs')
    /\ Forall2 (fun kr l => reads from prec (mt (l_table l)) kr l) out ls
    /\ Forall2 (fun kr l => reads from prec (mt (l_table l)) kr l) out' ls.
Proof.
  intros from prec sid sch sch' mt ls CL INJ H TC.
  destruct (write_ok from prec sid sch mt ls CL INJ) as (gs & out & A1 & _ & _ & A2 & A3); [|exact TC|].
  { intros l I. destruct (H l I) as (G & s & s' & E & E' & G1 & G2 & K1 & K2). exists s. auto. }
  destruct (write_ok from prec sid sch' mt ls CL INJ) as (gs' & out' & B1 & _ & _ & B2 & B3); [|exact TC|].
  { intros l I. destruct (H l I) as (G & s & s' & E & E' & G1 & G2 & K1 & K2). exists s'. auto. }
  exists gs, gs', out, out'. auto 10.
Qed.
Print Assumptions C56_replay.
(** ... but a value written before its column was renamed is gone. *)
Theorem C56_replay_rename_refuted : exists ls gs gs',
  alter_rename s0 s0 f fa = Some (RUpdate sr) /\ accept (Some s0) (RUpdate sr) = Some sr
  /\ write NS NS nr (fun _ => Ok (SCH 1 4 (s_cols s0 ++ [TC 3 fb (KField TI)]))) ls = Ok gs
  /\ write NS NS nr (fun _ => Ok (SCH 2 4 (s_cols sr ++ [TC 3 fb (KField TI)]))) ls = Ok gs'
  /\ map (fun '(k, s, r) => named (SCH 2 4 (s_cols sr ++ [TC 3 fb (KField TI)])) (values s r)) (stored gs) = [[(fa, CI 1); (fb, CI 2)]]
  /\ map (fun '(k, s, r) => named (SCH 2 4 (s_cols sr ++ [TC 3 fb (KField TI)])) (values s r)) (stored gs') = [[(fb, CI 2)]].
Proof.
  exists [LN T [(host, [49])] [(f, CI 1); (fb, CI 2)] 5]. eexists. eexists.
  split; [vm_compute; reflexivity|]. split; [vm_compute; reflexivity|]. split; [vm_compute; reflexivity|]. split; [vm_compute; reflexivity|].
  split; vm_compute; reflexivity.
Qed.
Print Assumptions C56_replay_rename_refuted.

(** ** C57 *)
(** Every schema a table has had has columns with different ids and different names; a column id has had one type in all of them,
    and one name if no column was renamed.  ALTER TABLE is taken to run on the schema it was planned with. *)
Theorem C57_ids_partial : forall names m, reachable true names m ->
  (forall s, In s (m_past m) -> NoDup (map t_id (s_cols s)) /\ NoDup (map t_name (s_cols s)))
  /\ (forall s1 s2 c1 c2, In s1 (m_past m) -> In s2 (m_past m) -> In c1 (s_cols s1) -> In c2 (s_cols s2) -> t_id c1 = t_id c2 ->
        t_kind c1 = t_kind c2 /\ (names = true -> t_name c1 = t_name c2)).
Proof.
  intros names m R. split.
  - intros s I. exact (past_good names m s R I).
  - intros s1 s2 c1 c2 I1 I2 J1 J2 E. exact (ids_ok names m s1 s2 c1 c2 R I1 I2 J1 J2 E).
Qed.
Print Assumptions C57_ids_partial.
(** A writer whose first request to the metadata is not refused goes on with a schema the table has had, and it has the columns. *)
Theorem C57_accepted_partial : forall names fb seen m m' s, reachable true names m -> call true names fb seen m m' true s ->
  In s (m_past m') /\ forall n k, In (n, k) fb -> has s n k.
Proof. exact accepted_ok. Qed.
Print Assumptions C57_accepted_partial.
(** Whatever is refused on the way, an acknowledged request's columns have been added with their types. *)
Theorem C57_columns_added : forall names fb seen m m' b s, reachable true names m -> call true names fb seen m m' b s ->
  reachable true names m' /\ exists s', In s' (m_past m') /\ forall n k, In (n, k) fb -> has s' n k.
Proof.
  intros names fb seen m m' b s R X. split; [exact (call_past _ _ _ _ _ _ _ _ X R)|exact (columns_ok _ _ _ _ _ _ _ R X)].
Qed.
Print Assumptions C57_columns_added.
(** A write all of whose columns the table has, with those types, asks the metadata for nothing and goes on with the table as it is; a write
    with a column the table does not have asks for a change. *)
Theorem C57_known_columns : forall s fb, NoDup (map t_name (s_cols s)) ->
  ((forall n k, In (n, k) fb -> exists c, In c (s_cols s) /\ t_name c = n /\ t_kind c = k) -> attempt (Some s) fb = Ok (s, None)) /\
  (forall n k, In (n, k) fb -> ~ In n (map t_name (s_cols s)) -> attempt (Some s) fb <> Ok (s, None)).
Proof.
  intros s fb ND. assert (F : forall c, In c (s_cols s) -> col_of s (t_name c) = Some c).
  { intros c J. unfold col_of. assert (ND' : NoDup (map t_name (rev (s_cols s)))) by (rewrite map_rev; apply NoDup_rev; auto). apply in_rev in J. revert J ND'. generalize (rev (s_cols s)). clear.
    induction l as [|a l IH]; intros J N; [destruct J|]. cbn [find]. cbn [map] in N. inversion N; subst. destruct J as [->|J].
    - replace (str_eqb (t_name c) (t_name c)) with true; auto. symmetry. apply str_eqb_eq; auto.
    - replace (str_eqb (t_name a) (t_name c)) with false; auto. symmetry. apply not_true_is_false. intros Q. apply str_eqb_eq in Q. apply H1. rewrite Q. apply in_map; auto. }
  split.
  - intros H. assert (E : ext s fb = Ok s).
    { revert H. induction fb as [|[n k] fb IH]; intros H; auto. cbn [ext]. unfold ext_one. cbn [fst snd]. destruct (H n k (or_introl eq_refl)) as (c & J & <- & <-). rewrite (F c J).
      replace (kind_eqb (t_kind c) (t_kind c)) with true by (symmetry; apply kind_eqb_eq; auto). cbn [bind]. apply IH. intros n k K. apply H. right; auto. }
    unfold attempt. rewrite E. cbn [bind]. replace (changed s fb) with false; auto. symmetry. unfold changed. apply not_true_is_false. rewrite existsb_exists. intros ([n k] & J & Q). cbn [fst] in Q.
    destruct (H n k J) as (c & J' & <- & _). rewrite (F c J') in Q. discriminate Q.
  - intros n k J N. unfold attempt. destruct (ext s fb); cbn [bind]; try discriminate. replace (changed s fb) with true; [discriminate|]. symmetry. unfold changed. apply existsb_exists. exists (n, k). split; auto. cbn [fst].
    destruct (col_of s n) as [c|] eqn:Q; auto. exfalso. apply N. unfold col_of in Q. apply find_some in Q. destruct Q as (Q1 & Q2). apply str_eqb_eq in Q2. subst n. apply in_map. apply in_rev. auto.
Qed.
Print Assumptions C57_known_columns.

(** The whole way: the points of a request whose columns were settled at the first attempt are read back as written at any later time,
    while their columns are not dropped or renamed. *)
Theorem C57_read_later_partial : forall from prec sid sch (before after later : str -> meta) (seen : str -> option schema) (mt : str -> schema) ls,
  clean ls -> (forall a b, sid a = sid b -> a = b) -> (forall l, In l ls -> timestamp_convert from prec (l_ts l) <> None) ->
  (forall l, In l ls -> exists fb s, asked ls (l_table l) fb /\ reachable true true (before (l_table l))
      /\ call true true fb (seen (l_table l)) (before (l_table l)) (after (l_table l)) true s
      /\ sch (l_table l) = Ok s
      /\ changes true true (after (l_table l)) (later (l_table l)) /\ m_now (later (l_table l)) = Some (mt (l_table l))
      /\ not_dropped s (mt (l_table l)) l) ->
  exists gs out, write from prec sid sch ls = Ok gs /\ NoDup (map fst gs) /\ (forall x g, In (x, g) gs -> x = sid (g_key g))
    /\ Permutation out (stored gs) /\ Forall2 (fun kr l => reads from prec (mt (l_table l)) kr l) out ls.
Proof. exact read_later. Qed.
Print Assumptions C57_read_later_partial.
(** And if columns are dropped, and added again under the same or other names, no value is read under another name. *)
Theorem C57_no_other_value_partial : forall from prec later s nw k r l,
  reachable true true later -> In s (m_past later) -> m_now later = Some nw -> reads from prec s (k, s, r) l ->
  forall n v, In (n, v) (named nw (values s r)) -> In (n, v) (l_fields l).
Proof. exact no_other. Qed.
Print Assumptions C57_no_other_value_partial.

(** A history: a request creates the table, another adds [a]. *)
Definition m1 : meta := store meta0 s0.
Definition m2 : meta := store m1 sa.
Lemma m1_reach same names : reachable same names m1.
Proof.
  apply (chs_step _ _ _ meta0); [constructor|].
  apply (ch_write same names meta0 None [(host, KTag); (f, KField TI)] s0 (RCreate s0) s0); [exact I|vm_compute; reflexivity|reflexivity].
Qed.
Lemma m2_call same names : call same names [(host, KTag); (f, KField TI); (fa, KField TI)] (Some s0) m1 m2 true sa.
Proof.
  apply (call_stored same names _ (Some s0) m1 m1 sa (RUpdate sa) sa); [left; reflexivity|vm_compute; reflexivity|constructor|vm_compute; reflexivity].
Qed.
Lemma m2_step same names : change same names m1 m2.
Proof. apply (ch_write same names m1 (Some s0) [(host, KTag); (fa, KField TI)] sa (RUpdate sa) sa); [left; reflexivity|vm_compute; reflexivity|vm_compute; reflexivity]. Qed.
Lemma m2_reach same names : reachable same names m2.
Proof. apply (chs_step _ _ _ m1); [apply m1_reach|apply m2_step]. Qed.
(** [f] dropped, and added again as text *)
Definition sd : schema := SCH 2 4 [TC 0 TIME KTime; TC 1 host KTag; TC 3 fa (KField TI)].
Definition sf : schema := SCH 3 5 [TC 0 TIME KTime; TC 1 host KTag; TC 3 fa (KField TI); TC 4 f (KField TS)].
Definition m4 : meta := store (store m2 sd) sf.
Lemma m4_reach : reachable true true m4.
Proof.
  apply (chs_step _ _ _ (store m2 sd)).
  - apply (chs_step _ _ _ m2); [apply m2_reach|].
    apply (ch_drop true true m2 sa sa f (RUpdate sd) sd); [left; reflexivity|left; reflexivity|reflexivity|vm_compute; reflexivity|vm_compute; reflexivity].
  - apply (ch_add true true (store m2 sd) sd sd f (KField TS) (RUpdate sf) sf); [left; reflexivity|left; reflexivity|reflexivity|exact I|vm_compute; reflexivity|vm_compute; reflexivity].
Qed.
Example C57_ids_case : reachable true true m4 /\ length (m_past m4) = 4%nat
  /\ In sa (m_past m4) /\ In sf (m_past m4) /\ has sa f (KField TI) /\ has sf f (KField TS).
Proof.
  split; [exact m4_reach|]. split; [reflexivity|]. split; [cbn; auto|]. split; [cbn; auto|].
  split; [exists (TC 2 f (KField TI))|exists (TC 4 f (KField TS))]; cbn; auto 10.
Qed.
Example C57_read_later_case :
  clean pts /\ (forall a b, number a = number b -> a = b) /\ (forall l, In l pts -> timestamp_convert MS NS (l_ts l) <> None)
  /\ (forall l, In l pts -> exists fb s, asked pts (l_table l) fb /\ reachable true true m1
      /\ call true true fb (Some s0) m1 m2 true s /\ (fun _ : str => Ok sa) (l_table l) = Ok s
      /\ changes true true m2 m2 /\ m_now m2 = Some sa /\ not_dropped s sa l).
Proof.
  split; [exact pts_clean|]. split; [exact number_inj|]. split.
  { intros l [<-|[<-|[<-|[]]]]; vm_compute; discriminate. }
  intros l I. exists [(host, KTag); (fa, KField TI); (f, KField TI)], sa.
  split.
  { assert (l_table l = T) as -> by (destruct I as [<-|[<-|[<-|[]]]]; reflexivity).
    eexists. eexists. split; [vm_compute; reflexivity|]. split; [left; reflexivity|]. vm_compute. reflexivity. }
  split; [apply m1_reach|]. split.
  { apply (call_stored true true _ (Some s0) m1 m1 sa (RUpdate sa) sa); [left; reflexivity|vm_compute; reflexivity|constructor|vm_compute; reflexivity]. }
  split; [reflexivity|]. split; [constructor|]. split; [reflexivity|]. intros c J _ _. exists c. auto.
Qed.
Example C57_no_other_value_case : reachable true true m4 /\ In sa (m_past m4) /\ m_now m4 = Some sf
  /\ exists k r l, reads NS NS sa (k, sa, r) l /\ l_fields l = [(f, CI 1); (fa, CI 2)] /\ named sf (values sa r) = [(fa, CI 2)].
Proof.
  split; [exact m4_reach|]. split; [cbn; auto|]. split; [reflexivity|].
  exists (SK T [(1, [49])]), (RW 5 [Some (CI 1); Some (CI 2)]), (LN T [(host, [49])] [(f, CI 1); (fa, CI 2)] 5).
  split; [|split; [reflexivity|vm_compute; reflexivity]]. split; [reflexivity|]. split; [vm_compute; reflexivity|].
  split; apply Permutation_refl'; vm_compute; reflexivity.
Qed.

(** A writer whose request is refused goes on with the schema it had made up.  Two writers add different fields to a table: the second
    one's values are read as the first one's field.  The second writer can be the same client as the first: the cache of the node
    may still hold the schema from before. *)
Theorem C57_conflict_refuted : exists m m' s now ls gs,
  reachable true true m /\ call true true [(host, KTag); (fb, KField TI)] (Some s0) m m' false s /\ m_now m' = Some now
  /\ asked ls T [(host, KTag); (fb, KField TI)] /\ write NS NS nr (fun _ => Ok s) ls = Ok gs
  /\ map l_fields ls = [[(fb, CI 7)]] /\ has now fb (KField TI)
  /\ map (fun '(k, s, r) => named now (values s r)) (stored gs) = [[(fa, CI 7)]].
Proof.
  pose (sab := SCH 2 5 (s_cols sa ++ [TC 4 fb (KField TI)])).
  exists m1, (store m2 sab), sb, sab, [LN T [(host, [49])] [(fb, CI 7)] 5]. eexists.
  split; [apply m1_reach|]. split.
  { apply (call_refused true true _ (Some s0) m1 m2 m2 (store m2 sab) sb (RUpdate sb) true sab).
    - left. reflexivity.
    - vm_compute. reflexivity.
    - apply (chs_step _ _ _ m1); [constructor|apply m2_step].
    - vm_compute. reflexivity.
    - constructor.
    - apply (call_stored true true _ (Some sa) m2 m2 sab (RUpdate sab) sab); [left; reflexivity|vm_compute; reflexivity|constructor|vm_compute; reflexivity]. }
  split; [reflexivity|]. split.
  { eexists. eexists. split; [vm_compute; reflexivity|]. split; [left; reflexivity|]. vm_compute. reflexivity. }
  split; [vm_compute; reflexivity|]. split; [reflexivity|]. split; [exists (TC 4 fb (KField TI)); cbn; auto 10|]. vm_compute. reflexivity.
Qed.
Print Assumptions C57_conflict_refuted.
(** ALTER TABLE ADD COLUMN takes the new column's id from the schema it was planned with and the columns from the one it is executed
    on.  Two such statements at a time give two columns one id; then every write to either column stops the writer. *)
Theorem C57_alter_race_refuted : exists m s, reachable false true m /\ m_now m = Some s
  /\ In (TC 3 fa (KField TI)) (s_cols s) /\ In (TC 3 fb (KField TI)) (s_cols s)
  /\ write NS NS nr (fun _ => Ok s) [LN T [(host, [49])] [(fa, CI 1)] 5] = Panic
  /\ write NS NS nr (fun _ => Ok s) [LN T [(host, [49])] [(fb, CI 1)] 5] = Panic.
Proof.
  pose (s2 := SCH 2 5 (s_cols sa ++ [TC 3 fb (KField TI)])). exists (store m2 s2), s2. split.
  { apply (chs_step _ _ _ m2).
    - apply (chs_step _ _ _ m1); [apply m1_reach|].
      apply (ch_add false true m1 s0 s0 fa (KField TI) (RUpdate sa) sa); [left; reflexivity|left; reflexivity|reflexivity|exact I|vm_compute; reflexivity|vm_compute; reflexivity].
    - apply (ch_add false true m2 s0 sa fb (KField TI) (RUpdate s2) s2); [right; left; reflexivity|left; reflexivity|discriminate|exact I|vm_compute; reflexivity|vm_compute; reflexivity]. }
  split; [reflexivity|]. split; [cbn; auto 10|]. split; [cbn; auto 10|]. split; vm_compute; reflexivity.
Qed.
Print Assumptions C57_alter_race_refuted.
