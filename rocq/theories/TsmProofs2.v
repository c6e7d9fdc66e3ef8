From Verif Require Import Prelude TimeRangeModel TimeRangeSpec TsmModel TsmSpec TsmProofs.

(** ** ranges *)
Definition low (l : list trange) (r : trange) : Prop := forall z, z <= tmin r <-> z <= I64_MAX /\ forall a, In a l -> z <= tmin a.
Definition high (l : list trange) (r : trange) : Prop := forall z, tmax r <= z <-> I64_MIN <= z /\ forall a, In a l -> tmax a <= z.
Lemma merge_min a b : tmin (tr_merge a b) = Z.min (tmin a) (tmin b). Proof. reflexivity. Qed.
Lemma merge_max a b : tmax (tr_merge a b) = Z.max (tmax a) (tmax b). Proof. reflexivity. Qed.
Lemma fold_low l : low l (fold_left tr_merge l tr_none).
Proof.
  assert (G : forall a z, z <= tmin (fold_left tr_merge l a) <-> z <= tmin a /\ forall x, In x l -> z <= tmin x).
  { induction l as [|x l IH]; cbn; intros a z. { intuition. } rewrite IH, merge_min. rewrite Z.min_glb_iff. split.
    - intros [[A B] C]. split; auto. intros y [<-|I]; auto.
    - intros [A B]. repeat split; auto. }
  intros z. apply G.
Qed.
Lemma fold_high l : high l (fold_left tr_merge l tr_none).
Proof.
  assert (G : forall a z, tmax (fold_left tr_merge l a) <= z <-> tmax a <= z /\ forall x, In x l -> tmax x <= z).
  { induction l as [|x l IH]; cbn; intros a z. { intuition. } rewrite IH, merge_max. rewrite Z.max_lub_iff. split.
    - intros [[A B] C]. split; auto. intros y [<-|I]; auto.
    - intros [A B]. repeat split; auto. }
  intros z. apply G.
Qed.
Lemma merge_none r : is_i64 (tmin r) -> is_i64 (tmax r) -> tr_merge tr_none r = r.
Proof. intros A B. destruct r as [a b]. unfold is_i64 in *. unfold tr_merge, tr_none; cbn in *. f_equal; lia. Qed.

(** ** pages *)
Definition page_at (out : bytes) (p : page) (q : pspec) : Prop :=
  sp_meta q = pg_meta p /\ sp_size q = length (pg_bytes p) /\ slice out (sp_off q) (sp_size q) = Some (pg_bytes p).
Definition body (ps : list page) : bytes := concat (map pg_bytes ps).
Lemma put_pages_ok : forall ps out g out' g', (0 < length out)%nat -> put_pages ps out g = (out', g') ->
  out' = out ++ body ps /\ cg_id g' = cg_id g /\ cg_tr g' = cg_tr g /\ cg_size g' = (cg_size g + length (body ps))%nat /\
  cg_off g' = (if (cg_off g =? 0)%nat then match ps with [] => 0%nat | _ => length out end else cg_off g) /\
  exists qs, cg_pages g' = cg_pages g ++ qs /\ Forall2 (page_at out') ps qs.
Proof.
  unfold body. induction ps as [|p ps IH]; cbn; intros out g out' g' L H.
  { cbn in *. injection H as <- <-. rewrite app_nil_r. split; auto. split; auto. split; auto. split; [lia|]. split. { destruct (Nat.eqb_spec (cg_off g) 0); auto. } exists []. rewrite app_nil_r. split; auto. }
  apply IH in H; [|rewrite app_length; lia]. destruct H as (A & B & C & D & F & qs & P & Q). cbn in *. rewrite <- app_assoc in A.
  split; auto. split; auto. split; auto. split. { rewrite app_length. lia. } split.
  - rewrite F. destruct (Nat.eqb_spec (cg_off g) 0) as [Z0|Z0]; cbn.
    + destruct (Nat.eqb_spec (length out) 0); [lia|auto].
    + destruct (Nat.eqb_spec (cg_off g) 0); [lia|auto].
  - exists (PSP (length out) (length (pg_bytes p)) (pg_meta p) :: qs). rewrite P, <- app_assoc. split; auto. constructor; auto.
    split; auto. split; auto. cbn. rewrite A. apply slice_exact.
Qed.
Lemma put_specs_eq : forall ps qs out g, Forall2 (fun p q => sp_meta q = pg_meta p /\ sp_size q = length (pg_bytes p)) ps qs ->
  put_pages ps out g = (out ++ body ps, put_specs qs (length out) g).
Proof.
  unfold body. intros ps qs out g F. revert out g. induction F as [|p q ps qs [A B] F IH]; cbn; intros out g. { rewrite app_nil_r; auto. }
  rewrite IH, app_length, <- app_assoc, A, B. auto.
Qed.
Lemma page_at_more a b p q : page_at a p q -> page_at (a ++ b) p q.
Proof. intros (A & B & C). split; auto. split; auto. apply slice_more; auto. Qed.
Lemma pages_more a b ps qs : Forall2 (page_at a) ps qs -> Forall2 (page_at (a ++ b)) ps qs.
Proof. induction 1; constructor; auto. apply page_at_more; auto. Qed.

(** ** the writer's invariant *)
Record group_ok (out : bytes) (i : nat) (x : wr) (g : cgroup) : Prop := GOK {
  gr_id : cg_id g = i; gr_tr : cg_tr g = x_tr x; gr_pages : Forall2 (page_at out) (x_pages x) (cg_pages g);
  gr_raw : slice out (cg_off g) (cg_size g) = Some (body (x_pages x)) }.
Fixpoint groups_ok (out : bytes) (i : nat) (xs : list wr) (gs : list cgroup) : Prop :=
  match xs, gs with [], [] => True | x :: xs', g :: gs' => group_ok out i x g /\ groups_ok out (S i) xs' gs' | _, _ => False end.
Lemma group_more a b i x g : group_ok a i x g -> group_ok (a ++ b) i x g.
Proof. intros [A B C D]. constructor; auto. - apply pages_more; auto. - apply slice_more; auto. Qed.
Lemma groups_more a b xs : forall i gs, groups_ok a i xs gs -> groups_ok (a ++ b) i xs gs.
Proof. induction xs as [|x xs IH]; intros i [|g gs]; cbn; auto. intros [A B]. split; auto. apply group_more; auto. Qed.
Lemma groups_snoc out x g xs : forall i gs, groups_ok out i xs gs -> group_ok out (i + length xs) x g -> groups_ok out i (xs ++ [x]) (gs ++ [g]).
Proof.
  induction xs as [|y xs IH]; intros i [|h gs]; cbn; auto; try tauto.
  - intros _ G. rewrite Nat.add_0_r in G. auto.
  - intros [A B] G. split; auto. apply IH; auto. replace (S i + length xs)%nat with (i + S (length xs))%nat by lia. auto.
Qed.
Lemma groups_ids out xs : forall i gs, groups_ok out i xs gs -> map cg_id gs = seq i (length xs) /\ map cg_tr gs = map x_tr xs.
Proof.
  induction xs as [|y xs IH]; intros i [|h gs]; cbn; try tauto. intros [A B]. destruct (IH _ _ B) as [C D]. split; f_equal; auto; apply A.
Qed.
Lemma groups_find out xs : forall i gs j, groups_ok out i xs gs -> match nth_error xs j with
   | Some x => exists g, find (fun g => (cg_id g =? i + j)%nat) gs = Some g /\ group_ok out (i + j) x g
   | None => find (fun g => (cg_id g =? i + j)%nat) gs = None end.
Proof.
  induction xs as [|y xs IH]; intros i [|h gs] j; cbn [groups_ok].
  { intros _. destruct j; reflexivity. } { intros []. } { intros []. } intros [A B]. destruct j as [|j]; cbn.
  - exists h. rewrite (gr_id _ _ _ _ A), Nat.add_0_r, Nat.eqb_refl. split; auto.
  - rewrite (gr_id _ _ _ _ A). destruct (Nat.eqb_spec i (i + S j)); [lia|]. specialize (IH (S i) gs j B).
    replace (i + S j)%nat with (S i + j)%nat by lia. auto.
Qed.

Record chunk_ok (key : Z -> Z -> Z) (out : bytes) (t sid : Z) (xs : list wr) (c : tchunk) : Prop := COK {
  ch_table : tc_table c = t; ch_sid : tc_sid c = sid; ch_key : exists x, hd_error xs = Some x /\ tc_key c = key sid (x_key x);
  ch_next : tc_next c = length xs; ch_tr : tc_tr c = fold_left tr_merge (map x_tr xs) tr_none; ch_groups : groups_ok out 0 xs (tc_groups c) }.
Lemma chunk_more key a b t sid xs c : chunk_ok key a t sid xs c -> chunk_ok key (a ++ b) t sid xs c.
Proof. intros [A B C D F G]. constructor; auto. apply groups_more; auto. Qed.

Definition tname (x : wr) : Z := sc_name (x_schema x).
Record Core (key : Z -> Z -> Z) (ws : list wr) (w : tw) : Prop := CORE {
  c_nodup : NoDup (map fst (w_specs w));
  c_inner : forall t m, In (t, m) (w_specs w) -> NoDup (map fst m);
  c_get : forall t sid, match get2 t sid (w_specs w) with None => writes_of t sid ws = [] | Some c => chunk_ok key (w_out w) t sid (writes_of t sid ws) c end;
  c_tab : forall t, In t (map fst (w_specs w)) <-> In t (map tname ws);
  c_sc : forall t s, aget t (w_schemas w) = Some s -> newest t ws s;
  c_sc2 : forall x, In x ws -> aget (tname x) (w_schemas w) <> None }.

Lemma writes_snoc t sid ws x : writes_of t sid (ws ++ [x]) = writes_of t sid ws ++ (if same_series t sid x then [x] else []).
Proof. unfold writes_of. rewrite filter_app. cbn. destruct (same_series t sid x); auto. Qed.
Lemma writes_in t sid ws x : In x (writes_of t sid ws) <-> In x ws /\ tname x = t /\ x_sid x = sid.
Proof. unfold writes_of, same_series, tname. rewrite filter_In, andb_true_iff, !Z.eqb_eq. tauto. Qed.
Lemma put2_nodup t sid c s : NoDup (map fst s) -> NoDup (map fst (put2 t sid c s)).
Proof. apply aput_nodup. Qed.
Lemma put2_inner t sid c s : NoDup (map fst s) -> (forall t m, In (t, m) s -> NoDup (map fst m)) -> forall t' m, In (t', m) (put2 t sid c s) -> NoDup (map fst m).
Proof.
  intros N H t' m I. pose proof (put2_nodup t sid c s N) as N2. apply (in_aget _ _ _ N2) in I. unfold put2 in I. rewrite aget_aput in I.
  destruct (Z.eqb_spec t' t) as [->|D].
  - injection I as <-. apply aput_nodup. destruct (aget t s) as [m|] eqn:G; [|constructor]. exact (H _ _ (aget_in _ _ _ G)).
  - exact (H _ _ (aget_in _ _ _ I)).
Qed.
Lemma put2_tab t sid c s x : In x (map fst (put2 t sid c s)) <-> x = t \/ In x (map fst s).
Proof. apply aput_keys. Qed.

Lemma newest_insert s m ws x : x_schema x = s -> (forall t s, aget t m = Some s -> newest t ws s) -> (forall x, In x ws -> aget (tname x) m <> None) ->
  (forall t s', aget t (insert_schema s m) = Some s' -> newest t (ws ++ [x]) s') /\ (forall y, In y (ws ++ [x]) -> aget (tname y) (insert_schema s m) <> None).
Proof.
  intros X A B.
  assert (K : forall t s', aget t m = Some s' -> (t = sc_name s -> sc_version s <= sc_version s') -> newest t (ws ++ [x]) s').
  { intros t s' Q V. destruct (A _ _ Q) as [(y & I & S1 & S2) M]. split. { exists y. split; [apply in_or_app; auto|auto]. }
    intros z I2 T. apply in_app_or in I2. destruct I2 as [I2|[<-|[]]]; auto. rewrite X in *. auto. }
  assert (K2 : (forall y, In y ws -> sc_name (x_schema y) = sc_name s -> sc_version (x_schema y) <= sc_version s) -> newest (sc_name s) (ws ++ [x]) s).
  { intros V. split. { exists x. split; [apply in_or_app; cbn; auto|auto]. } intros z I2 T. apply in_app_or in I2. destruct I2 as [I2|[<-|[]]]; auto. rewrite X; lia. }
  unfold insert_schema. destruct (aget (sc_name s) m) as [old|] eqn:G.
  - destruct (Z.ltb_spec (sc_version old) (sc_version s)) as [L|L].
    + split.
      * intros t s'. rewrite aget_aput. destruct (Z.eqb_spec t (sc_name s)) as [->|D]. 2:{ intros Q. apply K; auto. congruence. }
        intros [= <-]. apply K2. intros y I T. destruct (A _ _ G) as [_ M]. specialize (M y I T). lia.
      * intros y I. rewrite aget_aput. destruct (_ =? _) eqn:Q; [discriminate|]. apply in_app_or in I. destruct I as [I|[<-|[]]]; auto.
        unfold tname in Q. rewrite X, Z.eqb_refl in Q. discriminate.
    + split.
      * intros t s' Q. apply K; auto. intros ->. rewrite G in Q. injection Q as <-. lia.
      * intros y I. apply in_app_or in I. destruct I as [I|[<-|[]]]; auto. unfold tname. rewrite X, G. discriminate.
  - split.
    + intros t s'. rewrite aget_aput. destruct (Z.eqb_spec t (sc_name s)) as [->|D]. 2:{ intros Q. apply K; auto. congruence. }
      intros [= <-]. apply K2. intros y I T. exfalso. apply (B y I). unfold tname. rewrite T. auto.
    + intros y I. rewrite aget_aput. destruct (_ =? _) eqn:Q; [discriminate|]. apply in_app_or in I. destruct I as [I|[<-|[]]]; auto.
      unfold tname in Q. rewrite X, Z.eqb_refl in Q. discriminate.
Qed.

Definition kid (sid k : Z) : Z := k.
Record Winv (c : bool) (ws : list wr) (w : tw) : Prop := WINV {
  v_core : Core kid ws w; v_state : w_state w = match ws with [] => Initialised | _ => Started end;
  v_len : ws <> [] -> (0 < length (w_out w))%nat; v_v2 : w_v2 w = c; v_comp : w_comp w = c }.
Lemma winv_new c : Winv c [] (tw_new c).
Proof.
  constructor; auto. 2:{ intros N; destruct N; auto. } constructor; cbn; auto; try tauto. - constructor. - discriminate.
Qed.
Lemma no_id (xs : list wr) gs out : groups_ok out 0 xs gs -> existsb (fun g' => (cg_id g' =? length xs)%nat) gs = false.
Proof.
  intros G. apply groups_ids in G. destruct G as [G _]. apply not_true_is_false. intros X. apply existsb_exists in X. destruct X as (g & I & Q). apply Nat.eqb_eq in Q.
  apply (in_map cg_id) in I. rewrite G, Q in I. apply in_seq in I. lia.
Qed.
Definition fits (ws : list wr) (x : wr) : Prop := forall y, In y ws -> tname y = tname x -> x_sid y = x_sid x -> tmax (x_tr y) <= tmin (x_tr x).

Lemma put2_put2 t sid a b s : put2 t sid b (put2 t sid a s) = put2 t sid b s.
Proof.
  assert (P : forall V k (v v' : V) l, aput k v (aput k v' l) = aput k v l).
  { intros V k v v' l. induction l as [|[k1 v1] l IH]; cbn; [rewrite Z.eqb_refl; auto|]. destruct (k =? k1) eqn:Q; cbn; rewrite ?Z.eqb_refl, ?Q; auto. f_equal; auto. }
  unfold put2. rewrite aget_aput, Z.eqb_refl, P, P. auto.
Qed.

Lemma write_step E c ws w x : Winv c ws w -> write_ok E x -> 
  (fits ws x -> exists w', write_pages (x_schema x) (x_sid x) (x_key x) (x_pages x) (x_tr x) w = Some w' /\ Winv c (ws ++ [x]) w') /\
  (~ fits ws x -> write_pages (x_schema x) (x_sid x) (x_key x) (x_pages x) (x_tr x) w = None).
Proof.
  intros V (I1 & I2 & Le & _). destruct V as [C St Ln V2 Cm].
  set (t := tname x). set (sid := x_sid x). set (ws0 := writes_of t sid ws).
  (* the header *)
  assert (Hd : exists tl, w_out (header w) = w_out w ++ tl /\ w_schemas (header w) = w_schemas w /\ w_specs (header w) = w_specs w /\ w_state (header w) = Started /\
                          w_v2 (header w) = c /\ w_comp (header w) = c /\ (0 < length (w_out (header w)))%nat).
  { unfold header. rewrite St. destruct ws as [|y ws'].
    - exists TSM_MAGIC. cbn. repeat (split; auto). rewrite app_length; cbn; lia.
    - exists []. rewrite app_nil_r. repeat (split; auto). apply Ln. discriminate. }
  destruct Hd as (tl & H1 & H2 & H3 & H4 & H5 & H6 & H7).
  unfold write_pages. set (hw := header w) in *.
  remember (match get2 t sid (w_specs w) with Some c0 => c0 | None => chunk_new t sid (x_key x) end) as c0 eqn:C0E.
  assert (C0 : tc_table c0 = t /\ tc_sid c0 = sid /\ tc_next c0 = length ws0 /\ tc_tr c0 = fold_left tr_merge (map x_tr ws0) tr_none /\ groups_ok (w_out w) 0 ws0 (tc_groups c0) /\
               exists x0, hd_error (ws0 ++ [x]) = Some x0 /\ tc_key c0 = x_key x0).
  { pose proof (c_get _ _ _ C t sid) as G. rewrite C0E. destruct (get2 t sid (w_specs w)) as [c1|].
    - destruct G as [A B [x0 [F0 F]] D K L]. repeat (split; auto). exists x0. split; auto. fold ws0 in F0. destruct ws0; [discriminate|auto].
    - fold ws0 in G. rewrite G. cbn. repeat (split; auto). exists x. auto. }
  destruct C0 as (Ct & Cs & Cn & Cr & Cg & Ck).
  unfold create_group. rewrite H3. change (sc_name (x_schema x)) with t. change (x_sid x) with sid. rewrite <- C0E. cbv zeta. cbn [w_out w_schemas w_specs w_state w_v2 w_comp].
  destruct (put_pages (x_pages x) (w_out hw) (group_new (tc_next c0))) as [out' g] eqn:PP.
  destruct (put_pages_ok _ _ _ _ _ H7 PP) as (P1 & P2 & P3 & P4 & P5 & qs & P6 & P7). cbn [group_new cg_id cg_tr cg_size cg_off cg_pages Nat.eqb Nat.add app] in P2, P3, P4, P5, P6.
  unfold into_chunk. cbv zeta. change (sc_name (x_schema x)) with t. cbn [w_out w_schemas w_specs w_state w_v2 w_comp]. rewrite get2_put2, !Z.eqb_refl. cbn [andb].
  rewrite P3, (merge_none (x_tr x) I1 I2). unfold chunk_push. cbn [cg_tr cg_id tc_tr tc_groups tc_table tc_sid tc_key tc_next].
  rewrite P2, Cn, (no_id _ _ _ Cg).
  assert (FT : fits ws x <-> tmax (tc_tr c0) <= tmin (x_tr x)).
  { rewrite Cr. rewrite (fold_high (map x_tr ws0) (tmin (x_tr x))). unfold fits. split.
    - intros F. split. { unfold is_i64 in I1; lia. } intros a I. apply in_map_iff in I. destruct I as (y & <- & I). apply writes_in in I. destruct I as (I & T & S1). auto.
    - intros [_ F] y I T S1. apply F. apply in_map. apply writes_in. auto. }
  destruct (Z.ltb_spec (tmin (x_tr x)) (tmax (tc_tr c0))) as [L|L].
  { split; auto. intros F. apply FT in F. lia. }
  split. 2:{ intros F. exfalso. apply F. apply FT. auto. }
  intros F. eexists. split; [reflexivity|]. rewrite put2_put2.
  destruct (newest_insert (x_schema x) (w_schemas hw) ws x eq_refl) as [N1 N2]. { rewrite H2. apply C. } { rewrite H2. apply C. }
  assert (O : out' = w_out w ++ (tl ++ body (x_pages x))). { rewrite P1, H1, <- app_assoc. auto. }
  constructor; cbn [w_out w_schemas w_specs w_state w_v2 w_comp]; auto.
  2:{ rewrite H4. destruct ws; auto. } 2:{ intros _. rewrite P1, app_length. lia. }
  constructor; cbn [w_out w_schemas w_specs w_state w_v2 w_comp]; auto.
  - apply put2_nodup. apply C.
  - apply put2_inner; apply C.
  - intros t' sid'. rewrite get2_put2, writes_snoc. unfold same_series. change (sc_name (x_schema x)) with t. change (x_sid x) with sid.
    rewrite (Z.eqb_sym t' t), (Z.eqb_sym sid' sid).
    destruct (Z.eqb_spec t t') as [<-|Dt]; destruct (Z.eqb_spec sid sid') as [<-|Ds]; cbn [andb].
    2:{ rewrite app_nil_r. pose proof (c_get _ _ _ C t sid') as G. destruct (get2 t sid' (w_specs w)); auto. rewrite O. apply chunk_more; auto. }
    2:{ rewrite app_nil_r. pose proof (c_get _ _ _ C t' sid) as G. destruct (get2 t' sid (w_specs w)); auto. rewrite O. apply chunk_more; auto. }
    2:{ rewrite app_nil_r. pose proof (c_get _ _ _ C t' sid') as G. destruct (get2 t' sid' (w_specs w)); auto. rewrite O. apply chunk_more; auto. }
    fold ws0. constructor; cbn; auto.
    + rewrite app_length. cbn. lia.
    + rewrite map_app, fold_left_app. cbn. rewrite Cr. auto.
    + apply groups_snoc. { rewrite O. apply groups_more; auto. } constructor; cbn; auto.
      * rewrite P6. auto.
      * rewrite P5, P4, P1. destruct (x_pages x) as [|p0 ps0] eqn:PE. { reflexivity. }
        rewrite <- (app_nil_r (w_out hw ++ body (p0 :: ps0))), <- app_assoc. apply slice_exact.
  - intros t'. rewrite put2_tab, map_app, in_app_iff. rewrite (c_tab _ _ _ C t'). cbn. fold t. intuition.
Qed.

Lemma fits_snoc ws x : time_ordered (ws ++ [x]) <-> time_ordered ws /\ fits ws x.
Proof.
  unfold time_ordered, fits. split.
  - intros H. split.
    + intros w1 a w2 b w3 -> T S1. apply (H w1 a w2 b (w3 ++ [x])); auto. rewrite <- app_assoc. cbn. rewrite <- app_assoc. auto.
    + intros y I T S1. apply in_split in I. destruct I as (l1 & l2 & ->). apply (H l1 y l2 x []); auto. rewrite <- app_assoc. auto.
  - intros [A B] w1 a w2 b w3 Q T S1. destruct w3 as [|c w3] using rev_ind.
    + replace (w1 ++ a :: w2 ++ [b]) with ((w1 ++ a :: w2) ++ [b]) in Q by (rewrite <- app_assoc; auto). apply app_inj_tail in Q. destruct Q as [-> ->].
      apply B; auto. apply in_or_app; cbn; auto.
    + clear IHw3. replace (w1 ++ a :: w2 ++ b :: w3 ++ [c]) with ((w1 ++ a :: w2 ++ b :: w3) ++ [c]) in Q by (rewrite <- app_assoc; cbn; rewrite <- app_assoc; auto).
      apply app_inj_tail in Q. destruct Q as [-> ->]. apply (A w1 a w2 b w3); auto.
Qed.
Lemma writes_app ws1 ws2 w : writes (ws1 ++ ws2) w = match writes ws1 w with Some w' => writes ws2 w' | None => None end.
Proof. revert w. induction ws1 as [|x ws1 IH]; cbn [writes app]; intros w; auto. destruct (write_pages (x_schema x) (x_sid x) (x_key x) (x_pages x) (x_tr x) w); auto. Qed.
Lemma fits_dec ws x : fits ws x \/ ~ fits ws x.
Proof.
  induction ws as [|y ws IH]. { left. intros y []. }
  destruct IH as [F|F]. 2:{ right. intros G. apply F. intros z I. apply G. right; auto. }
  destruct (Z.eq_dec (tname y) (tname x)) as [A|A]; [destruct (Z.eq_dec (x_sid y) (x_sid x)) as [B|B]; [destruct (Z_le_dec (tmax (x_tr y)) (tmin (x_tr x))) as [D|D]|]|].
  2:{ right. intros G. apply D. apply G; cbn; auto. }
  all: left; intros z [<-|I] T S1; auto; congruence.
Qed.
Lemma ordered_dec ws : time_ordered ws \/ ~ time_ordered ws.
Proof.
  induction ws as [|x ws IH] using rev_ind. { left. intros w1 a w2 b w3 Q. destruct w1; discriminate. }
  rewrite fits_snoc. destruct (fits_dec ws x), IH; tauto.
Qed.
Lemma writes_inv E c ws : Forall (write_ok E) ws ->
  (time_ordered ws -> exists w, writes ws (tw_new c) = Some w /\ Winv c ws w) /\ (~ time_ordered ws -> writes ws (tw_new c) = None).
Proof.
  induction ws as [|x ws IH] using rev_ind; intros F.
  - split. { intros _. exists (tw_new c). split; auto. apply winv_new. } intros N. exfalso. apply N. intros w1 a w2 b w3 Q. destruct w1; discriminate.
  - apply Forall_app in F. destruct F as [F Fx]. apply Forall_inv in Fx. destruct (IH F) as [A B]. rewrite fits_snoc, writes_app. split.
    + intros [T S1]. destruct (A T) as (w & Q & V). rewrite Q. cbn [writes]. destruct (write_step E c ws w x V Fx) as [W _]. destruct (W S1) as (w' & Q' & V'). rewrite Q'. eauto.
    + intros N. destruct (writes ws (tw_new c)) as [w|] eqn:Q; auto. cbn [writes].
      assert (T : time_ordered ws). { destruct (ordered_dec ws) as [T|T]; auto. exfalso. pose proof (B T) as X. congruence. }
      assert (S1 : ~ fits ws x) by tauto. destruct (A T) as (w0 & Q0 & V). injection Q0 as <-.
      destruct (write_step E c ws w x V Fx) as [_ W]. rewrite W; auto.
Qed.
