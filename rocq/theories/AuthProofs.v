From Verif Require Import Prelude AuthModel AuthSpec.

Lemma key_eqb_eq : forall a b, key_eqb a b = true <-> a = b.
Proof.
  intros [n|t u|t r] [m|t' u'|t' r']; cbn; split; intros H; try discriminate; try (apply Z.eqb_eq in H; congruence);
    try (apply andb_true_iff in H; destruct H as (H1&H2); apply Z.eqb_eq in H1, H2; congruence);
    injection H as <-; try (intros <-); subst; rewrite ?Z.eqb_refl; auto.
Qed.
Lemma key_eqb_refl : forall k, key_eqb k k = true.
Proof. intros. apply key_eqb_eq. auto. Qed.
Lemma lookup_snoc : forall l e k, lookup (l ++ [e]) k = if key_eqb (e_key e) k then e_val e else lookup l k.
Proof. intros. unfold lookup. rewrite fold_left_app. auto. Qed.
Lemma firstn_snoc : forall (l : list entry) n e, nth_error l n = Some e -> firstn (S n) l = firstn n l ++ [e].
Proof.
  induction l as [|x l IH]; intros [|n] e H; cbn [nth_error] in H; try discriminate.
  - injection H as ->. auto.
  - cbn [firstn app]. change (x :: firstn (S n) l = x :: (firstn n l ++ [e])). f_equal. apply IH; auto.
Qed.
Lemma firstn_left : forall (l l' : list entry) p, (p <= length l)%nat -> firstn p (l ++ l') = firstn p l.
Proof. intros. rewrite firstn_app. replace (p - length l)%nat with 0%nat by lia. rewrite firstn_O, app_nil_r. auto. Qed.
Lemma skipn_left : forall (l l' : list entry) p, (p <= length l)%nat -> skipn p (l ++ l') = skipn p l ++ l'.
Proof. intros. rewrite skipn_app. replace (p - length l)%nat with 0%nat by lia. auto. Qed.

Lemma take_in : forall no l c r, take no l = Some (c, r) -> In c l /\ forall d, In d r -> In d l.
Proof.
  induction l as [|x l IH]; cbn [take]; intros c r H; try discriminate.
  destruct (c_no x =? no).
  - injection H as -> ->. split; [left; auto|right; auto].
  - destruct (take no l) as [[d r']|] eqn:E; try discriminate. injection H as -> <-. destruct (IH _ _ eq_refl) as (I&J).
    split; [right; auto|]. intros y [->|Y]; [left; auto|right; auto].
Qed.

Section Generic.
Context (verify : Z -> Z -> bool) (rsa : Z -> Z -> Z -> bool).
Context (Ok : Z -> nat -> list entry -> Prop) (Pr : Z -> Z -> Prop) (who : Z -> Prop).
Context (OkApp : forall b p l e, (p <= length l)%nat -> Ok b p l -> b <= e_time e -> Ok b p (l ++ [e])).

Definition HB (b : Z) (l : list entry) (k : key) (v : option value) : Prop :=
  exists p, (p <= length l)%nat /\ lookup (firstn p l) k = v /\ Ok b p l.
Definition current (s : state) (k : key) (v : option value) : Prop :=
  exists p, (seen s <= p <= length (log s))%nat /\ lookup (firstn p (log s)) k = v.
Definition fresh_at (s : state) : Prop := forall b p, b <= now s -> (seen s <= p <= length (log s))%nat -> Ok b p (log s).

Definition rights_ok (H : key -> option value -> Prop) (tenant : Z) (d : desc) (x : rights) : Prop :=
  (d_admin d = true /\ x = RAdmin) \/
  (d_admin d = false /\ exists y, H (KMember tenant (d_id d)) (Some (VMember y)) /\
     match y with
     | Sys z => x = RSystem tenant z
     | Cust r => exists v, H (KRole tenant r) v /\ x = RCustom tenant (match v with Some (VRole w) => Some w | _ => None end)
     end).
Definition stage_ok (l : list entry) (c : check) : Prop :=
  let h := HB (c_begin c) l in
  let t := q_tenant (c_req c) in
  let u := KUser (q_name (c_req c)) in
  match c_stage c with
  | SUser => True
  | SMember d => h u (Some (VUser d)) /\ d_admin d = false
  | SCache d x | SRole d x => h u (Some (VUser d)) /\ d_admin d = false /\ h (KMember t (d_id d)) (Some (VMember x))
  | SCheck d x => h u (Some (VUser d)) /\ rights_ok h t d x
  end.
Definition entry_ok (s : state) (x : centry) : Prop :=
  x_expires x <= now s \/
  exists b ti, x_expires x = ti + TTL /\ Pr b ti /\ b <= now s /\ grounded verify rsa (HB b (log s)) (x_name x) (x_pw x) (x_tenant x) (x_ident x).

Record inv (s : state) : Prop := Inv {
  i_seen : (seen s <= length (log s))%nat;
  i_copy : forall k v, watched k = true -> copy s k = Some v -> current s k (Some v);
  i_begin : forall c, In c (pend s) -> c_begin c <= now s;
  i_reading : forall c d x, In c (pend s) -> c_stage c = SCache d x -> current s (KMember (q_tenant (c_req c)) (d_id d)) (Some (VMember x));
  i_stage : forall c, In c (pend s) -> who (q_name (c_req c)) -> stage_ok (log s) c;
  i_cache : forall x, In x (cache s) -> who (x_name x) -> entry_ok s x }.

Lemma HB_app : forall b l k v e, HB b l k v -> b <= e_time e -> HB b (l ++ [e]) k v.
Proof.
  intros b l k v e (p&P&E&O) B. exists p. rewrite app_length, firstn_left by auto. cbn. split; [lia|]. split; auto.
Qed.
Lemma HB_fresh : forall s b k v, fresh_at s -> b <= now s -> current s k v -> HB b (log s) k v.
Proof. intros s b k v F B (p&P&E). exists p. split; [lia|]. split; auto. Qed.
Lemma current_log : forall s k, (seen s <= length (log s))%nat -> current s k (lookup (log s) k).
Proof. intros s k H. exists (length (log s)). split; [lia|]. rewrite firstn_all. auto. Qed.

Lemma rights_mono : forall (H H' : key -> option value -> Prop) t d x, (forall k v, H k v -> H' k v) -> rights_ok H t d x -> rights_ok H' t d x.
Proof.
  intros H H' t d x M [R|(A&y&Y&R)]; [left; auto|right]. split; auto. exists y. split; auto. destruct y; auto. destruct R as (v&V&E). exists v; auto.
Qed.
Lemma grounded_mono : forall (H H' : key -> option value -> Prop) n p t i, (forall k v, H k v -> H' k v) -> grounded verify rsa H n p t i -> grounded verify rsa H' n p t i.
Proof.
  intros H H' n p t i M (N&d&U&A&I&R). split; auto. exists d. split; auto. split; auto. split; auto. exact (rights_mono H H' t d _ M R).
Qed.
Lemma auth_credentials : forall d pw k, auth_ok verify rsa d pw k = true -> credentials verify rsa d pw.
Proof.
  intros d pw k H. unfold auth_ok in H. unfold credentials. destruct (d_rsa d) as [pub|].
  - destruct k as [k|]; [|discriminate]. left; eauto.
  - destruct (d_hash d) as [h|]; [|discriminate]. right; eauto.
Qed.
Lemma stage_app : forall l c e, stage_ok l c -> c_begin c <= e_time e -> stage_ok (l ++ [e]) c.
Proof.
  intros l c e H B. unfold stage_ok in *. cbv zeta in *.
  destruct (c_stage c); auto; intuition auto using HB_app. eapply rights_mono; [|eassumption]. intros; apply HB_app; auto.
Qed.

(** Same log, copy, pending checks or fewer. *)
Lemma inv_smaller : forall s s', inv s -> now s' = now s -> log s' = log s -> seen s' = seen s -> copy s' = copy s ->
  (forall c, In c (pend s') -> In c (pend s)) -> (forall x, In x (cache s') -> In x (cache s)) -> inv s'.
Proof.
  intros s s' K E1 E2 E3 E4 P C. destruct K. split; rewrite ?E1, ?E2, ?E3, ?E4; auto.
  - intros k v WK H. unfold current. rewrite E2, E3. apply i_copy0; auto.
  - intros c d x I H. unfold current. rewrite E2, E3. apply (i_reading0 c d x); auto.
  - intros x I W. unfold entry_ok. rewrite E1, E2. apply i_cache0; auto.
Qed.

Lemma inv_pend : forall s c, inv s -> c_begin c <= now s -> (who (q_name (c_req c)) -> stage_ok (log s) c) ->
  (forall d x, c_stage c = SCache d x -> current s (KMember (q_tenant (c_req c)) (d_id d)) (Some (VMember x))) ->
  inv (set_pend s (c :: pend s)).
Proof.
  intros s c K B S R. destruct K. split; auto.
  - intros x [<-|I]; auto.
  - intros x d y [<-|I] E; [apply R; auto|apply (i_reading0 x d y); auto].
  - intros x [<-|I] W; auto.
Qed.

Lemma cached_find : forall s r i, cached s r = Some i -> exists x, In x (cache s) /\ now s < x_expires x /\ x_ident x = i /\
  x_name x = q_name r /\ x_pw x = q_pw r /\ x_tenant x = q_tenant r.
Proof.
  unfold cached. intros s r i H. destruct (find (same_key r) (cache s)) as [x|] eqn:E; try discriminate.
  destruct (Z.leb_spec (x_expires x) (now s)); try discriminate. injection H as <-.
  apply find_some in E. destruct E as (I&E). unfold same_key in E. rewrite !andb_true_iff, !Z.eqb_eq in E.
  exists x. tauto.
Qed.

Definition accept_ok (s : state) (o : list output) : Prop :=
  forall r i, In (Accepted r i) o -> who (q_name r) ->
  exists b ti, Pr b ti /\ b <= now s /\ now s < ti + TTL /\ grounded verify rsa (HB b (log s)) (q_name r) (q_pw r) (q_tenant r) i.

Lemma begin_inv : forall s no r s' o, inv s -> begin s no r = (s', o) -> inv s' /\ accept_ok s o.
Proof.
  unfold begin. intros s no r s' o K H. destruct (cached s r) as [i|] eqn:E; injection H as <- <-.
  - split; [apply (inv_smaller s); auto|]. intros r' i' [X|[]] W. injection X as <- <-.
    apply cached_find in E. destruct E as (x&I&T&<-&N&P&Q). rewrite <- N in W. destruct (i_cache s K x I W) as [Y|(b&ti&Y&Z&B&G)]; [lia|].
    exists b, ti. rewrite N, P, Q in G. split; auto. split; auto. split; [lia|auto].
  - split; [|intros ? ? []]. apply inv_pend; auto; cbn; try lia; auto. discriminate.
Qed.

Lemma advance_inv : forall s c s' o, inv s -> fresh_at s -> c_begin c <= now s -> Pr (c_begin c) (now s) ->
  (who (q_name (c_req c)) -> stage_ok (log s) c) ->
  (forall d x, c_stage c = SCache d x -> current s (KMember (q_tenant (c_req c)) (d_id d)) (Some (VMember x))) ->
  advance verify rsa s c = (s', o) -> inv s' /\ accept_ok s o.
Proof.
  intros s c s' o K F B P G R H. unfold advance in H. cbv zeta in H.
  assert (NA : accept_ok s []) by (intros ? ? []).
  assert (NR : accept_ok s [Refused]) by (intros ? ? [X|[]]; discriminate).
  assert (HBc : forall k v, current s k v -> HB (c_begin c) (log s) k v) by (intros; apply HB_fresh; auto).
  destruct (c_stage c) as [|d|d x|d x|d x] eqn:E.
  - assert (X : forall d, match copy s (KUser (q_name (c_req c))) with Some v => Some v | None => lookup (log s) (KUser (q_name (c_req c))) end = Some (VUser d) ->
        HB (c_begin c) (log s) (KUser (q_name (c_req c))) (Some (VUser d))).
    { intros d Q. apply HBc. destruct (copy s (KUser (q_name (c_req c)))) as [v|] eqn:Y.
      - injection Q as ->. apply (i_copy s K); auto.
      - rewrite <- Q. apply current_log. apply (i_seen s K). }
    destruct (match copy s (KUser (q_name (c_req c))) with Some v => Some v | None => lookup (log s) (KUser (q_name (c_req c))) end) as [[d| |]|];
      injection H as <- <-; try (split; auto).
    specialize (X d eq_refl). apply inv_pend; auto.
    + intros W. unfold stage_ok. cbn [c_stage c_begin c_req]. cbv zeta. destruct (d_admin d) eqn:A; split; auto. left; auto.
    + cbn [c_stage]. destruct (d_admin d); discriminate.
  - assert (CL : current s (KMember (q_tenant (c_req c)) (d_id d)) (lookup (log s) (KMember (q_tenant (c_req c)) (d_id d)))) by (apply current_log; apply (i_seen s K)).
    assert (ST : forall y, current s (KMember (q_tenant (c_req c)) (d_id d)) (Some (VMember y)) ->
        inv (set_pend s (Check (c_no c) (c_req c) (c_begin c) (SRole d y) :: pend s)) /\ inv (set_pend s (Check (c_no c) (c_req c) (c_begin c) (SCache d y) :: pend s))).
    { intros y CY. split; apply inv_pend; auto; try discriminate.
      - intros W. unfold stage_ok in *. cbn [c_stage c_begin c_req] in *. cbv zeta in *. rewrite E in G. destruct (G W) as (G1&G2). auto.
      - intros W. unfold stage_ok in *. cbn [c_stage c_begin c_req] in *. cbv zeta in *. rewrite E in G. destruct (G W) as (G1&G2). auto.
      - intros d' x' [= <- <-]. auto. }
    assert (SL : match lookup (log s) (KMember (q_tenant (c_req c)) (d_id d)) with
                 | Some (VMember x) => (set_pend s (Check (c_no c) (c_req c) (c_begin c) (SCache d x) :: pend s), [])
                 | _ => (s, [Refused]) end = (s', o) -> inv s' /\ accept_ok s o).
    { intros Q. destruct (lookup (log s) (KMember (q_tenant (c_req c)) (d_id d))) as [[| y |]|]; injection Q as <- <-; split; auto. apply ST; auto. }
    destruct (copy s (KMember (q_tenant (c_req c)) (d_id d))) as [[| y |]|] eqn:Y; auto.
    injection H as <- <-. split; auto. apply ST. apply (i_copy s K); auto.
  - injection H as <- <-. split; auto. pose proof (R d x eq_refl) as CU. destruct K. split; cbn [now log seen copy pend cache]; auto.
    + intros k v WK H. unfold set_copy in H. destruct (key_eqb _ k) eqn:Q; [apply key_eqb_eq in Q; subst k; injection H as <-; exact CU|apply i_copy0; auto].
    + intros y [<-|I]; auto.
    + intros y d' x' [<-|I] Q; [discriminate Q|]. exact (i_reading0 y d' x' I Q).
    + intros y [<-|I] W; auto. unfold stage_ok in *. cbn [c_stage c_begin c_req] in *. cbv zeta in *. rewrite E in G. apply G; auto.
  - assert (S : forall z, (who (q_name (c_req c)) -> rights_ok (HB (c_begin c) (log s)) (q_tenant (c_req c)) d z) ->
        inv (set_pend s (Check (c_no c) (c_req c) (c_begin c) (SCheck d z) :: pend s))).
    { intros z Z1. apply inv_pend; auto; [|discriminate]. intros W. unfold stage_ok in *. cbn [c_stage c_begin c_req] in *. cbv zeta in *. rewrite E in G.
      destruct (G W) as (G1&G2&G3). split; auto. }
    destruct x as [y|name]; injection H as <- <-; split; auto; apply S; intros W; unfold stage_ok in G; rewrite E in G; cbv zeta in G;
      destruct (G W) as (G1&G2&G3); right; split; auto; eexists; (split; [exact G3|]); cbn; auto.
    exists (lookup (log s) (KRole (q_tenant (c_req c)) name)). split; auto. apply HBc. apply current_log. apply (i_seen s K).
  - destruct (auth_ok verify rsa d (q_pw (c_req c)) (q_key (c_req c))) eqn:A; injection H as <- <-; [|split; auto].
    assert (GR : who (q_name (c_req c)) -> grounded verify rsa (HB (c_begin c) (log s)) (q_name (c_req c)) (q_pw (c_req c)) (q_tenant (c_req c)) (Ident (q_name (c_req c)) (d_id d) x)).
    { intros W. unfold stage_ok in G. rewrite E in G. cbv zeta in G. destruct (G W) as (G1&G2). split; auto. exists d. split; auto. split; [eapply auth_credentials; eauto|]. split; auto. }
    split.
    + destruct K. split; cbn [now log seen copy pend cache set_tokens set_cache]; auto. intros y I W. unfold put_cache in I. destruct I as [<-|I].
      * right. cbn [x_expires x_name x_pw x_tenant x_ident] in *. exists (c_begin c), (now s). auto.
      * apply filter_In in I. destruct I as (I&_). exact (i_cache0 y I W).
    + intros r' i' [X|[]] W. injection X as <- <-. exists (c_begin c), (now s). split; auto. split; auto. split; [unfold TTL; lia|auto].
Qed.

Lemma step_inv : forall s ev s' o, inv s -> fresh_at s -> (forall c, In c (pend s) -> Pr (c_begin c) (now s)) -> orderly s ev ->
  step verify rsa s ev = Some (s', o) -> inv s' /\ accept_ok s o.
Proof.
  intros s ev s' o K F P OR H. assert (NA : accept_ok s []) by (intros ? ? []).
  destruct ev; cbn [step] in H.
  - destruct (Z.leb_spec 0 d); try discriminate. injection H as <- <-. split; auto. destruct K. split; cbn [now log seen copy pend cache]; auto.
    + intros c I. specialize (i_begin0 c I). lia.
    + intros x I W. destruct (i_cache0 x I W) as [Y|(b&ti&Y&Z&B&G)]; [left; cbn; lia|right]. exists b, ti. cbn. split; auto. split; auto. split; [lia|auto].
  - injection H as <- <-. split; auto. destruct K. split; cbn [now log seen copy pend cache]; auto.
    + rewrite app_length. cbn. lia.
    + intros k' v' WK X. destruct (i_copy0 k' v' WK X) as (p&Q&E). exists p. cbn [seen log]. rewrite app_length, firstn_left by lia. cbn. split; auto. lia.
    + intros c d x I X. destruct (i_reading0 c d x I X) as (p&Q&E). exists p. cbn [seen log]. rewrite app_length, firstn_left by lia. cbn. split; auto. lia.
    + intros c I W. apply stage_app; auto.
    + intros x I W. destruct (i_cache0 x I W) as [Y|(b&ti&Y&Z&B&G)]; [left; auto|right]. exists b, ti. cbn [now log]. split; auto. split; auto. split; auto.
      eapply grounded_mono; [|exact G]. intros. apply HB_app; auto.
  - destruct (nth_error (log s) (seen s)) as [e|] eqn:E; try discriminate. injection H as <- <-. split; auto.
    assert (LT : (seen s < length (log s))%nat) by (apply nth_error_Some; rewrite E; discriminate).
    assert (NXT : forall k v, current s k v -> e_key e <> k -> exists p, (S (seen s) <= p <= length (log s))%nat /\ lookup (firstn p (log s)) k = v).
    { intros k v (p&Q&X) NE. destruct (Nat.eq_dec p (seen s)) as [->|N].
      - exists (S (seen s)). split; [lia|]. rewrite (firstn_snoc _ _ _ E), lookup_snoc. destruct (key_eqb (e_key e) k) eqn:Y; auto. apply key_eqb_eq in Y. contradiction.
      - exists p. split; [lia|auto]. }
    destruct K. split; cbn [now log seen copy pend cache]; auto.
    + intros k v WK X. unfold current. cbn [seen log]. destruct (key_eqb (e_key e) k) eqn:Y.
      * apply key_eqb_eq in Y. subst k. rewrite WK in X. unfold set_copy in X. rewrite key_eqb_refl in X.
        exists (S (seen s)). split; [lia|]. rewrite (firstn_snoc _ _ _ E), lookup_snoc, key_eqb_refl. auto.
      * assert (e_key e <> k) by (intros QQ; rewrite QQ, key_eqb_refl in Y; discriminate). apply NXT; auto. apply i_copy0; auto.
        destruct (watched (e_key e)); auto. unfold set_copy in X. rewrite Y in X. auto.
    + intros c d x I X. apply NXT; [apply (i_reading0 c d x); auto|]. apply (OR e c d x); auto.
  - apply (begin_inv s no r); auto. injection H as H. auto.
  - destruct (take no (pend s)) as [[c l]|] eqn:T; try discriminate. apply take_in in T. destruct T as (I&J). injection H as H.
    apply (advance_inv (set_pend s l) c); auto.
    + apply (inv_smaller s); auto.
    + exact (i_begin s K c I).
    + exact (i_stage s K c I).
    + intros d x Q. exact (i_reading s K c d x I Q).
  - injection H as <- <-. split; auto. apply (inv_smaller s); auto. intros x I. apply filter_In in I. tauto.
  - injection H as <- <-. split; auto. apply (inv_smaller s); auto. intros x I. apply filter_In in I. tauto.
  - injection H as <- <-. split; auto. apply (inv_smaller s); auto. intros x [].
  - injection H as <- <-. split; auto. apply (inv_smaller s); auto. intros x I. cbn in I. apply in_app_iff in I.
    rewrite <- (firstn_skipn i (cache s)). apply in_app_iff. destruct I as [I|I]; auto. right.
    change (skipn (S i) (cache s)) with (skipn (1 + i) (cache s)) in I. clear - I. revert I. generalize (cache s). induction i as [|i IH]; intros [|y l] I; cbn in *; auto.
  - destruct (find _ (tokens s)) as [t|].
    + destruct (_ <=? _); injection H as <- <-; (split; [auto|intros ? ? [X|[]]; discriminate]). apply (inv_smaller s); auto.
    + injection H as <- <-. split; auto. intros ? ? [X|[]]; discriminate.
Qed.
End Generic.

Lemma in_skipn_le : forall (l : list entry) p q e, (q <= p)%nat -> In e (skipn p l) -> In e (skipn q l).
Proof.
  induction l as [|x l IH]; intros p q e H I.
  - rewrite skipn_nil in I. destruct I.
  - destruct q as [|q]; [cbn [skipn]; destruct p as [|p]; [exact I|right; apply (IH p 0%nat); [lia|exact I]]|].
    destruct p as [|p]; [lia|]. cbn [skipn] in *. apply (IH p q); [lia|auto].
Qed.
Lemma nth_in_skipn : forall (l : list entry) p q e, (p <= q)%nat -> nth_error l q = Some e -> In e (skipn p l).
Proof.
  induction l as [|x l IH]; intros p q e H E; [destruct q; discriminate|].
  destruct p as [|p]; [cbn [skipn]; eapply nth_error_In; eauto|]. destruct q as [|q]; [lia|]. cbn [skipn nth_error] in *. apply (IH p q); [lia|auto].
Qed.

Section Final.
Context (verify : Z -> Z -> bool) (rsa : Z -> Z -> Z -> bool).

(** * With bounds on time *)
Section Timed.
Context (L D : Z) (L0 : 0 <= L).
Definition OkT (b : Z) (p : nat) (l : list entry) : Prop := Forall (fun e => b - L <= e_time e) (skipn p l).
Definition PrT (b ti : Z) : Prop := ti <= b + D.
Lemma OkT_app : forall b p l e, (p <= length l)%nat -> OkT b p l -> b <= e_time e -> OkT b p (l ++ [e]).
Proof. intros b p l e P O B. unfold OkT. rewrite skipn_left by auto. apply Forall_app. split; auto. constructor; auto. lia. Qed.
Lemma lag_fresh : forall s, lag L s -> fresh_at OkT s.
Proof.
  intros s H b p B P. apply Forall_forall. intros e I. specialize (H e). assert (now s - L <= e_time e); [|lia]. apply H.
  apply (in_skipn_le _ p); [lia|auto].
Qed.
Lemma start_inv : forall Ok Pr who s, started s -> inv verify rsa Ok Pr who s.
Proof.
  intros Ok Pr who s (S1&S2&S3&S4&S5&S6). split.
  - lia.
  - intros k v _ H. exists (length (log s)). split; [lia|]. rewrite firstn_all. auto.
  - rewrite S3. intros c [].
  - rewrite S3. intros c d x [].
  - rewrite S3. intros c [].
  - rewrite S4. intros c [].
Qed.
Lemma reach_inv : forall s, reach verify rsa L D s -> inv verify rsa OkT PrT (fun _ => True) s /\ lag L s /\ prompt D s.
Proof.
  intros s R. induction R as [s S|s ev s' o R (K&LG&PT) OR H LG' PT'].
  - split; [apply start_inv; auto|]. destruct S as (S1&S2&S3&_). split.
    + intros e I. rewrite S1, skipn_all in I. destruct I.
    + intros c I. rewrite S3 in I. destruct I.
  - split; [|auto]. exact (proj1 (step_inv verify rsa OkT PrT (fun _ => True) OkT_app s ev s' o K (lag_fresh s LG) PT OR H)).
Qed.
Lemma accepted_valid : forall s ev s' o r i, reach verify rsa L D s -> orderly s ev -> step verify rsa s ev = Some (s', o) -> In (Accepted r i) o ->
  grounded verify rsa (fun k v => held (log s) k v (now s - 3600 - D - L)) (q_name r) (q_pw r) (q_tenant r) i.
Proof.
  intros s ev s' o r i R OR H I. destruct (reach_inv s R) as (K&LG&PT).
  destruct (proj2 (step_inv verify rsa OkT PrT (fun _ => True) OkT_app s ev s' o K (lag_fresh s LG) PT OR H) r i I Logic.I) as (b&ti&P&B&T&G).
  eapply grounded_mono; [|exact G]. intros k v (p&Q&E&O). exists p. split; auto. split; auto. unfold OkT in O. unfold PrT in P.
  eapply Forall_impl; [|exact O]. cbn. unfold TTL in T. intros. lia.
Qed.
End Timed.

Lemma held_change : forall l k v a q e, held l k v a -> nth_error l q = Some e -> e_time e < a ->
  exists p, (q < p <= length l)%nat /\ lookup (firstn p l) k = v.
Proof.
  intros l k v a q e (p&P&E&F) N T. exists p. split; auto. split; auto. destruct (Nat.le_gt_cases p q) as [X|X]; auto.
  pose proof (proj1 (Forall_forall _ _) F e (nth_in_skipn l p q e X N)). cbn in *. lia.
Qed.

Lemma password_revoked : forall L D s ev s' o r i q e, 0 <= L -> reach verify rsa L D s -> orderly s ev -> step verify rsa s ev = Some (s', o) ->
  In (Accepted r i) o -> nth_error (log s) q = Some e ->
  (forall p d, (q < p <= length (log s))%nat -> lookup (firstn p (log s)) (KUser (q_name r)) = Some (VUser d) -> ~ credentials verify rsa d (q_pw r)) ->
  now s <= e_time e + 3600 + D + L.
Proof.
  intros L D s ev s' o r i q e L0 R OR H I N X. destruct (accepted_valid L D L0 s ev s' o r i R OR H I) as (_&d&U&A&_).
  destruct (Z.le_gt_cases (now s) (e_time e + 3600 + D + L)) as [Y|Y]; auto. exfalso.
  destruct (held_change _ _ _ _ q e U N) as (p&P&E); [lia|]. exact (X p d P E A).
Qed.
Lemma member_removed : forall L D s ev s' o r i q e, 0 <= L -> reach verify rsa L D s -> orderly s ev -> step verify rsa s ev = Some (s', o) ->
  In (Accepted r i) o -> i_rights i <> RAdmin -> nth_error (log s) q = Some e ->
  (forall p x, (q < p <= length (log s))%nat -> lookup (firstn p (log s)) (KMember (q_tenant r) (i_id i)) <> Some (VMember x)) ->
  now s <= e_time e + 3600 + D + L.
Proof.
  intros L D s ev s' o r i q e L0 R OR H I NA N X. destruct (accepted_valid L D L0 s ev s' o r i R OR H I) as (_&d&_&_&ID&[(_&G)|(_&x&M&_)]); [contradiction|].
  destruct (Z.le_gt_cases (now s) (e_time e + 3600 + D + L)) as [Y|Y]; auto. exfalso.
  destruct (held_change _ _ _ _ q e M N) as (p&P&E); [lia|]. rewrite <- ID in E. exact (X p x P E).
Qed.

(** * At once *)
Section Index.
Context (n : Z) (N : nat).
Definition OkN (b : Z) (p : nat) (l : list entry) : Prop := (N <= p)%nat.
Lemma seen_le : forall s ev s' o, step verify rsa s ev = Some (s', o) -> (seen s <= seen s')%nat.
Proof.
  intros s ev s' o H. destruct ev; cbn [step] in H.
  - destruct (0 <=? d); try discriminate. injection H as <- <-. auto.
  - injection H as <- <-. auto.
  - destruct (nth_error _ _); try discriminate. injection H as <- <-. cbn. lia.
  - unfold begin in H. destruct (cached s r); injection H as <- <-; auto.
  - destruct (take no (pend s)) as [[c l]|]; try discriminate. unfold advance in H. cbv zeta in H.
    destruct (c_stage c) as [|d|d x|d x|d x].
    + destruct (match copy _ _ with Some v => Some v | None => _ end) as [[| |]|]; injection H as <- <-; auto.
    + destruct (copy _ _) as [[| |]|]; try (destruct (lookup _ _) as [[| |]|]); injection H as <- <-; auto.
    + injection H as <- <-; auto.
    + destruct x; injection H as <- <-; auto.
    + destruct (auth_ok _ _ _ _ _); injection H as <- <-; auto.
  - injection H as <- <-. auto.
  - injection H as <- <-. auto.
  - injection H as <- <-. auto.
  - injection H as <- <-. auto.
  - destruct (find _ _); [destruct (_ <=? _)|]; injection H as <- <-; auto.
Qed.
Lemma later_basic : forall s0 s, started s0 -> later verify rsa s0 s -> inv verify rsa (fun _ _ _ => True) (fun _ _ => True) (fun _ => False) s.
Proof.
  intros s0 s S H. induction H as [|s ev s' o H IH OR E]; [apply start_inv; auto|].
  refine (proj1 (step_inv verify rsa (fun _ _ _ => True) (fun _ _ => True) (fun _ => False) _ s ev s' o IH _ _ OR E)); auto.
  intros b p B P. exact Logic.I.
Qed.
Lemma later_index : forall s1 s, inv verify rsa (fun _ _ _ => True) (fun _ _ => True) (fun _ => False) s1 -> (N <= seen s1)%nat ->
  (forall c, In c (pend s1) -> q_name (c_req c) <> n) -> (forall x, In x (cache s1) -> x_name x = n -> x_expires x <= now s1) ->
  later verify rsa s1 s -> inv verify rsa OkN (fun _ _ => True) (fun m => m = n) s /\ (N <= seen s)%nat.
Proof.
  intros s1 s K1 NS NP NC H. induction H as [|s ev s' o H (K&SN) OR E].
  - split; auto. destruct K1. split; auto.
    + intros c I W. destruct (NP c I W).
    + intros x I W. left. auto.
  - split; [|pose proof (seen_le s ev s' o E); lia].
    refine (proj1 (step_inv verify rsa OkN (fun _ _ => True) (fun m => m = n) _ s ev s' o K _ _ OR E)); auto.
    intros b p B P. unfold OkN. lia.
Qed.
Lemma accepted_after : forall s0 s1 s ev s' o r i, started s0 -> later verify rsa s0 s1 -> (N <= seen s1)%nat ->
  (forall c, In c (pend s1) -> q_name (c_req c) <> n) -> (forall x, In x (cache s1) -> x_name x = n -> x_expires x <= now s1) ->
  later verify rsa s1 s -> orderly s ev -> step verify rsa s ev = Some (s', o) -> In (Accepted r i) o -> q_name r = n ->
  grounded verify rsa (fun k v => held_after (log s) k v N) n (q_pw r) (q_tenant r) i.
Proof.
  intros s0 s1 s ev s' o r i S H1 NS NP NC H OR E I Q.
  destruct (later_index s1 s (later_basic s0 s1 S H1) NS NP NC H) as (K&SN).
  assert (F : fresh_at OkN s) by (intros b p B P; unfold OkN; lia).
  destruct (proj2 (step_inv verify rsa OkN (fun _ _ => True) (fun m => m = n) (fun b p l e _ O _ => O) s ev s' o K F (fun _ _ => Logic.I) OR E) r i I Q) as (b&ti&_&_&_&G).
  rewrite Q in G. eapply grounded_mono; [|exact G]. intros k v (p&P&X&O). exists p. unfold OkN in O. split; [lia|auto].
Qed.
End Index.

(** * Tokens *)
Lemma advance_tokens : forall s c s' o, advance verify rsa s c = (s', o) ->
  (forall t i, ~ In (AcceptedToken t i) o) /\
  (forall x, In x (tokens s') -> In x (tokens s) \/ exists r, In (Accepted r (t_ident x)) o /\ q_token r = Some (t_no x)).
Proof.
  intros s c s' o H. unfold advance in H. cbv zeta in H.
  assert (B : forall s' o, (s', o) = (s', o) -> tokens s' = tokens s -> (o = [] \/ o = [Refused]) -> (forall t i, ~ In (AcceptedToken t i) o) /\
     (forall x, In x (tokens s') -> In x (tokens s) \/ exists r, In (Accepted r (t_ident x)) o /\ q_token r = Some (t_no x))).
  { intros s2 o2 _ -> [->| ->]; (split; [cbn; intuition discriminate|auto]). }
  destruct (c_stage c) as [|d|d x|d x|d x].
  - destruct (match copy _ _ with Some v => Some v | None => _ end) as [[| |]|]; injection H as <- <-; apply B; auto.
  - destruct (copy _ _) as [[| |]|]; try (destruct (lookup _ _) as [[| |]|]); injection H as <- <-; apply B; auto.
  - injection H as <- <-; apply B; auto.
  - destruct x; injection H as <- <-; apply B; auto.
  - destruct (auth_ok _ _ _ _ _); injection H as <- <-; [|apply B; auto]. split; [cbn; intuition discriminate|].
    intros y I. cbn [tokens set_tokens] in I. unfold put_token in I. destruct (q_token (c_req c)) as [t|] eqn:T; auto.
    destruct I as [<-|I]; [right; exists (c_req c); cbn; auto|]. apply filter_In in I. left. apply I.
Qed.
Lemma step_tokens : forall s ev s' o, step verify rsa s ev = Some (s', o) ->
  (forall t i, In (AcceptedToken t i) o -> exists x, In x (tokens s) /\ t_no x = t /\ t_ident x = i /\ now s < t_last x + 600) /\
  (forall x, In x (tokens s') -> (exists y, In y (tokens s) /\ t_no y = t_no x /\ t_ident y = t_ident x) \/ exists r, In (Accepted r (t_ident x)) o /\ q_token r = Some (t_no x)).
Proof.
  intros s ev s' o H.
  assert (B : forall s' o, tokens s' = tokens s -> (o = [] \/ o = [Refused]) ->
    (forall t i, In (AcceptedToken t i) o -> exists x, In x (tokens s) /\ t_no x = t /\ t_ident x = i /\ now s < t_last x + 600) /\
    (forall x, In x (tokens s') -> (exists y, In y (tokens s) /\ t_no y = t_no x /\ t_ident y = t_ident x) \/ exists r, In (Accepted r (t_ident x)) o /\ q_token r = Some (t_no x))).
  { intros s2 o2 -> [->| ->]; (split; [cbn; intuition discriminate|]); intros x I; left; exists x; auto. }
  destruct ev; cbn [step] in H.
  - destruct (0 <=? d); try discriminate. injection H as <- <-. apply B; auto.
  - injection H as <- <-. apply B; auto.
  - destruct (nth_error _ _); try discriminate. injection H as <- <-. apply B; auto.
  - unfold begin in H. destruct (cached s r) as [i|]; injection H as <- <-; [|apply B; auto]. split; [cbn; intuition discriminate|].
    intros y I. cbn [tokens set_tokens] in I. unfold put_token in I. destruct (q_token r) as [t|] eqn:T; [|left; exists y; auto].
    destruct I as [<-|I]; [right; exists r; cbn; auto|]. apply filter_In in I. left. exists y. split; auto. apply I.
  - destruct (take no (pend s)) as [[c l]|]; try discriminate. injection H as H. apply advance_tokens in H. destruct H as (H1&H2). split.
    + intros t i I. destruct (H1 t i I).
    + intros x I. destruct (H2 x I) as [J|J]; auto. left. exists x. auto.
  - injection H as <- <-. apply B; auto.
  - injection H as <- <-. apply B; auto.
  - injection H as <- <-. apply B; auto.
  - injection H as <- <-. apply B; auto.
  - destruct (find _ _) as [t|] eqn:F; [|injection H as <- <-; apply B; auto]. apply find_some in F. destruct F as (F1&F2). apply Z.eqb_eq in F2.
    destruct (Z.leb_spec (t_last t + IDLE) (now s)) as [X|X]; injection H as <- <-; [apply B; auto|]. split.
    + intros t' i' [Y|[]]. injection Y as <- <-. exists t. auto.
    + intros x [<-|I]; left; [exists t; auto|]. apply filter_In in I. exists x. split; auto. apply I.
Qed.
Lemma run_tokens : forall evs s s' o, run verify rsa s evs = Some (s', o) ->
  forall t i, In (AcceptedToken t i) o -> (exists x, In x (tokens s) /\ t_no x = t /\ t_ident x = i) \/ (exists r, In (Accepted r i) o /\ q_token r = Some t).
Proof.
  induction evs as [|ev evs IH]; cbn [run]; intros s s' o H t i I.
  - injection H as <- <-. destruct I.
  - destruct (step verify rsa s ev) as [[s1 o1]|] eqn:E; try discriminate. destruct (run verify rsa s1 evs) as [[s2 o2]|] eqn:E2; try discriminate.
    injection H as <- <-. apply step_tokens in E. destruct E as (E1&E3). apply in_app_iff in I. destruct I as [I|I].
    + destruct (E1 t i I) as (x&X1&X2&X3&_). left. exists x. auto.
    + destruct (IH _ _ _ E2 t i I) as [(x&X1&X2&X3)|(r&R1&R2)].
      * destruct (E3 x X1) as [(y&Y1&Y2&Y3)|(r&R1&R2)].
        -- left. exists y. split; auto. split; congruence.
        -- right. exists r. rewrite <- X3, <- X2. split; auto. apply in_app_iff. auto.
      * right. exists r. split; auto. apply in_app_iff. auto.
Qed.
End Final.
