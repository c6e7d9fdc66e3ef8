(** C04: union and intersection of value domains agree with the sets they describe. *)
From Verif Require Import Prelude DomainModel DomainSpec DomainProofs.

(** [Domain::of_ranges] describes exactly the values of the given ranges, at every value at which
    the given ends are not partly open and partly closed. *)
Theorem C04_of_ranges_partial : forall t l d v, Forall (range_built t) l -> of_ranges l = Some d ->
  agree v (map low l) -> agree v (map high l) ->
  (in_domain v d <-> exists r, In r l /\ in_range v r).
Proof.
  intros t l d v F E A B. destruct l as [|r l].
  - cbn in E. injection E as <-. cbn. split; [tauto|]. intros (q & [] & _).
  - destruct (of_ranges_ok t (r :: l)) as (m & E' & _ & _ & _ & _ & V); [|discriminate|].
    + eapply Forall_impl; [|exact F]. intros x. apply built_rok.
    + rewrite E in E'. injection E' as ->. destruct (V v) as [V1 V2].
      split; [exact V1|exact (V2 A B)].
Qed.
Print Assumptions C04_of_ranges_partial.
(** Without any condition it never describes a value that no range contains, and it never fails on
    ranges of one type. *)
Theorem C04_of_ranges_sound : forall t l, Forall (range_built t) l ->
  exists d, of_ranges l = Some d /\ forall v, in_domain v d -> exists r, In r l /\ in_range v r.
Proof.
  intros t l F. destruct l as [|r l].
  - exists DNone. split; auto. intros v [].
  - destruct (of_ranges_ok t (r :: l)) as (m & E' & _ & _ & _ & _ & V); [|discriminate|].
    + eapply Forall_impl; [|exact F]. intros x. apply built_rok.
    + exists (DRange m). split; auto. intros v. apply V.
Qed.
Print Assumptions C04_of_ranges_sound.

Definition N5 := SNum 7 5.
Definition nn z := SNum 7 z.
Definition T := DNum 7.
Example C04_of_ranges_nonvacuous :
  let l := [r_gele T (nn 8) (nn 9); r_gelt T (nn 1) (nn 5); r_gtle T (nn 5) (nn 6); r_gelt T (nn 3) (nn 5); r_ge T (nn 20)] in
  Forall (range_built T) l /\ agree N5 (map low l) /\ agree N5 (map high l) /\
  of_ranges l = Some (DRange [(exactly T (nn 1), r_gelt T (nn 1) (nn 5));
    (lower_bounded T (nn 5), r_gtle T (nn 5) (nn 6)); (exactly T (nn 8), r_gele T (nn 8) (nn 9));
    (exactly T (nn 20), r_ge T (nn 20))]).
Proof.
  cbn zeta. split; [|split; [|split; [|reflexivity]]].
  - repeat constructor; discriminate.
  - intros a b A B. cbn in A, B. repeat destruct A as [<-|A]; try destruct A; repeat destruct B as [<-|B]; try destruct B; cbv; intros; congruence.
  - intros a b A B. cbn in A, B. repeat destruct A as [<-|A]; try destruct A; repeat destruct B as [<-|B]; try destruct B; cbv; intros; congruence.
Qed.

(** The union of two domains contains exactly the values of either.  Partial: at values where an
    end of one is open and an end of the other is closed the union may lose the value. *)
Theorem C04_union_partial : forall t a b d v, domain_built t a -> domain_built t b ->
  d_union a b = Some d -> ends_agree v a b ->
  (in_domain v d <-> in_domain v a \/ in_domain v b).
Proof.
  intros t a b d v A B E G. apply built_dok in A, B.
  destruct (d_union_ok t a b d A B E) as (_ & _ & _ & V). destruct (V v) as [V1 V2]. split; auto.
Qed.
Print Assumptions C04_union_partial.
(** The union never contains a value of neither domain. *)
Theorem C04_union_sound : forall t a b d v, domain_built t a -> domain_built t b ->
  d_union a b = Some d -> in_domain v d -> in_domain v a \/ in_domain v b.
Proof.
  intros t a b d v A B E. apply built_dok in A, B.
  destruct (d_union_ok t a b d A B E) as (_ & _ & _ & V). apply V.
Qed.
Print Assumptions C04_union_sound.
(** The intersection of two domains contains exactly the values of both.  Partial: as above; there
    the intersection may keep a value of only one. *)
Theorem C04_intersect_partial : forall t a b d v, domain_built t a -> domain_built t b ->
  d_intersect a b = Some d -> ends_agree v a b ->
  (in_domain v d <-> in_domain v a /\ in_domain v b).
Proof.
  intros t a b d v A B E G. apply built_dok in A, B.
  destruct (d_intersect_ok t a b d A B E) as (_ & _ & _ & V). destruct (V v) as [V1 V2]. split; auto.
  intros [? ?]; auto.
Qed.
Print Assumptions C04_intersect_partial.
(** The intersection never loses a value of both domains. *)
Theorem C04_intersect_complete : forall t a b d v, domain_built t a -> domain_built t b ->
  d_intersect a b = Some d -> in_domain v a -> in_domain v b -> in_domain v d.
Proof.
  intros t a b d v A B E. apply built_dok in A, B.
  destruct (d_intersect_ok t a b d A B E) as (_ & _ & _ & V). apply V.
Qed.
Print Assumptions C04_intersect_complete.
(** Sets of values (types without an order) are exact. *)
Theorem C04_values_exact : forall t wa wb va vb v,
  (exists d, d_union (of_values t wa va) (of_values t wb vb) = Some d /\
     (in_domain v d <-> (if wa then In v va else ~ In v va) \/ (if wb then In v vb else ~ In v vb))) /\
  (exists d, d_intersect (of_values t wa va) (of_values t wb vb) = Some d /\
     (in_domain v d <-> (if wa then In v va else ~ In v va) /\ (if wb then In v vb else ~ In v vb))).
Proof.
  intros t wa wb va vb v. pose proof (of_values_dok t wa va) as A. pose proof (of_values_dok t wb vb) as B. split.
  - destruct (value_union_ok t _ _ A B) as (d & E & _ & _ & _ & V). exists d. split; [exact E|].
    rewrite <- (of_values_in t wa va), <- (of_values_in t wb vb). apply V.
  - destruct (value_intersect_ok t _ _ A B) as (d & E & _ & _ & _ & V). exists d. split; [exact E|].
    rewrite <- (of_values_in t wa va), <- (of_values_in t wb vb). apply V.
Qed.
Print Assumptions C04_values_exact.

Definition dom_of (l : list range) : domain := match of_ranges l with Some d => d | None => DNone end.
Example C04_setops_nonvacuous :
  let a := dom_of (r_ne T (nn 5)) in
  let b := dom_of [r_gelt T (nn 0) (nn 5); r_ge T (nn 7)] in
  domain_built T a /\ domain_built T b /\ ends_agree N5 a b /\ ends_agree (nn 7) a b /\
  d_union a b = Some (dom_of (r_ne T (nn 5))) /\
  d_intersect a b = Some (dom_of [r_gelt T (nn 0) (nn 5); r_gtlt T (nn 5) (nn 5); r_ge T (nn 7)]).
Proof.
  cbn zeta. sp; try (vm_compute; reflexivity).
  - apply (db_ranges _ (r_ne T (nn 5))); [|reflexivity]. repeat constructor.
  - apply (db_ranges _ [r_gelt T (nn 0) (nn 5); r_ge T (nn 7)]); [|reflexivity]. repeat constructor. discriminate.
  - split; intros a b A B; cbn in A, B; repeat destruct A as [<-|A]; try destruct A; repeat destruct B as [<-|B]; try destruct B; cbv; intros; congruence.
  - split; intros a b A B; cbn in A, B; repeat destruct A as [<-|A]; try destruct A; repeat destruct B as [<-|B]; try destruct B; cbv; intros; congruence.
Qed.

(** FINDING.  Ends are ordered without regard to being open or closed (domain.rs:625-668), so when
    two ends coincide [span] keeps one of them arbitrarily: [x > 5] united with [x >= 5] loses 5
    (the low end of the first operand wins), [1,5] united with [3,5) loses 5 (the high end of the
    later range wins). *)
Theorem C04_union_refuted : exists t a b d v, domain_built t a /\ domain_built t b /\
  d_union a b = Some d /\ in_domain v b /\ ~ in_domain v d.
Proof.
  exists T, (dom_of [r_gt T N5]), (dom_of [r_ge T N5]), (dom_of [r_gt T N5]), N5.
  sp; try reflexivity.
  - apply (db_ranges _ [r_gt T N5]); [|reflexivity]. repeat constructor.
  - apply (db_ranges _ [r_ge T N5]); [|reflexivity]. repeat constructor.
  - exists (r_ge T N5). split; [left; reflexivity|]. split; cbn; auto. discriminate.
  - intros (q & [<-|[]] & [X _]). discriminate X.
Qed.
Print Assumptions C04_union_refuted.
(** FINDING.  Likewise [intersect] of [x > 5] with [x >= 5] contains 5. *)
Theorem C04_intersect_refuted : exists t a b d v, domain_built t a /\ domain_built t b /\
  d_intersect a b = Some d /\ ~ in_domain v a /\ in_domain v d.
Proof.
  exists T, (dom_of [r_gt T N5]), (dom_of [r_ge T N5]), (dom_of [r_ge T N5]), N5.
  sp; try reflexivity.
  - apply (db_ranges _ [r_gt T N5]); [|reflexivity]. repeat constructor.
  - apply (db_ranges _ [r_ge T N5]); [|reflexivity]. repeat constructor.
  - intros (q & [<-|[]] & [X _]). discriminate X.
  - exists (r_ge T N5). split; [left; reflexivity|]. split; cbn; auto. discriminate.
Qed.
Print Assumptions C04_intersect_refuted.
(** FINDING.  A range whose lower end is above its upper end (the constructors do not reject it)
    denotes no value, yet adding it to a set can erase another range: [of_ranges] of [2,8] and the
    empty range [2,1] is the map with the single entry 2 -> [2,1]. *)
Theorem C04_inverted_refuted : exists l d v, of_ranges l = Some d /\
  (exists r, In r l /\ in_range v r) /\ ~ in_domain v d.
Proof.
  exists [r_gele T (nn 2) (nn 8); r_gele T (nn 2) (nn 1)], (dom_of [r_gele T (nn 2) (nn 1)]), N5.
  sp.
  - reflexivity.
  - exists (r_gele T (nn 2) (nn 8)). split; [left; auto|]. split; cbn; discriminate.
  - intros (q & [<-|[]] & [_ X]). apply X. reflexivity.
Qed.
Print Assumptions C04_inverted_refuted.
