(** C74: a dump of the catalog, restored, gives the catalog back. *)
From Coq Require Import Ascii String.
From Coq Require Import List.
From Verif Require Import Prelude DumpModel DumpSpec DumpProofs DumpRun DumpMain.
Open Scope list_scope.
Open Scope Z_scope.
Local Notation length := Datatypes.length.

(** The script of one tenant ([f] = Some), or of all, runs without an error in a cluster that can receive it, and the cluster then has what
    it had and what was chosen, nothing else.  Whatever session tenant the client starts with, whatever the configured defaults of the
    cluster, with and without error_stop. *)
Theorem C74_restore_tenant_partial : forall dur_text size_text dur_read size_read f c s stop fresh ses,
  keyed c -> closed c -> expressible dur_text size_text dur_read size_read c -> receives f c s ->
  exists r, restore dur_read size_read stop fresh ses (dump dur_text size_text f c) s = (r, true) /\ restored f c s r.
Proof. intros. apply restore_dump; auto. Qed.
Print Assumptions C74_restore_tenant_partial.

Lemma new_receives s c : keyed c -> new_cluster s c -> receives None c s.
Proof.
  intros (K1 & K2 & K3 & K4 & K5 & K6 & K7) ((to & T) & (uo & U) & D & (po & P) & R & G & M & B & KS & I1 & I2 & I3 & I4 & NR).
  repeat split; try (destruct KS as (? & ? & ? & ? & ? & ? & ?); assumption).
  - intros n o o' J _ J'. eapply (fst_unique (tenants c)); eauto.
  - eapply (fst_unique (users c)); eauto.
  - right. rewrite U in H1. destruct H1 as [H1|[]]. congruence.
  - intros t n o o' J _ J'. eapply (fst_unique (dbs c)); eauto.
  - intros. rewrite R. intros [].
  - intros. rewrite G. intros [].
  - intros. rewrite M. intros [].
  - eapply (B t d n x'); eauto.
  - eapply (fst_unique (tables c)); eauto.
  - intros o J _. rewrite T in *. left. f_equal. eapply (fst_unique (tenants c)); [auto|apply I1; left; reflexivity|auto].
  - intros o J _. rewrite U in *. left. f_equal. eapply (fst_unique (users c)); [auto|apply I2; left; reflexivity|auto].
  - intros o J _. replace o with po; auto. eapply (fst_unique (dbs c)); eauto.
  - intros r _. apply NR.
Qed.
(** A dump of everything, restored into a new cluster, gives the same tenants, users, databases, roles, privileges, members and tables,
    with the same options and columns. *)
Theorem C74_restore_partial : forall dur_text size_text dur_read size_read c s stop fresh ses,
  keyed c -> closed c -> expressible dur_text size_text dur_read size_read c -> new_cluster s c ->
  exists r, restore dur_read size_read stop fresh ses (dump dur_text size_text None c) s = (r, true) /\ same r c.
Proof.
  intros dt st dr sr c s stop fresh ses K C X N. destruct (restore_dump dt st dr sr None c s K C X (new_receives s c K N) stop fresh ses) as (r & R1 & R2).
  exists r. split; auto. destruct N as (_ & _ & _ & _ & R & G & M & _ & _ & I1 & I2 & I3 & I4 & _). destruct R2 as (A1 & A2 & A3 & A4 & A5 & A6 & A7). cbn [sel sel_user] in *.
  rewrite R in A4. rewrite G in A5. rewrite M in A6.
  split; [intros [n o]; rewrite A1; split; [intros [J|J]; [auto|tauto]|auto]|].
  split; [intros [n o]; rewrite A2; split; [intros [J|J]; [auto|tauto]|auto]|].
  split; [intros [[t n] o]; rewrite A3; split; [intros [J|J]; [auto|tauto]|auto]|].
  split; [intros [[t n] o]; rewrite A4; split; [intros [J|J]; [destruct J|tauto]|auto]|].
  split; [intros [[[t n] d] o]; rewrite A5; split; [intros [J|J]; [destruct J|tauto]|auto]|].
  split; [intros [[t n] o]; rewrite A6; split; [intros [J|J]; [destruct J|tauto]|auto]|].
  intros [[[t n] d] o]; rewrite A7; split; [intros [J|J]; [auto|tauto]|auto].
Qed.
Print Assumptions C74_restore_partial.

(** * A catalog to which they apply *)
Definition dt (z : Z) : str := dec z ++ txt "ns".
Definition rd (s : str) : option Z := Some (fold_left (fun a c => if is_digit c then 10 * a + (c - 48) else a) s 0).
Definition dft := DOpts NS 134217728 16 1073741824 true false 32 365 1 1 365 false.
Definition fresh := Cat [(txt "cnosdb", TOpts (Some (txt "system tenant")) None None false)]
  [(txt "root", UOpts (Some (txt "h")) (Some (txt "system admin")) (Some true) None None)]
  [(txt "cnosdb", txt "public", dft); (txt "cnosdb", txt "usage_schema", dft)] [] [] [] [].
Definition air := [Col (txt "time") CTime Default; Col (txt "station") CTag Default; Col (txt "v") (CField VUnsigned) Delta; Col (txt "W") (CField VString) Default].
Definition more (ts : list (str * topts)) us ds rs gs ms tbs : cat :=
  Cat (tenants fresh ++ ts) (users fresh ++ us) (dbs fresh ++ ds) rs gs ms tbs.
Definition cat0 := more [(txt "acme", TOpts (Some (txt "it's")) (Some 7) None false); (txt "plain", TOpts None None None false)]
  [(txt "ann", UOpts (Some (txt "$2")) None (Some false) None (Some true)); (txt "bob", UOpts None None None None None)]
  [(txt "acme", txt "My db", DOpts US 1 2 3 false true 4 5 6 1 8 false)]
  [(txt "acme", txt "reader", Some Member); (txt "acme", txt "r2", None)]
  [(txt "acme", txt "reader", txt "My db", PFull); (txt "acme", txt "r2", txt "My db", PRead)]
  [(txt "acme", txt "ann", txt "reader"); (txt "plain", txt "bob", txt "owner")]
  [(txt "acme", txt "My db", txt "air", air); (txt "acme", txt "My db", txt "nt", [Col (txt "time") CTime Default; Col (txt "v") (CField VInteger) Default])].
Ltac none := let J := fresh "J" in intros J; vm_compute in J; repeat (destruct J as [J|J]; [discriminate J|]); destruct J.
Ltac nodup := vm_compute; repeat (apply NoDup_cons; [none|]); apply NoDup_nil.
Ltac each J := vm_compute in J; repeat (destruct J as [J|J]; [|]); try (destruct J; fail).
Ltac member := vm_compute; repeat (first [left; reflexivity|right]).
Example cat0_keyed : keyed cat0.
Proof. unfold keyed. do 6 (split; [nodup|]). nodup. Qed.
Example cat0_closed : closed cat0.
Proof.
  split; [|split; [|split; [|split]]].
  - intros t d o J. each J; injection J as <- <- <-; eexists; member.
  - intros t d o J. each J; injection J as <- <- <-; eexists; member.
  - intros t r d p J. each J; injection J as <- <- <- <-; split; eexists; member.
  - intros t u r J. each J; injection J as <- <- <-; (split; [eexists; member|]); (split; [eexists; member|]); first [left; right; reflexivity|left; left; reflexivity|right; eexists; member].
  - intros t d n x J. each J; injection J as <- <- <- <-; eexists; member.
Qed.
Lemma same_low a b : same_word a b -> lower a = lower b.
Proof.
  induction 1 as [|x y a b H _ IH]; auto. unfold lower in *. cbn [map]. f_equal; auto. unfold same_char in H.
  destruct (65 <=? x) eqn:X1, (x <=? 90) eqn:X2, (65 <=? y) eqn:Y1, (y <=? 90) eqn:Y2; cbn [andb]; lia.
Qed.
Lemma tight_of n c r r' c' : n = c :: r -> n = r' ++ [c'] -> ~ white c -> ~ white c' -> tight n.
Proof.
  intros E E' H H'. split.
  - intros x y Q. rewrite E in Q. injection Q as <- _. auto.
  - intros y x Q. rewrite E' in Q. apply app_inj_tail in Q. destruct Q as (_ & <-). auto.
Qed.
Ltac pname := split; [split; none|split; [none|eexists; split; [left; reflexivity|none]]].
Ltac tightly n := let n' := eval vm_compute in n in let l := eval vm_compute in (removelast n') in let c := eval vm_compute in (last n' 0) in
  change n with n'; eapply (tight_of n' _ _ l c); [reflexivity|reflexivity|none|none].
Ltac rb := split; [vm_compute; reflexivity|split; none].
Ltac word := let H := fresh in intros H; first [reflexivity|apply same_low in H; vm_compute in H; discriminate H].
Example cat0_expressible : expressible dt dt rd rd cat0.
Proof.
  split; [|split; [|split; [|split]]].
  - intros n o J. each J; injection J as <- <-; (split; [|word]); (split; [pname|]); (split; [match goal with |- tight ?n => tightly n end|]); (split; [first [exact I|none]|]); (split; [first [exact I|rb]|]); split; reflexivity.
  - intros n o J. each J; injection J as <- <-; (split; [|word]); (split; [pname|]); repeat split; first [exact I|none].
  - intros t n o J. each J; injection J as <- <- <-; (split; [|intros _; word]); (split; [pname|]); do 4 (split; [rb|]); do 4 (split; [vm_compute; (split; [discriminate|reflexivity])|]); (split; [discriminate|(split; [discriminate|reflexivity])]).
  - intros t n h J. each J; injection J as <- <- <-; (split; [pname|]); intros [E|E]; vm_compute in E; discriminate E.
  - intros t d n x J. each J; injection J as <- <- <- <-; (split; [pname|]).
    + exists [txt "station"], [(txt "v", VUnsigned, Delta); (txt "W", VString, Default)]. split; [reflexivity|]. split; [discriminate|]. split; [|split].
      * apply Forall_cons; [cbn; auto|]. apply Forall_cons; [cbn; auto|apply Forall_nil].
      * nodup.
      * repeat (apply Forall_cons; [split; none|]); apply Forall_nil.
    + exists [], [(txt "v", VInteger, Default)]. split; [reflexivity|]. split; [discriminate|]. split; [|split].
      * apply Forall_cons; [cbn; auto|]. apply Forall_nil.
      * nodup.
      * repeat (apply Forall_cons; [split; none|]); apply Forall_nil.
Qed.
Example cat0_new : new_cluster fresh cat0.
Proof.
  split; [eexists; reflexivity|]. split; [eexists; reflexivity|]. split; [intros t d o J; each J; injection J as <- <- <-; reflexivity|]. split; [eexists; left; reflexivity|].
  do 3 (split; [reflexivity|]). split; [intros t d n x []|]. split; [unfold keyed; do 6 (split; [nodup|]); nodup|].
  split; [intros x J; apply in_app_iff; auto|]. split; [intros x J; apply in_app_iff; auto|]. split; [intros x J; apply in_app_iff; auto|]. split; [intros x []|]. intros r. none.
Qed.
(** The tenant acme alone, into a cluster that has the other one. *)
Definition s0 := Cat (tenants fresh ++ [(txt "plain", TOpts None None None false)]) (users fresh ++ [(txt "bob", UOpts None None None None None)]) (dbs fresh)
  [] [] [(txt "plain", txt "bob", txt "owner")] [].
Example s0_receives : receives (Some (txt "acme")) cat0 s0.
Proof.
  split; [unfold keyed; do 6 (split; [nodup|]); nodup|].
  split; [intros n o o' _ -> J; each J; discriminate J|].
  split; [intros n o o' _ (r & R) J; each R; [|discriminate R]; injection R as <- <-; each J; discriminate J|].
  split; [intros t n o o' _ -> J; each J; discriminate J|].
  split; [intros t n h h' _ _ []|]. split; [intros t r d p p' _ _ []|].
  split; [intros t u r r' _ -> J; each J; discriminate J|]. split; [intros t d n x x' _ _ []|].
  split; [intros o _ S; discriminate S|]. split; [intros o _ (r & R); each R; discriminate R|]. split; [intros o _ S; discriminate S|]. intros r S; discriminate S.
Qed.
Example cat0_restored : fst (restore rd rd true dft (txt "cnosdb") (dump dt dt None cat0) fresh) = cat0.
Proof. vm_compute. reflexivity. Qed.

(** * Findings: what the script does not bring back *)
Definition after (stop : bool) (c : cat) : cat * bool := restore rd rd stop dft (txt "cnosdb") (dump dt dt None c) fresh.
Definition to := TOpts None None None false.
(** FINDING.  Names are written between double quotes as they are; a double quote in a name ends it.  A role without inherited
    privileges, whose creator chose its name, comes back as another role that inherits from owner; nothing is reported. *)
Theorem C74_injected_owner_refuted : exists c n, roles c = [(txt "acme", n, None)] /\
  snd (after true c) = true /\ roles (fst (after true c)) = [(txt "acme", txt "r", Some Owner)].
Proof.
  exists (more [(txt "acme", to)] [] [] [(txt "acme", txt "r" ++ [34] ++ txt " inherit " ++ [34] ++ txt "owner", None)] [] [] []), (txt "r" ++ [34] ++ txt " inherit " ++ [34] ++ txt "owner").
  repeat split; vm_compute; reflexivity.
Qed.
Print Assumptions C74_injected_owner_refuted.
(** FINDING.  Likewise, and because the client cuts the text at semicolons, a role name can carry whole statements, which the restore runs
    as the administrator: here a new user with all rights. *)
Theorem C74_injected_user_refuted : exists c u, (forall o, ~ In (u, o) (users c)) /\
  snd (after true c) = true /\ exists o, In (u, o) (users (fst (after true c))) /\ u_admin o = Some true.
Proof.
  exists (more [(txt "acme", to)] [] [] [(txt "acme", txt "x" ++ [34] ++ txt "; create user " ++ [34] ++ txt "evil" ++ [34] ++ txt " with granted_admin=true; create role " ++ [34] ++ txt "y", None)] [] [] []), (txt "evil").
  split; [intros o; none|]. split; [vm_compute; reflexivity|]. exists (UOpts None None None None (Some true)). split; [vm_compute; right; left; reflexivity|reflexivity].
Qed.
Print Assumptions C74_injected_user_refuted.
(** FINDING.  The limits of a tenant are written as an option that CREATE TENANT does not know: the tenant is lost. *)
Theorem C74_limits_refuted : exists c n o, In (n, o) (tenants c) /\ t_limits o <> None /\ snd (after false c) = false /\ forall o', ~ In (n, o') (tenants (fst (after false c))).
Proof.
  exists (more [(txt "acme", TOpts None None (Some (txt "{}")) false)] [] [] [] [] [] []), (txt "acme"), (TOpts None None (Some (txt "{}")) false).
  split; [right; left; reflexivity|]. split; [discriminate|]. split; [vm_compute; reflexivity|]. intros o'; none.
Qed.
Print Assumptions C74_limits_refuted.
(** FINDING.  Names that differ from root, cnosdb and public only by case are left out as if they were those. *)
Theorem C74_case_refuted : exists c, In (txt "Root", UOpts None None None None None) (users c) /\ In (txt "CnosDB", to) (tenants c) /\ In (txt "cnosdb", txt "Public", dft) (dbs c) /\
  snd (after true c) = true /\ same (fst (after true c)) fresh.
Proof.
  exists (more [(txt "CnosDB", to)] [(txt "Root", UOpts None None None None None)] [(txt "cnosdb", txt "Public", dft)] [] [] [] []).
  split; [right; left; reflexivity|]. split; [right; left; reflexivity|]. split; [right; right; left; reflexivity|]. split; [vm_compute; reflexivity|].
  replace (fst (after true _)) with fresh; [unfold same; tauto|vm_compute; reflexivity].
Qed.
Print Assumptions C74_case_refuted.
(** FINDING.  The options of the tenant cnosdb, the user root and the database public are not in the script: what ALTER changed there is
    lost without a word. *)
Theorem C74_defaults_refuted : exists c o, In (txt "cnosdb", txt "public", o) (dbs c) /\ d_ttl o <> d_ttl dft /\
  snd (after true c) = true /\ forall o', In (txt "cnosdb", txt "public", o') (dbs (fst (after true c))) -> o' = dft.
Proof.
  exists (Cat (tenants fresh) (users fresh) [(txt "cnosdb", txt "public", DOpts NS 134217728 16 1073741824 true false 32 7 1 1 365 false)] [] [] [] []),
    (DOpts NS 134217728 16 1073741824 true false 32 7 1 1 365 false).
  split; [left; reflexivity|]. split; [discriminate|]. split; [vm_compute; reflexivity|]. intros o' J. each J; [|discriminate J]. injection J as <-. reflexivity.
Qed.
Print Assumptions C74_defaults_refuted.
(** FINDING.  A tenant (or database) that was dropped and is kept for RECOVER comes back as if it had not been. *)
Theorem C74_dropped_refuted : exists c n o, In (n, o) (tenants c) /\ t_hidden o = true /\ snd (after true c) = true /\ In (n, to) (tenants (fst (after true c))) /\ t_hidden to = false.
Proof.
  exists (more [(txt "acme", TOpts None None None true)] [] [] [] [] [] []), (txt "acme"), (TOpts None None None true).
  split; [right; left; reflexivity|]. split; [reflexivity|]. split; [vm_compute; reflexivity|]. split; [vm_compute; right; left; reflexivity|reflexivity].
Qed.
Print Assumptions C74_dropped_refuted.
(** FINDING.  The type of a geometry column is written without its kind and number, which CREATE TABLE wants: the table is lost. *)
Theorem C74_geometry_refuted : exists c, length (tables c) = 1%nat /\ snd (after false c) = false /\ tables (fst (after false c)) = [].
Proof.
  exists (more [] [] [] [] [] [] [(txt "cnosdb", txt "public", txt "g", [Col (txt "time") CTime Default; Col (txt "v") (CField VGeometry) Default])]).
  split; [reflexivity|]. split; vm_compute; reflexivity.
Qed.
Print Assumptions C74_geometry_refuted.
(** FINDING.  A tag added after the fields comes back before them: the order of the columns (SELECT star, INSERT without names) changes. *)
Theorem C74_column_order_refuted : exists c r, map (fun x => map c_name (snd x)) (tables c) = [[txt "time"; txt "v"; txt "host"]] /\
  after true c = (r, true) /\ map (fun x => map c_name (snd x)) (tables r) = [[txt "time"; txt "host"; txt "v"]].
Proof.
  set (c := more [] [] [] [] [] [] [(txt "cnosdb", txt "public", txt "g", [Col (txt "time") CTime Default; Col (txt "v") (CField VFloat) Default; Col (txt "host") CTag Default])]).
  exists c, (fst (after true c)). split; [reflexivity|]. split; vm_compute; reflexivity.
Qed.
Print Assumptions C74_column_order_refuted.
(** FINDING.  The client takes a line that ends in a semicolon for the end of a statement, also inside a string: a comment with a semicolon
    before a line break cannot be restored. *)
Theorem C74_comment_refuted : exists c n o, In (n, o) (tenants c) /\ t_comment o = Some (txt "a;" ++ [10] ++ txt "b") /\
  snd (after false c) = false /\ forall o', ~ In (n, o') (tenants (fst (after false c))).
Proof.
  exists (more [(txt "acme", TOpts (Some (txt "a;" ++ [10] ++ txt "b")) None None false)] [] [] [] [] [] []), (txt "acme"), (TOpts (Some (txt "a;" ++ [10] ++ txt "b")) None None false).
  split; [right; left; reflexivity|]. split; [reflexivity|]. split; [vm_compute; reflexivity|]. intros o'; none.
Qed.
Print Assumptions C74_comment_refuted.
(** FINDING.  The session tenant is set by a line without quotes, from which blanks are trimmed: the objects of a tenant whose name begins
    with a blank are lost (or go to the tenant of the trimmed name). *)
Theorem C74_blank_tenant_refuted : exists c t, In (t, txt "d", dft) (dbs c) /\ snd (after false c) = true /\
  (forall d o, ~ In (t, d, o) (dbs (fst (after false c)))) /\ In (txt "acme", txt "d", dft) (dbs (fst (after false c))) /\ forall d o, ~ In (txt "acme", d, o) (dbs c).
Proof.
  exists (more [(txt "acme", to); (txt " acme", to)] [] [(txt " acme", txt "d", dft)] [] [] [] []), (txt " acme").
  split; [right; right; left; reflexivity|]. split; [vm_compute; reflexivity|]. split; [intros d o; none|]. split; [vm_compute; right; right; left; reflexivity|intros d o; none].
Qed.
Print Assumptions C74_blank_tenant_refuted.
(** FINDING.  A privilege on a database that was dropped stays in the role and fails; under error_stop everything after it is lost. *)
Theorem C74_stale_grant_refuted : exists c, In (txt "zoo", txt "r", None) (roles c) /\ snd (after true c) = false /\ ~ In (txt "zoo", txt "r", None) (roles (fst (after true c))).
Proof.
  exists (more [(txt "yak", to); (txt "zoo", to)] [] [] [(txt "yak", txt "r", None); (txt "zoo", txt "r", None)] [(txt "yak", txt "r", txt "gone", PRead)] [] []).
  split; [right; left; reflexivity|]. split; [vm_compute; reflexivity|]. none.
Qed.
Print Assumptions C74_stale_grant_refuted.
(** FINDING.  The user root, made a member of the tenant cnosdb, is left out as if it always were; it is not. *)
Theorem C74_root_member_refuted : exists c, In (txt "cnosdb", txt "root", txt "owner") (members c) /\ snd (after true c) = true /\ members (fst (after true c)) = [].
Proof. exists (more [] [] [] [] [] [(txt "cnosdb", txt "root", txt "owner")] []). split; [left; reflexivity|]. split; vm_compute; reflexivity. Qed.
Print Assumptions C74_root_member_refuted.
