(** C86: the reports of metrics show every counter once with its value, and what is to be shown once exactly once. *)
From Verif Require Import Prelude RegisterModel RegisterSpec RegisterProofs.
From Coq Require Import Lia.
Open Scope Z_scope.

(** The report taken after a history shows under every name and labels the sum of what was added to that counter,
    for each counter that was ever added to and no other, and shows no name and no labels twice. *)
Theorem C86_counters : forall h table,
  (forall name lab, added name lab h < 2 ^ 64) -> positive h ->
  exists p, pages empty_register (h ++ [EReport table]) = pages empty_register h ++ [p] /\ p_table p = table /\
    NoDup (map fst (p_counters p)) /\
    (forall name rows, In (name, rows) (p_counters p) -> NoDup (map fst rows)) /\
    forall name lab v, (exists rows, In (name, rows) (p_counters p) /\ In (lab, v) rows) <-> touched name lab h /\ v = added name lab h.
Proof.
  intros h table B P. assert (S0 : sorted_rows (g_measures (final empty_register h))) by (apply final_sorted; split; [constructor | intros ? ? []]).
  eexists. rewrite pages_app. cbn [pages step snd app]. split; [reflexivity|]. split; [reflexivity|]. cbn [p_counters].
  split; [apply sorted_nodup, S0|]. split; [intros name rows I; apply sorted_nodup, (proj2 S0 name rows I)|].
  intros name lab v. pose proof (final_value name lab h) as V.
  assert (N : 0 <= added name lab h).
  { clear - P. induction h as [|e r IH]; [cbn; lia|]. assert (P' : positive r) by (intros a b n I; apply (P a b n); right; exact I). specialize (IH P').
    destruct e as [a b n | fs | t]; cbn [added]; auto. assert (0 <= n) by (apply (P a b n); left; reflexivity). destruct (_ && _); lia. }
  rewrite (Z.mod_small (added name lab h)) in V by (split; [exact N | apply B]).
  assert (E : (exists rows, In (name, rows) (g_measures (final empty_register h)) /\ In (lab, v) rows) <-> value name lab (g_measures (final empty_register h)) = Some v).
  { unfold value. split.
    - intros (rows & I & J). pose proof (proj2 S0 name rows I) as SR. apply in_lookup in I; [|apply S0]. rewrite I. cbn [old]. apply in_lookup; assumption.
    - intros J. destruct (lookup name (g_measures (final empty_register h))) as [rows|] eqn:L; [|discriminate]. cbn [old] in J.
      apply in_lookup in L; [|apply S0]. exists rows. split; [exact L|]. apply in_lookup; [apply (proj2 S0 name rows L) | exact J]. }
  rewrite E. destruct V as [(-> & T)|(-> & T & _)].
  - split; [intros X; injection X as <-; auto | intros (_ & ->); reflexivity].
  - split; [discriminate | intros (X & _); contradiction].
Qed.
Print Assumptions C86_counters.

(** Whatever is handed in to be shown once is in one of the reports, once and in order, as soon as a report follows. *)
Theorem C86_once : forall h table, flat_map p_once (pages empty_register (h ++ [EReport table])) = handed_in h.
Proof.
  intros h table. pose proof (once_pages (h ++ [EReport table]) empty_register) as H. rewrite final_app in H. cbn [final step fst g_once app empty_register] in H.
  rewrite app_nil_r in H. rewrite H. unfold handed_in. rewrite flat_map_app. cbn. apply app_nil_r.
Qed.
Print Assumptions C86_once.

(** False: it is in the system tables.  A look at the metrics page before the task comes takes it away. *)
Theorem C86_page_takes_refuted : exists h, handed_in h <> [] /\
  flat_map p_once (filter p_table (pages empty_register (h ++ [EReport false; EReport true]))) = [].
Proof. exists [EOnce [(7, [(1, 100)])]]. split; [discriminate | reflexivity]. Qed.
Print Assumptions C86_page_takes_refuted.

(** False: no name comes twice in the text of the page, as its format demands.  Two flushes between two looks at
    the page show two families of each of their names. *)
Theorem C86_names_twice_refuted : exists h, forall p, In p (pages empty_register (h ++ [EReport false])) -> ~ NoDup (map fst (text p)).
Proof.
  exists [EInc 3 1 5; EOnce [(7, [(1, 100)]); (8, [(1, 20)])]; EOnce [(7, [(2, 300)]); (8, [(2, 30)])]].
  intros p [<- |[]] N. cbn in N. inversion N as [|? ? _ N1]; subst. inversion N1 as [|? ? X _]; subst. apply X. right. left. reflexivity.
Qed.
Print Assumptions C86_names_twice_refuted.

Definition h1 : list event := [EInc 5 1 10; EOnce [(7, [(1, 100)])]; EInc 3 2 4; EReport true; EInc 5 1 7; EOnce [(7, [(2, 200)])]; EInc 5 0 1].
Example C86_ex : positive h1 /\ added 5 1 h1 = 17
  /\ pages empty_register (h1 ++ [EReport false]) =
       [PG true [(3, [(2, 4)]); (5, [(1, 10)])] [(7, [(1, 100)])]; PG false [(3, [(2, 4)]); (5, [(0, 1); (1, 17)])] [(7, [(2, 200)])]].
Proof.
  split; [intros a b n H; cbn in H; repeat (destruct H as [H|H]; [try discriminate; injection H as _ _ <-; lia|]); destruct H|].
  split; vm_compute; reflexivity.
Qed.
Example C86_ex_bound : forall name lab, added name lab h1 < 2 ^ 64.
Proof. intros name lab. cbn [h1 added]. repeat (destruct (_ && _)); cbn; lia. Qed.
