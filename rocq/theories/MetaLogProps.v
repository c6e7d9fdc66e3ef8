(** C38, continued: the change log and the store it belongs to. *)
From Verif Require Import Prelude MetaModel MetaSpec MetaProofs MetaLogSpec MetaLogProofs.
Open Scope Z_scope.

(** Whatever commands are applied, in whatever circumstances: between any two moments the log has exactly one entry for each
    version, names every key that was written or deleted, and its newest entry of a key says rightly whether it is there. *)
Theorem C38_every_change_logged : forall h1 h2, announced (run st0 h1) (run st0 (h1 ++ h2)).
Proof.
  intros h1 h2. assert (E : run st0 (h1 ++ h2) = run (run st0 h1) h2).
  { generalize st0. induction h1 as [|[e x] h1 IH]; intros s; cbn [run app]; auto. }
  rewrite E. apply announced_run; [apply srt_run|apply announced_refl].
Qed.
Print Assumptions C38_every_change_logged.

(** Two databases, a table, one database dropped. *)
Definition lg_env : env := EN 0 (fun _ => true) 0 (fun _ l => l).
Definition lg_c : str := [99]. Definition lg_t : str := [116].
Definition lg_d1 : db := DB [97] 1 0 1 1 false. Definition lg_d2 : db := DB [98] 1 0 1 1 false.
Definition lg_h1 := [(lg_env, CCreateDb lg_c lg_t lg_d1)].
Definition lg_h2 := [(lg_env, CCreateDb lg_c lg_t lg_d2); (lg_env, CCreateTable lg_c lg_t (TB [97] [120] true 1 1)); (lg_env, CDropDb lg_c lg_t [97])].
Example C38_ex_log : map (fun e => fst e) (s_log (run st0 (lg_h1 ++ lg_h2))) = [(5, true); (4, true); (3, false); (2, false); (1, false)] /\
  s_ver (run st0 lg_h1) = 1 /\ map fst (s_map (run st0 (lg_h1 ++ lg_h2))) = [k_db lg_c lg_t [98]].
Proof. vm_compute. auto. Qed.
