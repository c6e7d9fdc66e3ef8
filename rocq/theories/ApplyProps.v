(** C52: a replica has applied every agreed entry up to its applied index exactly once and in order, whatever crashes. *)
From Verif Require Import Prelude ApplyModel ApplySpec ApplyProofs.

(** For every engine, every agreed sequence and every history of appends, truncations, purges, applications, flushes, snapshot
    installations and crashes (none of them within a snapshot installation): a vnode's replica that is not in the middle of a step
    holds the state of the agreed entries up to its applied index. *)
Theorem C52_vnode_partial : forall (S C : Type) (init : S) (apply : S -> C -> S) (decided : list (option C)) tr n,
  vruns init apply decided (node_new init, Idle) tr (n, Idle) -> up_to_date init apply decided n.
Proof. intros. eapply vnode_up_to_date; eassumption. Qed.
Print Assumptions C52_vnode_partial.

(** A crash at any such moment - also between recording an entry as applied and applying it - is repaired by the restart, and the
    applied index is kept, so nothing that was applied is forgotten. *)
Theorem C52_vnode_restart_partial : forall (S C : Type) (init : S) (apply : S -> C -> S) (decided : list (option C)) tr n p,
  vruns init apply decided (node_new init, Idle) tr (n, p) -> p <> Installing ->
  up_to_date init apply decided (restart_vnode apply n) /\ st_applied (restart_vnode apply n) = st_applied n.
Proof.
  intros S C init apply decided tr n p R NP. split; [|reflexivity]. eapply vnode_up_to_date.
  eapply run_app; [exact R|]. eapply vr_cons; [now apply v_crash|apply vr_nil].
Qed.
Print Assumptions C52_vnode_restart_partial.

(** At every moment what the files hold is a state of the agreed history, not beyond the applied index. *)
Theorem C52_vnode_files_partial : forall (S C : Type) (init : S) (apply : S -> C -> S) (decided : list (option C)) tr n p,
  vruns init apply decided (node_new init, Idle) tr (n, p) ->
  st_disk n = state_after init apply decided (st_last_seq n) /\ 0 <= st_last_seq n <= st_applied n.
Proof. intros. eapply vnode_files; eassumption. Qed.
Print Assumptions C52_vnode_files_partial.

(** A metadata replica, as long as no crash falls between recording an entry (or snapshot) as applied and applying it. *)
Theorem C52_meta_partial : forall (S C : Type) (init : S) (apply : S -> C -> S) (decided : list (option C)) tr n,
  mruns init apply decided true (node_new init, Idle) tr (n, Idle) -> up_to_date init apply decided n.
Proof. intros. eapply meta_up_to_date; eassumption. Qed.
Print Assumptions C52_meta_partial.

(** The cases below: the engine keeps the list of the commands it got. *)
Definition put (s : list Z) (c : Z) : list Z := s ++ [c].
Definition agreed : list (option Z) := [Some 10; None; Some 20; Some 30].
Definition logged : list (entry Z) := [(1, Some 10); (2, None); (3, Some 20); (4, Some 99)].
Ltac vs tac := eapply vr_cons; [tac|].
Ltac ms tac := eapply mr_cons; [tac|].
Ltac sorted := repeat (first [apply SSorted_nil|apply SSorted_cons|apply Forall_nil|apply Forall_cons; [cbn; lia|]]).

(** Three entries are applied, the last only marked when the crash comes; the conflicting fourth entry is dropped and replaced. *)
Definition history : list (event Z) :=
  [Append logged; Mark; Apply; Flush; Mark; Apply; Purge 1; Mark; Crash; Append [(4, Some 30)]; Mark; Crash].
Definition history_end : node (list Z) Z := ND 4 [(2, None); (3, Some 20); (4, Some 30)] [10] 1 [10; 20; 30] 4.
Example C52_vnode_case : vruns [] put agreed (node_new [], Idle) history (history_end, Idle).
Proof.
  unfold history, logged.
  vs ltac:(apply v_append; [sorted|sorted]). vs ltac:(eapply v_mark; [cbn; left; reflexivity|reflexivity]). vs ltac:(eapply v_apply; cbn; left; reflexivity).
  vs ltac:(apply v_flush; discriminate). vs ltac:(eapply v_mark; [cbn; right; left; reflexivity|reflexivity]). vs ltac:(eapply v_apply; cbn; right; left; reflexivity).
  vs ltac:(apply v_purge; cbn; lia). vs ltac:(eapply v_mark; [cbn; right; left; reflexivity|reflexivity]). vs ltac:(apply v_crash; discriminate).
  vs ltac:(apply v_append; [sorted|sorted]). vs ltac:(eapply v_mark; [cbn; right; right; left; reflexivity|reflexivity]). vs ltac:(apply v_crash; discriminate).
  apply vr_nil.
Qed.
Example C52_vnode_case_state : st_mem history_end = state_after [] put agreed 4. Proof. reflexivity. Qed.

Definition meta_history : list (event Z) := [Append logged; Mark; Apply; Mark; Apply; Crash; Mark; Apply; Purge 2; Crash].
Example C52_meta_case : mruns [] put agreed true (node_new [], Idle) meta_history (ND 3 [(3, Some 20); (4, Some 99)] [10; 20] 3 [10; 20] 3, Idle).
Proof.
  unfold meta_history, logged.
  ms ltac:(apply m_append; [sorted|sorted]). ms ltac:(eapply m_mark; [cbn; left; reflexivity|reflexivity]). ms ltac:(eapply m_apply; cbn; left; reflexivity).
  ms ltac:(eapply m_mark; [cbn; right; left; reflexivity|reflexivity]). ms ltac:(eapply m_apply; cbn; right; left; reflexivity). ms ltac:(apply m_crash; reflexivity).
  ms ltac:(eapply m_mark; [cbn; right; right; left; reflexivity|reflexivity]). ms ltac:(eapply m_apply; cbn; right; right; left; reflexivity).
  ms ltac:(apply m_purge; [cbn; lia|reflexivity]). ms ltac:(apply m_crash; reflexivity). apply mr_nil.
Qed.

(** Finding: the metadata service records an entry as applied before it applies it, and applies nothing again when it starts.  A crash
    between the two loses the entry on this replica for good: here the third entry, while the fourth is applied on top. *)
Definition meta_lost : list (event Z) := [Append [(1, Some 10); (2, None); (3, Some 20); (4, Some 30)]; Mark; Apply; Mark; Apply; Mark; Crash; Mark; Apply].
Theorem C52_meta_crash_refuted : exists n,
  mruns [] put agreed false (node_new [], Idle) meta_lost (n, Idle) /\ st_applied n = 4 /\ st_mem n = [10; 30] /\ state_after [] put agreed 4 = [10; 20; 30].
Proof.
  eexists. split; [|shelve]. unfold meta_lost.
  ms ltac:(apply m_append; [sorted|sorted]). ms ltac:(eapply m_mark; [cbn; left; reflexivity|reflexivity]). ms ltac:(eapply m_apply; cbn; left; reflexivity).
  ms ltac:(eapply m_mark; [cbn; right; left; reflexivity|reflexivity]). ms ltac:(eapply m_apply; cbn; right; left; reflexivity).
  ms ltac:(eapply m_mark; [cbn; right; right; left; reflexivity|reflexivity]). ms ltac:(apply m_crash; discriminate).
  ms ltac:(eapply m_mark; [cbn; do 3 right; left; reflexivity|reflexivity]). ms ltac:(eapply m_apply; cbn; do 3 right; left; reflexivity). apply mr_nil.
  Unshelve. split; [reflexivity|split; reflexivity].
Qed.
Print Assumptions C52_meta_crash_refuted.

(** Finding: a snapshot's index is recorded as applied before its data is installed.  After a crash between the two the replica of a
    vnode claims to have applied three entries of which it holds none. *)
Theorem C52_snapshot_crash_refuted : exists n,
  vruns [] put agreed (node_new [], Idle) [InstallMark 3] (n, Installing) /\
  st_applied (restart_vnode put n) = 3 /\ st_mem (restart_vnode put n) = [] /\ state_after [] put agreed 3 = [10; 20].
Proof.
  eexists. split; [vs ltac:(apply v_imark; [cbn; lia|cbn; lia]); apply vr_nil|]. split; [reflexivity|split; reflexivity].
Qed.
Print Assumptions C52_snapshot_crash_refuted.
