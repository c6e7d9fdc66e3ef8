(** Histories of a replica, and what it should hold. *)
From Verif Require Import Prelude ApplyModel.

Section SPEC.
  Variables (S C : Type) (init : S) (apply : S -> C -> S).
  (** [decided]: the entries the replicas have agreed on, the first has index 1. *)
  Variable decided : list (option C).
  Definition decided_at (i : Z) : option (option C) := if i <=? 0 then None else nth_error decided (Z.to_nat (i - 1)).
  (** The state after the first [i] decided entries. *)
  Definition state_after (i : Z) : S := fold_left (app apply) (firstn (Z.to_nat i) decided) init.

  Inductive event := Append (es : list (entry C)) | Truncate (i : Z) | Purge (i : Z) | Mark | Apply | Flush | InstallMark (i : Z) | InstallData | Crash.
  (** What a replica is busy with. *)
  Inductive phase := Idle | Applying | Installing.
  Definition sorted_log (l : list (entry C)) : Prop := StronglySorted (fun a b => fst a < fst b) l.

  (** Steps of a vnode's replica, as the consensus library makes them: it appends a run of entries above the applied ones, truncates
      above the applied ones, purges what the files hold, takes up decided entries one after the other, and installs snapshots of
      decided states beyond its own.  A crash may come at any moment, except within the installation of a snapshot. *)
  Inductive vstep : node S C * phase -> event -> node S C * phase -> Prop :=
  | v_append n p es : sorted_log es -> Forall (fun e => st_applied n < fst e) es -> vstep (n, p) (Append es) (append_to_log n es, p)
  | v_truncate n p i : st_applied n < i -> vstep (n, p) (Truncate i) (delete_conflict_logs_since n i, p)
  | v_purge n p i : i <= st_last_seq n -> vstep (n, p) (Purge i) (purge_logs_upto n i, p)
  | v_mark n c : In (st_applied n + 1, c) (st_log n) -> decided_at (st_applied n + 1) = Some c ->
      vstep (n, Idle) Mark (mark_applied n (st_applied n + 1), Applying)
  | v_apply n c : In (st_applied n, c) (st_log n) -> vstep (n, Applying) Apply (engine_apply apply n (st_applied n, c), Idle)
  | v_flush n p : p <> Installing -> vstep (n, p) Flush (flush n, p)
  | v_imark n i : st_applied n < i -> (Z.to_nat i <= length decided)%nat -> vstep (n, Idle) (InstallMark i) (mark_applied n i, Installing)
  | v_idata n : vstep (n, Installing) InstallData (install_data n (state_after (st_applied n)) (st_applied n), Idle)
  | v_crash n p : p <> Installing -> vstep (n, p) Crash (restart_vnode apply n, Idle).
  Inductive vruns : node S C * phase -> list event -> node S C * phase -> Prop :=
  | vr_nil s : vruns s [] s
  | vr_cons s1 s2 s3 e tr : vstep s1 e s2 -> vruns s2 tr s3 -> vruns s1 (e :: tr) s3.

  (** Steps of a replica of the metadata service: the engine is durable; [safe] excludes a crash between the mark and the application. *)
  Inductive mstep (safe : bool) : node S C * phase -> event -> node S C * phase -> Prop :=
  | m_append n p es : sorted_log es -> Forall (fun e => st_applied n < fst e) es -> mstep safe (n, p) (Append es) (append_to_log n es, p)
  | m_truncate n p i : st_applied n < i -> mstep safe (n, p) (Truncate i) (delete_conflict_logs_since n i, p)
  | m_purge n p i : i <= st_applied n -> p = Idle -> mstep safe (n, p) (Purge i) (purge_logs_upto n i, p)
  | m_mark n c : In (st_applied n + 1, c) (st_log n) -> decided_at (st_applied n + 1) = Some c ->
      mstep safe (n, Idle) Mark (mark_applied n (st_applied n + 1), Applying)
  | m_apply n c : In (st_applied n, c) (st_log n) -> mstep safe (n, Applying) Apply (engine_apply_durable apply n (st_applied n, c), Idle)
  | m_imark n i : st_applied n < i -> (Z.to_nat i <= length decided)%nat -> mstep safe (n, Idle) (InstallMark i) (mark_applied n i, Installing)
  | m_idata n : mstep safe (n, Installing) InstallData (install_data n (state_after (st_applied n)) (st_applied n), Idle)
  | m_crash n p : (safe = true -> p = Idle) -> mstep safe (n, p) Crash (restart_meta n, Idle).
  Inductive mruns (safe : bool) : node S C * phase -> list event -> node S C * phase -> Prop :=
  | mr_nil s : mruns safe s [] s
  | mr_cons s1 s2 s3 e tr : mstep safe s1 e s2 -> mruns safe s2 tr s3 -> mruns safe s1 (e :: tr) s3.

  (** A node that is not in the middle of something holds exactly the decided entries up to its applied index, each applied once, in order. *)
  Definition up_to_date (n : node S C) : Prop := st_mem n = state_after (st_applied n) /\ st_mem_idx n = st_applied n.
End SPEC.
Arguments decided_at {C} decided i. Arguments state_after {S C} init apply decided i. Arguments vruns {S C} init apply decided. Arguments vstep {S C} init apply decided.
Arguments mruns {S C} init apply decided safe. Arguments mstep {S C} init apply decided safe. Arguments up_to_date {S C} init apply decided n. Arguments sorted_log {C} l.
Arguments Append {C} es. Arguments Truncate {C} i. Arguments Purge {C} i. Arguments Mark {C}. Arguments Apply {C}. Arguments Flush {C}. Arguments InstallMark {C} i. Arguments InstallData {C}. Arguments Crash {C}.
