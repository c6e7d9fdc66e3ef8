(** Specification of the summary: the set of live files. *)
From Verif Require Import Prelude SummaryModel.
Open Scope Z_scope.

(** The files of a vnode and the last flushed sequence number. *)
Record fset := FS { fs_files : list meta; fs_seq : Z }.
Definition fs_edit (a : fset) (e : edit) : fset :=
  FS (filter (fun m => negb (existsb (fun d => m_id d =? m_id m) (e_del e))) (fs_files a) ++ e_add e)
     (Z.max (fs_seq a) (e_seq e)).

(** A version shows a set of files: each file once, on its level, levels ordered by file id. *)
Definition shows (v : version) (a : fset) : Prop :=
  v_seq v = fs_seq a /\ length (v_levels v) = 5%nat /\
  (forall l m, In m (nth l (v_levels v) []) <-> In m (fs_files a) /\ m_level m = l) /\
  (forall l, StronglySorted (fun a b => m_id a < m_id b) (nth l (v_levels v) [])).

(** What happens to a vnode.  The crashes are: after the record of an edit is on disk and before it is
    applied; after the temporary summary is written and before it is renamed; at any other moment. *)
Inductive sop :=
| OAlloc                       (* a file id is handed out *)
| OEdit (e : edit) (rw : bool) (* an edit is applied; the summary is rewritten or not *)
| OCrashRecord (e : edit)
| OCrashRewrite (e : edit)
| ORestart
| OSnapshot (snap : version).  (* the vnode is replaced by a snapshot of another replica *)
Definition sop_run order (s : vstate) (o : sop) : vstate :=
  match o with
  | OAlloc => s_alloc s
  | OEdit e rw => s_apply s e rw true
  | OCrashRecord e => s_restart order (write_edit s e)
  | OCrashRewrite e => s_restart order (s_apply s e false true)
  | ORestart => s_restart order s
  | OSnapshot v => s_snapshot v
  end.
Definition sops_run order (h : list sop) : vstate := fold_left (sop_run order) h s_create.

Definition spec_op (a : fset) (o : sop) : fset :=
  match o with
  | OEdit e _ | OCrashRecord e | OCrashRewrite e => fs_edit a e
  | OSnapshot v => FS (renumber 1 (concat (v_levels v))) (v_seq v)
  | _ => a
  end.
Definition spec_run (h : list sop) : fset := fold_left spec_op h (FS [] 0).

(** Edits as flushes and compactions make them: added files have new, already handed out ids and a level
    below 5; a deleted file is named with its level. *)
Definition edit_ok (a : fset) (next : Z) (e : edit) : Prop :=
  e_act e = AUpd /\ 0 <= e_seq e /\ NoDup (map m_id (e_add e)) /\
  (forall m, In m (e_add e) -> (m_level m < 5)%nat /\ 0 < m_id m < next /\ m_id m <= e_fid e /\
     forall x, In x (fs_files a) -> m_id x = m_id m -> In (m_id x) (map m_id (e_del e))) /\
  e_fid e < next /\
  (forall d x, In d (e_del e) -> In x (fs_files a) -> m_id d = m_id x -> m_level d = m_level x).
(** A snapshot of a vnode: a version that shows some set of files with positive ids. *)
Definition snap_ok (v : version) : Prop :=
  exists a, shows v a /\ 0 <= fs_seq a /\ NoDup (map m_id (fs_files a)) /\
    forall m, In m (fs_files a) -> 0 < m_id m /\ (m_level m < 5)%nat.
Definition op_ok (a : fset) (next : Z) (o : sop) : Prop :=
  match o with
  | OEdit e _ | OCrashRecord e | OCrashRewrite e => edit_ok a next e
  | OSnapshot v => snap_ok v
  | _ => True
  end.
Fixpoint hist_ok order (s : vstate) (a : fset) (h : list sop) : Prop :=
  match h with
  | [] => True
  | o :: h => op_ok a (s_next s) o /\ hist_ok order (sop_run order s o) (spec_op a o) h
  end.
