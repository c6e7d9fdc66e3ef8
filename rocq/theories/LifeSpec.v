(** What a query relies on: the files it saw when it began stay. *)
From Verif Require Import Prelude LifeModel.

(** The file of the object is on disk, and it is the one that was written for it *)
Definition intact (s : state) (o : Z) : Prop := exists x, In (o, x) (objs s) /\ In (path x, o) (disk s).
(** The object belongs to the current version *)
Definition live (s : state) (o : Z) : Prop := In o (cur s).
(** A query (or a compaction, or a snapshot being sent) that began with this version and is not finished *)
Definition holds (s : state) (r : Z) (o : Z) : Prop := exists v, In (r, v) (readers s) /\ In o v.
Definition no_snapshot (h : list event) : Prop := forall l, ~ In (FSnapshot l) h.
Definition no_restart (h : list event) : Prop := forall g, ~ In (FCrash g) h.
Definition not_closed (r : Z) (h : list event) : Prop := ~ In (FClose r) h.
(** All edits are installed *)
Definition idle (s : state) : Prop := pend s = None.
(** The files of the current version, by level and file id *)
Definition version (s : state) (l i : Z) : Prop :=
  exists o x, In o (cur s) /\ In (o, x) (objs s) /\ o_level x = l /\ o_id x = i.
