(** The life of a data file: the objects of the versions of a vnode, the queries that hold them, and the
    files on disk. *)
From Verif Require Import Prelude.
Open Scope Z_scope.

(** tskv/src/tsfamily/column_file.rs:25-36 ColumnFile; shared by reference counting (Arc), so an object has
    an identity (its first component in [objs]).  Left out: time range, size, bloom filter, and the mark of
    compactions (C54). *)
Record obj := OB { o_level : Z; o_id : Z; o_del : bool }.
(** tskv/src/tsfamily/level_info.rs:73-79: the path is the directory of delta files (level 0) or of the
    others, and the file id *)
Definition path (x : obj) : bool * Z := (o_level x =? 0, o_id x).
Definition path_eqb (p q : bool * Z) : bool := Bool.eqb (fst p) (fst q) && (snd p =? snd q).

(** tskv/src/tsfamily/tseries_family.rs: the current version ([cur]), a version that is built but not yet
    installed ([pend]), the super versions that queries, compactions and snapshots hold ([readers]); the
    files on disk, each with the object it was written for; the next file id (utils/src/id_generator.rs)
    and the next identity. *)
Record state := LS {
  objs : list (Z * obj);
  cur : list Z;
  pend : option (list Z);
  readers : list (Z * list Z);
  disk : list ((bool * Z) * Z);
  gen : Z;
  oid : Z
}.
Definition start : state := LS [] [] None [] [] 1 0.

Definition mem (l : list Z) (i : Z) : bool := existsb (Z.eqb i) l.
Definition target (s : state) : list Z := match pend s with Some n => n | None => cur s end.
Definition refs (s : state) : list Z := cur s ++ target s ++ concat (map snd (readers s)).

(** column_file.rs:213-268 Drop for ColumnFile, for every object that is not held any more: a file that is
    marked is removed from disk, by its path.  Left out: its tombstone and the reader cache. *)
Definition dropped (s : state) (p : bool * Z) : bool :=
  existsb (fun ox => negb (mem (refs s) (fst ox)) && o_del (snd ox) && path_eqb (path (snd ox)) p) (objs s).
Definition gc (s : state) : state :=
  LS (filter (fun ox => mem (refs s) (fst ox)) (objs s)) (cur s) (pend s) (readers s)
     (filter (fun f => negb (dropped s (fst f))) (disk s)) (gen s) (oid s).

(** New objects for new files of the given levels, with the next file ids *)
Fixpoint fresh (o i : Z) (levels : list Z) : list (Z * obj) :=
  match levels with
  | [] => []
  | l :: r => (o, OB l i false) :: fresh (o + 1) (i + 1) r
  end.
(** A new file takes the place of one with its path *)
Fixpoint write (new : list (Z * obj)) (d : list ((bool * Z) * Z)) : list ((bool * Z) * Z) :=
  match new with
  | [] => d
  | (o, x) :: r => (path x, o) :: filter (fun f => negb (path_eqb (fst f) (path x))) (write r d)
  end.
(** version.rs:85-90: the edit names files by level and id *)
Definition named (dels : list (Z * Z)) (x : obj) : bool :=
  existsb (fun d => (fst d =? o_level x) && (snd d =? o_id x)) dels.

Inductive event :=
| FOpen (r : Z)                                   (** tseries_family.rs:370-372 super_version *)
| FClose (r : Z)                                  (** it is dropped *)
| FEdit (levels : list Z) (dels : list (Z * Z))   (** a flush or compaction writes files; summary.rs:136-168 *)
| FInstall                                        (** summary.rs:178-183, tseries_family.rs:133-156 new_version *)
| FSnapshot (levels : list Z)                     (** vnode_store.rs:174-212 apply_snapshot *)
| FCrash (g : Z).                                 (** restart; summary.rs:54-133 recover gives the next id *)

(** One step; [None] if it cannot happen.
    [FEdit]: version.rs:62-112 copy_apply_version_edits marks the deleted files while the old version is
    still current.  Simplified: the new files are written in the same step; the summary takes one edit at a
    time.
    [FSnapshot]: database.rs:188-197 removes the directory, summary.rs:37-51 starts file ids at 1 again,
    database.rs:130-186 moves in the files of the snapshot.
    [FCrash]: the edit is in the summary before it is applied (C26); file ids of the recovered version are
    not handed out again, others may be; nothing on disk is cleaned. *)
Definition step (s : state) (e : event) : option state :=
  match e with
  | FOpen r =>
      if mem (map fst (readers s)) r then None
      else Some (LS (objs s) (cur s) (pend s) ((r, cur s) :: readers s) (disk s) (gen s) (oid s))
  | FClose r =>
      Some (gc (LS (objs s) (cur s) (pend s) (filter (fun q => negb (fst q =? r)) (readers s)) (disk s) (gen s) (oid s)))
  | FEdit levels dels =>
      match pend s with
      | Some _ => None
      | None =>
          let hit ox := mem (cur s) (fst ox) && named dels (snd ox) in
          let new := fresh (oid s) (gen s) levels in
          let old := map (fun ox => if hit ox then (fst ox, OB (o_level (snd ox)) (o_id (snd ox)) true) else ox) (objs s) in
          let kept := map fst (filter (fun ox => mem (cur s) (fst ox) && negb (named dels (snd ox))) (objs s)) in
          Some (LS (new ++ old) (cur s) (Some (map fst new ++ kept)) (readers s) (write new (disk s))
                   (gen s + Z.of_nat (length levels)) (oid s + Z.of_nat (length levels)))
      end
  | FInstall =>
      match pend s with
      | Some n => Some (gc (LS (objs s) n None (readers s) (disk s) (gen s) (oid s)))
      | None => None
      end
  | FSnapshot levels =>
      match pend s with
      | Some _ => None
      | None =>
          let new := fresh (oid s) 1 levels in
          Some (gc (LS (new ++ objs s) (map fst new) None (readers s) (write new [])
                       (1 + Z.of_nat (length levels)) (oid s + Z.of_nat (length levels))))
      end
  | FCrash g =>
      let live := filter (fun ox => mem (target s) (fst ox)) (objs s) in
      if forallb (fun ox => o_id (snd ox) <? g) live
      then Some (LS live (target s) None [] (disk s) g (oid s))
      else None
  end.
Fixpoint run (s : state) (h : list event) : option state :=
  match h with
  | [] => Some s
  | e :: r => match step s e with Some s' => run s' r | None => None end
  end.
