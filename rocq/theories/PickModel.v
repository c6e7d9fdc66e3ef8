(** Model of the choice of files for compactions (/repo/tskv/src/compaction/picker.rs) and of the marks that keep a file out of two
    compactions at once (/repo/tskv/src/tsfamily/column_file.rs:194-211, version.rs:211-225, summary.rs:134-185,
    compaction/job.rs:176-246, kvcore.rs:323-372).

    Simplifications.  A file is its id, time range, size and the first time range that its tombstones leave of it ([None]: the
    tombstone file cannot be read), see C01 and C27 for the latter.  The marks are the list of marked ids.  A pick is one step: every
    mark is tested and set under the file's lock.  A pick sees the current version.  The level scores are any numbers: the code's are
    products of floating point weights and the number of free files. *)
From Verif Require Import Prelude TimeRangeModel.
Open Scope Z_scope.

Record pfile := PF { p_id : Z; p_range : trange; p_size : Z; p_rest : option trange }.
(** level_info.rs:18-28, 100-110 *)
Record plevel := PL { l_level : Z; l_files : list pfile; l_range : trange }.
Definition level_of (n : Z) (fs : list pfile) : plevel :=
  PL n fs (fold_left (fun r f => tr_merge r (p_range f)) fs tr_none).
(** compaction/mod.rs:82-91 CompactReq *)
Record preq := PR { q_files : list pfile; q_in : Z; q_out : Z; q_range : trange }.
Definition marks := list Z.
Definition marked (m : marks) (f : pfile) : bool := existsb (Z.eqb (p_id f)) m.
Definition unmark (m : marks) (ids : list Z) : marks := filter (fun i => negb (existsb (Z.eqb i) ids)) m.

(** picker.rs:112-117 compare_column_file, the stable sort *)
Definition file_le (a b : pfile) : bool :=
  (tmin (p_range a) <? tmin (p_range b)) || ((tmin (p_range a) =? tmin (p_range b)) && (p_size a <=? p_size b)).
Fixpoint ins_file (x : pfile) (l : list pfile) : list pfile :=
  match l with [] => [x] | y :: l' => if file_le x y then x :: l else y :: ins_file x l' end.
Definition sort_pfiles (l : list pfile) : list pfile := fold_right ins_file [] l.
(** picker.rs:119-190 pick_level; [score] of the level's number and of its free files *)
Definition candidate (l : plevel) : bool :=
  negb ((l_level l =? 0) || (fold_right (fun f s => p_size f + s) 0 (l_files l) =? 0) || (Z.of_nat (length (l_files l)) <=? 1)).
Definition best_level (score : Z -> Z -> Z) (m : marks) (ls : list plevel) : option plevel :=
  let sc l := score (l_level l) (Z.of_nat (length (filter (fun f => negb (marked m f)) (l_files l)))) in
  fold_left (fun best l => match best with None => Some l | Some b => if sc b <? sc l then Some l else Some b end) (filter candidate ls) None.
(** picker.rs:192-215 pick_files *)
Fixpoint pick_upto (max : Z) (picked : Z) (fs : list pfile) (m : marks) : list pfile * marks :=
  match fs with
  | [] => ([], m)
  | f :: fs' =>
      if marked m f then pick_upto max picked fs' m
      else let m1 := p_id f :: m in
           if max <=? picked + p_size f then ([f], m1)
           else let (r, m2) := pick_upto max (picked + p_size f) fs' m1 in (f :: r, m2)
  end.
(** picker.rs:46-98 LevelCompactionPicker::pick_compaction *)
Definition pick_normal (score : Z -> Z -> Z) (max : Z) (m : marks) (ls : list plevel) : option preq * marks :=
  match best_level score m ls with
  | None => (None, m)
  | Some l =>
      let (fs, m1) := pick_upto max 0 (sort_pfiles (l_files l)) m in
      match fs with
      | [] => (None, m1)
      | _ => (Some (PR fs (l_level l) (if l_level l =? 4 then 4 else l_level l + 1) tr_all), m1)
      end
  end.

(** picker.rs:221-258 advise_out_level; [r n] is the time range of level [n] *)
Definition advise (t : trange) (r : Z -> trange) : Z :=
  if (tmax (r 1) <? tmin t) || tr_is_none (r 1) then 0
  else if tmin (r 1) <? tmin t then 1
  else if ((tmax t <=? tmin (r 1)) && (tmax (r 3) <=? tmin t)) || tr_is_none (r 2) then 2
  else if ((tmax t <=? tmin (r 2)) && (tmax (r 4) <=? tmin t)) || tr_is_none (r 3) then 3
  else if (tmax t <=? tmin (r 3)) || tr_is_none (r 4) then 4
  else match find (fun n => tr_overlaps (r n) t) [1; 2; 3; 4] with Some n => n | None => 4 end.
Definition range_of (ls : list plevel) (n : Z) : trange :=
  match find (fun l => l_level l =? n) ls with Some l => l_range l | None => tr_none end.

(** picker.rs:326-418, the loop over level 0: the files picked so far, their range, the first file that is not newer than level 1 *)
Record scan := SCN { s_picked : list pfile; s_range : trange; s_other : option (pfile * Z * trange) }.
Fixpoint scan_l0 (trigger : Z) (m : marks) (r : Z -> trange) (fs : list pfile) (s : scan) : (list pfile * trange) + scan :=
  match fs with
  | [] => inr s
  | f :: fs' =>
      if marked m f then scan_l0 trigger m r fs' s
      else match p_rest f with
           | None => scan_l0 trigger m r fs' s
           | Some t =>
               let a := advise t r in
               let rng := if tr_is_none (s_range s) then t else s_range s in
               if a =? 0 then
                 let picked := s_picked s ++ [f] in
                 let rng := tr_merge rng t in
                 if trigger <=? Z.of_nat (length picked) then inl (picked, rng)
                 else scan_l0 trigger m r fs' (SCN picked rng (s_other s))
               else
                 scan_l0 trigger m r fs' (SCN [] tr_none (match s_other s with None => Some (f, a, t) | o => o end))
           end
  end.
(** picker.rs:435-472, the levels one after the other: a free file that overlaps; or the gap the file falls into *)
Fixpoint scan_levels (m : marks) (f : pfile) (t : trange) (ls : list plevel) : option (preq * list Z) :=
  match ls with
  | [] => None
  | l :: ls' =>
      if tr_overlaps (l_range l) t then
        match find (fun g => negb (marked m g) && tr_overlaps (p_range g) t) (l_files l) with
        | Some g => Some (PR [f; g] 0 (l_level l) (p_range g), [p_id g; p_id f])
        | None => match tr_intersect t (l_range l) with
                  | Some rng => Some (PR [f] 0 (l_level l) rng, [])  (* the file is not marked here *)
                  | None => scan_levels m f t ls'
                  end
        end
      else scan_levels m f t ls'
  end.
(** picker.rs:298-500 DeltaCompactionPicker::pick_compaction *)
Definition pick_delta (trigger : Z) (m : marks) (ls : list plevel) : option preq * marks :=
  match ls with
  | [] => (None, m)
  | l0 :: rest =>
      if Z.of_nat (length (l_files l0)) <? trigger then (None, m)
      else match scan_l0 trigger m (range_of ls) (l_files l0) (SCN [] tr_none None) with
           | inl (fs, rng) => (Some (PR fs 0 1 rng), map p_id fs ++ m)
           | inr s =>
               match s_other s with
               | None => (None, m)
               | Some (f, a, t) =>
                   match scan_levels m f t rest with
                   | Some (q, ids) => (Some q, ids ++ m)
                   | None => if 1 <? a then (Some (PR [f] 0 a t), p_id f :: m) else (None, m)
                   end
               end
           end
  end.

(** The vnode: its files by level, the marks, the running compactions; [ps_used] are the ids given to files so far (one generator,
    version.rs, vnode-wide: flush and compaction take ids that no file had) *)
Record pstate := PS { ps_levels : list plevel; ps_marks : marks; ps_jobs : list preq; ps_used : list Z }.
Definition ps_new : pstate := PS (map (fun n => level_of n []) [0; 1; 2; 3; 4]) [] [] [].
Definition launch (s : pstate) (x : option preq * marks) : pstate :=
  PS (ps_levels s) (snd x) (match fst x with Some q => ps_jobs s ++ [q] | None => ps_jobs s end) (ps_used s).
Definition ids_of (fs : list pfile) : list Z := map p_id fs.
(** version.rs:62-115 copy_apply_version_edits: the files [out] are added to level [n] *)
Definition put_files (n : Z) (out : list pfile) (ls : list plevel) : list plevel :=
  map (fun l => if l_level l =? n then level_of n (l_files l ++ out) else l) ls.
(** compaction/flush.rs:59-130: a flush adds a file to level 0 *)
Definition flush_file (f : pfile) (s : pstate) : pstate :=
  PS (put_files 0 [f] (ps_levels s)) (ps_marks s) (ps_jobs s) (p_id f :: ps_used s).
Fixpoint drop_nth {A} (k : nat) (l : list A) : list A :=
  match l, k with [], _ => [] | _ :: l', O => l' | x :: l', S k' => x :: drop_nth k' l' end.
(** version.rs:62-115, summary.rs:134-185: of the inputs, those that are [gone] leave their levels, the others (partly deleted) have
    less left ([rest]) and are unmarked; [out] are the new files *)
Definition finish (k : nat) (gone : Z -> bool) (rest : Z -> option trange) (out : list pfile) (s : pstate) : pstate :=
  match nth_error (ps_jobs s) k with
  | None => s
  | Some q =>
      let input i := existsb (Z.eqb i) (ids_of (q_files q)) in
      let change f := if input (p_id f) then PF (p_id f) (p_range f) (p_size f) (rest (p_id f)) else f in
      let ls := map (fun l => level_of (l_level l) (map change (filter (fun f => negb (input (p_id f) && gone (p_id f))) (l_files l)))) (ps_levels s) in
      PS (put_files (q_out q) out ls) (unmark (ps_marks s) (filter (fun i => negb (gone i)) (ids_of (q_files q))))
         (drop_nth k (ps_jobs s)) (ids_of out ++ ps_used s)
  end.
(** job.rs:219-243: a compaction that fails or finds nothing to do is forgotten; the marks stay *)
Definition fail_job (k : nat) (s : pstate) : pstate := PS (ps_levels s) (ps_marks s) (drop_nth k (ps_jobs s)) (ps_used s).
(** A restart: the marks are in memory only (column_file.rs:20-32 [compacting]) *)
Definition restart (s : pstate) : pstate := PS (ps_levels s) [] [] (ps_used s).

Inductive pev :=
| PFlush (f : pfile)
| PNormal (score : Z -> Z -> Z) (max : Z)
| PDelta (trigger : Z)
| PFinish (k : nat) (gone : Z -> bool) (rest : Z -> option trange) (out : list pfile)
| PFail (k : nat)
| PRestart.
(** picker.rs:17-38 and the callers; PDelta is also the manual compaction *)
Definition pstep (e : pev) (s : pstate) : pstate :=
  match e with
  | PFlush f => flush_file f s
  | PNormal score max => launch s (pick_normal score max (ps_marks s) (ps_levels s))
  | PDelta trigger => launch s (pick_delta trigger (ps_marks s) (ps_levels s))
  | PFinish k gone rest out => finish k gone rest out s
  | PFail k => fail_job k s
  | PRestart => restart s
  end.
Definition prun (h : list pev) : pstate := fold_left (fun s e => pstep e s) h ps_new.
