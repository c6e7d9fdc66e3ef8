(** What a pick promises, and which histories are meant (C54). *)
From Verif Require Import Prelude TimeRangeModel PickModel.
Open Scope Z_scope.

(** all files of the vnode *)
Definition vnode_files (ls : list plevel) : list pfile := concat (map l_files ls).
Definition level_files (ls : list plevel) (n : Z) : list pfile := concat (map l_files (filter (fun l => l_level l =? n) ls)).
(** five levels, no two files with one id *)
Definition vnode_ok (ls : list plevel) : Prop := map l_level ls = [0; 1; 2; 3; 4] /\ NoDup (map p_id (vnode_files ls)).
Definition is_free (m : list Z) (f : pfile) : Prop := ~ In (p_id f) m.
Definition nonempty_range (t : trange) : Prop := tmin t <= tmax t.

(** new files get ids no file had *)
Definition new_ids (s : pstate) (out : list pfile) : Prop := NoDup (map p_id out) /\ forall f, In f out -> ~ In (p_id f) (ps_used s).
Definition pev_ok (s : pstate) (e : pev) : Prop :=
  match e with PFlush f => new_ids s [f] | PFinish _ _ _ out => new_ids s out | _ => True end.
Definition hist_ok (h : list pev) : Prop := forall h1 e h2, h = h1 ++ e :: h2 -> pev_ok (prun h1) e.
(** the request in which the picker leaves the file unmarked: one file, into a level whose range it overlaps *)
Definition in_gap (ls : list plevel) (q : preq) : Prop :=
  q_in q = 0 /\ exists f t, q_files q = [f] /\ p_rest f = Some t /\ tr_overlaps (range_of ls (q_out q)) t = true.
Definition no_gap (h : list pev) : Prop :=
  forall h1 trigger h2 q m, h = h1 ++ PDelta trigger :: h2 ->
    pick_delta trigger (ps_marks (prun h1)) (ps_levels (prun h1)) = (Some q, m) -> ~ in_gap (ps_levels (prun h1)) q.
Definition is_fail (e : pev) : bool := match e with PFail _ => true | _ => false end.
Definition works_on (q : preq) (i : Z) : Prop := In i (map p_id (q_files q)).

Definition sizes (l : list pfile) : Z := fold_right (fun f s => p_size f + s) 0 l.
(** [t] is newer than everything in level 1, or level 1 is empty; [r n] is the time range of level [n] *)
Definition newer (r : Z -> trange) (t : trange) : Prop := tmin (r 1) > tmax (r 1) \/ tmax (r 1) < tmin t.
(** What a delta pick is: enough files of level 0 that are newer than level 1; a file of level 0 and a file it overlaps; a file of level 0
    and the part of it in a level in which no free file overlaps it; a file of level 0 that no level overlaps *)
Inductive delta_shape (trigger : Z) (m : marks) (ls : list plevel) (q : preq) (m' : marks) : Prop :=
| d_level0 : q_out q = 1 -> Z.of_nat (length (q_files q)) = Z.max trigger 1 -> (exists keep, q_files q = filter keep (level_files ls 0)) ->
    (forall f, In f (q_files q) -> exists t, p_rest f = Some t /\ newer (range_of ls) t /\ (nonempty_range t -> tr_includes (q_range q) t = true)) ->
    m' = map p_id (q_files q) ++ m -> delta_shape trigger m ls q m'
| d_two f g t : q_files q = [f; g] -> In f (level_files ls 0) -> In g (level_files ls (q_out q)) -> p_rest f = Some t ->
    tr_overlaps (p_range g) t = true -> q_range q = p_range g -> m' = p_id g :: p_id f :: m -> delta_shape trigger m ls q m'
| d_gap f t : q_files q = [f] -> In f (level_files ls 0) -> p_rest f = Some t -> tr_intersect t (range_of ls (q_out q)) = Some (q_range q) ->
    (forall g, In g (level_files ls (q_out q)) -> tr_overlaps (p_range g) t = true -> ~ is_free m g) ->
    m' = m -> delta_shape trigger m ls q m'
| d_one f t : q_files q = [f] -> In f (level_files ls 0) -> p_rest f = Some t -> q_range q = t -> 1 < q_out q ->
    (forall n, 1 <= n <= 4 -> tr_overlaps (range_of ls n) t = false) -> m' = p_id f :: m -> delta_shape trigger m ls q m'.
