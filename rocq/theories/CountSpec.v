(** What COUNT means, from the rows a SELECT of the table shows. *)
From Verif Require Import Prelude CountModel.

(** A stored version of a row: its time, its values by column id, without what was deleted. *)
Definition version := (Z * (Z -> option Z))%type.
Definition mem_value (s : schema) (r : mrow) (id : Z) : option Z :=
  if existsb (fun c => is_kind KField c && (c_id c =? id)) s
  then match nth_error (r_fields r) (field_pos s id) with Some v => v | None => None end else None.
Definition mem_versions (g : group) : list version := map (fun r => (r_ts r, mem_value (g_schema g) r)) (g_rows g).
Definition page_of (id : Z) (ps : list page) : option page := find (fun p => c_id (p_col p) =? id) ps.
Definition page_value (ps : list page) (i : nat) (id : Z) : option Z :=
  match page_of id ps with Some p => match nth_error (p_vals p) i with Some v => v | None => None end | None => None end.
(** The id of the time column is 0. *)
Definition times (ps : list page) : list (option Z) := match page_of 0 ps with Some p => p_vals p | None => [] end.
Definition covered (ts : list tomb) (id t : Z) : bool :=
  existsb (fun x => (t_col x =? id) && (t_min x <=? t) && (t <=? t_max x)) ts.
Definition group_versions (ts : list tomb) (ps : list page) : list version :=
  flat_map (fun i => match nth_error (times ps) i with
                     | Some (Some t) => if covered ts 0 t then []
                                        else [(t, fun id => if covered ts id t then None else page_value ps i id)]
                     | _ => []
                     end) (seq 0 (length (times ps))).
Definition versions (s : source) : list version :=
  match s with
  | Memcache gs => flat_map mem_versions gs
  | Chunk c => flat_map (group_versions (ch_tombs c)) (ch_groups c)
  end.
(** All versions of the rows of a series, oldest first *)
Definition all_versions (s : series) : list version := flat_map versions (s_sources s).

(** One row is shown for every time there is a version for; a column's value is the newest one that is not NULL. *)
Definition shown_times (s : series) : list Z := nodup Z.eq_dec (map fst (all_versions s)).
Fixpoint newest (id t : Z) (vs : list version) : option Z :=
  match vs with
  | [] => None
  | v :: vs' => match newest id t vs' with
                | Some x => Some x
                | None => if fst v =? t then snd v id else None
                end
  end.
(** The value of a column of the table, by name, in the row shown at [t] *)
Definition shown_value (sch : schema) (s : series) (t : Z) (n : name) : option Z :=
  match column_of n sch with
  | None => None
  | Some c => match c_kind c with
              | KTime => Some t
              | KTag => s_tags s (c_id c)
              | KField => newest (c_id c) t (all_versions s)
              end
  end.
Definition eval (env : name -> option Z) (e : expr) : option Z :=
  match e with ECol n => env n | ELit null => if null then None else Some 1 | EOther f => f env end.
(** Through the projection if there is one *)
Definition eval_query (q : query) (env : name -> option Z) : option Z :=
  match q_proj q with
  | None => eval env (q_arg q)
  | Some ps => eval (fun n => match find (fun p => fst p =? n) ps with Some p => eval env (snd p) | None => None end) (q_arg q)
  end.
(** The number of rows shown whose counted value is not NULL *)
Definition exact_series (sch : schema) (q : query) (s : series) : nat :=
  length (filter (fun t => match eval_query q (shown_value sch s t) with Some _ => true | None => false end) (shown_times s)).
Definition exact_count (sch : schema) (q : query) (vs : list vnode) : nat :=
  list_sum (map (fun v => list_sum (map (exact_series sch q) v)) vs).

(** The answer to a query: pushed down if it is, otherwise from the rows. *)
Definition answer (sch : schema) (q : query) (vs : list vnode) : nat :=
  match pushes sch q with Some n => count_pushed n vs | None => exact_count sch q vs end.

(** ** Conditions *)
(** Schemas: the first column is time, with id 0; ids and names are distinct. *)
Definition schema_ok (s : schema) : Prop :=
  (exists c s', s = c :: s' /\ c_kind c = KTime /\ c_id c = 0 /\ (forall d, In d s' -> c_kind d <> KTime))
  /\ NoDup (map c_id s) /\ NoDup (map c_name s).
(** Pages of a column group: one per column, as many values each as times, no NULL time *)
Definition pages_ok (time : name) (ps : list page) : Prop :=
  NoDup (map (fun p => c_id (p_col p)) ps) /\ NoDup (map (fun p => c_name (p_col p)) ps)
  /\ (forall p, In p ps -> length (p_vals p) = length (times ps) /\ (c_id (p_col p) = 0 <-> c_name (p_col p) = time))
  /\ (forall t, In t (times ps) -> t <> None).
Definition source_ok (time : name) (s : source) : Prop :=
  match s with
  | Memcache gs => forall g, In g gs -> schema_ok (g_schema g) /\ column_index time (g_schema g) = Some O
  | Chunk c => forall ps, In ps (ch_groups c) -> pages_ok time ps
  end.
Definition storage_ok (sch : schema) (vs : list vnode) : Prop :=
  schema_ok sch /\ forall v s src c, In v vs -> In s v -> In src (s_sources s) -> hd_error sch = Some c -> source_ok (c_name c) src.
(** No row was written twice or deleted from a file. *)
Definition stored_once (s : series) : Prop :=
  NoDup (map fst (all_versions s))
  /\ forall c, In (Chunk c) (s_sources s) -> ch_tombs c = [].
(** In memory: the tags come before the fields, whose ids increase *)
Definition tags_first (s : schema) : Prop :=
  exists c ts fs, s = c :: ts ++ fs /\ (forall x, In x ts -> c_kind x = KTag) /\ (forall x, In x fs -> c_kind x = KField)
  /\ StronglySorted (fun a b => c_id a < c_id b) fs.
(** The column has had this name since the source was written, and no NULL is stored for it in files. *)
Definition column_kept (c : column) (s : source) : Prop :=
  match s with
  | Memcache gs => forall g, In g gs -> tags_first (g_schema g) /\ forall d, In d (g_schema g) -> (c_id d = c_id c <-> c_name d = c_name c) /\ (c_id d = c_id c -> c_kind d = c_kind c)
  | Chunk k => forall ps p, In ps (ch_groups k) -> In p ps ->
      (c_id (p_col p) = c_id c <-> c_name (p_col p) = c_name c) /\ (c_id (p_col p) = c_id c -> ~ In None (p_vals p))
  end.
(** A projection, if any, that passes the counted column on under its own name *)
Definition passes_through (q : query) : Prop :=
  match q_proj q, q_arg q with
  | Some ps, ECol n => exists e, find (fun p => fst p =? n) ps = Some (n, e) /\ e = ECol n
  | _, _ => True
  end.
Definition counts_rows (q : query) : Prop := exists null, q_arg q = ELit null.
