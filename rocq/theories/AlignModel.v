(** Reading one chunk (the column groups of one series in one file) when the table's schema has
    changed since it was written: projection, pruning, filtering and alignment of the columns. *)
From Verif Require Import Prelude MergeModel EvolveModel.
Open Scope Z_scope.

(** A column is [scol] of EvolveModel: id and name (the type of an id never changes, C57).  The time
    column has id 0 and name 0 ("time").  A column group is an [sblock]: [sb_cols] are its field
    columns in page order, [sb_live] its rows after the tombstones of the file.  Values are [Z]; true is 1,
    false is 0. *)
Definition time_col : scol := COL 0 0.
(** tsm/chunk.rs:116-128 schema_with_metadata: the columns of the pages of a group; the time page comes
    first (series_data.rs:214-262, writer.rs:249-316) *)
Definition g_cols (b : sblock) : list scol := time_col :: sb_cols b.
Definition g_row (r : mrow) : list (option Z) := Some (r_ts r) :: r_cols r.

(** ** Predicates *)
(** Physical expressions: columns (by name and index), literals, AND, OR; every other operator and
    function is [PUn] or [PBin] with a number.  Simplified: n-ary functions are chains of [PBin]. *)
Inductive pexpr :=
| PCol (name : Z) (idx : nat)
| PLit (v : option Z)
| PAnd (l r : pexpr)
| POr (l r : pexpr)
| PUn (op : Z) (e : pexpr)
| PBin (op : Z) (l r : pexpr).

(** arrow Schema::index_of: the first column of this name *)
Fixpoint index_of (n : Z) (cols : list scol) : option nat :=
  match cols with
  | [] => None
  | c :: cols' => if sc_name c =? n then Some O else option_map S (index_of n cols')
  end.
(** reader/utils.rs:222-239 ColumnVistor: does a column of the expression miss in the file? *)
Fixpoint missing (file : list scol) (e : pexpr) : bool :=
  match e with
  | PCol n _ => match index_of n file with Some _ => false | None => true end
  | PLit _ => false
  | PAnd l r => missing file l || missing file r
  | POr l r => missing file l || missing file r
  | PUn _ x => missing file x
  | PBin _ l r => missing file l || missing file r
  end.
Definition lit_true : pexpr := PLit (Some 1).
(** reader/utils.rs:241-298 PredicateColumnsReassigner::mutate, children first; [None] is the error
    for a column that the query's schema does not have *)
Fixpoint reassign (file full : list scol) (e : pexpr) : option pexpr :=
  match e with
  | PCol n i =>
      match index_of n file with
      | Some j => Some (PCol n j)
      | None => match index_of n full with Some _ => Some (PCol n i) | None => None end
      end
  | PLit v => Some (PLit v)
  | PAnd l r =>
      match reassign file full l, reassign file full r with
      | Some l', Some r' =>
          match missing file l', missing file r' with
          | false, false => Some (PAnd l' r')
          | true, true => Some lit_true
          | true, false => Some r'
          | false, true => Some l'
          end
      | _, _ => None
      end
  | POr l r =>
      match reassign file full l, reassign file full r with
      | Some l', Some r' => if missing file l' || missing file r' then Some lit_true else Some (POr l' r')
      | _, _ => None
      end
  | PUn op x => match reassign file full x with Some x' => Some (PUn op x') | None => None end
  | PBin op l r =>
      match reassign file full l, reassign file full r with
      | Some l', Some r' => Some (PBin op l' r')
      | _, _ => None
      end
  end.
(** reader/utils.rs:190-214 reassign_predicate_columns: no predicate at all if columns still miss *)
Definition reassign_predicate (file full : list scol) (e : pexpr) : option (option pexpr) :=
  match reassign file full e with
  | None => None
  | Some e' => Some (if missing file e' then None else Some e')
  end.

(** SQL's three-valued AND and OR *)
Definition is_true (v : option Z) : bool := match v with Some x => x =? 1 | None => false end.
Definition is_false (v : option Z) : bool := match v with Some x => x =? 0 | None => false end.
Definition and3 (a b : option Z) : option Z :=
  if is_false a || is_false b then Some 0 else if is_true a && is_true b then Some 1 else None.
Definition or3 (a b : option Z) : option Z :=
  if is_true a || is_true b then Some 1 else if is_false a && is_false b then Some 0 else None.

Section Read.
(** The other operators, and pruning by page statistics (DataFusion's PruningPredicate). *)
Variable un : Z -> option Z -> option Z.
Variable bin : Z -> option Z -> option Z -> option Z.
Variable prune : pexpr -> list scol -> list sblock -> list bool.

(** PhysicalExpr::evaluate on one row: columns are taken by index *)
Fixpoint eval (row : list (option Z)) (e : pexpr) : option Z :=
  match e with
  | PCol _ i => nth i row None
  | PLit v => v
  | PAnd l r => and3 (eval row l) (eval row r)
  | POr l r => or3 (eval row l) (eval row r)
  | PUn op x => un op (eval row x)
  | PBin op l r => bin op (eval row l) (eval row r)
  end.

(** ** Reading a column group *)
Fixpoint position (id : Z) (cols : list scol) : option nat :=
  match cols with
  | [] => None
  | c :: cols' => if sc_id c =? id then Some O else option_map S (position id cols')
  end.
(** column_group/mod.rs:44-53: the pages of the projection, in the order of the projection *)
Definition pages (proj : list Z) (cols : list scol) : list nat :=
  concat (map (fun id => match position id cols with Some i => [i] | None => [] end) proj).
Fixpoint insert_nat (n : nat) (l : list nat) : list nat :=
  match l with [] => [n] | x :: l' => if (n <=? x)%nat then n :: l else x :: insert_nat n l' end.
(** column_group/mod.rs:202-203: the pages are read by offset, which is their position in the group *)
Fixpoint by_offset (l : list nat) : list nat := match l with [] => [] | n :: l' => insert_nat n (by_offset l') end.
(** column_group/mod.rs:55-61: the schema of the stream … *)
Definition cg_schema (proj : list Z) (b : sblock) : list scol := map (fun i => nth i (g_cols b) time_col) (pages proj (g_cols b)).
(** column_group/mod.rs:195-222, tsm/reader.rs:494-560 decode_pages: … and its rows, columns by offset *)
Definition cg_rows (proj : list Z) (b : sblock) : list (list (option Z)) :=
  map (fun r => map (fun i => nth i (g_row r) None) (by_offset (pages proj (g_cols b)))) (sb_live b).

(** ** Reading a chunk *)
(** chunk.rs:12-47 filter_column_groups: pruning with the schema of the first group; the outer [None]
    is an error *)
Definition zip_keep (bits : list bool) (gs : list sblock) : list sblock := map snd (filter (fun p => fst p) (combine bits gs)).
Definition filter_groups (pred : option pexpr) (full : list scol) (gs : list sblock) : option (list sblock) :=
  match pred with
  | None => Some gs
  | Some e =>
      let sch := match gs with [] => [] | b :: _ => g_cols b end in
      match reassign_predicate sch full e with
      | None => None
      | Some None => Some gs
      | Some (Some e') => Some (zip_keep (prune e' sch gs) gs)
      end
  end.
Definition scol_eqb (a b : scol) : bool := (sc_id a =? sc_id b) && (sc_name a =? sc_name b).
Fixpoint cols_eqb (a b : list scol) : bool :=
  match a, b with
  | [], [] => true
  | x :: a', y :: b' => scol_eqb x y && cols_eqb a' b'
  | _, _ => false
  end.
(** reader/mod.rs:170-196 CombinedBatchReader, utils.rs:117-147 try_new: all groups must have the
    same fields, or the query fails (MismatchedSchema).  The first stream is the last group. *)
Definition combined (proj : list Z) (gs : list sblock) : option (list scol * list (list (option Z))) :=
  match rev gs with
  | [] => Some ([], [])
  | b :: _ =>
      let sch := cg_schema proj b in
      if forallb (fun x => cols_eqb (cg_schema proj x) sch) gs then Some (sch, concat (map (cg_rows proj) gs)) else None
  end.
(** filter.rs:42-58, 84-139 DataFilter *)
Definition data_filter (pred : option pexpr) (full sch : list scol) (rows : list (list (option Z))) : option (list (list (option Z))) :=
  match pred with
  | None => Some rows
  | Some e =>
      match reassign_predicate sch full e with
      | None => None
      | Some None => Some rows
      | Some (Some e') => Some (filter (fun r => is_true (eval r e')) rows)
      end
  end.
(** schema_alignmenter.rs:45-60, 92-131, 187-214: by column id; missing columns are filled with null *)
Definition align_rows (out sch : list scol) (rows : list (list (option Z))) : list (list (option Z)) :=
  if cols_eqb out sch then rows
  else map (fun r => map (fun c => match position (sc_id c) sch with Some i => nth i r None | None => None end) out) rows.
(** The query: its columns in the order of the table, tags marked.  mod.rs:98-113 Projection::from_schema
    (time is always there, batch/tskv.rs:489-512), iterator.rs:587-610 project_time_fields *)
Definition q_ids (q : list (scol * bool)) : list Z := map (fun p => sc_id (fst p)) q.
Definition q_full (q : list (scol * bool)) : list scol := map fst q.
Definition q_fields (q : list (scol * bool)) : list scol := map fst (filter (fun p => negb (snd p)) q).
(** iterator.rs:357-415 build_chunk_reader and 506-518; [None] is an error *)
Definition read_chunk (q : list (scol * bool)) (pred : option pexpr) (gs : list sblock) : option (list (list (option Z))) :=
  match filter_groups pred (q_full q) gs with
  | None => None
  | Some gs' =>
      match combined (q_ids q) gs' with
      | None => None
      | Some (sch, rows) =>
          match data_filter pred (q_full q) sch rows with
          | None => None
          | Some rows' => Some (align_rows (q_fields q) sch rows')
          end
      end
  end.
End Read.
