(** Model of the write path: from the points of a request to the rows handed to the memory cache
    (/repo/common/protocol_parser/src/lines_convert.rs, /repo/common/models/src/mutable_batch.rs,
    /repo/tskv/src/database.rs, /repo/tskv/src/mem_cache/row_data.rs,
    /repo/common/models/src/series_info.rs) and of the schema of a table as writers and ALTER TABLE
    change it (/repo/tskv/src/schema/schemas.rs, /repo/common/models/src/schema/tskv_table_schema.rs,
    /repo/query_server/query/src/execution/ddl/alter_table.rs).

    Simplifications.  Strings are lists of bytes; a float is its bit pattern.  The flatbuffer built
    by [mutable_batches_to_point] and read back by the storage node is an external library's
    format: the columns read are the columns written.  HashMaps from names are association lists
    (their iteration order is not observable here: columns are sorted by name before they are
    written, and every series has its own entry in the result).  Geometry columns, which accept
    string values, and external tables are left out.  Column ids (u32) and schema versions (u64)
    are unbounded. *)
From Verif Require Import Prelude PrecisionModel.

Notation str := (list Z).
(** Values and their types (common/protocol_parser/src/lib.rs FieldValue; models PhysicalDType) *)
Inductive cell := CF (bits : Z) | CI (z : Z) | CU (z : Z) | CB (b : bool) | CS (s : str).
Inductive vtype := TF | TI | TU | TB | TS.
Definition type_of (c : cell) : vtype := match c with CF _ => TF | CI _ => TI | CU _ => TU | CB _ => TB | CS _ => TS end.
Definition default (t : vtype) : cell := match t with TF => CF 0 | TI => CI 0 | TU => CU 0 | TB => CB false | TS => CS [] end.
(** tskv_table_schema.rs:914-921 PhysicalCType *)
Inductive kind := KTag | KField (t : vtype) | KTime.
(** tskv_table_schema.rs PhysicalCType::to_physical_data_type *)
Definition dtype (k : kind) : vtype := match k with KTag => TS | KField t => t | KTime => TI end.
Definition vtype_eqb (a b : vtype) : bool :=
  match a, b with TF, TF | TI, TI | TU, TU | TB, TB | TS, TS => true | _, _ => false end.
Definition kind_eqb (a b : kind) : bool :=
  match a, b with KTag, KTag | KTime, KTime => true | KField x, KField y => vtype_eqb x y | _, _ => false end.
Fixpoint str_eqb (a b : str) : bool :=
  match a, b with [] , [] => true | x :: a', y :: b' => (x =? y) && str_eqb a' b' | _, _ => false end.
(** byte order of strings, as [str::cmp] *)
Fixpoint str_ltb (a b : str) : bool :=
  match a, b with
  | [], [] => false
  | [], _ => true
  | _, [] => false
  | x :: a', y :: b' => (x <? y) || ((x =? y) && str_ltb a' b')
  end.
(** [sort_by] *)
Fixpoint ins {A} (lt : A -> A -> bool) (x : A) (l : list A) : list A :=
  match l with [] => [x] | y :: l' => if lt y x then y :: ins lt x l' else x :: l end.
Definition isort {A} (lt : A -> A -> bool) (l : list A) : list A := fold_right (ins lt) [] l.

(** Results: a value, an error returned to the client, or a panic of the thread. *)
Inductive res (A : Type) := Ok (a : A) | Err | Panic.
Arguments Ok {A}. Arguments Err {A}. Arguments Panic {A}.
Definition bind {A B} (r : res A) (f : A -> res B) : res B := match r with Ok a => f a | Err => Err | Panic => Panic end.
Fixpoint mapM {A B} (f : A -> res B) (l : list A) : res (list B) :=
  match l with
  | [] => Ok []
  | x :: l' => bind (f x) (fun y => bind (mapM f l') (fun ys => Ok (y :: ys)))
  end.

(** ** Lines to column batches *)
(** protocol_parser/src/lib.rs:34-43 Line; its hash only serves routing *)
Record line := LN { l_table : str; l_tags : list (str * str); l_fields : list (str * cell); l_ts : Z }.
(** mutable_batch.rs:87-91 Column with its ColumnDataRef: values and the bits of [valid] *)
Record column := COL { c_name : str; c_kind : kind; c_data : list cell; c_valid : list bool }.
(** mutable_batch.rs:9-18 MutableBatch *)
Record batch := MB { b_cols : list column; b_rows : nat }.
Definition TIME : str := [116; 105; 109; 101].

(** Vec::resize *)
Definition resize {A} (n : nat) (d : A) (l : list A) : list A := firstn n l ++ repeat d (n - length l).
Fixpoint set_at {A} (n : nat) (v : A) (l : list A) : list A :=
  match l, n with [], _ => [] | _ :: l', O => v :: l' | x :: l', S n' => x :: set_at n' v l' end.
(** lines_convert.rs:37-43 and its copies: the value of row [n] is set and its bit appended.
    [append_n (row_count - valid.len(), false)] of arrow's BooleanBufferBuilder adds its argument to
    the length: in the release profile the difference of a second value for the same row wraps, so
    that the length goes back to [n]; the bit is then set again. *)
Definition put_cell (n : nat) (v : cell) (c : column) : column :=
  COL (c_name c) (c_kind c)
      (set_at n v (resize (S n) (default (dtype (c_kind c))) (c_data c)))
      (resize n false (c_valid c) ++ [true]).
(** mutable_batch.rs:28-46 column_mut followed by the match on the type of the column's data
    (lines_convert.rs:30-185); mutable_batch.rs:93-101 Column::new *)
Fixpoint put_col (n : nat) (name : str) (k : kind) (v : cell) (cs : list column) : res (list column) :=
  match cs with
  | [] => Ok [put_cell n v (COL name k (repeat (default (dtype k)) n) [])]
  | c :: cs' =>
      if str_eqb (c_name c) name
      then if vtype_eqb (dtype (c_kind c)) (dtype k) then Ok (put_cell n v c :: cs') else Err
      else bind (put_col n name k v cs') (fun r => Ok (c :: r))
  end.
Fixpoint put_cols (n : nat) (vs : list (str * kind * cell)) (cs : list column) : res (list column) :=
  match vs with
  | [] => Ok cs
  | (name, k, v) :: vs' => bind (put_col n name k v cs) (put_cols n vs')
  end.
(** lines_convert.rs:29-180: tags, then fields, then the time *)
Definition line_cells (l : line) : list (str * kind * cell) :=
  map (fun t => (fst t, KTag, CS (snd t))) (l_tags l)
  ++ map (fun f => (fst f, KField (type_of (snd f)), snd f)) (l_fields l)
  ++ [(TIME, KTime, CI (l_ts l))].
Definition add_line (b : batch) (l : line) : res batch :=
  bind (put_cols (b_rows b) (line_cells l) (b_cols b)) (fun cs => Ok (MB cs (S (b_rows b)))).
(** lines_convert.rs:22-28: the batch of the line's table *)
Fixpoint add_to (l : line) (bs : list (str * batch)) : res (list (str * batch)) :=
  match bs with
  | [] => bind (add_line (MB [] 0) l) (fun b => Ok [(l_table l, b)])
  | (t, b) :: bs' =>
      if str_eqb t (l_table l) then bind (add_line b l) (fun b' => Ok ((t, b') :: bs'))
      else bind (add_to l bs') (fun r => Ok ((t, b) :: r))
  end.
(** mutable_batch.rs:48-84 finish *)
Definition finish_col (n : nat) (c : column) : column :=
  if (length (c_valid c) <? n)%nat
  then COL (c_name c) (c_kind c)
           (match c_data c with [] => [] | _ => c_data c ++ repeat (default (dtype (c_kind c))) (n - length (c_data c)) end)
           (c_valid c ++ repeat false (n - length (c_valid c)))
  else c.
Fixpoint add_lines (ls : list line) (bs : list (str * batch)) : res (list (str * batch)) :=
  match ls with [] => Ok bs | l :: ls' => bind (add_to l bs) (add_lines ls') end.
(** lines_convert.rs:20-185 line_to_batches, and 187-282 mutable_batches_to_point: the columns of a
    table in the order of their names *)
Definition fin_table (tb : str * batch) : str * batch :=
  (fst tb, MB (isort (fun a b => str_ltb (c_name a) (c_name b)) (map (finish_col (b_rows (snd tb))) (b_cols (snd tb))))
              (b_rows (snd tb))).
Definition line_to_batches (ls : list line) : res (list (str * batch)) :=
  bind (add_lines ls []) (fun bs => Ok (map fin_table bs)).

(** ** Table schemas *)
(** tskv_table_schema.rs:536-542 TableColumn (its encoding is left out) *)
Record tcol := TC { t_id : Z; t_name : str; t_kind : kind }.
(** tskv_table_schema.rs:35-47 TskvTableSchema; the two indexes are recomputed from the columns *)
Record schema := SCH { s_ver : Z; s_next : Z; s_cols : list tcol }.
(** tskv_table_schema.rs:401-405 column: the index is built from the columns in order, so the last
    one of a name is found *)
Definition col_of (s : schema) (name : str) : option tcol := find (fun c => str_eqb (t_name c) name) (rev (s_cols s)).
(** tskv_table_schema.rs:358-370 add_column *)
Definition add_column (s : schema) (c : tcol) : schema :=
  SCH (s_ver s) (s_next s + 1) (match col_of s (t_name c) with Some _ => s_cols s | None => s_cols s ++ [c] end).
(** tskv_table_schema.rs:372-385 drop_column, on a schema without two columns of one name *)
Definition drop_column (s : schema) (name : str) : schema :=
  SCH (s_ver s) (s_next s) (filter (fun c => negb (str_eqb (t_name c) name)) (s_cols s)).
(** tskv_table_schema.rs:387-396 change_column as RENAME COLUMN uses it (alter_table.rs:89-105) *)
Definition rename_column (s : schema) (old new : str) : schema :=
  SCH (s_ver s) (s_next s)
      (map (fun c => if str_eqb (t_name c) old then TC (t_id c) new (t_kind c) else c) (s_cols s)).
Definition is_field (c : tcol) : bool := match t_kind c with KField _ => true | _ => false end.
(** tskv_table_schema.rs:334-347 build_fields_ids: the ids of the field columns in increasing
    order; an id's index is its last position, and the map has one entry per id *)
Definition field_ids (s : schema) : list Z := isort Z.ltb (map t_id (filter is_field (s_cols s))).
Fixpoint last_pos (x : Z) (l : list Z) : option nat :=
  match l with
  | [] => None
  | y :: l' => match last_pos x l' with Some i => Some (S i) | None => if y =? x then Some O else None end
  end.
Definition width (s : schema) : nat := length (nodup Z.eq_dec (field_ids s)).

(** ** The schema of a request *)
(** database.rs:474-535 FbSchema::from_fb_column: the tags, then the fields; a table without time or
    fields is refused *)
Definition fb_cols (b : batch) : res (list (str * kind)) :=
  let of_kind f := map (fun c => (c_name c, c_kind c)) (filter (fun c => f (c_kind c)) (b_cols b)) in
  let tags := of_kind (fun k => kind_eqb k KTag) in
  let fields := of_kind (fun k => match k with KField _ => true | _ => false end) in
  if negb (existsb (fun c => kind_eqb (c_kind c) KTime) (b_cols b)) then Err
  else match fields with [] => Err | _ => Ok (tags ++ fields) end.
(** schemas.rs:104-156, one tag or field: a column of another type is an error, a missing one is added *)
Definition ext_one (s : schema) (nk : str * kind) : res schema :=
  match col_of s (fst nk) with
  | Some c => if kind_eqb (t_kind c) (snd nk) then Ok s else Err
  | None => Ok (add_column s (TC (s_next s) (fst nk) (snd nk)))
  end.
Fixpoint ext (s : schema) (fb : list (str * kind)) : res schema :=
  match fb with [] => Ok s | nk :: fb' => bind (ext_one s nk) (fun s' => ext s' fb') end.
(** schemas.rs:86-101: a table of its own, with a time column *)
Definition new_schema : schema := add_column (SCH 0 0 []) (TC 0 TIME KTime).
(** schemas.rs:108-156, [schema_changed] *)
Definition changed (s : schema) (fb : list (str * kind)) : bool :=
  existsb (fun nk => match col_of s (fst nk) with Some _ => false | None => true end) fb.

(** *** The schema the metadata keeps for a table *)
Definition bump (s : schema) : schema := SCH (s_ver s + 1) (s_next s) (s_cols s).
(** What a request is sent to the metadata: CreateTable or UpdateTable, and whether it is accepted
    (meta/src/store/storage.rs:1109-1155 process_create_table, process_update_table; MetaModel) *)
Inductive request := RCreate (s : schema) | RUpdate (s : schema).
Definition accept (m : option schema) (r : request) : option schema :=
  match r, m with
  | RCreate s, None => Some s
  | RCreate _, Some _ => None
  | RUpdate s, None => Some s
  | RUpdate s, Some v => if s_ver v + 1 =? s_ver s then Some s else None
  end.
(** schemas.rs:72-183 check_field_type_or_else_add_impl, up to the answer of the metadata: the
    schema the writer goes on with and the request it sends, if any; [seen] is the schema it found
    in the cache or, the second time, in the metadata *)
Definition attempt (seen : option schema) (fb : list (str * kind)) : res (schema * option request) :=
  match seen with
  | None => bind (ext new_schema fb) (fun s => let s := SCH 0 (s_next s) (s_cols s) in Ok (s, Some (RCreate s)))
  | Some s0 =>
      bind (ext s0 fb) (fun s => if changed s0 fb then Ok (bump s, Some (RUpdate (bump s))) else Ok (s0, None))
  end.
(** planner.rs:1128-1138 (plan) and alter_table.rs:50-60 (execution) ALTER TABLE ADD COLUMN: the
    column's id comes from the schema at planning, the columns from the schema at execution *)
Definition alter_add (plan exec : schema) (name : str) (k : kind) : option request :=
  match col_of plan name with
  | Some _ => None
  | None => Some (RUpdate (bump (add_column exec (TC (s_next plan) name k))))
  end.
(** planner.rs:1140-1164 and alter_table.rs:62-69 ALTER TABLE DROP COLUMN *)
Definition alter_drop (plan exec : schema) (name : str) : option request :=
  match col_of plan name with
  | Some c => if is_field c && (1 <? length (filter is_field (s_cols plan)))%nat
              then Some (RUpdate (bump (drop_column exec name))) else None
  | None => None
  end.
(** planner.rs:1188-1220 and alter_table.rs:87-113 ALTER TABLE RENAME COLUMN *)
Definition alter_rename (plan exec : schema) (old new : str) : option request :=
  match col_of plan old, col_of plan new, col_of exec old with
  | Some c, None, Some _ => if kind_eqb (t_kind c) KTime then None else Some (RUpdate (bump (rename_column exec old new)))
  | _, _, _ => None
  end.

(** *** Histories of the schema of one table
    The metadata's current schema and all schemas it has had.  A node's cache holds one of them, or
    none: it is filled from the metadata and by a watch that may lag (meta/src/model/meta_tenant.rs:474-524;
    update_table leaves the cache alone).  DROP TABLE is left out. *)
Record meta := MT { m_now : option schema; m_past : list schema }.
Definition cached (m : meta) (s : option schema) : Prop := match s with None => True | Some s => In s (m_past m) end.
Definition store (m : meta) (s : schema) : meta := MT (Some s) (s :: m_past m).
Definition meta0 : meta := MT None [].
(** Somebody's request is accepted; [same] says that ALTER TABLE was planned on the schema it was
    executed on, [names] that no column is renamed. *)
Inductive change (same names : bool) (m : meta) : meta -> Prop :=
| ch_write : forall seen fb s r s', cached m seen -> attempt seen fb = Ok (s, Some r) ->
    accept (m_now m) r = Some s' -> change same names m (store m s')
| ch_add : forall p e n k r s', In p (m_past m) -> In e (m_past m) -> (same = true -> p = e) ->
    match k with KTime => False | _ => True end ->
    alter_add p e n k = Some r -> accept (m_now m) r = Some s' -> change same names m (store m s')
| ch_drop : forall p e n r s', In p (m_past m) -> In e (m_past m) -> (same = true -> p = e) ->
    alter_drop p e n = Some r -> accept (m_now m) r = Some s' -> change same names m (store m s')
| ch_rename : forall p e a b r s', names = false -> In p (m_past m) -> In e (m_past m) -> (same = true -> p = e) ->
    alter_rename p e a b = Some r -> accept (m_now m) r = Some s' -> change same names m (store m s').
Inductive changes (same names : bool) : meta -> meta -> Prop :=
| chs_nil : forall m, changes same names m m
| chs_step : forall m1 m2 m3, changes same names m1 m2 -> change same names m2 m3 -> changes same names m1 m3.

(** schemas.rs:71-191 check_field_type_or_else_add: a call that starts in [m1], ends in [m2] and
    gives the writer the schema [s].  When the request is refused the function calls itself on the
    metadata's schema and drops the result.  [first] tells that the first request was not refused. *)
Inductive call (same names : bool) (fb : list (str * kind)) : option schema -> meta -> meta -> bool -> schema -> Prop :=
| call_known : forall seen m s, cached m seen -> attempt seen fb = Ok (s, None) -> call same names fb seen m m true s
| call_stored : forall seen m m1 s r s', cached m seen -> attempt seen fb = Ok (s, Some r) ->
    changes same names m m1 -> accept (m_now m1) r = Some s' ->
    call same names fb seen m (store m1 s') true s
| call_refused : forall seen m m1 m2 m3 s r b s2, cached m seen -> attempt seen fb = Ok (s, Some r) ->
    changes same names m m1 -> accept (m_now m1) r = None ->
    changes same names m1 m2 -> call same names fb (m_now m2) m2 m3 b s2 ->
    call same names fb seen m m3 false s.

(** ** Rows *)
(** decimal text of an id ([format!("{key}")], tag.rs:31-36) *)
Fixpoint digits (fuel : nat) (n : Z) (acc : str) : str :=
  match fuel with
  | O => acc
  | S f => let acc' := (48 + n mod 10) :: acc in if n <? 10 then acc' else digits f (n / 10) acc'
  end.
Definition dec (n : Z) : str := digits 20 n [].
(** series_info.rs SeriesKey: the table and the tags, by column id, sorted by the text of the id *)
Record skey := SK { k_table : str; k_tags : list (Z * str) }.
(** series_info.rs:99-107 and row_data.rs:48-60 with its copies: the bits are taken to be as many as
    the values, a row beyond them panics *)
Definition read (c : column) (i : nat) : res (option cell) :=
  if (i <? length (c_data c))%nat
  then Ok (if nth i (c_valid c) false then Some (nth i (c_data c) (CI 0)) else None)
  else Panic.
(** series_info.rs:87-129 build_series_key *)
Fixpoint key_tags (s : schema) (i : nat) (cs : list column) : res (list (Z * str)) :=
  match cs with
  | [] => Ok []
  | c :: cs' =>
      match c_kind c with
      | KTag =>
          bind (read c i) (fun o =>
          match o with
          | None => key_tags s i cs'
          | Some v =>
              match col_of s (c_name c), v with
              | Some tc, CS v => bind (key_tags s i cs') (fun r => Ok ((t_id tc, v) :: r))
              | _, _ => Err
              end
          end)
      | _ => key_tags s i cs'
      end
  end.
Definition build_key (table : str) (s : schema) (cs : list column) (i : nat) : res skey :=
  bind (key_tags s i cs) (fun ts => Ok (SK table (isort (fun a b => str_ltb (dec (fst a)) (dec (fst b))) ts))).
(** row_data.rs:17-21 RowData *)
Record row := RW { w_ts : Z; w_fields : list (option cell) }.
(** row_data.rs:43-168, the columns of one row: the values so far, whether one was placed, the time *)
Fixpoint fill_row (s : schema) (i : nat) (cs : list column) (st : list (option cell) * bool * option Z)
  : res (list (option cell) * bool * option Z) :=
  match cs with
  | [] => Ok st
  | c :: cs' =>
      let '(fs, has, t) := st in
      match c_kind c with
      | KField _ =>
          bind (read c i) (fun o =>
          match o with
          | None => fill_row s i cs' st
          | Some v =>
              match col_of s (c_name c) with
              | None => fill_row s i cs' st
              | Some tc =>
                  match last_pos (t_id tc) (field_ids s) with
                  | None => Panic
                  | Some p => if (p <? length fs)%nat then fill_row s i cs' (set_at p (Some v) fs, true, t) else Panic
                  end
              end
          end)
      | KTime =>
          match nth_error (c_data c) i with
          | Some (CI z) => fill_row s i cs' (fs, has, Some z)
          | _ => Panic
          end
      | KTag => fill_row s i cs' st
      end
  end.
(** row_data.rs:30-196 point_to_row_data, one row; [prec] is the precision of the table's time column *)
Definition to_row (from prec : precision) (s : schema) (cs : list column) (i : nat) : res row :=
  bind (fill_row s i cs (repeat None (width s), false, None)) (fun st =>
  let '(fs, has, t) := st in
  if negb has then Err
  else match t with
       | None => Err
       | Some z => match timestamp_convert from prec z with Some z' => Ok (RW z' fs) | None => Err end
       end).

(** database.rs:247-284 build_row_data groups the rows by series; database.rs:287-345 build_index
    asks the index for the series id of a key ([sid]; IndexModel) *)
Record group := GR { g_key : skey; g_schema : schema; g_rows : list row }.
Fixpoint put_idx (sid : Z) (k : skey) (i : nat) (m : list (Z * (skey * list nat))) : list (Z * (skey * list nat)) :=
  match m with
  | [] => [(sid, (k, [i]))]
  | (x, (k', is)) :: m' => if x =? sid then (x, (k', is ++ [i])) :: m' else (x, (k', is)) :: put_idx sid k i m'
  end.
Definition by_sid (sid : skey -> Z) (keys : list skey) : list (Z * (skey * list nat)) :=
  fold_left (fun m ik => put_idx (sid (snd ik)) (snd ik) (fst ik) m) (combine (seq 0 (length keys)) keys) [].
(** HashMap::insert *)
Fixpoint put_group (sid : Z) (g : group) (m : list (Z * group)) : list (Z * group) :=
  match m with [] => [(sid, g)] | (x, y) :: m' => if x =? sid then (x, g) :: m' else (x, y) :: put_group sid g m' end.
Fixpoint put_groups (gs : list (Z * group)) (m : list (Z * group)) : list (Z * group) :=
  match gs with [] => m | (x, g) :: gs' => put_groups gs' (put_group x g m) end.
Definition build_table (from prec : precision) (sid : skey -> Z) (s : schema) (tb : str * batch) : res (list (Z * group)) :=
  let cs := b_cols (snd tb) in
  bind (mapM (build_key (fst tb) s cs) (seq 0 (b_rows (snd tb)))) (fun keys =>
  mapM (fun e => bind (mapM (to_row from prec s cs) (snd (snd e))) (fun rows => Ok (fst e, GR (fst (snd e)) s rows)))
       (by_sid sid keys)).
(** database.rs:200-245 build_write_group; [sch] is the schema obtained for a table, by [call] when
    the database is not strict, from the cache otherwise *)
Fixpoint build_group (from prec : precision) (sid : skey -> Z) (sch : str -> res schema)
    (tbs : list (str * batch)) (m : list (Z * group)) : res (list (Z * group)) :=
  match tbs with
  | [] => Ok m
  | tb :: tbs' =>
      bind (fb_cols (snd tb)) (fun _ =>
      bind (sch (fst tb)) (fun s =>
      bind (build_table from prec sid s tb) (fun gs => build_group from prec sid sch tbs' (put_groups gs m))))
  end.
Definition write (from prec : precision) (sid : skey -> Z) (sch : str -> res schema) (ls : list line) : res (list (Z * group)) :=
  bind (line_to_batches ls) (fun tbs => build_group from prec sid sch tbs []).
