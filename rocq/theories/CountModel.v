(** Model of COUNT answered from metadata: when a COUNT is pushed down to the storage, and what the storage answers.
    query_server/query/src/extension/logical/optimizer_rule/push_down_aggregation.rs, query_server/query/src/data_source/
    batch/tskv.rs, tskv/src/reader/pushdown_agg_reader.rs and tskv/src/reader/iterator.rs.

    Names and values are integers; a value is [option Z] with [None] for NULL.  Counts are unbounded (the program adds i64
    and keeps the number of values of a page as u32). *)
From Verif Require Import Prelude.

Definition name := Z.
Inductive kind := KTime | KTag | KField.
(** common/models/src/schema/tskv_table_schema.rs:634-645 TableColumn *)
Record column := COL { c_id : Z; c_name : name; c_kind : kind }.
(** tskv_table_schema.rs:290-312 TskvTableSchema: the columns in order; new columns are put at the end (361-370) *)
Definition schema := list column.
Definition is_kind (k : kind) (c : column) : bool :=
  match k, c_kind c with KTime, KTime | KTag, KTag | KField, KField => true | _, _ => false end.
(** tskv_table_schema.rs:418-420 column_index *)
Fixpoint column_index (n : name) (s : schema) : option nat :=
  match s with
  | [] => None
  | c :: s' => if c_name c =? n then Some O else option_map S (column_index n s')
  end.
(** tskv_table_schema.rs:399-404 column *)
Definition column_of (n : name) (s : schema) : option column := find (fun c => c_name c =? n) s.
(** tskv_table_schema.rs:475-480 *)
Definition tag_num (s : schema) : nat := length (filter (is_kind KTag) s).
(** tskv_table_schema.rs:334-347 build_fields_ids: the place of a field's value in a row is the number of fields with
    a smaller id *)
Definition field_pos (s : schema) (id : Z) : nat := length (filter (fun c => is_kind KField c && (c_id c <? id)) s).

(** ** Storage of a series *)
(** tskv/src/mem_cache/row_data.rs:17-21; a group keeps all rows written, those of the same time too *)
Record mrow := MR { r_ts : Z; r_fields : list (option Z) }.
(** tskv/src/mem_cache/memcache.rs RowGroup *)
Record group := GR { g_schema : schema; g_rows : list mrow }.
(** tskv/src/tsm/page.rs: a page with its column; [num_values] is the length of the validity bits (348, 499, 593) *)
Record page := PG { p_col : column; p_vals : list (option Z) }.
(** a deletion recorded for a file: of one column's values between two times; the time column's stands for the rows *)
Record tomb := TB { t_col : Z; t_min : Z; t_max : Z }.
(** tskv/src/tsm/chunk.rs: the column groups of a series in one file *)
Record chunk := CH { ch_groups : list (list page); ch_tombs : list tomb }.
(** tskv/src/reader/mod.rs DataReference *)
Inductive source := Memcache (gs : list group) | Chunk (c : chunk).
(** a series of the table: its tags by column id, its data from oldest to newest *)
Record series := SER { s_tags : Z -> option Z; s_sources : list source }.
(** the table's series in one vnode *)
Definition vnode := list series.

(** ** Counting in the storage *)
(** pushdown_agg_reader.rs:39-50 get_rows_number_by_column_name_chunk *)
Definition count_chunk (n : name) (c : chunk) : nat :=
  list_sum (map (fun ps => list_sum (map (fun p => if c_name (p_col p) =? n then length (p_vals p) else O) ps)) (ch_groups c)).
(** pushdown_agg_reader.rs:52-75 get_rows_number_by_column_name_memcache; [index - tag_num - 1] is a usize: below zero it
    is a huge index, where [get] finds nothing *)
Definition count_row (i t : nat) (r : mrow) : nat :=
  if (i <? t + 1)%nat then O
  else match nth_error (r_fields r) (i - t - 1) with Some (Some _) => 1%nat | _ => O end.
Definition count_group (n : name) (g : group) : nat :=
  match column_index n (g_schema g) with
  | None => O
  | Some O => length (g_rows g)
  | Some i => list_sum (map (count_row i (tag_num (g_schema g))) (g_rows g))
  end.
(** pushdown_agg_reader.rs:77-98 process *)
Definition count_source (n : name) (s : source) : nat :=
  match s with Memcache gs => list_sum (map (count_group n) gs) | Chunk c => count_chunk n c end.
(** iterator.rs:339-420, 462-560: one reader per source of every series, none of them merged; 861-905, 940-990: zero where
    there is nothing.  The plan adds the counts of all vnodes (push_down_aggregation.rs:139-150 SUM). *)
Definition count_vnode (n : name) (v : vnode) : nat :=
  list_sum (map (fun s => list_sum (map (count_source n) (s_sources s))) v).
Definition count_pushed (n : name) (vs : list vnode) : nat := list_sum (map (count_vnode n) vs).

(** ** The decision *)
(** What is counted: a column, a literal, or a computed value (a function of the values of the columns) *)
Inductive expr := ECol (n : name) | ELit (null : bool) | EOther (f : (name -> option Z) -> option Z).
(** SELECT count(arg) FROM t, possibly through a projection without a name of its own (a subquery without an alias): its
    columns with their expressions.  [q_plain]: one aggregate, no GROUP BY, DISTINCT, FILTER, ORDER BY or WHERE.
    [q_exact]: exact_count was written (transform_exact_count_to_count.rs:56-79: it is not pushed down). *)
Record query := Q { q_arg : expr; q_proj : option (list (name * expr)); q_plain : bool; q_exact : bool }.
(** tskv.rs:373-423 supports_aggregate_pushdown, 159-185; push_down_aggregation.rs:59-83: the projection is passed over *)
Definition pushes (s : schema) (q : query) : option name :=
  if q_plain q && negb (q_exact q)
  then match q_arg q with
       | ECol n => match column_of n s with
                   | Some c => if is_kind KTag c then None else Some n
                   | None => None
                   end
       | ELit false => match s with c :: _ => Some (c_name c) | [] => None end
       | _ => None
       end
  else None.
