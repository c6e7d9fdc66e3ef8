(** Model of how one row of a write finds its replica set, for every interface that writes rows
    (/repo/common/protocol_parser/src/lib.rs, /repo/common/protocol_parser/src/json_protocol/parser.rs,
    /repo/coordinator/src/service.rs, /repo/common/utils/src/bkdr_hash.rs), and of the rows a query finds in
    all replica sets of a database.

    Simplifications.  Strings are lists of bytes.  Timestamps are in the precision of the database.  The list of
    buckets does not change (their creation is modelled in BucketModel).  A replica set is one store of rows: it keeps
    one row per series and time and the last value of every field (MemModel, ReadModel, EngineModel).  The series key
    holds tags by column name here; the code stores column ids, which stand for one column for ever (WriteModel), so a
    renamed column is renamed in every stored row.  One request writes one row. *)
From Verif Require Import Prelude WriteModel BucketModel.

(** bkdr_hash.rs:3 and 54-58 write *)
Definition SEED : Z := 1313.
Definition hash_with (h : Z) (bytes : str) : Z := fold_left (fun n c => wrap_u64 (wrap_u64 (n * SEED) + c)) bytes h.
(** lib.rs:82-86, 96-99 and service.rs:705-706: name and value of every tag *)
Definition hash_tags (h : Z) (tags : list (str * str)) : Z :=
  fold_left (fun h t => hash_with (hash_with h (fst t)) (snd t)) tags h.

(** lib.rs:77-78, 124: [sort_by] on the tag names, a stable sort *)
Definition sort_tags (tags : list (str * str)) : list (str * str) := isort (fun a b => str_ltb (fst a) (fst b)) tags.
(** lib.rs:126 [dedup_by]: of adjacent tags with one name the first stays *)
Fixpoint dedup_from (x : str * str) (tags : list (str * str)) : list (str * str) :=
  match tags with
  | [] => [x]
  | y :: tags' => if str_eqb (fst y) (fst x) then dedup_from x tags' else x :: dedup_from y tags'
  end.
Definition dedup_tags (tags : list (str * str)) : list (str * str) :=
  match tags with [] => [] | x :: tags' => dedup_from x tags' end.

(** lib.rs:74-90 init_hash_id of a new line (hash_id = 0) *)
Definition init_hash_id (table : str) (tags : list (str * str)) : Z := hash_tags (hash_with 0 table) (sort_tags tags).
(** lib.rs:92-104, 123-129 sort_dedup_and_hash *)
Definition sort_dedup_and_hash (table : str) (tags : list (str * str)) : Z :=
  hash_tags (hash_with 0 table) (dedup_tags (sort_tags tags)).
(** service.rs:676-707, the tag columns of one row of an INSERT: the columns come in the order of the table's schema
    (query_server/query/src/extension/logical/logical_plan_builder.rs:186-245 projects every column of the table, absent
    ones as NULL), a NULL reads as "" *)
Definition record_hash (table : str) (row : list (str * option str)) : Z :=
  hash_tags (hash_with 0 table) (map (fun c => (fst c, match snd c with Some v => v | None => [] end)) row).

(** The interfaces that send lines.  [Text]: line protocol and OpenTSDB text (line_protocol/parser.rs:239-294).
    [Api]: Prometheus remote write and OpenTSDB JSON (query_server/query/src/prom/remote_server.rs:104,
    lib.rs:45-63).  [Log]: the log APIs, whose lines keep the hash 0 (json_protocol/parser.rs:554-560,
    main/src/http/http_service.rs:2843-2877). *)
Inductive via := Text | Api | Log.
Definition line_hash (v : via) (table : str) (tags : list (str * str)) : Z :=
  match v with Text => sort_dedup_and_hash table tags | Api => init_hash_id table tags | Log => 0 end.
(** the tags the line reaches the store with, by name *)
Definition line_key (v : via) (tags : list (str * str)) : list (str * str) :=
  match v with Text => dedup_tags (sort_tags tags) | _ => sort_tags tags end.
(** lines_convert.rs:338-380 and series_info.rs:87-129: a NULL tag of an INSERT is not part of the key *)
Definition record_key (row : list (str * option str)) : list (str * str) :=
  sort_tags (flat_map (fun c => match snd c with Some v => [(fst c, v)] | None => [] end) row).

(** A stored row: replica set, table, tags, time, fields *)
Record srow := SR { o_repl : Z; o_table : str; o_tags : list (str * str); o_ts : Z; o_fields : list (str * cell) }.
(** Database: the tag columns of every table, in schema order, and the rows *)
Record dbase := DB { d_tags : list (str * list str); d_rows : list srow }.

Definition tags_of (d : dbase) (table : str) : list str :=
  match find (fun p => str_eqb (fst p) table) (d_tags d) with Some p => snd p | None => [] end.
Definition set_tags (table : str) (names : list str) (l : list (str * list str)) : list (str * list str) :=
  (table, names) :: filter (fun p => negb (str_eqb (fst p) table)) l.

Fixpoint tags_eqb (a b : list (str * str)) : bool :=
  match a, b with
  | [], [] => true
  | (n, v) :: a', (m, w) :: b' => str_eqb n m && str_eqb v w && tags_eqb a' b'
  | _, _ => false
  end.
(** the last value of a field wins *)
Fixpoint put_field (f : str * cell) (l : list (str * cell)) : list (str * cell) :=
  match l with
  | [] => [f]
  | g :: l' => if str_eqb (fst g) (fst f) then f :: l' else g :: put_field f l'
  end.
Definition put_fields (fs l : list (str * cell)) : list (str * cell) := fold_left (fun l f => put_field f l) fs l.
(** one replica set keeps one row per series and time *)
Fixpoint place (r : Z) (table : str) (tags : list (str * str)) (ts : Z) (fs : list (str * cell)) (rows : list srow)
  : list srow :=
  match rows with
  | [] => [SR r table tags ts (put_fields fs [])]
  | o :: rows' =>
      if (o_repl o =? r) && str_eqb (o_table o) table && tags_eqb (o_tags o) tags && (o_ts o =? ts)
      then SR r table tags ts (put_fields fs (o_fields o)) :: rows'
      else o :: place r table tags ts fs rows'
  end.

(** service.rs:613-617, 735-738 and meta_tenant.rs:716-729, when the bucket exists; [None]: no bucket, or none of its
    replica sets *)
Definition locate (bs : list bucket) (hash ts : Z) : option Z :=
  match bucket_by_timestamp bs ts with
  | Some b => match vnode_for b hash with Some r => Some (r_id r) | None => None end
  | None => None
  end.
(** schemas.rs:104-156: tags a table does not have are added at the end of its columns *)
Definition add_names (names : list str) (have : list str) : list str :=
  fold_left (fun have n => if existsb (str_eqb n) have then have else have ++ [n]) names have.

Inductive event :=
| ELine (v : via) (table : str) (tags : list (str * str)) (ts : Z) (fs : list (str * cell))
| EInsert (table : str) (vals : list (option str)) (ts : Z) (fs : list (str * cell))  (* tags in schema order *)
| EAddTag (table name : str)                      (* ALTER TABLE ADD TAG *)
| ERename (table old new : str)                   (* ALTER TABLE RENAME COLUMN of a tag *)
| EUpdate (table : str) (old new : list (str * str)).  (* UPDATE of tag values: one series *)

Definition rename_str (old new n : str) : str := if str_eqb n old then new else n.
(** coordinator/src/service.rs:1099-1125 (dry run) and tskv/src/index/ts_index.rs:329-390: refused when a replica set
    holding the old series already has the new one *)
Definition clash (table : str) (old new : list (str * str)) (rows : list srow) : bool :=
  existsb (fun o => str_eqb (o_table o) table && tags_eqb (o_tags o) old
                    && existsb (fun p => (o_repl p =? o_repl o) && str_eqb (o_table p) table && tags_eqb (o_tags p) new) rows) rows.

Definition step (bs : list bucket) (d : dbase) (e : event) : dbase :=
  match e with
  | ELine v table tags ts fs =>
      match locate bs (line_hash v table tags) ts with
      | Some r => DB (set_tags table (add_names (map fst (line_key v tags)) (tags_of d table)) (d_tags d))
                     (place r table (line_key v tags) ts fs (d_rows d))
      | None => d
      end
  | EInsert table vals ts fs =>
      let row := combine (tags_of d table) vals in
      match fs with
      | [] => d                                   (* service.rs:728-730 FieldsIsEmpty *)
      | _ => match locate bs (record_hash table row) ts with
             | Some r => DB (d_tags d) (place r table (record_key row) ts fs (d_rows d))
             | None => d
             end
      end
  | EAddTag table name => DB (set_tags table (add_names [name] (tags_of d table)) (d_tags d)) (d_rows d)
  | ERename table old new =>
      DB (set_tags table (map (rename_str old new) (tags_of d table)) (d_tags d))
         (map (fun o => if str_eqb (o_table o) table
                        then SR (o_repl o) table (sort_tags (map (fun t => (rename_str old new (fst t), snd t)) (o_tags o)))
                                (o_ts o) (o_fields o)
                        else o) (d_rows d))
  | EUpdate table old new =>
      if clash table (sort_tags old) (sort_tags new) (d_rows d) then d
      else DB (d_tags d)
              (map (fun o => if str_eqb (o_table o) table && tags_eqb (o_tags o) (sort_tags old)
                             then SR (o_repl o) table (sort_tags new) (o_ts o) (o_fields o) else o) (d_rows d))
  end.
Definition run (bs : list bucket) (d : dbase) (es : list event) : dbase := fold_left (step bs) es d.
Definition empty : dbase := DB [] [].
(** SELECT * FROM table: the rows of every replica set (service.rs:307-326 prune_shards, all buckets) *)
Definition select (d : dbase) (table : str) : list srow := filter (fun o => str_eqb (o_table o) table) (d_rows d).
