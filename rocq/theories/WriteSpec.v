(** What the theorems about the write path (C56, C57) say, in terms of the points of a request and of
    what a query finds. *)
From Verif Require Import Prelude PrecisionModel WriteModel.

(** A name is used by a point, as a tag, as a field of a type or as the time. *)
Definition uses (l : line) (n : str) (k : kind) : Prop :=
  (k = KTag /\ exists v, In (n, v) (l_tags l))
  \/ (exists v, In (n, v) (l_fields l) /\ k = KField (type_of v))
  \/ (k = KTime /\ n = TIME).
(** A point has at least one field and names every tag and field once (the parser drops the others,
    protocol_parser/src/lib.rs:120-126). *)
Definition clean_line (l : line) : Prop := NoDup (map fst (l_tags l)) /\ NoDup (map fst (l_fields l)) /\ l_fields l <> [].
(** In a request no name of a table is used in two ways. *)
Definition one_use (ls : list line) : Prop :=
  forall l1 l2 n k1 k2, In l1 ls -> In l2 ls -> l_table l1 = l_table l2 -> uses l1 n k1 -> uses l2 n k2 -> k1 = k2.
Definition clean (ls : list line) : Prop := (forall l, In l ls -> clean_line l) /\ one_use ls.

(** A schema whose columns have different ids and different names. *)
Definition good (s : schema) : Prop := NoDup (map t_id (s_cols s)) /\ NoDup (map t_name (s_cols s)).
(** It has a column of name [n] and of kind [k]. *)
Definition has (s : schema) (n : str) (k : kind) : Prop := exists c, In c (s_cols s) /\ t_name c = n /\ t_kind c = k.
(** The schema [s] the point was written with has a column for each of its tags and fields, and [m]
    knows the column by the same id under the same name. *)
Definition known (s m : schema) (l : line) : Prop :=
  forall n k, uses l n k -> k <> KTime ->
    exists c c', In c (s_cols s) /\ In c' (s_cols m) /\ t_name c = n /\ t_kind c = k
                 /\ t_id c' = t_id c /\ t_name c' = n.

(** The rows handed to the cache, each with the series key and the schema of its group. *)
Definition stored (gs : list (Z * group)) : list (skey * schema * row) :=
  flat_map (fun xg => map (fun r => (g_key (snd xg), g_schema (snd xg), r)) (g_rows (snd xg))) gs.
(** The values of a row by column id: the cache keeps them in the order of the ids of the fields of
    the group's schema (MemModel). *)
Definition values (s : schema) (r : row) : list (Z * cell) :=
  flat_map (fun iv => match snd iv with Some v => [(fst iv, v)] | None => [] end) (combine (field_ids s) (w_fields r)).
(** The name a schema gives to an id, and a list of values by id with the ids so named. *)
Definition name_of (m : schema) (id : Z) : option str := option_map t_name (find (fun c => t_id c =? id) (s_cols m)).
Definition named {A} (m : schema) (l : list (Z * A)) : list (str * A) :=
  flat_map (fun iv => match name_of m (fst iv) with Some n => [(n, snd iv)] | None => [] end) l.
(** Under the schema [m] a query sees the row as the point [l] written with precision [from]. *)
Definition reads (from prec : precision) (m : schema) (kr : skey * schema * row) (l : line) : Prop :=
  let '(k, s, r) := kr in
  k_table k = l_table l
  /\ Some (w_ts r) = timestamp_convert from prec (l_ts l)
  /\ Permutation (named m (k_tags k)) (l_tags l)
  /\ Permutation (named m (values s r)) (l_fields l).

(** The metadata of a table as it can be found, when ALTER TABLE statements are planned and executed
    on the same schema, with or without renamed columns. *)
Definition reachable (same names : bool) (m : meta) : Prop := changes same names meta0 m.
(** A later schema has kept a column of the schema a writer used. *)
Definition keeps (m : schema) (n : str) : Prop := exists c, In c (s_cols m) /\ t_name c = n.
(** The columns a request asks of a table: what the node reads off the request's batch of the table. *)
Definition asked (ls : list line) (t : str) (fb : list (str * kind)) : Prop :=
  exists bs b, line_to_batches ls = Ok bs /\ In (t, b) bs /\ fb_cols b = Ok fb.
(** The columns of [s] the point uses have not been dropped from [m]. *)
Definition not_dropped (s m : schema) (l : line) : Prop :=
  forall c, In c (s_cols s) -> uses l (t_name c) (t_kind c) -> t_kind c <> KTime -> exists c', In c' (s_cols m) /\ t_id c' = t_id c.
