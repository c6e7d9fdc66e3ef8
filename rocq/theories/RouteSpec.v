(** Vocabulary for the statements about one row per table, tags and time. *)
From Verif Require Import Prelude WriteModel BucketModel RouteModel.

(** The value a list of tags gives a name (the first one). *)
Fixpoint tag_value (tags : list (str * str)) (n : str) : option str :=
  match tags with [] => None | t :: tags' => if str_eqb (fst t) n then Some (snd t) else tag_value tags' n end.
Fixpoint field_value (fs : list (str * cell)) (n : str) : option cell :=
  match fs with [] => None | f :: fs' => if str_eqb (fst f) n then Some (snd f) else field_value fs' n end.

(** What a client asked to be written: table, tags, time, fields.  [names] are the tag columns of the table when the
    request arrives; NULL tags of an INSERT are no tags. *)
Record wish := WISH { q_table : str; q_tags : str -> option str; q_ts : Z; q_fields : list (str * cell) }.
Definition insert_tags (names : list str) (vals : list (option str)) (n : str) : option str :=
  tag_value (flat_map (fun c => match snd c with Some v => [(fst c, v)] | None => [] end) (combine names vals)) n.
Definition wish_of (names : str -> list str) (e : event) : option wish :=
  match e with
  | ELine _ table tags ts fs => Some (WISH table (tag_value tags) ts fs)
  | EInsert table vals ts fs => Some (WISH table (insert_tags (names table) vals) ts fs)
  | _ => None
  end.
(** The requests of a history that were accepted: the bucket of their time exists and they carry a field. *)
Fixpoint wishes (bs : list bucket) (d : dbase) (es : list event) : list wish :=
  match es with
  | [] => []
  | e :: es' =>
      (match wish_of (tags_of d) e with
       | Some w => match bucket_by_timestamp bs (q_ts w) with
                   | Some b => match b_group b, q_fields w with
                               | [], _ => []
                               | _, [] => []
                               | _, _ => [w]
                               end
                   | None => []
                   end
       | None => []
       end) ++ wishes bs (step bs d e) es'
  end.
Definition same_place (table : str) (tags : str -> option str) (ts : Z) (w : wish) : Prop :=
  q_table w = table /\ (forall n, q_tags w n = tags n) /\ q_ts w = ts.
(** The value of field [f] after all requests for a table, tags and time: the last one given. *)
Inductive last_given (table : str) (tags : str -> option str) (ts : Z) (f : str) : list wish -> option cell -> Prop :=
| last_none : last_given table tags ts f [] None
| last_other ws w v : ~ same_place table tags ts w \/ field_value (q_fields w) f = None ->
    last_given table tags ts f ws v -> last_given table tags ts f (ws ++ [w]) v
| last_hit ws w v : same_place table tags ts w -> field_value (q_fields w) f = Some v ->
    last_given table tags ts f (ws ++ [w]) (Some v).

(** A query of [table] shows one row per tags and time among the rows requested, and in it every field's last value. *)
Definition one_row_each (bs : list bucket) (es : list event) (table : str) : Prop :=
  let rows := select (run bs empty es) table in
  let ws := wishes bs empty es in
  (forall i j a b, nth_error rows i = Some a -> nth_error rows j = Some b ->
     (forall n, tag_value (o_tags a) n = tag_value (o_tags b) n) -> o_ts a = o_ts b -> i = j)
  /\ (forall a, In a rows -> exists w, In w ws /\ same_place table (tag_value (o_tags a)) (o_ts a) w)
  /\ (forall w, In w ws -> q_table w = table ->
        exists a, In a rows /\ same_place table (tag_value (o_tags a)) (o_ts a) w)
  /\ (forall a f, In a rows -> last_given table (tag_value (o_tags a)) (o_ts a) f ws (field_value (o_fields a) f)).

(** Requests a client can send: distinct field names, distinct tag names where the interface does not drop repeated
    ones, one value per tag column in an INSERT, at least one field. *)
Definition request_ok (d : dbase) (e : event) : Prop :=
  match e with
  | ELine v _ tags _ fs => NoDup (map fst fs) /\ fs <> [] /\ (v <> Text -> NoDup (map fst tags))
  | EInsert table vals _ fs => NoDup (map fst fs) /\ length vals = length (tags_of d table)
  | _ => True
  end.
(** [P] holds at every request of the history, for the database as it is then. *)
Definition always (bs : list bucket) (P : dbase -> event -> Prop) (es : list event) : Prop :=
  forall es1 e es2, es = es1 ++ e :: es2 -> P (run bs empty es1) e.

Definition by_name (names : list str) : Prop := StronglySorted (fun a b => str_ltb a b = true) names.
(** Lines by any interface but the log API, and INSERTs that give every tag a value into tables whose tags are declared
    in the order of their names; tag columns are not renamed and tag values not updated. *)
Definition lines_and_full_inserts (table : str) (d : dbase) (e : event) : Prop :=
  match e with
  | ELine v t _ _ _ => t = table -> v <> Log
  | EInsert t vals _ _ => t = table -> by_name (tags_of d t) /\ ~ In None vals
  | EAddTag _ _ => True
  | ERename t _ _ | EUpdate t _ _ => t <> table
  end.
(** INSERTs only, into a table whose tags are [names] throughout. *)
Definition inserts_only (table : str) (names : list str) (d : dbase) (e : event) : Prop :=
  match e with
  | ELine _ t _ _ _ | ERename t _ _ | EUpdate t _ _ => t <> table
  | EInsert t _ _ _ => t = table -> tags_of d t = names
  | EAddTag _ _ => True
  end.
(** The log API only. *)
Definition logs_only (table : str) (d : dbase) (e : event) : Prop :=
  match e with
  | ELine v t _ _ _ => t = table -> v = Log
  | EInsert t _ _ _ | ERename t _ _ | EUpdate t _ _ => t <> table
  | EAddTag _ _ => True
  end.
(** Every bucket has 1, 2, 4, 8, 16 or 32 replica sets. *)
Definition power_of_two_shards (bs : list bucket) : Prop :=
  forall b, In b bs -> (Z.of_nat (length (b_group b)) | 32).
(** As [lines_and_full_inserts], for tables with their tags in any order. *)
Definition lines_and_inserts_any_order (table : str) (d : dbase) (e : event) : Prop :=
  match e with
  | ELine v t _ _ _ => t = table -> v <> Log
  | EInsert t vals _ _ => t = table -> ~ In None vals
  | EAddTag _ _ => True
  | ERename t _ _ | EUpdate t _ _ => t <> table
  end.
(** A query shows two rows for one table, tags and time. *)
Definition shown_twice (bs : list bucket) (es : list event) (table : str) : Prop :=
  exists i j a b, i <> j /\ nth_error (select (run bs empty es) table) i = Some a
    /\ nth_error (select (run bs empty es) table) j = Some b
    /\ (forall n, tag_value (o_tags a) n = tag_value (o_tags b) n) /\ o_ts a = o_ts b.
(** Kinds of histories in which this happens. *)
Definition only (P : event -> Prop) (d : dbase) (e : event) : Prop := P e.
Definition text_or_sorted_insert (d : dbase) (e : event) : Prop :=
  match e with
  | ELine v _ _ _ _ => v = Text
  | EInsert t _ _ _ => by_name (tags_of d t)
  | EAddTag _ _ => True
  | _ => False
  end.
Definition is_insert_or_add (e : event) : Prop := match e with EInsert _ _ _ _ | EAddTag _ _ => True | _ => False end.
Definition is_text_or_rename (e : event) : Prop := match e with ELine Text _ _ _ _ | ERename _ _ _ => True | _ => False end.
Definition is_text_or_update (e : event) : Prop := match e with ELine Text _ _ _ _ | EUpdate _ _ _ => True | _ => False end.
Definition is_line (e : event) : Prop := match e with ELine _ _ _ _ _ => True | _ => False end.
