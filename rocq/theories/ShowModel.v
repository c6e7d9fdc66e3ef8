(** SHOW SERIES and SHOW TAG VALUES: their plans (query_server/query/src/sql/planner.rs:1314-1421, 2752-2907), the optimizer rule
    that answers scans of tags from the index (query_server/query/src/extension/logical/optimizer_rule/rewrite_tag_scan.rs), the
    filters the table takes over (query_server/query/src/data_source/batch/tskv.rs:351-371, 426-447, extension/expr/expr_utils.rs:48-85)
    and the scan of the index (tskv/src/reader/tag_scan.rs, tskv/src/index/ts_index.rs:397-508).
    A column is a number, a name or tag value a list of bytes.  DataFusion's optimizer is taken to split the WHERE clause into
    conjuncts, to ask the table about each, to keep a Filter for those not taken over exactly and to add the columns of the
    filters to the projection of the scan. *)
From Verif Require Import Prelude TimeRangeModel DomainModel FilterModel FilterSpec.

(** A tag column: its number and name. *)
Record tcol := Tcol { k_col : Z; k_name : list Z }.
(** A series as one vnode has it: the tags in the index, the times of its rows.  A table is the list of the series of all its
    vnodes; the same tags may occur in many vnodes. *)
Record series := Series { s_tags : list (Z * list Z); s_times : list Z }.
Definition tag_of (s : series) (c : Z) : option (list Z) :=
  match find (fun x => fst x =? c) (s_tags s) with Some x => Some (snd x) | None => None end.
(** A row of the series; SHOW does not look at fields. *)
Definition srow (s : series) (t : Z) : row :=
  fun c => if c =? TIME then Some (SNum TSK t) else match tag_of s c with Some v => Some (SStr v) | None => None end.

(** split_conjunction and conjunction of DataFusion. *)
Fixpoint conjuncts (e : expr) : list expr := match e with EAnd a b => conjuncts a ++ conjuncts b | _ => [e] end.
Definition conjunction (l : list expr) : option expr :=
  match l with [] => None | x :: l => Some (fold_left EAnd l x) end.
(** can_exact_filter, expr_utils.rs:48-85: a column, possibly cast, against a literal, and not with != *)
Definition is_column (e : expr) : bool := match e with ECol _ => true | ECast _ (ECol _) => true | _ => false end.
Definition is_literal (e : expr) : bool := match e with ELit _ => true | _ => false end.
Definition can_exact (e : expr) : bool :=
  match e with
  | ECmp o a b => ((is_column a && is_literal b) || (is_column b && is_literal a)) && match o with ONe => false | _ => true end
  | _ => false
  end.
Definition holds (e : expr) (r : row) : bool := match eval e r with Some (SBool true) => true | _ => false end.
(** What remains of the WHERE clause above the scan. *)
Definition kept (e : option expr) : list expr :=
  match e with Some e => filter (fun c => negb (can_exact c)) (conjuncts e) | None => [] end.
(** The filter handed to the scan, and the tag domains and time ranges made of it. *)
Definition pushed_down (is_tag : Z -> bool) (e : option expr) : tranges * cdomains :=
  match match e with Some e => conjunction (conjuncts e) | None => None end with
  | Some e => push_down is_tag e
  | None => (trs_new [tr_all], cd_all)
  end.

(** get_series_ids_by_domain, ts_index.rs:451-508, on the value of one tag: a range or a set asks the tag to be there, the complement
    of a set is not looked at. *)
Definition above_lowb (v : scalar) (m : marker) : bool :=
  match m_val m with
  | None => true
  | Some a => match scalar_cmp a v with Lt => true | Eq => bound_eqb (m_bound m) Exactly | Gt => false end
  end.
Definition below_highb (v : scalar) (m : marker) : bool :=
  match m_val m with
  | None => true
  | Some a => match scalar_cmp v a with Lt => true | Eq => bound_eqb (m_bound m) Exactly | Gt => false end
  end.
Definition by_domain (d : domain) (v : option scalar) : bool :=
  match d with
  | DRange m => match v with Some v => existsb (fun r => above_lowb v (low r) && below_highb v (high r)) (rm_values m) | None => false end
  | DEqutable s => if v_white s then match v with Some v => existsb (fun x => scalar_eqb (snd x) v) (v_entries s) | None => false end else true
  | DNone => false
  | DAll => true
  end.
(** get_series_ids_by_domains, 397-449 *)
Definition by_domains (m : cdomains) (r : row) : bool :=
  match m with None => false | Some m => forallb (fun x => by_domain (snd x) (r (fst x))) m end.

Definition bytes_eqb (a b : list Z) : bool := if list_eq_dec Z.eq_dec a b then true else false.
Definition tuple := list (option (list Z)).
Definition tuple_dec : forall a b : tuple, {a = b} + {a <> b}.
Proof. apply list_eq_dec. decide equality. apply list_eq_dec. exact Z.eq_dec. Defined.
Definition pair_dec : forall a b : list Z * list Z, {a = b} + {a <> b}.
Proof. decide equality; apply list_eq_dec; exact Z.eq_dec. Defined.
Definition distinct := nodup tuple_dec.
Definition tuple_of (tags : list tcol) (s : series) : tuple := map (fun k => tag_of s (k_col k)) tags.
(** The row the operators above the scan see. *)
Fixpoint trow (tags : list tcol) (t : tuple) : row :=
  fun c => match tags, t with
           | k :: tags, v :: t => if c =? k_col k then match v with Some v => Some (SStr v) | None => None end else trow tags t c
           | _, _ => None
           end.

(** The scan of the index, tag_scan.rs:47-76 and series_keys_to_record_batch, with the DISTINCT that rewrite_tag_scan puts above it:
    the rest of the filter handed to the scan is not looked at. *)
Definition tag_scan (tags : list tcol) (e : option expr) (data : list series) : list tuple :=
  let is_tag c := existsb (fun k => k_col k =? c) tags in
  distinct (map (tuple_of tags) (filter (fun s => by_domains (snd (pushed_down is_tag e)) (srow s 0)) data)).
(** The scan of the data: the reader prunes by time ranges and tag domains and applies the whole filter (tskv/src/reader/filter.rs). *)
Definition table_scan (tags : list tcol) (e : option expr) (data : list series) : list (series * Z) :=
  let is_tag c := existsb (fun k => k_col k =? c) tags in
  let p := pushed_down is_tag e in
  flat_map (fun s => map (fun t => (s, t))
    (filter (fun t => trs_contains (fst p) t && by_domains (snd p) (srow s t) && match e with Some e => holds e (srow s t) | None => true end) (s_times s))) data.

(** show_tag_body with its projections, on tuples of all tags: RewriteTagScan fires when the projection has a tag and no time, that
    is when the WHERE clause does not mention time; then the Filter with the conjuncts that were kept. *)
Definition listed (tags : list tcol) (e : option expr) (where_contain_time : bool) (data : list series) : list tuple :=
  if where_contain_time then distinct (map (fun x => tuple_of tags (fst x)) (table_scan tags e data))
  else filter (fun t => forallb (fun c => holds c (trow tags t)) (kept e)) (tag_scan tags e data).

(** concat_ws(',', table, CASE WHEN tag IS NULL THEN NULL ELSE 'tag=' || tag END, ...), 2797-2815 *)
Fixpoint key_tags (tags : list tcol) (t : tuple) : list Z :=
  match tags, t with
  | k :: tags, v :: t => match v with Some v => 44 :: k_name k ++ 61 :: v | None => [] end ++ key_tags tags t
  | _, _ => []
  end.
Definition key (name : list Z) (tags : list tcol) (t : tuple) : list Z := name ++ key_tags tags t.

(** SHOW SERIES, show_series_projection, 2778-2817.  A table without tags has no tag in the projection: the data are scanned and
    every row gives a key (with a condition on time the projection is empty; this case is left out). *)
Definition show_series (name : list Z) (tags : list tcol) (e : option expr) (where_contain_time : bool) (data : list series) : list (list Z) :=
  match tags with
  | [] => map (fun _ => name) (table_scan tags e data)
  | _ => map (key name tags) (listed tags e where_contain_time data)
  end.

(** WITH KEY, 2825-2851: the tags whose values are asked for. *)
Inductive with_key := WEqual (n : list Z) | WUnEqual (n : list Z) | WIn (l : list (list Z)) | WNotIn (l : list (list Z)).
Definition with_ok (w : with_key) (k : tcol) : bool :=
  match w with
  | WEqual n => bytes_eqb n (k_name k)
  | WUnEqual n => negb (bytes_eqb n (k_name k))
  | WIn l => existsb (fun n => bytes_eqb (k_name k) n) l
  | WNotIn l => forallb (fun n => negb (bytes_eqb (k_name k) n)) l
  end.
(** SHOW TAG VALUES, show_tag_value_projections, 2819-2907.  The projection of each scan is narrower than all tags, it has the tag
    and the columns of the filter; this changes only duplicates, which the DISTINCTs above remove. *)
Definition show_tag_values (w : with_key) (tags : list tcol) (e : option expr) (where_contain_time : bool) (data : list series) : list (list Z * list Z) :=
  nodup pair_dec (flat_map (fun k =>
    nodup pair_dec (flat_map (fun t => match trow tags t (k_col k) with Some (SStr v) => [(k_name k, v)] | _ => [] end)
      (listed tags e where_contain_time data))) (filter (with_ok w) tags)).

(** A scan of one tag column in any plan, such as a subquery of the WHERE clause: push_down_projection (tskv.rs:426-447) adds the time
    column unless the whole statement is a SHOW, so that RewriteTagScan does not fire. *)
Definition scan_tag (is_show : bool) (k : tcol) (data : list series) : list (option (list Z)) :=
  if is_show then map (fun t => hd None t) (tag_scan [k] None data)
  else map (fun x => tag_of (fst x) (k_col k)) (table_scan [k] None data).
(** SELECT k FROM t GROUP BY k HAVING count( * ) > n *)
Definition opt_dec : forall a b : option (list Z), {a = b} + {a <> b}.
Proof. decide equality. apply list_eq_dec. exact Z.eq_dec. Defined.
Definition having (is_show : bool) (k : tcol) (n : Z) (data : list series) : list (option (list Z)) :=
  let l := scan_tag is_show k data in
  filter (fun v => n <? Z.of_nat (count_occ opt_dec l v)) (nodup opt_dec l).
