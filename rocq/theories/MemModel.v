(** Model of the in-memory cache of a vnode
    (/repo/tskv/src/mem_cache/row_data.rs:212-267, series_data.rs:14-320, memcache.rs:82-270,
    database.rs:250-284).

    Simplifications.  Field values are opaque numbers; a schema is its version and the ids of its
    field columns in increasing order (tskv_table_schema.rs:334-347 [build_fields_ids] numbers
    field columns in that order, so a field's index is its position in the list).  The cache's
    byte accounting is the memory pool (MemPoolModel) and is left out here.  [OrderedSkipList] is
    the external crate skiplist 0.5.1: a list ordered by time stamp whose [insert] puts an element
    in front of the elements equal to it (the order [delete_by_time_ranges] relies on when it
    re-inserts a list backwards, series_data.rs:151-158). *)
From Verif Require Import Prelude MergeModel.

Record mschema := SC { s_ver : Z; s_cols : list Z }.
(** series_data.rs:14-20 RowGroup *)
Record rgroup := RG { g_schema : mschema; g_min : Z; g_max : Z; g_rows : list mrow }.
(** series_data.rs:22-28 SeriesData *)
Record sdata := SD { d_min : Z; d_max : Z; d_groups : list rgroup }.

(** row_data.rs:242-244 OrderedRowsData::insert *)
Fixpoint sl_insert (r : mrow) (l : list mrow) : list mrow :=
  match l with
  | [] => [r]
  | x :: l' => if r_ts x <? r_ts r then x :: sl_insert r l' else r :: l
  end.
Definition sl_extend (l : list mrow) (rs : list mrow) : list mrow := fold_left (fun acc r => sl_insert r acc) rs l.
(** database.rs:269-279 build_row_data: the group of one series in one write *)
Definition new_group (sc : mschema) (rs : list mrow) : rgroup :=
  fold_left (fun g r => RG sc (Z.min (g_min g) (r_ts r)) (Z.max (g_max g) (r_ts r)) (sl_insert r (g_rows g)))
            rs (RG sc I64_MAX I64_MIN []).
(** series_data.rs:31-41 SeriesData::new *)
Definition sd_new : sdata := SD I64_MAX I64_MIN [].
(** series_data.rs:46-55, on the reversed list of groups: the last group with the schema version of
    the incoming one takes its rows, in the order of iteration *)
Fixpoint write_back (gs : list rgroup) (g : rgroup) : option (list rgroup) :=
  match gs with
  | [] => None
  | x :: gs' =>
      if s_ver (g_schema x) =? s_ver (g_schema g)
      then Some (RG (g_schema g) (Z.min (g_min x) (g_min g)) (Z.max (g_max x) (g_max g))
                    (sl_extend (g_rows x) (g_rows g)) :: gs')
      else match write_back gs' g with Some r => Some (x :: r) | None => None end
  end.
(** series_data.rs:43-58 SeriesData::write *)
Definition sd_write (d : sdata) (g : rgroup) : sdata :=
  SD (Z.min (d_min d) (g_min g)) (Z.max (d_max d) (g_max g))
     (match write_back (rev (d_groups d)) g with
      | Some r => rev r
      | None => d_groups d ++ [g]
      end).
(** The index of a column among the fields of a schema (tskv_table_schema.rs:334-347). *)
Fixpoint index_of (c : Z) (l : list Z) : option nat :=
  match l with
  | [] => None
  | x :: l' => if x =? c then Some O else match index_of c l' with Some i => Some (S i) | None => None end
  end.
Fixpoint remove_nth {A} (i : nat) (l : list A) : list A :=
  match i, l with
  | _, [] => []
  | O, _ :: l' => l'
  | S i', x :: l' => x :: remove_nth i' l'
  end.
(** series_data.rs:60-83 SeriesData::drop_column *)
Definition sd_drop_column (d : sdata) (c : Z) : sdata :=
  SD (d_min d) (d_max d)
     (map (fun g =>
        match index_of c (s_cols (g_schema g)) with
        | None => g
        | Some i =>
            RG (SC (s_ver (g_schema g)) (remove_nth i (s_cols (g_schema g)))) (g_min g) (g_max g)
               (sl_extend [] (map (fun r => MR (r_ts r) (remove_nth i (r_cols r))) (g_rows g)))
        end) (d_groups d)).
(** series_data.rs:103-112 SeriesData::delete_series *)
Definition sd_delete_series (d : sdata) (lo hi : Z) : sdata :=
  if (hi <? d_min d) || (lo >? d_max d) then d
  else SD (d_min d) (d_max d)
          (map (fun g => RG (g_schema g) (g_min g) (g_max g)
                            (filter (fun r => (r_ts r <? lo) || (r_ts r >? hi)) (g_rows g))) (d_groups d)).
(** series_data.rs:154-175, one time range of delete_by_time_ranges *)
Definition sd_delete_range (d : sdata) (tr : Z * Z) : sdata :=
  let '(lo, hi) := tr in
  if (hi <? d_min d) || (lo >? d_max d) then d
  else SD (d_min d) (d_max d)
          (map (fun g => RG (g_schema g) (g_min g) (g_max g)
                            (sl_extend [] (filter (fun r => (r_ts r <? lo) || (r_ts r >? hi)) (rev (g_rows g)))))
               (d_groups d)).
(** series_data.rs:154-175 SeriesData::delete_by_time_ranges *)
Definition sd_delete_ranges (d : sdata) (trs : list (Z * Z)) : sdata := fold_left sd_delete_range trs d.

(** ** SeriesDedupMergeSortIterator *)
(** series_data.rs:306-314: the value a row of a group contributes to a column *)
Definition field_of (cols : list Z) (r : mrow) (c : Z) : option Z :=
  match index_of c cols with Some i => nth i (r_cols r) None | None => None end.
Definition fill (align cols : list Z) (r : mrow) (acc : list (option Z)) : list (option Z) :=
  map (fun ac => match fst ac with Some v => Some v | None => field_of cols r (snd ac) end) (combine acc align).
(** series_data.rs:300-318: consume the rows of one group at the minimal time stamp *)
Fixpoint consume (align cols : list Z) (t : Z) (rows : list mrow) (acc : list (option Z)) : list (option Z) * list mrow :=
  match rows with
  | [] => (acc, [])
  | r :: rows' => if r_ts r =? t then consume align cols t rows' (fill align cols r acc) else (acc, rows)
  end.
(** series_data.rs:299: the groups are visited from the last to the first *)
Fixpoint consume_all (align : list Z) (t : Z) (gs : list (list Z * list mrow)) (acc : list (option Z))
  : list (option Z) * list (list Z * list mrow) :=
  match gs with
  | [] => (acc, [])
  | (cols, rows) :: gs' =>
      let '(acc1, gs1) := consume_all align t gs' acc in
      let '(acc2, rows2) := consume align cols t rows acc1 in
      (acc2, (cols, rows2) :: gs1)
  end.
(** series_data.rs:281-289: the least head, starting from [i64::MAX] *)
Definition min_head (gs : list (list Z * list mrow)) : Z :=
  fold_left (fun m g => match snd g with r :: _ => if m >? r_ts r then r_ts r else m | [] => m end) gs I64_MAX.
(** series_data.rs:278-321 Iterator::next *)
Definition it_next (align : list Z) (gs : list (list Z * list mrow)) : option (mrow * list (list Z * list mrow)) :=
  let t := min_head gs in
  if t =? I64_MAX then None
  else let '(acc, gs') := consume_all align t gs (map (fun _ => None) align) in Some (MR t acc, gs').
Fixpoint it_run (fuel : nat) (align : list Z) (gs : list (list Z * list mrow)) : list mrow :=
  match fuel with
  | O => []
  | S fuel' => match it_next align gs with None => [] | Some (r, gs') => r :: it_run fuel' align gs' end
  end.
Definition flat (d : sdata) : list (list Z * list mrow) := map (fun g => (s_cols (g_schema g), g_rows g)) (d_groups d).
(** series_data.rs:205-211 get_schema: the schema of the last group *)
Definition latest_cols (d : sdata) : list Z :=
  match rev (d_groups d) with g :: _ => s_cols (g_schema g) | [] => [] end.
(** series_data.rs:118-152 read_data with every field column of the latest schema projected, and
    213-262 convert_to_page with [inr] always true; [inr] is [TimeRanges::contains] *)
Definition total_rows (gs : list (list Z * list mrow)) : nat := length (concat (map snd gs)).
Definition sd_read (inr : Z -> bool) (d : sdata) : list mrow :=
  filter (fun r => inr (r_ts r)) (it_run (S (total_rows (flat d))) (latest_cols d) (flat d)).

(** ** MemCache: partitions of series *)
Definition part := list (Z * sdata).
Record mcache := MCache { mc_parts : list part }.
Fixpoint p_get (sid : Z) (p : part) : option sdata :=
  match p with [] => None | (k, v) :: p' => if k =? sid then Some v else p_get sid p' end.
Fixpoint p_set (sid : Z) (v : sdata) (p : part) : part :=
  match p with
  | [] => [(sid, v)]
  | (k, x) :: p' => if k =? sid then (k, v) :: p' else (k, x) :: p_set sid v p'
  end.
Definition part_index (m : mcache) (sid : Z) : nat := Z.to_nat (sid mod Z.of_nat (length (mc_parts m))).
(** memcache.rs:82-110 new *)
Definition mc_new (part_count : nat) : mcache := MCache (repeat [] part_count).
(** memcache.rs:252-255 read_series_data_by_id *)
Definition mc_get (m : mcache) (sid : Z) : option sdata := p_get sid (nth (part_index m sid) (mc_parts m) []).
Definition mc_upd (m : mcache) (sid : Z) (v : sdata) : mcache :=
  let i := part_index m sid in MCache (set_nth i (p_set sid v (nth i (mc_parts m) [])) (mc_parts m)).
(** memcache.rs:112-138 write_group, after the memory reservation succeeded *)
Definition mc_write (m : mcache) (sid : Z) (g : rgroup) : mcache :=
  mc_upd m sid (sd_write (match mc_get m sid with Some d => d | None => sd_new end) g).
(** memcache.rs:226-234 delete_series_by_time_ranges *)
Definition mc_delete (m : mcache) (sids : list Z) (trs : list (Z * Z)) : mcache :=
  fold_left (fun m sid => match mc_get m sid with Some d => mc_upd m sid (sd_delete_ranges d trs) | None => m end) sids m.
(** memcache.rs:216-224 delete_series *)
Definition mc_delete_series (m : mcache) (sids : list Z) (lo hi : Z) : mcache :=
  fold_left (fun m sid => match mc_get m sid with Some d => mc_upd m sid (sd_delete_series d lo hi) | None => m end) sids m.
(** memcache.rs:180-191 drop_columns *)
Definition mc_drop_columns (m : mcache) (sids : list Z) (cids : list Z) : mcache :=
  fold_left (fun m sid => fold_left (fun m c =>
    match mc_get m sid with Some d => mc_upd m sid (sd_drop_column d c) | None => m end) cids m) sids m.
