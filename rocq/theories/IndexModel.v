(** The series index of a vnode: tskv/src/index/{ts_index,cache,engine2}.rs,
    common/models/src/{series_info,tag}.rs, common/utils/src/bkdr_hash.rs.
    Strings are lists of bytes.  Bitmaps (roaring) are lists used as sets.  The values of the
    storage keep their kind instead of their serialized bytes (bincode and roaring serialization are
    external and taken to be lossless); the keys are the exact bytes. *)
From Verif Require Import Prelude Bytes.
Open Scope Z_scope.

Definition bytes := list Z.
(** Models models/src/tag.rs:23-27 and series_info.rs:14-18. *)
Record series := SK { sk_table : bytes; sk_tags : list (bytes * bytes) }.

Fixpoint beq (a b : bytes) : bool :=
  match a, b with [], [] => true | x :: a, y :: b => (x =? y) && beq a b | _, _ => false end.
Fixpoint teq (a b : list (bytes * bytes)) : bool :=
  match a, b with
  | [], [] => true
  | (k, v) :: a, (k', v') :: b => beq k k' && beq v v' && teq a b
  | _, _ => false
  end.
(** Models the derived PartialEq of SeriesKey, series_info.rs:14. *)
Definition seq_eq (a b : series) : bool := beq (sk_table a) (sk_table b) && teq (sk_tags a) (sk_tags b).

(** Models bkdr_hash.rs:56-60 and series_info.rs:53-62 (SeriesKey::hash). *)
Definition bkdr (h : Z) (l : bytes) : Z := fold_left (fun h c => wrap_u64 (wrap_u64 (h * 1313) + c)) l h.
Definition series_hash (k : series) : Z :=
  fold_left (fun h t => bkdr (bkdr h (fst t)) (snd t)) (sk_tags k) (bkdr 0 (sk_table k)).

(** * Index keys *)
(** Models ts_index.rs:23-26. *)
Definition P_ID : bytes := [95; 105; 100; 95].
Definition P_KEY : bytes := [95; 107; 101; 121; 95].
Definition P_TOMB : bytes := [95; 116; 111; 109; 98; 95].
Definition K_AUTO : bytes := [95; 97; 117; 116; 111; 95; 105; 110; 99; 114; 95; 105; 100].
(** Models ts_index.rs:551-558 (encode_series_id_key). *)
Definition enc_id (id : Z) : bytes := P_ID ++ be_bytes 4 id.
(** Models (x.len() as u16).to_be_bytes() followed by x, ts_index.rs:615-623. *)
Definition enc_str (s : bytes) : bytes := be_bytes 2 (Z.of_nat (length s)) ++ s.
(** Models ts_index.rs:605-626 (encode_series_key_with_prefix). *)
Definition enc_with (prefix : bytes) (k : series) : bytes :=
  prefix ++ enc_str (sk_table k) ++ concat (map (fun t => enc_str (fst t) ++ enc_str (snd t)) (sk_tags k)).
(** Models ts_index.rs:597-603. *)
Definition enc_key (k : series) : bytes := enc_with P_KEY k.
Definition enc_tomb (k : series) : bytes := enc_with P_TOMB k.
(** Models ts_index.rs:585-595 (encode_inverted_index_key): [tab.tag=val]. *)
Definition enc_inv (tab tk tv : bytes) : bytes := tab ++ [46] ++ tk ++ [61] ++ tv.
(** Models ts_index.rs:560-582 (encode_inverted_max/min_index_key): [tab.tag>], [tab.tag<]. *)
Definition enc_inv_max (tab tk : bytes) : bytes := tab ++ [46] ++ tk ++ [62].
Definition enc_inv_min (tab tk : bytes) : bytes := tab ++ [46] ++ tk ++ [60].
(** The tags under which a series is filed: its tags, or one empty tag if it has none
    (ts_index.rs:259-266, cache.rs:172-178 and 190-196). *)
Definition filed (k : series) : list (bytes * bytes) := match sk_tags k with [] => [([], [])] | l => l end.

(** * Sets of series ids *)
Definition sid_mem (x : Z) (s : list Z) : bool := existsb (Z.eqb x) s.
Definition set_add (x : Z) (s : list Z) : list Z := if sid_mem x s then s else x :: s.
Definition set_del (x : Z) (s : list Z) : list Z := filter (fun y => negb (y =? x)) s.
Definition set_or (a b : list Z) : list Z := fold_right set_add b a.
Definition set_and (a b : list Z) : list Z := filter (fun x => sid_mem x b) a.

(** * The storage: an ordered byte map (heed, i.e. LMDB) *)
Inductive sval := VId (id : Z) | VKey (k : series) | VSet (s : list Z).
Definition store := list (bytes * sval).
Definition st_get (st : store) (k : bytes) : option sval :=
  option_map snd (find (fun p => beq (fst p) k) st).
Definition st_del (st : store) (k : bytes) : store := filter (fun p => negb (beq (fst p) k)) st.
(** The longest key LMDB takes (MDB_MAXKEYSIZE, not raised by heed 0.21): longer puts fail, while
    reads and deletes of longer keys find nothing. *)
Definition MAX_KEY : nat := 511.
(** Models engine2.rs:66-71, 100-112 (txn_write, set). *)
Definition st_put (st : store) (k : bytes) (v : sval) : option store :=
  if (length k <=? MAX_KEY)%nat && negb (beq k []) then Some ((k, v) :: st_del st k) else None.
(** Models engine2.rs:172-180 (get_rb); None is an error: the bytes are not a bitmap. *)
Definition get_rb (st : store) (k : bytes) : option (option (list Z)) :=
  match st_get st k with None => Some None | Some (VSet s) => Some (Some s) | Some _ => None end.
(** Models engine2.rs:73-98 (txn_merge_rb). *)
Definition merge_rb (st : store) (k : bytes) (rb : list Z) : option store :=
  match get_rb st k with
  | None => None
  | Some None => st_put st k (VSet rb)
  | Some (Some v) => st_put st k (VSet (set_or v rb))
  end.
(** Models engine2.rs:190-203 (modify with add = false). *)
Definition modify_del (st : store) (k : bytes) (id : Z) : option store :=
  match get_rb st k with
  | None => None
  | Some r => st_put st k (VSet (set_del id (match r with Some v => v | None => [] end)))
  end.

(** The union of the bitmaps stored under the keys satisfying [f]; None if one is no bitmap. *)
Definition union_where (f : bytes -> bool) (st : store) : option (list Z) :=
  fold_right (fun p acc => if f (fst p) then match snd p, acc with VSet s, Some a => Some (set_or s a) | _, _ => None end else acc)
    (Some []) st.
Fixpoint prefixb (p k : bytes) : bool :=
  match p, k with [], _ => true | x :: p, y :: k => (x =? y) && prefixb p k | _ :: _, [] => false end.
(** Byte-lexicographic order, that of LMDB and of BTreeMap<Vec<u8>, _>. *)
Fixpoint lex_lt (a b : bytes) : bool :=
  match a, b with
  | _, [] => false
  | [], _ :: _ => true
  | x :: a, y :: b => (x <? y) || ((x =? y) && lex_lt a b)
  end.
Inductive bnd := BIn (v : bytes) | BEx (v : bytes) | BUn.
Definition above (lo : bnd) (k : bytes) : bool :=
  match lo with BIn v => negb (lex_lt k v) | BEx v => lex_lt v k | BUn => true end.
Definition below (hi : bnd) (k : bytes) : bool :=
  match hi with BIn v => negb (lex_lt v k) | BEx v => lex_lt k v | BUn => true end.

(** Models engine2.rs:243-273 (get_series_id_by_tags). *)
Fixpoint and_tags (st : store) (tab : bytes) (acc : list Z) (tags : list (bytes * bytes)) : option (list Z) :=
  match tags with
  | [] => Some acc
  | (k, v) :: tags =>
      match get_rb st (enc_inv tab k v) with
      | None => None
      | Some None => Some []
      | Some (Some rb) => and_tags st tab (set_and acc rb) tags
      end
  end.
Definition st_by_tags (st : store) (tab : bytes) (tags : list (bytes * bytes)) : option (list Z) :=
  match tags with
  | [] => union_where (prefixb (tab ++ [46])) st
  | (k, v) :: tags =>
      match get_rb st (enc_inv tab k v) with
      | None => None
      | Some r => and_tags st tab (match r with Some rb => rb | None => [] end) tags
      end
  end.
(** Models engine2.rs:206-241 (get_series_id_by_range). *)
Definition st_by_range (st : store) (lo hi : bnd) : option (list Z) :=
  match lo, hi with
  | BIn a, BIn b => if beq a b then option_map (fun r => match r with Some rb => rb | None => [] end) (get_rb st a)
                    else union_where (fun k => above lo k && below hi k) st
  | _, _ => union_where (fun k => above lo k && below hi k) st
  end.

(** * The caches *)
Definition tagkey := (bytes * bytes * bytes)%type.
(** Models cache.rs:124-128 (IndexMemCache): the nested map of maps is one map with triples as keys. *)
Record wcache := WC { w_ids : list (Z * series); w_keys : list (bytes * Z); w_inv : list (tagkey * list Z) }.
Definition tk_eq (a b : tagkey) : bool :=
  let '(x, y, z) := a in let '(x', y', z') := b in beq x x' && beq y y' && beq z z'.
Definition inv_get (m : list (tagkey * list Z)) (t : tagkey) : option (list Z) :=
  option_map snd (find (fun p => tk_eq (fst p) t) m).
(** Models cache.rs:139-162 (add_inverted). *)
Definition add_inv (id : Z) (m : list (tagkey * list Z)) (t : tagkey) : list (tagkey * list Z) :=
  match inv_get m t with
  | None => m ++ [(t, [id])]
  | Some _ => map (fun p => if tk_eq (fst p) t then (fst p, set_add id (snd p)) else p) m
  end.
(** Models cache.rs:164-172 (del_inverted). *)
Definition del_inv (id : Z) (m : list (tagkey * list Z)) (t : tagkey) : list (tagkey * list Z) :=
  map (fun p => if tk_eq (fst p) t then (fst p, set_del id (snd p)) else p) m.
Definition del_id {A} (id : Z) (l : list (Z * A)) : list (Z * A) := filter (fun p => negb (fst p =? id)) l.
Definition del_buf {A} (b : bytes) (l : list (bytes * A)) : list (bytes * A) := filter (fun p => negb (beq (fst p) b)) l.
Definition triples (k : series) : list tagkey := map (fun t => (sk_table k, fst t, snd t)) (filed k).
(** Models cache.rs:174-190 (IndexMemCache::add). *)
Definition wc_add (id : Z) (k : series) (w : wcache) : wcache :=
  WC ((id, k) :: del_id id (w_ids w)) ((enc_key k, id) :: del_buf (enc_key k) (w_keys w))
     (fold_left (add_inv id) (triples k) (w_inv w)).
(** Models cache.rs:192-204 (IndexMemCache::del). *)
Definition wc_del (id : Z) (k : series) (w : wcache) : wcache :=
  WC (del_id id (w_ids w)) (del_buf (enc_key k) (w_keys w)) (fold_left (del_inv id) (triples k) (w_inv w)).
(** Models cache.rs:206-217. *)
Definition wc_id (w : wcache) (k : series) : option Z := option_map snd (find (fun p => beq (fst p) (enc_key k)) (w_keys w)).
Definition find_id {A} (l : list (Z * A)) (id : Z) : option A := option_map snd (find (fun p => fst p =? id) l).

(** Models cache.rs:73-119 (ForwardCache, two LRU caches).  What is evicted and when is arbitrary. *)
Record rcache := RC { r_ids : list (Z * series); r_hash : list (Z * (Z * series)) }.
Section Hash.
Variable hash : series -> Z.
(** Models cache.rs:87-97. *)
Definition rc_add (id : Z) (k : series) (c : rcache) : rcache :=
  RC ((id, k) :: del_id id (r_ids c)) ((hash k, (id, k)) :: del_id (hash k) (r_hash c)).
(** Models cache.rs:99-102. *)
Definition rc_del (id : Z) (k : series) (c : rcache) : rcache := RC (del_id id (r_ids c)) (del_id (hash k) (r_hash c)).
(** Models cache.rs:104-114. *)
Definition rc_id (c : rcache) (k : series) : option Z :=
  match find_id (r_hash c) (hash k) with
  | Some (id, k') => if seq_eq k' k then Some id else None
  | None => None
  end.

(** * The index *)
(** Models ts_index.rs:84-90 (TSIndex). *)
Record index := IX { x_incr : Z; x_count : Z; x_w : wcache; x_r : rcache; x_st : store }.
Definition wc_new : wcache := WC [] [] [].
Definition rc_new : rcache := RC [] [].
Definition ix_new : index := IX 0 0 wc_new rc_new [].
(** Models ts_index.rs:93-128 (TSIndex::new): caches empty, the counter read from the storage.
    (The upgrade from the older storage engine is not modelled.)  None is a corrupt counter. *)
Definition ix_open (st : store) : option index :=
  match st_get st K_AUTO with
  | Some (VId n) => Some (IX n 0 wc_new rc_new st)
  | None => Some (IX 0 0 wc_new rc_new st)
  | Some _ => None
  end.
Definition wrap_u32 (z : Z) : Z := z mod 2 ^ 32.

(** Models cache.rs:274-308 (IndexMemCache::flush): one transaction; on an error nothing is written
    and the cache stays. *)
Definition flush_ids (st : store) (l : list (Z * series)) : option store :=
  fold_left (fun acc p => match acc with
    | None => None
    | Some st => match st_put st (enc_key (snd p)) (VId (fst p)) with
                 | None => None
                 | Some st => st_put st (enc_id (fst p)) (VKey (snd p))
                 end end) l (Some st).
Definition flush_inv (st : store) (l : list (tagkey * list Z)) : option store :=
  fold_left (fun acc p => match acc with
    | None => None
    | Some st => let '(tab, tk, tv) := fst p in merge_rb st (enc_inv tab tk tv) (snd p) end) l (Some st).
Definition wc_flush (w : wcache) (st : store) : option store :=
  match flush_ids st (w_ids w) with None => None | Some st => flush_inv st (w_inv w) end.
(** Models ts_index.rs:303-316 (check_to_flush); the boolean is false if it returned an error. *)
Definition ix_check (force : bool) (x : index) : index * bool :=
  let count := x_count x in
  let x := IX (x_incr x) (wrap_u32 (count + 1)) (x_w x) (x_r x) (x_st x) in
  if negb force && (count <? 10000) then (x, true)
  else match st_put (x_st x) K_AUTO (VId (x_incr x)) with
       | None => (x, false)
       | Some st => match wc_flush (x_w x) st with
                    | None => (IX (x_incr x) (x_count x) (x_w x) (x_r x) st, false)
                    | Some st' => (IX (x_incr x) 0 wc_new (x_r x) st', true)
                    end
       end.

Inductive res := ROk (id : Z) | RNo | RErr.
(** Models cache.rs:42-52 (IndexCache::get_series_id_by_key). *)
Definition cache_id (x : index) (k : series) : option Z :=
  match wc_id (x_w x) k with Some id => Some id | None => rc_id (x_r x) k end.
Definition cache_key (x : index) (id : Z) : option series :=
  match find_id (w_ids (x_w x)) id with Some k => Some k | None => find_id (r_ids (x_r x)) id end.
(** Models ts_index.rs:180-194 (get_series_id). *)
Definition ix_get_id (x : index) (k : series) : index * res :=
  match cache_id x k with
  | Some id => (x, ROk id)
  | None => match st_get (x_st x) (enc_key k) with
            | Some (VId id) => (IX (x_incr x) (x_count x) (x_w x) (rc_add id k (x_r x)) (x_st x), ROk id)
            | Some _ => (x, RErr)
            | None => (x, RNo)
            end
  end.
(** Models ts_index.rs:196-213 (get_series_key); an outer None is an error. *)
Definition ix_get_key (x : index) (id : Z) : index * option (option series) :=
  match cache_key x id with
  | Some k => (x, Some (Some k))
  | None => match st_get (x_st x) (enc_id id) with
            | Some (VKey k) => (IX (x_incr x) (x_count x) (x_w x) (rc_add id k (x_r x)) (x_st x), Some (Some k))
            | Some _ => (x, None)
            | None => (x, Some None)
            end
  end.
(** Models ts_index.rs:147-178 (add_series_if_not_exists), for one key of the list. *)
Definition ix_add (x : index) (k : series) : index * res :=
  match cache_id x k with
  | Some id => (x, ROk id)
  | None => match st_get (x_st x) (enc_key k) with
            | Some (VId id) => (IX (x_incr x) (x_count x) (x_w x) (rc_add id k (x_r x)) (x_st x), ROk id)
            | Some _ => (x, RErr)
            | None =>
                let id := wrap_u32 (x_incr x + 1) in
                (fst (ix_check false (IX id (x_count x) (wc_add id k (x_w x)) (x_r x) (x_st x))), ROk id)
            end
  end.
(** Models ts_index.rs:248-275 (del_series_info); false if it returned an error. *)
Fixpoint del_tags (st : store) (id : Z) (l : list tagkey) : option store :=
  match l with
  | [] => Some st
  | (tab, tk, tv) :: l => match modify_del st (enc_inv tab tk tv) id with None => None | Some st => del_tags st id l end
  end.
Definition ix_del (x : index) (id : Z) : index * bool :=
  match ix_get_key x id with
  | (x, Some o) =>
      let st := st_del (x_st x) (enc_id id) in
      match o with
      | None => (fst (ix_check false (IX (x_incr x) (x_count x) (x_w x) (x_r x) st)), true)
      | Some k =>
          let st := st_del st (enc_key k) in
          let w := wc_del id k (x_w x) in let r := rc_del id k (x_r x) in
          match del_tags st id (triples k) with
          | None => (IX (x_incr x) (x_count x) w r st, false)
          | Some st => (fst (ix_check false (IX (x_incr x) (x_count x) w r st)), true)
          end
      end
  | (x, None) => (x, false)
  end.

(** ** Updating tag values *)
Definition tags_set (l : list (bytes * bytes)) (k v : bytes) : list (bytes * bytes) := (k, v) :: del_buf k l.
Definition tags_upd (l : list (bytes * bytes)) (u : bytes * option bytes) : list (bytes * bytes) :=
  match snd u with Some v => tags_set l (fst u) v | None => del_buf (fst u) l end.
Fixpoint ins_tag (t : bytes * bytes) (l : list (bytes * bytes)) : list (bytes * bytes) :=
  match l with [] => [t] | u :: l' => if lex_lt (fst t) (fst u) then t :: l else u :: ins_tag t l' end.
Definition sort_tags (l : list (bytes * bytes)) : list (bytes * bytes) := fold_right ins_tag [] l.
(** Models ts_index.rs:344-369: the tags go through a map (a later tag of the same name wins), tags set
    to null are dropped, the rest is sorted by name. *)
Definition retag (upd : list (bytes * option bytes)) (k : series) : series :=
  SK (sk_table k) (sort_tags (fold_left tags_upd upd (fold_left (fun l t => tags_set l (fst t) (snd t)) (sk_tags k) []))).
(** Models ts_index.rs:329-389 (prepare_update_tags_value); reading fills the read cache. *)
Fixpoint find_olds (x : index) (l : list series) : index * option (list (Z * series)) :=
  match l with
  | [] => (x, Some [])
  | k :: l => match ix_get_id x k with
              | (x, RErr) => (x, None)
              | (x, RNo) => find_olds x l
              | (x, ROk id) => match find_olds x l with (x, Some r) => (x, Some ((id, k) :: r)) | (x, None) => (x, None) end
              end
  end.
Fixpoint no_conflict (x : index) (l : list series) : index * bool :=
  match l with
  | [] => (x, true)
  | k :: l => match ix_get_id x k with (x, RNo) => no_conflict x l | (x, _) => (x, false) end
  end.
Fixpoint distinct (l : list series) : bool :=
  match l with [] => true | k :: l => negb (existsb (seq_eq k) l) && distinct l end.
Definition ix_prepare (x : index) (upd : list (bytes * option bytes)) (matched : list series) (check : bool)
  : index * option (list (Z * series)) :=
  match find_olds x matched with
  | (x, None) => (x, None)
  | (x, Some olds) =>
      let news := map (fun p => retag upd (snd p)) olds in
      let '(x, ok) := if check then no_conflict x news else (x, true) in
      if ok && distinct news then (x, Some olds) else (x, None)
  end.
(** Models ts_index.rs:278-301 (update_series_key), for one series, and 215-224. *)
Definition ix_rename (x : index) (id : Z) (old new : series) : index * bool :=
  match ix_del x id with
  | (x, false) => (x, false)
  | (x, true) =>
      match st_put (x_st x) (enc_tomb old) (VId id) with
      | None => (x, false)
      | Some st => (fst (ix_check false (IX (x_incr x) (x_count x) (wc_add id new (x_w x)) (x_r x) st)), true)
      end
  end.
Fixpoint ix_renames (x : index) (upd : list (bytes * option bytes)) (l : list (Z * series)) : index * bool :=
  match l with
  | [] => (x, true)
  | (id, old) :: l => match ix_rename x id old (retag upd old) with (x, true) => ix_renames x upd l | (x, false) => (x, false) end
  end.
(** Models vnode_store.rs:434-497 (update_tags), the index part: UPDATE of tag values. *)
Definition ix_update (x : index) (upd : list (bytes * option bytes)) (matched : list series) (check : bool) : index * bool :=
  match ix_prepare x upd matched check with
  | (x, None) => (x, false)
  | (x, Some olds) => ix_renames x upd olds
  end.
(** Models ts_index.rs:226-229 (clear_tombstone_series) and engine2.rs:147-164 (del_prefix). *)
Definition ix_clear_tombs (x : index) : index :=
  IX (x_incr x) (x_count x) (x_w x) (x_r x)
     (filter (fun p => negb (above (BIn P_TOMB) (fst p) && below (BIn (P_TOMB ++ [255])) (fst p))) (x_st x)).
(** The LRU caches drop what they like. *)
Definition ix_evict (x : index) (keep_id keep_hash : Z -> bool) : index :=
  IX (x_incr x) (x_count x) (x_w x)
     (RC (filter (fun p => keep_id (fst p)) (r_ids (x_r x))) (filter (fun p => keep_hash (fst p)) (r_hash (x_r x)))) (x_st x).

(** ** Queries *)
(** Models cache.rs:219-238 (get_inverted_by_range); None is the panic of BTreeMap::range. *)
Definition bad_range (lo hi : bnd) : bool :=
  match lo, hi with
  | BIn a, BIn b | BIn a, BEx b | BEx a, BIn b => lex_lt b a
  | BEx a, BEx b => negb (lex_lt a b)
  | _, _ => false
  end.
Definition wc_by_range (w : wcache) (tab tk : bytes) (lo hi : bnd) : option (list Z) :=
  let l := filter (fun p => let '(t, k, _) := fst p in beq t tab && beq k tk) (w_inv w) in
  match l with
  | [] => Some []
  | _ => if bad_range lo hi then None
         else Some (fold_right (fun p acc => let '(_, _, v) := fst p in if above lo v && below hi v then set_or (snd p) acc else acc) [] l)
  end.
(** Models cache.rs:240-272 (get_inverted_by_tags). *)
Fixpoint wc_and (w : wcache) (tab : bytes) (acc : list Z) (tags : list (bytes * bytes)) : list Z :=
  match tags with
  | [] => acc
  | (k, v) :: tags =>
      match inv_get (w_inv w) (tab, k, v) with
      | None => []
      | Some rb => wc_and w tab (match acc with [] => rb | _ => set_and acc rb end) tags
      end
  end.
Definition wc_by_tags (w : wcache) (tab : bytes) (tags : list (bytes * bytes)) : list Z :=
  match tags with
  | [] => fold_right (fun p acc => let '(t, _, _) := fst p in if beq t tab then set_or (snd p) acc else acc) [] (w_inv w)
  | _ => wc_and w tab [] tags
  end.
(** Models ts_index.rs:318-334 (get_series_id_list). *)
Definition ix_list (x : index) (tab : bytes) (tags : list (bytes * bytes)) : option (list Z) :=
  option_map (set_or (wc_by_tags (x_w x) tab tags)) (st_by_tags (x_st x) tab tags).

(** The condition on one tag, models predicate/domain.rs Domain for strings: a union of ranges, a set
    of values (white list), the complement of a set of values, nothing, anything. *)
Inductive tdom := TRange (l : list (bnd * bnd)) | TIn (l : list bytes) | TNotIn (l : list bytes) | TNone | TAll.
(** Models ts_index.rs:480-513 (filter_range_to_index_key_range). *)
Definition key_lo (tab tk : bytes) (b : bnd) : bnd :=
  match b with BUn => BIn (enc_inv_min tab tk) | BIn v => BIn (enc_inv tab tk v) | BEx v => BEx (enc_inv tab tk v) end.
Definition key_hi (tab tk : bytes) (b : bnd) : bnd :=
  match b with BUn => BIn (enc_inv_max tab tk) | BIn v => BIn (enc_inv tab tk v) | BEx v => BEx (enc_inv tab tk v) end.
Definition or_opt (a b : option (list Z)) : option (list Z) :=
  match a, b with Some a, Some b => Some (set_or a b) | _, _ => None end.
(** Models ts_index.rs:425-475 (get_series_ids_by_domain). *)
Definition ix_by_dom (x : index) (tab tk : bytes) (d : tdom) : option (list Z) :=
  match d with
  | TRange l => fold_right (fun r acc => or_opt (or_opt (wc_by_range (x_w x) tab tk (fst r) (snd r))
                    (st_by_range (x_st x) (key_lo tab tk (fst r)) (key_hi tab tk (snd r)))) acc) (Some []) l
  | TIn l => fold_right (fun v acc => or_opt (or_opt (Some (wc_by_tags (x_w x) tab [(tk, v)])) (st_by_tags (x_st x) tab [(tk, v)])) acc) (Some []) l
  | TNotIn _ => ix_list x tab []
  | TNone => Some []
  | TAll => ix_list x tab []
  end.
(** Models ts_index.rs:391-423 (get_series_ids_by_domains) with the names already resolved to column
    ids; [None] is the condition that is never true, the empty list the one that is always true. *)
Definition ix_query (x : index) (tab : bytes) (doms : option (list (bytes * tdom))) : option (list Z) :=
  match doms with
  | Some [] => ix_list x tab []
  | Some ((k, d) :: l) =>
      fold_left (fun acc p => match acc, ix_by_dom x tab (fst p) (snd p) with Some a, Some b => Some (set_and a b) | _, _ => None end)
        l (ix_by_dom x tab k d)
  | None => Some []
  end.
End Hash.
