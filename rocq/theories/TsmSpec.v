(** What a TSM file is relied on for (C55). *)
From Verif Require Import Prelude TimeRangeModel TimeRangeSpec TsmModel.

(** What is assumed of bincode, the metadata codec and the size of a footer (tsm/mod.rs:19) *)
Record env_ok (E : tsm_env) : Prop := EOK {
  ok_chunk : forall x, d_chunk E (e_chunk E x) = Some x;
  ok_group : forall x, d_group E (e_group E x) = Some x;
  ok_meta : forall x, d_meta E (e_meta E x) = Some x;
  ok_foot : forall x, d_foot E (e_foot E x) = Some x;
  ok_size : forall x l, f_bloom x = bloom E l -> length (e_foot E x) = foot_size E;
  ok_comp : forall x, decomp E (comp E x) = Some x }.

(** a write of pages with a proper time range and good checksums *)
Definition write_ok (E : tsm_env) (x : wr) : Prop :=
  is_i64 (tmin (x_tr x)) /\ is_i64 (tmax (x_tr x)) /\ tmin (x_tr x) <= tmax (x_tr x) /\ Forall (fun p => crc_ok E (pg_bytes p) = true) (x_pages x).
(** a series belongs to one table *)
Definition one_table (ws : list wr) : Prop := forall x y, In x ws -> In y ws -> x_sid x = x_sid y -> sc_name (x_schema x) = sc_name (x_schema y).
(** the writes to a series of a table *)
Definition same_series (t sid : Z) (x : wr) : bool := (sc_name (x_schema x) =? t) && (x_sid x =? sid).
Definition writes_of (t sid : Z) (ws : list wr) : list wr := filter (same_series t sid) ws.
(** the blocks of one series come in the order of time *)
Definition time_ordered (ws : list wr) : Prop := forall ws1 x ws2 y ws3, ws = ws1 ++ x :: ws2 ++ y :: ws3 ->
  sc_name (x_schema x) = sc_name (x_schema y) -> x_sid x = x_sid y -> tmax (x_tr x) <= tmin (x_tr y).
(** the newest schema a table was written with *)
Definition newest (t : Z) (ws : list wr) (s : tschema) : Prop :=
  (exists x, In x ws /\ x_schema x = s /\ sc_name s = t) /\ forall x, In x ws -> sc_name (x_schema x) = t -> sc_version (x_schema x) <= sc_version s.
(** the smallest range around all writes *)
Definition hull (ws : list wr) (r : trange) : Prop :=
  (forall x, In x ws -> tmin r <= tmin (x_tr x) /\ tmax (x_tr x) <= tmax r) /\
  (ws <> [] -> (exists x, In x ws /\ tmin (x_tr x) = tmin r) /\ (exists x, In x ws /\ tmax (x_tr x) = tmax r)).

(** the reader gives back what was written: per series its key and table, per block its time range and pages; the schemas; the range *)
Definition gives_back (E : tsm_env) (r : treader) (ws : list wr) (key : Z -> Z -> Z) : Prop :=
  (forall sid, (exists c, aget sid (r_chunks r) = Some c) <-> In sid (map x_sid ws)) /\
  (forall sid c, aget sid (r_chunks r) = Some c -> exists x xs, writes_of (tc_table c) sid ws = x :: xs /\ tc_sid c = sid /\
      tc_key c = key sid (x_key x) /\ map cg_tr (tc_groups c) = map x_tr (x :: xs) /\ map cg_id (tc_groups c) = seq 0 (length (x :: xs))) /\
  (forall x i, In x ws -> read_series_pages E r (x_sid x) i =
      Ok (match nth_error (writes_of (sc_name (x_schema x)) (x_sid x) ws) i with Some y => x_pages y | None => [] end)) /\
  (forall t, (exists s, schema_of r t = Some s) <-> In t (map (fun x => sc_name (x_schema x)) ws)) /\
  (forall t s, schema_of r t = Some s -> newest t ws s) /\
  hull ws (f_tr (r_foot r)).

(** a history of tag updates, with the metadata not compressed *)
Fixpoint updates (E : tsm_env) (kss : list (list (Z * Z))) (b : bytes) : res bytes :=
  match kss with [] => Ok b | ks :: kss' => rbind (update_file E ks false b) (updates E kss') end.
(** the key of a series after the updates *)
Definition key_after (kss : list (list (Z * Z))) (sid key : Z) : Z :=
  fold_left (fun k ks => match aget sid ks with Some k' => k' | None => k end) kss key.
