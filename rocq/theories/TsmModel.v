(** Model of writing and opening a TSM file (/repo/tskv/src/tsm/writer.rs:63-526, reader.rs:41-480, chunk.rs, chunk_group.rs,
    column_group.rs, footer.rs; /repo/tskv/src/tsfamily/column_file.rs:150-182).

    Simplifications.  Table names, series keys, page metadata and table schemas without their version are opaque numbers: only equality
    of names is used.  A BTreeMap is an association list in insertion order: the order decides the layout only.  Offsets and sizes are
    [nat]: u64 and usize do not overflow.  Buffered writing (stream_writer.rs) is an append to the file.  bincode, the metadata
    compression and the page checksum (C44) are parameters of [tsm_env]; the series bloom filter (C29) is one too. *)
From Verif Require Import Prelude TimeRangeModel.

Inductive res (A : Type) := Ok (a : A) | Err | Panic.
Arguments Ok {A}. Arguments Err {A}. Arguments Panic {A}.
Definition rbind {A B} (x : res A) (f : A -> res B) : res B := match x with Ok a => f a | Err => Err | Panic => Panic end.
Definition bytes := list Z.

(** page.rs:40-56 Page; PageWriteSpec *)
Record page := PG { pg_meta : Z; pg_bytes : bytes }.
Record pspec := PSP { sp_off : nat; sp_size : nat; sp_meta : Z }.
(** column_group.rs:9-17 *)
Record cgroup := CG { cg_id : nat; cg_off : nat; cg_size : nat; cg_tr : trange; cg_pages : list pspec }.
(** chunk.rs:14-26 *)
Record tchunk := TC { tc_tr : trange; tc_table : Z; tc_sid : Z; tc_key : Z; tc_next : nat; tc_groups : list cgroup }.
(** chunk.rs:144-150 ChunkWriteSpec; chunk_group.rs:8-12 ChunkGroup is a list of them *)
Record cwspec := CW { cw_sid : Z; cw_off : nat; cw_size : nat; cw_tr : trange }.
(** TskvTableSchema: name, schema_version, the rest *)
Record tschema := TS { sc_name : Z; sc_version : Z; sc_rest : Z }.
(** chunk_group.rs:56-63 ChunkGroupWriteSpec ([count] is always 0) *)
Record gwspec := GW { gw_schema : tschema; gw_off : nat; gw_size : nat; gw_tr : trange }.
(** footer.rs:11-25, 95-125; [f_v2]: the version is V2 *)
Record footer := FT { f_v2 : bool; f_tr : trange; f_goff : nat; f_gsize : nat; f_bloom : bytes; f_coff : nat; f_csize : nat }.

(** bincode of the four structures, FOOTER_SIZE (tsm/mod.rs:19), get_str_codec(tsm_meta_compress), Page::crc_validation, the bytes of a
    bloom filter of series ids *)
Record tsm_env := ENV {
  e_chunk : tchunk -> bytes; d_chunk : bytes -> option tchunk;
  e_group : list cwspec -> bytes; d_group : bytes -> option (list cwspec);
  e_meta : list (Z * gwspec) -> bytes; d_meta : bytes -> option (list (Z * gwspec));
  e_foot : footer -> bytes; d_foot : bytes -> option footer; foot_size : nat;
  comp : bytes -> bytes; decomp : bytes -> option bytes;
  crc_ok : bytes -> bool; bloom : list Z -> bytes }.

(** ** maps *)
Section Maps.
  Context {V : Type}.
  Fixpoint aget (k : Z) (l : list (Z * V)) : option V :=
    match l with [] => None | (k', v) :: l' => if k =? k' then Some v else aget k l' end.
  Fixpoint aput (k : Z) (v : V) (l : list (Z * V)) : list (Z * V) :=
    match l with [] => [(k, v)] | (k', v') :: l' => if k =? k' then (k, v) :: l' else (k', v') :: aput k v l' end.
End Maps.
Definition specs := list (Z * list (Z * tchunk)).
Definition get2 (t sid : Z) (s : specs) : option tchunk := match aget t s with Some m => aget sid m | None => None end.
Definition put2 (t sid : Z) (c : tchunk) (s : specs) : specs := aput t (aput sid c (match aget t s with Some m => m | None => [] end)) s.

(** ** the writer (writer.rs:38-62) *)
Inductive wstate := Initialised | Started | Finished.
Record tw := TW { w_out : bytes; w_schemas : list (Z * tschema); w_specs : specs; w_state : wstate; w_v2 : bool; w_comp : bool }.
(** writer.rs:85-113: version 2 says that the metadata is compressed *)
Definition tw_new (c : bool) : tw := TW [] [] [] Initialised c c.
(** writer.rs:36, 146-155 write_header *)
Definition TSM_MAGIC : bytes := [1; 44; 218; 22].
Definition header (w : tw) : tw :=
  match w_state w with Initialised => TW (w_out w ++ TSM_MAGIC) (w_schemas w) (w_specs w) Started (w_v2 w) (w_comp w) | _ => w end.
(** chunk.rs:29-39 *)
Definition chunk_new (t sid key : Z) : tchunk := TC tr_none t sid key 0 [].
(** writer.rs:225-240 create_column_group: the chunk is made if there is none; the next group id is taken *)
Definition create_group (t sid key : Z) (w : tw) : nat * tw :=
  let c := match get2 t sid (w_specs w) with Some c => c | None => chunk_new t sid key end in
  (tc_next c, TW (w_out w) (w_schemas w) (put2 t sid (TC (tc_tr c) (tc_table c) (tc_sid c) (tc_key c) (S (tc_next c)) (tc_groups c)) (w_specs w)) (w_state w) (w_v2 w) (w_comp w)).
(** column_group.rs:51-60 push *)
Definition group_push (p : pspec) (g : cgroup) : cgroup :=
  CG (cg_id g) (if (cg_off g =? 0)%nat then sp_off p else cg_off g) (cg_size g + sp_size p) (cg_tr g) (cg_pages g ++ [p]).
(** chunk.rs:98-127 push; [None]: refused *)
Definition chunk_push (g : cgroup) (c : tchunk) : option tchunk :=
  if tmin (cg_tr g) <? tmax (tc_tr c) then None
  else if existsb (fun g' => (cg_id g' =? cg_id g)%nat) (tc_groups c) then None
  else Some (TC (tr_merge (tc_tr c) (cg_tr g)) (tc_table c) (tc_sid c) (tc_key c) (tc_next c) (tc_groups c ++ [g])).
(** writer.rs:401-411 insert_schema *)
Definition insert_schema (s : tschema) (m : list (Z * tschema)) : list (Z * tschema) :=
  match aget (sc_name s) m with
  | Some old => if sc_version old <? sc_version s then aput (sc_name s) s m else m
  | None => aput (sc_name s) s m
  end.
(** writer.rs:328-338, the loop over the pages *)
Fixpoint put_pages (ps : list page) (out : bytes) (g : cgroup) : bytes * cgroup :=
  match ps with
  | [] => (out, g)
  | p :: ps' => put_pages ps' (out ++ pg_bytes p) (group_push (PSP (length out) (length (pg_bytes p)) (pg_meta p)) g)
  end.
(** writer.rs:339-348, 390-398: the group, with its time range, into its chunk; [None]: an error *)
Definition into_chunk (s : tschema) (sid key : Z) (g : cgroup) (tr : trange) (w : tw) : option tw :=
  let g := CG (cg_id g) (cg_off g) (cg_size g) (tr_merge (cg_tr g) tr) (cg_pages g) in
  let c := match get2 (sc_name s) sid (w_specs w) with Some c => c | None => chunk_new (sc_name s) sid key end in
  match chunk_push g c with
  | Some c' => Some (TW (w_out w) (insert_schema s (w_schemas w)) (put2 (sc_name s) sid c' (w_specs w)) (w_state w) (w_v2 w) (w_comp w))
  | None => None
  end.
Definition group_new (id : nat) : cgroup := CG id 0 0 tr_none [].
(** writer.rs:314-350 write_pages; also the end of write_record_batch (242-312), with the time range of the time column *)
Definition write_pages (s : tschema) (sid key : Z) (ps : list page) (tr : trange) (w : tw) : option tw :=
  let w := header w in
  let (id, w) := create_group (sc_name s) sid key w in
  let (out, g) := put_pages ps (w_out w) (group_new id) in
  into_chunk s sid key g tr (TW out (w_schemas w) (w_specs w) (w_state w) (w_v2 w) (w_comp w)).
(** writer.rs:352-399 write_raw: the pages of a group of another file as they are *)
Fixpoint put_specs (ps : list pspec) (off : nat) (g : cgroup) : cgroup :=
  match ps with [] => g | p :: ps' => put_specs ps' (off + sp_size p) (group_push (PSP off (sp_size p) (sp_meta p)) g) end.
Definition write_raw (s : tschema) (c : tchunk) (gid : nat) (raw : bytes) (w : tw) : option tw :=
  let w := header w in
  let (id, w) := create_group (sc_name s) (tc_sid c) (tc_key c) w in
  match find (fun g => (cg_id g =? gid)%nat) (tc_groups c) with
  | None => None
  | Some old =>
      into_chunk s (tc_sid c) (tc_key c) (put_specs (cg_pages old) (length (w_out w)) (group_new id)) (cg_tr old)
                 (TW (w_out w ++ raw) (w_schemas w) (w_specs w) (w_state w) (w_v2 w) (w_comp w))
  end.

Section Env.
  Context (E : tsm_env).
  (** writer.rs:196-223 write_chunk: the chunks one after the other, and where they are *)
  Fixpoint lay_series (m : list (Z * tchunk)) (buf : bytes) : bytes * list cwspec :=
    match m with
    | [] => (buf, [])
    | (sid, c) :: m' =>
        let b := e_chunk E c in
        let (buf', l) := lay_series m' (buf ++ b) in
        (buf', CW sid (length buf) (length b) (tc_tr c) :: l)
    end.
  Fixpoint lay_chunks (s : specs) (buf : bytes) : bytes * list (Z * list cwspec) :=
    match s with
    | [] => (buf, [])
    | (t, m) :: s' =>
        let (buf1, l) := lay_series m buf in
        let (buf2, r) := lay_chunks s' buf1 in
        (buf2, (t, l) :: r)
    end.
  (** chunk_group.rs:36-42 time_range *)
  Definition group_range (l : list cwspec) : trange := fold_left (fun r c => tr_merge r (cw_tr c)) l tr_none.
  (** writer.rs:157-172 write_chunk_group; [table_schemas.get(table).unwrap()] *)
  Fixpoint lay_groups (gs : list (Z * list cwspec)) (schemas : list (Z * tschema)) (buf : bytes) (meta : list (Z * gwspec)) : option (bytes * list (Z * gwspec)) :=
    match gs with
    | [] => Some (buf, meta)
    | (t, l) :: gs' =>
        match aget t schemas with
        | None => None
        | Some s => let b := e_group E l in lay_groups gs' schemas (buf ++ b) (aput (sc_name s) (GW s (length buf) (length b) (group_range l)) meta)
        end
    end.
  (** writer.rs:174-194, 503-525 finish: the file *)
  Definition finish (w : tw) : option bytes :=
    let '(buf, gs) := lay_chunks (w_specs w) [] in
    let csize := length buf in
    match lay_groups gs (w_schemas w) buf [] with
    | None => None
    | Some (buf1, meta) =>
        let mb := e_meta E meta in
        let buf2 := buf1 ++ mb in
        let ft := FT (w_v2 w) (fold_left (fun r g => tr_merge r (gw_tr (snd g))) meta tr_none) (length buf1) (length mb)
                     (bloom E (concat (map (fun g => map cw_sid (snd g)) gs))) (length (w_out w)) csize in
        Some (w_out w ++ (if w_comp w then comp E buf2 else buf2) ++ e_foot E ft)
    end.

  (** ** the reader *)
  Definition slice (b : bytes) (pos size : nat) : option bytes := if (pos + size <=? length b)%nat then Some (firstn size (skipn pos b)) else None.
  Record treader := TRD { r_file : bytes; r_foot : footer; r_meta : list (Z * gwspec); r_groups : list (Z * list cwspec); r_chunks : list (Z * tchunk) }.
  Definition or_err {A} (x : option A) : res A := match x with Some a => Ok a | None => Err end.
  Definition or_panic {A} (x : option A) : res A := match x with Some a => Ok a | None => Panic end.
  (** reader.rs:373-391 read_footer *)
  Definition read_footer (b : bytes) : res footer :=
    if (length b <? foot_size E)%nat then Err else or_err (d_foot E (skipn (length b - foot_size E) b)).
  (** reader.rs:393-408 read_tsm_meta_buffer: the size is computed by a subtraction; a negative size cannot be allocated *)
  Definition read_meta_buffer (b : bytes) (f : footer) : res bytes :=
    if (length b <? foot_size E + f_coff f)%nat then Panic else or_err (slice b (f_coff f) (length b - foot_size E - f_coff f)).
  (** reader.rs:424-438 read_chunk_groups; slices out of range panic *)
  Fixpoint read_groups (buf : bytes) (meta : list (Z * gwspec)) (acc : list (Z * list cwspec)) : res (list (Z * list cwspec)) :=
    match meta with
    | [] => Ok acc
    | (_, g) :: meta' =>
        rbind (or_panic (slice buf (gw_off g) (gw_size g))) (fun s =>
        rbind (or_err (d_group E s)) (fun l => read_groups buf meta' (aput (sc_name (gw_schema g)) l acc)))
    end.
  (** reader.rs:440-455 read_chunk *)
  Fixpoint read_chunks_in (buf : bytes) (l : list cwspec) (acc : list (Z * tchunk)) : res (list (Z * tchunk)) :=
    match l with
    | [] => Ok acc
    | c :: l' =>
        rbind (or_panic (slice buf (cw_off c) (cw_size c))) (fun s =>
        rbind (or_err (d_chunk E s)) (fun ch => read_chunks_in buf l' (aput (cw_sid c) ch acc)))
    end.
  Fixpoint read_chunks (buf : bytes) (gs : list (Z * list cwspec)) (acc : list (Z * tchunk)) : res (list (Z * tchunk)) :=
    match gs with
    | [] => Ok acc
    | (_, l) :: gs' => rbind (read_chunks_in buf l acc) (fun acc' => read_chunks buf gs' acc')
    end.
  (** reader.rs:117-164 open *)
  Definition tsm_open (b : bytes) : res treader :=
    rbind (read_footer b) (fun f =>
    rbind (read_meta_buffer b f) (fun raw =>
    rbind (if f_v2 f then or_err (decomp E raw) else Ok raw) (fun buf =>
    rbind (or_panic (slice buf (f_goff f) (f_gsize f))) (fun ms =>
    rbind (or_err (d_meta E ms)) (fun meta =>
    rbind (read_groups buf meta []) (fun gs =>
    rbind (read_chunks buf gs []) (fun cs => Ok (TRD b f meta gs cs)))))))).

  (** reader.rs:457-475 read_page *)
  Definition read_page (b : bytes) (p : pspec) : res page :=
    rbind (or_err (slice b (sp_off p) (sp_size p))) (fun s => if crc_ok E s then Ok (PG (sp_meta p) s) else Err).
  Fixpoint read_all (b : bytes) (ps : list pspec) : res (list page) :=
    match ps with [] => Ok [] | p :: ps' => rbind (read_page b p) (fun x => rbind (read_all b ps') (fun r => Ok (x :: r))) end.
  Definition find_group (r : treader) (sid : Z) (gid : nat) : option cgroup :=
    match aget sid (r_chunks r) with Some c => find (fun g => (cg_id g =? gid)%nat) (tc_groups c) | None => None end.
  (** reader.rs:263-283 read_series_pages *)
  Definition read_series_pages (r : treader) (sid : Z) (gid : nat) : res (list page) :=
    match find_group r sid gid with Some g => read_all (r_file r) (cg_pages g) | None => Ok [] end.
  (** reader.rs:285-311 read_datablock_raw *)
  Definition read_raw (r : treader) (sid : Z) (gid : nat) : res bytes :=
    match find_group r sid gid with Some g => or_err (slice (r_file r) (cg_off g) (cg_size g)) | None => Ok [] end.
  (** chunk_group.rs:131-133 table_schema *)
  Definition schema_of (r : treader) (t : Z) : option tschema := option_map gw_schema (aget t (r_meta r)).

  (** ** rewriting the metadata after an update of tag values *)
  (** reader.rs:102-110 update_tag_value *)
  Definition rename (keys : list (Z * Z)) (cs : list (Z * tchunk)) : list (Z * tchunk) :=
    map (fun e => match aget (fst e) keys with
                  | Some k => let c := snd e in (fst e, TC (tc_tr c) (tc_table c) (tc_sid c) k (tc_next c) (tc_groups c))
                  | None => e end) cs.
  (** writer.rs:459-501 update_file_meta_data: the file is cut behind its pages and the metadata is written anew, under a footer of
      version 1 *)
  Definition cut_writer (r : treader) (keys : list (Z * Z)) (c : bool) : tw :=
    TW (firstn (f_coff (r_foot r)) (r_file r)) (fold_left (fun m g => insert_schema (gw_schema (snd g)) m) (r_meta r) [])
       (fold_left (fun s e => put2 (tc_table (snd e)) (tc_sid (snd e)) (snd e) s) (rename keys (r_chunks r)) []) Initialised false c.
  (** column_file.rs:150-182 update_tag_value; the test for series of the file is left out *)
  Definition update_file (keys : list (Z * Z)) (c : bool) (b : bytes) : res bytes :=
    rbind (tsm_open b) (fun r => or_panic (finish (cut_writer r keys c))).

  (** ** a whole file: flush.rs:140-200, writer_wrapper.rs:60-130 *)
  Record wr := WR { x_schema : tschema; x_sid : Z; x_key : Z; x_pages : list page; x_tr : trange }.
  Fixpoint writes (ws : list wr) (w : tw) : option tw :=
    match ws with
    | [] => Some w
    | x :: ws' => match write_pages (x_schema x) (x_sid x) (x_key x) (x_pages x) (x_tr x) w with Some w' => writes ws' w' | None => None end
    end.
  Definition write_file (c : bool) (ws : list wr) : option bytes := match writes ws (tw_new c) with Some w => finish w | None => None end.
End Env.
