(** What restoring a dump is to achieve, and for which catalogs; without the texts, the parser and the client. *)
From Coq Require Import Ascii String.
From Coq Require Import List.
From Verif Require Import Prelude DumpModel.
Open Scope list_scope.
Open Scope Z_scope.
Local Notation length := Datatypes.length.

(** * Names and texts *)
(** White space in the sense of Unicode. *)
Definition white (c : Z) : Prop :=
  In c [9; 10; 11; 12; 13; 32; 133; 160; 5760; 8192; 8193; 8194; 8195; 8196; 8197; 8198; 8199; 8200; 8201; 8202; 8232; 8233; 8239; 8287; 12288].
(** No double quote, and on one line. *)
Definition plain (s : str) : Prop := ~ In 34 s /\ ~ In 10 s.
(** A name as CREATE accepts it (not blank, no slash), and plain. *)
Definition plain_name (n : str) : Prop := plain n /\ ~ In 47 n /\ exists c, In c n /\ ~ white c.
(** No white space at its ends. *)
Definition tight (n : str) : Prop := (forall c r, n = c :: r -> ~ white c) /\ (forall r c, n = r ++ [c] -> ~ white c).
(** The same but for the case of ASCII letters. *)
Definition same_char (x y : Z) : Prop := x = y \/ (65 <= x <= 90 /\ y = x + 32) \/ (65 <= y <= 90 /\ x = y + 32).
Definition same_word (a b : str) : Prop := Forall2 same_char a b.
Definition one_line (o : option str) : Prop := match o with Some s => ~ In 10 s | None => True end.

(** * Tables and databases *)
(** The codecs a column of a type can have: common/models/src/codec.rs:5-36 *)
Definition codec_ok (v : vtype) (k : codec) : Prop :=
  match v with
  | VInteger | VUnsigned => In k [Default; Null; Delta; DeltaTs; Quantile]
  | VFloat => In k [Default; Null; Gorilla; Quantile]
  | VString => In k [Default; Null; Gzip; Bzip; Zstd; Snappy; Zlib]
  | VBoolean => In k [Default; Null; BitPack]
  | VGeometry => False
  end.
(** Columns as CREATE TABLE makes them: the time, then tags, then at least one field; no geometry. *)
Definition table_ok (cols : list column) : Prop :=
  exists tags fields,
    cols = Col (txt "time") CTime Default :: map (fun n => Col n CTag Default) tags ++
           map (fun x => Col (fst (fst x)) (CField (snd (fst x))) (snd x)) fields /\
    fields <> [] /\ Forall (fun x => codec_ok (snd (fst x)) (snd x)) fields /\
    NoDup (map c_name cols) /\ Forall (fun c => plain (c_name c)) cols.

Section Readback.
Variables (dur_text size_text : Z -> str) (dur_read size_read : str -> option Z).
(** The text of a duration or size is on one line without quotes and is read back. *)
Definition readback (text : Z -> str) (read : str -> option Z) (z : Z) : Prop :=
  read (text z) = Some z /\ ~ In 39 (text z) /\ ~ In 10 (text z).
Definition tenant_ok (n : str) (o : topts) : Prop :=
  plain_name n /\ tight n /\ one_line (t_comment o) /\ match t_drop o with Some z => readback dur_text dur_read z | None => True end /\
  t_limits o = None /\ t_hidden o = false.
Definition user_ok (n : str) (o : uopts) : Prop :=
  plain_name n /\ one_line (u_hash o) /\ one_line (u_comment o) /\ one_line (u_key o).
Definition u64 (z : Z) : Prop := 0 <= z < 2 ^ 64.
Definition db_ok (n : str) (o : dopts) : Prop :=
  plain_name n /\ readback size_text size_read (d_mem o) /\ readback size_text size_read (d_wal o) /\
  readback dur_text dur_read (d_ttl o) /\ readback dur_text dur_read (d_vnode o) /\
  u64 (d_parts o) /\ u64 (d_readers o) /\ u64 (d_shard o) /\ u64 (d_replica o) /\ d_shard o <> 0 /\ d_replica o <> 0 /\
  d_hidden o = false.

(** * Catalogs *)
Definition system_role (r : str) : Prop := r = txt "owner" \/ r = txt "member".
(** Everything has one description. *)
Definition keyed (c : cat) : Prop :=
  NoDup (map fst (tenants c)) /\ NoDup (map fst (users c)) /\ NoDup (map fst (dbs c)) /\ NoDup (map fst (roles c)) /\
  NoDup (map fst (grants c)) /\ NoDup (map fst (members c)) /\ NoDup (map fst (tables c)).
(** What is mentioned exists. *)
Definition closed (c : cat) : Prop :=
  (forall t d o, In (t, d, o) (dbs c) -> exists o, In (t, o) (tenants c)) /\
  (forall t r h, In (t, r, h) (roles c) -> exists o, In (t, o) (tenants c)) /\
  (forall t r d p, In (t, r, d, p) (grants c) -> (exists h, In (t, r, h) (roles c)) /\ (exists o, In (t, d, o) (dbs c))) /\
  (forall t u r, In (t, u, r) (members c) ->
     (exists o, In (t, o) (tenants c)) /\ (exists o, In (u, o) (users c)) /\ (system_role r \/ exists h, In (t, r, h) (roles c))) /\
  (forall t d n cols, In (t, d, n, cols) (tables c) -> exists o, In (t, d, o) (dbs c)).
(** Names, options and tables that the script can express. *)
Definition expressible (c : cat) : Prop :=
  (forall n o, In (n, o) (tenants c) -> tenant_ok n o /\ (same_word n (txt "cnosdb") -> n = txt "cnosdb")) /\
  (forall n o, In (n, o) (users c) -> user_ok n o /\ (same_word n (txt "root") -> n = txt "root")) /\
  (forall t n o, In (t, n, o) (dbs c) -> db_ok n o /\ (t = txt "cnosdb" -> same_word n (txt "public") -> n = txt "public")) /\
  (forall t n h, In (t, n, h) (roles c) -> plain_name n /\ ~ system_role n) /\
  (forall t d n cols, In (t, d, n, cols) (tables c) -> plain_name n /\ table_ok cols).

(** * One tenant or all *)
Definition sel (f : option str) (t : str) : Prop := match f with None => True | Some g => t = g end.
Definition sel_user (f : option str) (c : cat) (u : str) : Prop :=
  match f with None => True | Some g => exists r, In (g, u, r) (members c) end.
(** The cluster [s] into which the dump of [c] goes: what both have is the same, or, for what the script creates without IF NOT
    EXISTS, nothing is in both; the objects every cluster has from the start are there as they are in [c]. *)
Definition receives (f : option str) (c s : cat) : Prop :=
  keyed s /\
  (forall n o o', In (n, o) (tenants c) -> sel f n -> In (n, o') (tenants s) -> o' = o) /\
  (forall n o o', In (n, o) (users c) -> sel_user f c n -> In (n, o') (users s) -> o' = o /\ (f <> None \/ n = txt "root")) /\
  (forall t n o o', In (t, n, o) (dbs c) -> sel f t -> In (t, n, o') (dbs s) -> o' = o) /\
  (forall t n h h', In (t, n, h) (roles c) -> sel f t -> ~ In (t, n, h') (roles s)) /\
  (forall t r d p p', In (t, r, d, p) (grants c) -> sel f t -> ~ In (t, r, d, p') (grants s)) /\
  (forall t u r r', In (t, u, r) (members c) -> sel f t -> ~ In (t, u, r') (members s)) /\
  (forall t d n x x', In (t, d, n, x) (tables c) -> sel f t -> In (t, d, n, x') (tables s) -> d = txt "usage_schema" /\ x' = x) /\
  (forall o, In (txt "cnosdb", o) (tenants c) -> sel f (txt "cnosdb") -> In (txt "cnosdb", o) (tenants s)) /\
  (forall o, In (txt "root", o) (users c) -> sel_user f c (txt "root") -> In (txt "root", o) (users s)) /\
  (forall o, In (txt "cnosdb", txt "public", o) (dbs c) -> sel f (txt "cnosdb") -> In (txt "cnosdb", txt "public", o) (dbs s)) /\
  (forall r, sel f (txt "cnosdb") -> ~ In (txt "cnosdb", txt "root", r) (members c)).
(** After it the cluster has what it had and what was chosen of [c], and nothing else. *)
Definition restored (f : option str) (c s r : cat) : Prop :=
  (forall n o, In (n, o) (tenants r) <-> In (n, o) (tenants s) \/ (In (n, o) (tenants c) /\ sel f n)) /\
  (forall n o, In (n, o) (users r) <-> In (n, o) (users s) \/ (In (n, o) (users c) /\ sel_user f c n)) /\
  (forall t n o, In (t, n, o) (dbs r) <-> In (t, n, o) (dbs s) \/ (In (t, n, o) (dbs c) /\ sel f t)) /\
  (forall t n h, In (t, n, h) (roles r) <-> In (t, n, h) (roles s) \/ (In (t, n, h) (roles c) /\ sel f t)) /\
  (forall t n d p, In (t, n, d, p) (grants r) <-> In (t, n, d, p) (grants s) \/ (In (t, n, d, p) (grants c) /\ sel f t)) /\
  (forall t u n, In (t, u, n) (members r) <-> In (t, u, n) (members s) \/ (In (t, u, n) (members c) /\ sel f t)) /\
  (forall t d n x, In (t, d, n, x) (tables r) <-> In (t, d, n, x) (tables s) \/ (In (t, d, n, x) (tables c) /\ sel f t)).

(** The same objects, whatever the order in which they are listed. *)
Definition same (a b : cat) : Prop :=
  (forall x, In x (tenants a) <-> In x (tenants b)) /\ (forall x, In x (users a) <-> In x (users b)) /\
  (forall x, In x (dbs a) <-> In x (dbs b)) /\ (forall x, In x (roles a) <-> In x (roles b)) /\
  (forall x, In x (grants a) <-> In x (grants b)) /\ (forall x, In x (members a) <-> In x (members b)) /\
  (forall x, In x (tables a) <-> In x (tables b)).
(** A new cluster has the tenant cnosdb, the user root, the database public of cnosdb, perhaps other databases of cnosdb and tables of
    its database usage_schema; [c] still has all of them as they were, and root is no ordinary member of cnosdb. *)
Definition new_cluster (s c : cat) : Prop :=
  (exists o, tenants s = [(txt "cnosdb", o)]) /\ (exists o, users s = [(txt "root", o)]) /\
  (forall t d o, In (t, d, o) (dbs s) -> t = txt "cnosdb") /\ (exists o, In (txt "cnosdb", txt "public", o) (dbs s)) /\
  roles s = [] /\ grants s = [] /\ members s = [] /\
  (forall t d n x, In (t, d, n, x) (tables s) -> t = txt "cnosdb" /\ d = txt "usage_schema") /\
  keyed s /\ incl (tenants s) (tenants c) /\ incl (users s) (users c) /\ incl (dbs s) (dbs c) /\ incl (tables s) (tables c) /\
  (forall r, ~ In (txt "cnosdb", txt "root", r) (members c)).
End Readback.
