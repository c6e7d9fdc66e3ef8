(** Dump and restore of the objects of a cluster: the script of SQL statements made of the catalog (meta/src/store/dump.rs,
    common/models/src/sql/mod.rs), the client that reads the script (client/src/exec.rs), and the parser, planner and execution of the
    statements that occur in it (query_server/query/src/sql/parser.rs, planner.rs, execution/ddl/create_*.rs, meta/src/store/storage.rs).
    The tokenizer of the dependency sqlparser is modelled as far as these texts need it.  Left out: external and stream tables, the
    check that enough data nodes exist for a database, the limits of a tenant on the number of its objects, and the numeric ids of the
    objects, which are given anew.  The statements are run by the root user.  Text is a list of character codes. *)
From Coq Require Import Ascii String.
From Coq Require Import List.
From Verif Require Import Prelude.

Definition str := list Z.
Definition txt (s : String.string) : str := map (fun a => Z.of_N (Ascii.N_of_ascii a)) (String.list_ascii_of_string s).
Arguments txt s%string.
Open Scope list_scope.
Open Scope Z_scope.
Fixpoint str_eqb (a b : str) : bool :=
  match a, b with [] , [] => true | x :: a, y :: b => (x =? y) && str_eqb a b | _, _ => false end.
(** [u8::to_ascii_lowercase] on each character *)
Definition lower (w : str) : str := map (fun c => if (65 <=? c) && (c <=? 90) then c + 32 else c) w.
Definition ci_eqb (a b : str) : bool := str_eqb (lower a) (lower b).

(** * The catalog *)
(** common/utils/src/precision.rs:8-13 *)
Inductive prec := MS | US | NS.
(** common/models/src/auth/role.rs:85-88 SystemTenantRole; 201- DatabasePrivilege *)
Inductive sysrole := Owner | Member.
Inductive priv := PRead | PWrite | PFull.
(** common/models/src/value_type.rs; codec.rs:38-54 *)
Inductive vtype := VFloat | VInteger | VUnsigned | VBoolean | VString | VGeometry.
Inductive codec := Default | Null | Delta | Quantile | Gzip | Bzip | Gorilla | Snappy | Zstd | Zlib | BitPack | DeltaTs | Unknown.
(** schema/tskv_table_schema.rs TableColumn; the unit of the time column is the precision of its database, and is left out *)
Inductive ctype := CTime | CTag | CField (v : vtype).
Record column := Col { c_name : str; c_type : ctype; c_codec : codec }.
(** schema/tenant.rs TenantOptions: a duration in nanoseconds, the limits as their JSON text, and the mark of a dropped tenant *)
Record topts := TOpts { t_comment : option str; t_drop : option Z; t_limits : option str; t_hidden : bool }.
(** auth/user.rs:141-153 UserOptions *)
Record uopts := UOpts { u_hash : option str; u_comment : option str; u_change : option bool; u_key : option str; u_admin : option bool }.
(** schema/database_schema.rs DatabaseConfig and DatabaseOptions, and the mark of a dropped database *)
Record dopts := DOpts { d_prec : prec; d_mem : Z; d_parts : Z; d_wal : Z; d_sync : bool; d_strict : bool; d_readers : Z;
                        d_ttl : Z; d_shard : Z; d_replica : Z; d_vnode : Z; d_hidden : bool }.
(** What the metadata holds, by name (meta/src/store/key_path.rs): tenants, users, databases of a tenant, roles of a tenant with the
    role they inherit, privileges of a role on a database, members of a tenant with their role, tables of a database. *)
Record cat := Cat { tenants : list (str * topts); users : list (str * uopts); dbs : list (str * str * dopts);
                    roles : list (str * str * option sysrole); grants : list (str * str * str * priv);
                    members : list (str * str * str); tables : list (str * str * str * list column) }.

Definition eqb2 (a b : str * str) : bool := str_eqb (fst a) (fst b) && str_eqb (snd a) (snd b).
Definition eqb3 (a b : str * str * str) : bool := eqb2 (fst a) (fst b) && str_eqb (snd a) (snd b).
Definition has {K V : Type} (eqb : K -> K -> bool) (k : K) (l : list (K * V)) : bool := existsb (fun e => eqb (fst e) k) l.

(** * The texts *)
(** format!("\"{}\"", name): the name as it is *)
Definition quoted (n : str) : str := 34 :: n ++ [34].
(** Display of SqlParserValue::SingleQuotedString: quotes doubled *)
Definition esc (s : str) : str := flat_map (fun c => if c =? 39 then [39; 39] else [c]) s.
Definition literal (s : str) : str := 39 :: esc s ++ [39].
(** Display of an unsigned number *)
Fixpoint digits (k : nat) (z : Z) : str :=
  match k with O => [] | S k => if z <? 10 then [48 + z] else digits k (z / 10) ++ [48 + z mod 10] end.
Definition dec (z : Z) : str := digits 20 z.
Definition bool_text (b : bool) : str := if b then txt "true" else txt "false".
Fixpoint join (sep : str) (l : list str) : str :=
  match l with [] => [] | [x] => x | x :: l => x ++ sep ++ join sep l end.
(** char::is_whitespace *)
Definition is_ws (c : Z) : bool :=
  ((9 <=? c) && (c <=? 13)) || (c =? 32) || (c =? 133) || (c =? 160) || (c =? 5760) || ((8192 <=? c) && (c <=? 8202)) ||
  (c =? 8232) || (c =? 8233) || (c =? 8239) || (c =? 8287) || (c =? 12288).
Fixpoint trim_start (s : str) : str := match s with c :: r => if is_ws c then trim_start r else s | [] => [] end.
Definition trim_end (s : str) : str := rev (trim_start (rev s)).
Definition trim (s : str) : str := trim_end (trim_start s).
Definition ine_text (i : bool) : str := if i then txt "if not exists " else [].
(** sql/mod.rs:22-29 sql_option_to_sql_str, given the options that are present *)
Definition opt_text {A : Type} (k : str) (show : A -> str) (o : option A) : list str :=
  match o with Some v => [k ++ [61] ++ show v] | None => [] end.

Section Texts.
(** CnosDuration and CnosByteNumber (humantime, byte_unit): text of a duration or size, and the reader of such a text *)
Variables (dur_text size_text : Z -> str) (dur_read size_read : str -> option Z).

(** sql/mod.rs:36-79 *)
Definition tenant_opts (o : topts) : list str :=
  opt_text (txt "comment") literal (t_comment o) ++ opt_text (txt "drop_after") (fun z => literal (dur_text z)) (t_drop o) ++
  opt_text (txt "_limiter") literal (t_limits o).
Definition with_text (os : list str) : str := match os with [] => [] | _ => txt "with " ++ join (txt ", ") os end.
Definition tenant_text (i : bool) (n : str) (o : topts) : str :=
  trim (txt "create tenant " ++ ine_text i ++ quoted n ++ [32] ++ with_text (tenant_opts o)) ++ [59].
(** 82-133 *)
Definition user_opts (o : uopts) : list str :=
  opt_text (txt "hash_password") literal (u_hash o) ++ opt_text (txt "comment") literal (u_comment o) ++
  opt_text (txt "must_change_password") bool_text (u_change o) ++ opt_text (txt "rsa_public_key") literal (u_key o) ++
  opt_text (txt "granted_admin") bool_text (u_admin o).
Definition user_text (i : bool) (n : str) (o : uopts) : str :=
  txt "create user " ++ ine_text i ++ quoted n ++ [32] ++ with_text (user_opts o) ++ [59].
(** 136-185 *)
Definition prec_text (p : prec) : str := match p with MS => txt "MS" | US => txt "US" | NS => txt "NS" end.
Definition db_text (i : bool) (n : str) (o : dopts) : str :=
  trim (txt "create database " ++ ine_text i ++ quoted n ++ txt " with " ++
        txt "precision " ++ literal (prec_text (d_prec o)) ++ [32] ++
        txt "max_memcache_size '" ++ size_text (d_mem o) ++ txt "' " ++
        txt "memcache_partitions " ++ dec (d_parts o) ++ [32] ++
        txt "wal_max_file_size '" ++ size_text (d_wal o) ++ txt "' " ++
        txt "wal_sync '" ++ bool_text (d_sync o) ++ txt "' " ++
        txt "strict_write '" ++ bool_text (d_strict o) ++ txt "' " ++
        txt "max_cache_readers " ++ dec (d_readers o) ++ [32] ++
        txt "ttl '" ++ dur_text (d_ttl o) ++ txt "' " ++
        txt "shard " ++ dec (d_shard o) ++ [32] ++
        txt "replica " ++ dec (d_replica o) ++ [32] ++
        txt "vnode_duration '" ++ dur_text (d_vnode o) ++ txt "' ") ++ [59].
(** 188-208 *)
Definition sysrole_text (r : sysrole) : str := match r with Owner => txt "owner" | Member => txt "member" end.
Definition role_text (n : str) (r : option sysrole) : str :=
  txt "create role " ++ quoted n ++ match r with Some r => txt " inherit " ++ sysrole_text r | None => [] end ++ [59].
(** 219-232; role.rs DatabasePrivilege::as_str *)
Definition priv_text (p : priv) : str := match p with PRead => txt "Read" | PWrite => txt "Write" | PFull => txt "All" end.
Definition grant_text (d r : str) (p : priv) : str :=
  txt "grant " ++ priv_text p ++ txt " on database " ++ quoted d ++ txt " to " ++ quoted r ++ [59].
(** 235-240 *)
Definition member_text (t u r : str) : str :=
  txt "alter tenant " ++ quoted t ++ txt " add user " ++ quoted u ++ txt " as " ++ quoted r ++ [59].
(** 287-322; value_type.rs:42-52; codec.rs:81-97 *)
Definition type_text (v : vtype) : str :=
  match v with
  | VFloat => txt "DOUBLE" | VInteger => txt "BIGINT" | VUnsigned => txt "BIGINT UNSIGNED" | VBoolean => txt "BOOLEAN"
  | VString => txt "STRING" | VGeometry => txt "GEOMETRY"
  end.
Definition codec_text (c : codec) : str :=
  match c with
  | Default => txt "DEFAULT" | Null => txt "NULL" | Delta => txt "DELTA" | DeltaTs => txt "DELTATS" | Quantile => txt "QUANTILE"
  | Gzip => txt "GZIP" | Bzip => txt "BZIP" | Gorilla => txt "GORILLA" | Snappy => txt "SNAPPY" | Zstd => txt "ZSTD"
  | Zlib => txt "ZLIB" | BitPack => txt "BITPACK" | Unknown => txt "UNKNOWN"
  end.
Definition field_text (c : column) : str :=
  match c_type c with
  | CField v => quoted (c_name c) ++ [32] ++ type_text v ++
                match c_codec c with Default => [] | k => txt " CODEC(" ++ codec_text k ++ [41] end ++ txt ", "
  | _ => []
  end.
Definition is_tag (c : column) : bool := match c_type c with CTag => true | _ => false end.
Definition table_text (i : bool) (d n : str) (cols : list column) : str :=
  txt "create table " ++ ine_text i ++ quoted d ++ [46] ++ quoted n ++ txt " (" ++ flat_map field_text cols ++
  txt "tags (" ++ join (txt ", ") (map (fun c => quoted (c_name c)) (filter is_tag cols)) ++ txt "));".

(** * The script: dump.rs *)
Definition CNOSDB : str := txt "cnosdb".
Definition PUBLIC : str := txt "public".
Definition USAGE : str := txt "usage_schema".
Definition ROOT : str := txt "root".
Definition chosen (f : option str) (t : str) : bool := match f with None => true | Some g => str_eqb t g end.
Definition dbs_of (c : cat) (t : str) : list (str * dopts) :=
  flat_map (fun e => let '(t', d, o) := e in if str_eqb t' t then [(d, o)] else []) (dbs c).
Definition roles_of (c : cat) (t : str) : list (str * option sysrole) :=
  flat_map (fun e => let '(t', r, i) := e in if str_eqb t' t then [(r, i)] else []) (roles c).
Definition grants_of (c : cat) (t r : str) : list (str * priv) :=
  flat_map (fun e => let '(t', r', d, p) := e in if str_eqb t' t && str_eqb r' r then [(d, p)] else []) (grants c).
(** 118-133: members whose user is known *)
Definition members_of (c : cat) (t : str) : list (str * str) :=
  flat_map (fun e => let '(t', u, r) := e in if str_eqb t' t && has str_eqb u (users c) then [(u, r)] else []) (members c).
Definition tables_of (c : cat) (t d : str) : list (str * list column) :=
  flat_map (fun e => let '(t', d', n, cols) := e in if str_eqb t' t && str_eqb d' d then [(n, cols)] else []) (tables c).
(** 86-161 dump_tenant.  The code sorts each group by name; here the order is that of the lists. *)
Definition dump_tenant (c : cat) (t : str) : list str :=
  (txt "\change_tenant " ++ t) ::
  flat_map (fun e => let '(d, o) := e in if ci_eqb t CNOSDB && ci_eqb d PUBLIC then [] else [db_text true d o]) (dbs_of c t) ++
  flat_map (fun e => let '(r, i) := e in role_text r i :: map (fun g => grant_text (fst g) r (snd g)) (grants_of c t r)) (roles_of c t) ++
  flat_map (fun e => let '(u, r) := e in if ci_eqb u ROOT && ci_eqb t CNOSDB then [] else [member_text t u r]) (members_of c t) ++
  flat_map (fun e => map (fun x => table_text (ci_eqb (fst e) USAGE) (fst e) (fst x) (snd x)) (tables_of c t (fst e))) (dbs_of c t).
(** 16-84 dump_impl, for all tenants or for one *)
Definition dump_lines (f : option str) (c : cat) : list str :=
  let ts := filter (fun e => chosen f (fst e)) (tenants c) in
  let used := flat_map (fun e => map fst (members_of c (fst e))) ts in
  txt "-- Dump Global Object" ::
  flat_map (fun e => if ci_eqb (fst e) CNOSDB then [] else [tenant_text true (fst e) (snd e)]) ts ++
  flat_map (fun e => if ci_eqb (fst e) ROOT then []
                     else match f with
                          | None => [user_text false (fst e) (snd e)]
                          | Some _ => if existsb (str_eqb (fst e)) used then [user_text true (fst e) (snd e)] else []
                          end) (users c) ++
  flat_map (fun e => (txt "-- Dump Tenant " ++ fst e ++ txt " Object") :: dump_tenant c (fst e)) ts.
Definition dump (f : option str) (c : cat) : str := join [10] (dump_lines f c) ++ [10].

(** * Tokens *)
Inductive token := TWord (w : str) | TQuoted (w : str) | TStr (s : str) | TNum (z : Z) | TP (c : Z).
Inductive mode :=
| MSpace | MWord (w : str) | MStr (s : str) | MStrEnd (s : str) | MId (s : str) | MIdEnd (s : str) | MNum (z : Z) | MDone (t : token).
Definition is_digit (c : Z) : bool := (48 <=? c) && (c <=? 57).
Definition is_letter (c : Z) : bool := ((65 <=? c) && (c <=? 90)) || ((97 <=? c) && (c <=? 122)).
(** sql/dialect.rs:6-19, ASCII *)
Definition ident_start (c : Z) : bool := is_letter c || (c =? 95) || (c =? 35) || (c =? 64).
Definition ident_part (c : Z) : bool := ident_start c || is_digit c || (c =? 36).
(** ( ) , . ; = *)
Definition punct (c : Z) : bool := (c =? 40) || (c =? 41) || (c =? 44) || (c =? 46) || (c =? 59) || (c =? 61).
Definition extend (m : mode) (c : Z) : option mode :=
  match m with
  | MSpace | MDone _ => None
  | MWord w => if ident_part c then Some (MWord (w ++ [c])) else None
  | MStr s => if c =? 39 then Some (MStrEnd s) else Some (MStr (s ++ [c]))
  | MStrEnd s => if c =? 39 then Some (MStr (s ++ [c])) else None
  | MId s => if c =? 34 then Some (MIdEnd s) else Some (MId (s ++ [c]))
  | MIdEnd s => if c =? 34 then Some (MId (s ++ [c])) else None
  | MNum z => if is_digit c then Some (MNum (10 * z + (c - 48))) else None
  end.
Definition flush (m : mode) : option (list token) :=
  match m with
  | MSpace => Some []
  | MWord w => Some [TWord w]
  | MStrEnd s => Some [TStr s]
  | MIdEnd s => Some [TQuoted s]
  | MNum z => Some [TNum z]
  | MDone t => Some [t]
  | MStr _ | MId _ => None
  end.
Definition start (c : Z) : option mode :=
  if (c =? 32) || (c =? 9) || (c =? 10) || (c =? 13) then Some MSpace
  else if ident_start c then Some (MWord [c])
  else if is_digit c then Some (MNum (c - 48))
  else if c =? 39 then Some (MStr [])
  else if c =? 34 then Some (MId [])
  else if punct c then Some (MDone (TP c))
  else None.
(** sqlparser's Tokenizer; anything else (comments, other operators, characters outside ASCII outside quotes) is an error here *)
Fixpoint lex (m : mode) (l : str) : option (list token) :=
  match l with
  | [] => flush m
  | c :: l =>
      match extend m c with
      | Some m => lex m l
      | None =>
          match flush m, start c with
          | Some ts, Some m => match lex m l with Some r => Some (ts ++ r) | None => None end
          | _, _ => None
          end
      end
  end.

(** * The statements: parser.rs *)
Inductive value := VStr (s : str) | VBool (b : bool) | VOther.
Inductive dtype := DBigInt | DUnsigned | DDouble | DString | DBoolean | DOther.
(** query_server/spi/src/query/ast.rs ColumnOption *)
Record colopt := ColOpt { o_name : str; o_tag : bool; o_type : dtype; o_codec : option codec }.
Record dbast := DbAst { a_prec : option str; a_mem : option str; a_parts : option Z; a_wal : option str; a_sync : option str;
                        a_strict : option str; a_readers : option Z; a_ttl : option str; a_shard : option Z; a_replica : option Z;
                        a_vnode : option str }.
Inductive stmt :=
| SCreateTenant (i : bool) (n : str) (os : list (str * str))
| SCreateUser (i : bool) (n : str) (os : list (str * value))
| SCreateDb (i : bool) (n : str) (o : dbast)
| SCreateRole (i : bool) (n : str) (inherit : option str)
| SGrant (p : priv) (d r : str)
| SAddUser (t u r : str)
| SCreateTable (i : bool) (d n : str) (cols : list colopt).

Definition kw (k : str) (ts : list token) : option (list token) :=
  match ts with TWord w :: r => if str_eqb (lower w) k then Some r else None | _ => None end.
Definition pun (c : Z) (ts : list token) : option (list token) :=
  match ts with TP c' :: r => if c' =? c then Some r else None | _ => None end.
(** Parser::parse_identifier, then normalize_ident (datafusion): quoted names as they are, others in lower case *)
Definition ident (ts : list token) : option (str * list token) :=
  match ts with
  | TWord w :: r => Some (lower w, r)
  | TQuoted w :: r => Some (w, r)
  | TStr w :: r => Some (w, r)
  | _ => None
  end.
Definition if_not_exists (ts : list token) : bool * list token :=
  match kw (txt "if") ts with
  | Some r => match kw (txt "not") r with
              | Some r => match kw (txt "exists") r with Some r => (true, r) | None => (false, ts) end
              | None => (false, ts)
              end
  | None => (false, ts)
  end.
(** 2180-2203 check_name_not_contain_illegal_character *)
Definition name_fine (n : str) : bool :=
  negb (existsb (Z.eqb 47) n) && negb (match trim n with [] => true | _ => false end).
(** A name that was just read and checked. *)
Definition fine_ident (ts : list token) : option (str * list token) :=
  match ident ts with Some (n, r) => if name_fine n then Some (n, r) else None | None => None end.
Definition skip_eq (ts : list token) : list token := match pun 61 ts with Some r => r | None => ts end.
Fixpoint skip_eqs (ts : list token) : list token :=
  match ts with TP c :: r => if c =? 61 then skip_eqs r else ts | _ => ts end.

(** 1336-1440 parse_tenant_with_options, without the clauses for limits: object_config, coord_data_in and so on.  None of them
    is called _limiter. *)
Fixpoint tenant_options (fuel : nat) (ts : list token) : option (list (str * str) * list token) :=
  match fuel with
  | O => None
  | S k =>
      match ident ts with
      | Some (n, r) =>
          if str_eqb (lower n) (txt "comment") || str_eqb (lower n) (txt "drop_after") then
            match skip_eqs r with
            | TStr s :: r => match pun 44 r with
                             | Some r => match tenant_options k r with Some (os, r) => Some ((lower n, s) :: os, r) | None => None end
                             | None => Some ([(lower n, s)], r)
                             end
            | _ => None
            end
          else None
      | None => None
      end
  end.
(** sqlparser's parse_value *)
Definition a_value (ts : list token) : option (value * list token) :=
  match ts with
  | TStr s :: r => Some (VStr s, r)
  | TQuoted _ :: r => Some (VOther, r)
  | TNum _ :: r => Some (VOther, r)
  | TWord w :: r =>
      if str_eqb (lower w) (txt "true") then Some (VBool true, r) else if str_eqb (lower w) (txt "false") then Some (VBool false, r)
      else if str_eqb (lower w) (txt "null") then Some (VOther, r) else None
  | _ => None
  end.
(** 1269-1290 with parse_sql_option (2172-2177) *)
Fixpoint user_options (fuel : nat) (ts : list token) : option (list (str * value) * list token) :=
  match fuel with
  | O => None
  | S k =>
      match ident ts with
      | Some (n, r) =>
          match a_value (skip_eq r) with
          | Some (v, r) => match pun 44 r with
                           | Some r => match user_options k r with Some (os, r) => Some ((n, v) :: os, r) | None => None end
                           | None => Some ([(n, v)], r)
                           end
          | None => None
          end
      | None => None
      end
  end.
(** parse_string_value and parse_number::<u64> *)
Definition str_value (ts : list token) : option (str * list token) := match ts with TStr s :: r => Some (s, r) | _ => None end.
Definition num_value (ts : list token) : option (Z * list token) :=
  match ts with TNum z :: r => if z <? 2 ^ 64 then Some (z, r) else None | _ => None end.
Definition none_ast : dbast := DbAst None None None None None None None None None None None.
(** 1071-1125 parse_database_option_or_config: no option, an error, or an option and what follows it *)
Inductive dres := DNo | DErr | DOk (a : dbast) (r : list token).
Definition orelse (x y : dres) : dres := match x with DNo => y | _ => x end.
Definition opt_s (k : str) (f : str -> dbast) (ts : list token) : dres :=
  match kw k ts with
  | Some r => match str_value (skip_eq r) with Some (s, r) => DOk (f s) r | None => DErr end
  | None => DNo
  end.
Definition opt_n (k : str) (ok : Z -> bool) (f : Z -> dbast) (ts : list token) : dres :=
  match kw k ts with
  | Some r => match num_value (skip_eq r) with Some (z, r) => if ok z then DOk (f z) r else DErr | None => DErr end
  | None => DNo
  end.
Definition any (_ : Z) : bool := true.
Definition nonzero (z : Z) : bool := negb (z =? 0).
Definition db_option (a : dbast) (ts : list token) : dres :=
  let '(DbAst p m n w y x c t s l v) := a in
  orelse (opt_s (txt "ttl") (fun z => DbAst p m n w y x c (Some z) s l v) ts)
  (orelse (opt_n (txt "shard") nonzero (fun z => DbAst p m n w y x c t (Some z) l v) ts)
  (orelse (opt_s (txt "vnode_duration") (fun z => DbAst p m n w y x c t s l (Some z)) ts)
  (orelse (opt_n (txt "replica") nonzero (fun z => DbAst p m n w y x c t s (Some z) v) ts)
  (orelse (opt_s (txt "precision") (fun z => DbAst (Some z) m n w y x c t s l v) ts)
  (orelse (opt_s (txt "max_memcache_size") (fun z => DbAst p (Some z) n w y x c t s l v) ts)
  (orelse (opt_n (txt "memcache_partitions") any (fun z => DbAst p m (Some z) w y x c t s l v) ts)
  (orelse (opt_s (txt "wal_max_file_size") (fun z => DbAst p m n (Some z) y x c t s l v) ts)
  (orelse (opt_s (txt "wal_sync") (fun z => DbAst p m n w (Some z) x c t s l v) ts)
  (orelse (opt_s (txt "strict_write") (fun z => DbAst p m n w y (Some z) c t s l v) ts)
          (opt_n (txt "max_cache_readers") any (fun z => DbAst p m n w y x (Some z) t s l v) ts)))))))))).
(** 1058-1069 *)
Fixpoint db_options (fuel : nat) (a : dbast) (ts : list token) : option (dbast * list token) :=
  match fuel with
  | O => None
  | S k => match db_option a ts with DErr => None | DNo => Some (a, ts) | DOk a ts => db_options k a ts end
  end.
(** sqlparser's parse_data_type: every other word is a type the planner refuses *)
Definition data_type (ts : list token) : option (dtype * list token) :=
  match ts with
  | TWord w :: r =>
      let w := lower w in
      if str_eqb w (txt "bigint") then match kw (txt "unsigned") r with Some r => Some (DUnsigned, r) | None => Some (DBigInt, r) end
      else if str_eqb w (txt "double") then Some (DDouble, r)
      else if str_eqb w (txt "string") then Some (DString, r)
      else if str_eqb w (txt "boolean") then Some (DBoolean, r)
      else Some (DOther, r)
  | _ => None
  end.
Definition upper (w : str) : str := map (fun c => if (97 <=? c) && (c <=? 122) then c - 32 else c) w.
(** codec.rs:100-119 *)
Definition codec_of (w : str) : option codec :=
  find (fun c => str_eqb (upper w) (codec_text c))
    [Default; Null; Delta; DeltaTs; Quantile; Gzip; Bzip; Gorilla; Snappy; Zstd; Zlib; BitPack].
(** 2153-2170 parse_codec_type *)
Definition codec_type (ts : list token) : option (codec * list token) :=
  match pun 40 ts with
  | Some (TWord w :: r) => match codec_of w, pun 41 r with Some c, Some r => Some (c, r) | _, _ => None end
  | _ => None
  end.
(** 2098-2107 parse_cnos_field *)
Definition cnos_field (ts : list token) : option (colopt * list token) :=
  match ident ts with
  | Some (n, r) =>
      match data_type r with
      | Some (t, r) => match kw (txt "codec") r with
                       | Some r => match codec_type r with Some (c, r) => Some (ColOpt n false t (Some c), r) | None => None end
                       | None => Some (ColOpt n false t None, r)
                       end
      | None => None
      end
  | None => None
  end.
(** sqlparser's parse_parenthesized_column_list, after the opening parenthesis *)
Fixpoint tag_list (fuel : nat) (ts : list token) : option (list str * list token) :=
  match fuel with
  | O => None
  | S k =>
      match ident ts with
      | Some (n, r) => match pun 44 r with
                       | Some r => match tag_list k r with Some (ns, r) => Some (n :: ns, r) | None => None end
                       | None => match pun 41 r with Some r => Some ([n], r) | None => None end
                       end
      | None => None
      end
  end.
Definition tags (ts : list token) : option (list str * list token) :=
  match pun 40 ts with
  | Some r => match pun 41 r with Some r => Some ([], r) | None => tag_list (length r) r end
  | None => None
  end.
(** 2110-2150 parse_cnos_columns, after the opening parenthesis: fields, then tags, which come first in the result *)
Fixpoint cnos_columns (fuel : nat) (fields : list colopt) (ts : list token) : option (list colopt * list token) :=
  match fuel with
  | O => None
  | S k =>
      match cnos_field ts with
      | Some (f, r) =>
          let fields := fields ++ [f] in
          match pun 44 r with
          | Some r =>
              match kw (txt "tags") r with
              | Some r => match tags r with
                          | Some (ns, r) => match pun 41 r with
                                            | Some r => Some (map (fun n => ColOpt n true DString None) ns ++ fields, r)
                                            | None => None
                                            end
                          | None => None
                          end
              | None => cnos_columns k fields r
              end
          | None => match pun 41 r with Some r => Some (fields, r) | None => None end
          end
      | None => None
      end
  end.
(** 1043-1056 parse_create_table; a name without its database is left out *)
Definition create_table (ts : list token) : option (stmt * list token) :=
  let '(i, r) := if_not_exists ts in
  match ident r with
  | Some (d, r) =>
      match pun 46 r with
      | Some r =>
          match ident r with
          | Some (n, r) =>
              if name_fine (d ++ [46] ++ n) then
                match pun 40 r with
                | Some r => match pun 41 r with
                            | Some _ => None
                            | None => match cnos_columns (length r) [] r with Some (cs, r) => Some (SCreateTable i d n cs, r) | None => None end
                            end
                | None => None
                end
              else None
          | None => None
          end
      | None => None
      end
  | None => None
  end.
(** 1314-1334, 1269-1290, 1191-1210, 1292-1312 *)
Definition create_tenant (ts : list token) : option (stmt * list token) :=
  let '(i, r) := if_not_exists ts in
  match fine_ident r with
  | Some (n, r) => match kw (txt "with") r with
                   | Some r => match tenant_options (length r) r with Some (os, r) => Some (SCreateTenant i n os, r) | None => None end
                   | None => Some (SCreateTenant i n [], r)
                   end
  | None => None
  end.
Definition create_user (ts : list token) : option (stmt * list token) :=
  let '(i, r) := if_not_exists ts in
  match fine_ident r with
  | Some (n, r) => match kw (txt "with") r with
                   | Some r => match user_options (length r) r with Some (os, r) => Some (SCreateUser i n os, r) | None => None end
                   | None => Some (SCreateUser i n [], r)
                   end
  | None => None
  end.
Definition create_db (ts : list token) : option (stmt * list token) :=
  let '(i, r) := if_not_exists ts in
  match fine_ident r with
  | Some (n, r) => match kw (txt "with") r with
                   | Some r => match db_options (S (length r)) none_ast r with Some (a, r) => Some (SCreateDb i n a, r) | None => None end
                   | None => Some (SCreateDb i n none_ast, r)
                   end
  | None => None
  end.
Definition create_role (ts : list token) : option (stmt * list token) :=
  let '(i, r) := if_not_exists ts in
  match fine_ident r with
  | Some (n, r) => match kw (txt "inherit") r with
                   | Some r => match ident r with Some (h, r) => Some (SCreateRole i n (Some h), r) | None => Some (SCreateRole i n None, r) end
                   | None => Some (SCreateRole i n None, r)
                   end
  | None => None
  end.
(** 1212-1248 parse_grant with one privilege *)
Definition grant (ts : list token) : option (stmt * list token) :=
  match (match kw (txt "read") ts with
         | Some r => Some (PRead, r)
         | None => match kw (txt "write") ts with
                   | Some r => Some (PWrite, r)
                   | None => match kw (txt "all") ts with Some r => Some (PFull, r) | None => None end
                   end
         end) with
  | Some (p, r) =>
      match kw (txt "on") r with
      | Some r =>
          match kw (txt "database") r with
          | Some r =>
              match ident r with
              | Some (d, r) =>
                  match kw (txt "to") r with
                  | Some r => match ident (match kw (txt "role") r with Some r => r | None => r end) with
                              | Some (n, r) => Some (SGrant p d n, r)
                              | None => None
                              end
                  | None => None
                  end
              | None => None
              end
          | None => None
          end
      | None => None
      end
  | None => None
  end.
(** 698-729 parse_alter_tenant, ADD USER *)
Definition alter_tenant (ts : list token) : option (stmt * list token) :=
  match ident ts with
  | Some (t, r) =>
      match kw (txt "add") r with
      | Some r =>
          match kw (txt "user") r with
          | Some r =>
              match ident r with
              | Some (u, r) =>
                  match kw (txt "as") r with
                  | Some r => match ident r with Some (n, r) => Some (SAddUser t u n, r) | None => None end
                  | None => None
                  end
              | None => None
              end
          | None => None
          end
      | None => None
      end
  | None => None
  end.
Definition statement (ts : list token) : option (stmt * list token) :=
  match kw (txt "create") ts with
  | Some r =>
      match kw (txt "tenant") r with Some r => create_tenant r | None =>
      match kw (txt "user") r with Some r => create_user r | None =>
      match kw (txt "database") r with Some r => create_db r | None =>
      match kw (txt "role") r with Some r => create_role r | None =>
      match kw (txt "table") r with Some r => create_table r | None => None end end end end end
  | None =>
      match kw (txt "grant") ts with
      | Some r => grant r
      | None => match kw (txt "alter") ts with
                | Some r => match kw (txt "tenant") r with Some r => alter_tenant r | None => None end
                | None => None
                end
      end
  end.
Fixpoint skip_semi (ts : list token) : list token :=
  match ts with TP c :: r => if c =? 59 then skip_semi r else ts | _ => ts end.
(** 249-277 parse_sql_with_dialect; dispatcher/manager.rs:131-142: several statements are refused, none is nothing to do *)
Definition parse (ts : list token) : option (option stmt) :=
  match skip_semi ts with
  | [] => Some None
  | _ => match statement (skip_semi ts) with
         | Some (s, r) => match skip_semi r with [] => Some (Some s) | _ => None end
         | None => None
         end
  end.

(** * Planning and execution; [None] is an error *)
(** logical_planner.rs:462-504; the last setting of an option stands *)
Fixpoint tenant_plan (os : list (str * str)) (o : topts) : option topts :=
  match os with
  | [] => Some o
  | (k, s) :: os =>
      if str_eqb k (txt "comment") then tenant_plan os (TOpts (Some s) (t_drop o) (t_limits o) false)
      else match dur_read s with Some z => tenant_plan os (TOpts (t_comment o) (Some z) (t_limits o) false) | None => None end
  end.
(** 506-555; "password", which needs bcrypt, is left out *)
Fixpoint user_plan (os : list (str * value)) (o : uopts) : option uopts :=
  match os with
  | [] => Some o
  | (k, v) :: os =>
      match v with
      | VStr s =>
          if str_eqb k (txt "hash_password") then user_plan os (UOpts (Some s) (u_comment o) (u_change o) (u_key o) (u_admin o))
          else if str_eqb k (txt "comment") then user_plan os (UOpts (u_hash o) (Some s) (u_change o) (u_key o) (u_admin o))
          else if str_eqb k (txt "rsa_public_key") then user_plan os (UOpts (u_hash o) (u_comment o) (u_change o) (Some s) (u_admin o))
          else None
      | VBool b =>
          if str_eqb k (txt "must_change_password") then user_plan os (UOpts (u_hash o) (u_comment o) (Some b) (u_key o) (u_admin o))
          else if str_eqb k (txt "granted_admin") then user_plan os (UOpts (u_hash o) (u_comment o) (u_change o) (u_key o) (Some b))
          else None
      | VOther => None
      end
  end.
Definition prec_of (s : str) : option prec :=
  find (fun p => str_eqb (upper s) (prec_text p)) [MS; US; NS].
Definition bool_of (s : str) : option bool :=
  if str_eqb s (txt "true") then Some true else if str_eqb s (txt "false") then Some false else None.
Definition opt_or {A B : Type} (read : A -> option B) (o : option A) (d : B) : option B :=
  match o with Some a => read a | None => Some d end.
(** planner.rs:1574-1636; what is not given is the default [f] *)
Definition db_plan (f : dopts) (a : dbast) : option dopts :=
  match opt_or prec_of (a_prec a) (d_prec f), opt_or size_read (a_mem a) (d_mem f), opt_or size_read (a_wal a) (d_wal f),
        opt_or bool_of (a_sync a) (d_sync f), opt_or bool_of (a_strict a) (d_strict f), opt_or dur_read (a_ttl a) (d_ttl f),
        opt_or dur_read (a_vnode a) (d_vnode f) with
  | Some p, Some m, Some w, Some y, Some x, Some t, Some v =>
      let num (o : option Z) (d : Z) := match o with Some z => z | None => d end in
      Some (DOpts p m (num (a_parts a) (d_parts f)) w y x (num (a_readers a) (d_readers f)) t (num (a_shard a) (d_shard f))
                  (num (a_replica a) (d_replica f)) v false)
  | _, _, _, _, _, _, _ => None
  end.
Definition sysrole_of (s : str) : option sysrole :=
  if str_eqb s (txt "owner") then Some Owner else if str_eqb s (txt "member") then Some Member else None.
(** planner.rs:1661-1688 make_data_type; 1690-1713 check_column_encoding with codec.rs:5-36 *)
Definition codec_fits (t : dtype) (c : codec) : bool :=
  match t, c with
  | DOther, _ => false
  | _, Default | _, Null => true
  | (DBigInt | DUnsigned), (Delta | DeltaTs | Quantile) => true
  | DDouble, (Gorilla | Quantile) => true
  | DString, (Gzip | Bzip | Zstd | Snappy | Zlib) => true
  | DBoolean, BitPack => true
  | _, _ => false
  end.
Definition type_of (t : dtype) : option vtype :=
  match t with
  | DBigInt => Some VInteger | DUnsigned => Some VUnsigned | DDouble => Some VFloat | DString => Some VString
  | DBoolean => Some VBoolean | DOther => None
  end.
Definition col_plan (c : colopt) : option column :=
  if o_tag c then Some (Col (o_name c) CTag Default)
  else
    let k := match o_codec c with Some k => k | None => Default end in
    if codec_fits (o_type c) k then match type_of (o_type c) with Some v => Some (Col (o_name c) (CField v) k) | None => None end
    else None.
Fixpoint cols_plan (cs : list colopt) : option (list column) :=
  match cs with
  | [] => Some []
  | c :: cs => match col_plan c, cols_plan cs with Some x, Some xs => Some (x :: xs) | _, _ => None end
  end.
Fixpoint distinct (l : list str) : bool := match l with [] => true | x :: l => negb (existsb (str_eqb x) l) && distinct l end.
(** 908-972 create_table_to_plan *)
Definition table_plan (cs : list colopt) : option (list column) :=
  match cols_plan cs with
  | Some xs => let all := Col (txt "time") CTime Default :: xs in if distinct (map c_name all) then Some all else None
  | None => None
  end.

Definition add_tenant e (c : cat) := Cat (tenants c ++ [e]) (users c) (dbs c) (roles c) (grants c) (members c) (tables c).
Definition add_user e (c : cat) := Cat (tenants c) (users c ++ [e]) (dbs c) (roles c) (grants c) (members c) (tables c).
Definition add_db e (c : cat) := Cat (tenants c) (users c) (dbs c ++ [e]) (roles c) (grants c) (members c) (tables c).
Definition add_role e (c : cat) := Cat (tenants c) (users c) (dbs c) (roles c ++ [e]) (grants c) (members c) (tables c).
Definition set_grant (e : str * str * str * priv) (c : cat) :=
  Cat (tenants c) (users c) (dbs c) (roles c) (filter (fun x => negb (eqb3 (fst x) (fst e))) (grants c) ++ [e]) (members c) (tables c).
Definition add_member e (c : cat) := Cat (tenants c) (users c) (dbs c) (roles c) (grants c) (members c ++ [e]) (tables c).
Definition add_table e (c : cat) := Cat (tenants c) (users c) (dbs c) (roles c) (grants c) (members c) (tables c ++ [e]).
(** What exists already: fine if the statement says so (execution/ddl/create_*.rs). *)
Definition unless {K V : Type} (eqb : K -> K -> bool) (i : bool) (k : K) (l : list (K * V)) (c : cat) (made : option cat) : option cat :=
  if has eqb k l then (if i then Some c else None) else made.
(** execution/ddl/create_{tenant,user,database,role,table}.rs, grant_revoke.rs, alter_tenant.rs;
    storage.rs:1038-1106, 1108-1150, 1257-1290, 1341-1370, 1450-1480, 1517-1560, 1562-1610 *)
Definition exec (f : dopts) (t : str) (s : stmt) (c : cat) : option cat :=
  match s with
  | SCreateTenant i n os =>
      match tenant_plan os (TOpts None None None false) with
      | Some o => unless str_eqb i n (tenants c) c (Some (add_tenant (n, o) c))
      | None => None
      end
  | SCreateUser i n os =>
      match user_plan os (UOpts None None None None None) with
      | Some o => unless str_eqb i n (users c) c (Some (add_user (n, o) c))
      | None => None
      end
  | SCreateDb i n a =>
      match db_plan f a with
      | Some o => if has str_eqb t (tenants c) then unless eqb2 i (t, n) (dbs c) c (Some (add_db (t, n, o) c)) else None
      | None => None
      end
  | SCreateRole i n h =>
      match sysrole_of n, h with
      | Some _, _ => None
      | None, None => if has str_eqb t (tenants c) then unless eqb2 i (t, n) (roles c) c (Some (add_role (t, n, None) c)) else None
      | None, Some h =>
          match sysrole_of h with
          | Some h => if has str_eqb t (tenants c) then unless eqb2 i (t, n) (roles c) c (Some (add_role (t, n, Some h) c)) else None
          | None => None
          end
      end
  | SGrant p d r =>
      if has eqb2 (t, r) (roles c) && has eqb2 (t, d) (dbs c) then Some (set_grant (t, r, d, p) c) else None
  | SAddUser t u r =>
      if has str_eqb t (tenants c) && has str_eqb u (users c) &&
         match sysrole_of r with Some _ => true | None => has eqb2 (t, r) (roles c) end &&
         negb (has eqb2 (t, u) (members c))
      then Some (add_member (t, u, r) c) else None
  | SCreateTable i d n cs =>
      if has eqb2 (t, d) (dbs c) then
        match table_plan cs with
        | Some cols => unless eqb3 i (t, d, n) (tables c) c (Some (add_table (t, d, n, cols) c))
        | None => None
        end
      else None
  end.
(** One request of tenant [t]. *)
Definition request (f : dopts) (t : str) (sql : str) (c : cat) : option cat :=
  match lex MSpace sql with
  | Some ts => match parse ts with Some (Some s) => exec f t s c | Some None => Some c | None => None end
  | None => None
  end.

(** * The client: client/src/exec.rs *)
(** 183-220: the text is cut at the semicolons outside quotes; [None] ends the pieces, what follows the last semicolon is dropped *)
Fixpoint pieces (single double : bool) (cur : str) (l : str) : list str :=
  match l with
  | [] => []
  | c :: l =>
      if c =? 39 then pieces (if double then single else negb single) double (cur ++ [c]) l
      else if c =? 34 then pieces single (if single then double else negb double) (cur ++ [c]) l
      else if (c =? 59) && negb double && negb single then cur :: pieces single double [] l
      else pieces single double (cur ++ [c]) l
  end.
Definition blank (s : str) : bool := match trim s with [] => true | _ => false end.
(** 214-245; the first error ends it.  The catalog, and whether all went well. *)
Fixpoint send (f : dopts) (t : str) (ps : list str) (c : cat) : cat * bool :=
  match ps with
  | [] => (c, true)
  | p :: ps => if blank p then send f t ps c
               else match request f t (p ++ [59]) c with Some c => send f t ps c | None => (c, false) end
  end.
Definition exec_and_print (f : dopts) (t : str) (sql : str) (c : cat) : cat * bool :=
  send f t (match pieces false false [] sql with [] => [sql] | ps => ps end) c.
Fixpoint starts_with (p s : str) : bool :=
  match p, s with [], _ => true | x :: p, y :: s => (x =? y) && starts_with p s | _, [] => false end.
(** str::trim_start_matches *)
Fixpoint strip (fuel : nat) (p s : str) : str :=
  match fuel with O => s | S k => if starts_with p s then strip k p (skipn (length p) s) else s end.
Definition ends_with_semi (s : str) : bool := match rev s with 59 :: _ => true | _ => false end.
(** BufRead::lines *)
Fixpoint split_lines (cur : str) (l : str) : list str :=
  match l with
  | [] => match cur with [] => [] | _ => [cur] end
  | c :: l => if c =? 10 then (match rev cur with 13 :: r => rev r | _ => cur end) :: split_lines [] l else split_lines (cur ++ [c]) l
  end.
(** The state of the client: its tenant, the query read so far, the catalog of the cluster, whether no statement failed. *)
Record client := Client { cl_tenant : str; cl_query : str; cl_cat : cat; cl_ok : bool }.
(** 22-68, one line; [stop]: the option error_stop, under which the first error ends the run.  [\c], which chooses a database, has no
    effect on the statements considered. *)
Definition CHANGE : str := txt "\change_tenant".
Definition line (stop : bool) (f : dopts) (s : client) (l : str) : client :=
  if stop && negb (cl_ok s) then s
  else if starts_with (txt "--") l then s
  else if starts_with CHANGE (trim l) then
    Client (trim (strip (length l) CHANGE (trim l))) (cl_query s) (cl_cat s) (cl_ok s)
  else if starts_with (txt "\c") l then s
  else
    let l := trim_end l in
    let q := cl_query s ++ l in
    if ends_with_semi l then
      let '(c, ok) := exec_and_print f (cl_tenant s) q (cl_cat s) in
      Client (cl_tenant s) [] c (cl_ok s && ok)
    else Client (cl_tenant s) (q ++ [10]) (cl_cat s) (cl_ok s).
(** 22-85; the query left over is run at the end *)
Definition restore (stop : bool) (f : dopts) (t : str) (text : str) (c : cat) : cat * bool :=
  let s := fold_left (line stop f) (split_lines [] text) (Client t [] c true) in
  if stop && negb (cl_ok s) then (cl_cat s, false)
  else match cl_query s with
       | [] => (cl_cat s, cl_ok s)
       | q => let '(c, ok) := exec_and_print f (cl_tenant s) q (cl_cat s) in (c, cl_ok s && ok)
       end.
End Texts.
