(** What a request may touch: the privileges the planner asks for each statement (query_server/query/src/sql/planner.rs), the
    tables it resolves (query_server/query/src/metadata/mod.rs), the rows the system views show
    (metadata/information_schema_provider/factory/*.rs, metadata/cluster_schema_provider), what the executors act on
    (query_server/query/src/execution/ddl/*.rs, execution/sys/kill_query.rs) and the HTTP endpoints that bypass SQL
    (main/src/http/http_service.rs).
    Names are integers (only equality is used), normalised; object ids are integers.  Errors that do not depend on privileges
    (a missing table, a bad column, a parse error) are left out, except where said: they only refuse more. *)
From Verif Require Import Prelude PrivilegeModel.

(** Reserved database names, metadata/mod.rs:53-55, the default tenant and the root user. *)
Definition INFO : Z := 1.      (* information_schema *)
Definition USAGE : Z := 2.     (* usage_schema *)
Definition CLUSTER : Z := 3.   (* cluster_schema *)
Definition CNOSDB : Z := 1.    (* DEFAULT_CATALOG *)
Definition ROOT : Z := 1.
(** Tables of information_schema (factory/*.rs) and of cluster_schema. *)
Definition V_DATABASES : Z := 1.
Definition V_TABLES : Z := 2.
Definition V_COLUMNS : Z := 3.
Definition V_QUERIES : Z := 4.
Definition V_MEMBERS : Z := 5.
Definition V_ROLES : Z := 6.
Definition V_PRIVILEGES : Z := 7.
Definition V_ENABLED : Z := 8.
Definition V_RESOURCES : Z := 9.
Definition W_TENANTS : Z := 1.
Definition W_USERS : Z := 2.

(** UserDesc, common/models/src/auth/user.rs:74-92, with the options the planner looks at. *)
Record udesc := Udesc { d_id : Z; d_root : bool; d_hash : option Z }.
(** A running query as the tracker knows it: id, id of the user, id of the tenant. *)
Record running := Running { r_qid : Z; r_owner : Z; r_tenant : Z }.
(** What the statements look up in the meta service. *)
Record catalog := Catalog {
  c_tenant : Z -> option Z;               (* tenant name -> id *)
  c_user : Z -> option udesc;             (* user name -> description *)
  c_dbs : Z -> list Z;                    (* databases of the tenant with this id *)
  c_running : list running;               (* running queries of the node *)
  c_resources : list (Z * option Z) }.    (* drop tasks: tenant id, database (None: the whole tenant) *)

(** SessionCtx: tenant name and id, default database, the user, whether the account is root, an administrator, and must
    change the password; [s_auth] is the option query.auth_enabled. *)
Record session := Session { s_tenant : Z; s_tid : Z; s_db : Z; s_user : user; s_root : bool; s_admin : bool; s_must : bool; s_auth : bool }.

(** A table name in a statement: one, two or three parts. *)
Inductive tname := Bare (t : Z) | Partial (d t : Z) | Full (c d t : Z).
(** ResolvedTable, common/models/src/object_reference.rs:42-47. *)
Record rtable := Rtable { t_tenant : Z; t_db : Z; t_name : Z }.
(** resolve_object, object_reference.rs:12-40: three parts are refused. *)
Definition resolve_object (s : session) (n : tname) : option rtable :=
  match n with
  | Full _ _ _ => None
  | Partial d t => Some (Rtable (s_tenant s) d t)
  | Bare t => Some (Rtable (s_tenant s) (s_db s) t)
  end.
(** extract_database_table_name, planner.rs:2945-2956: DataFusion's resolve, which keeps a catalog that is given. *)
Definition extract_name (s : session) (n : tname) : rtable :=
  match n with
  | Full c d t => Rtable c d t
  | Partial d t => Rtable (s_tenant s) d t
  | Bare t => Rtable (s_tenant s) (s_db s) t
  end.

(** DatabaseSet::push_table, metadata/mod.rs:367-369, on the keys. *)
Definition push_db (acc : list Z) (d : Z) : list Z := if existsb (Z.eqb d) acc then acc else d :: acc.
(** MetadataProvider::get_table_source, metadata/mod.rs:250-288: the table, and the databases accessed so far. *)
Definition get_table_source (s : session) (n : tname) (acc : list Z) : option (rtable * list Z) :=
  match resolve_object s n with
  | Some r => if s_tenant s =? t_tenant r then Some (r, push_db acc (t_db r)) else None
  | None => None
  end.
(** Planning a query (DataFusion's SqlToRel): every table of the query, of its subqueries, joins and common table
    expressions is obtained from the schema provider.  A query is the list of the names of these tables. *)
Fixpoint plan_query (s : session) (q : list tname) (acc : list Z) : option (list rtable * list Z) :=
  match q with
  | [] => Some ([], acc)
  | n :: q => match get_table_source s n acc with
              | Some (r, acc) => match plan_query s q acc with Some (rs, acc) => Some (r :: rs, acc) | None => None end
              | None => None
              end
  end.
(** databases_privileges, planner.rs:2927-2943 *)
Definition databases_privileges (p : db_priv) (tid : Z) (dbs : list Z) : list priv :=
  map (fun d => TenantObject (TDatabase p (Some d)) (Some tid)) dbs.
Definition on_db (p : db_priv) (d : Z) (s : session) : list priv := [TenantObject (TDatabase p (Some d)) (Some (s_tid s))].

(** Options of ALTER TENANT (logical_planner.rs:415-460, 493-504) and of ALTER USER ... SET (506-549). *)
Inductive tenant_op := AddUser (u : Z) | SetUser (u : Z) | RemoveUser (u : Z) | SetComment | SetLimiter | SetDropAfter | UnsetOption.
Inductive user_opt := OPassword (p : Z) | OHash (h : Z) | OMustChange (b : bool) | ORsaKey (k : Z) | OComment | OGrantedAdmin (b : bool).
Inductive user_op := RenameTo (n : Z) | SetOption (o : user_opt).
(** Statements, ExtStatement (sql/ast) as dispatched in planner.rs:168-249.  The WHERE and ORDER BY clauses and the SET
    expressions are represented by the tables of the subqueries in them. *)
Inductive stmt :=
| Query (q : list tname)
| Insert (target : tname) (source : list tname)
| Update (table : tname) (from : option tname) (subqueries : list tname)
| Delete (table : tname)
| Kill (qid : Z)
| Explain (st : stmt)
| CopyIntoTable (target : tname)
| CopyIntoLocation (source : list tname)
| CreateExternalTable (n : tname)
| CreateTable (n : tname)
| CreateStreamTable (n : tname)
| DropTable (n : tname)
| AlterTable (n : tname)
| DescribeTable (n : tname)
| ShowTags (n : tname) (subqueries : list tname)     (* SHOW SERIES, SHOW TAG VALUES *)
| CreateDatabase (d : Z)
| AlterDatabase (d : Z)
| DropDatabase (d : Z)
| RecoverDatabase (d : Z)
| DescribeDatabase (d : Z)
| ShowDatabases
| ShowTables (d : option Z)
| ShowQueries
| CreateTenant (t : Z) | DropTenant (t : Z) | RecoverTenant (t : Z)
| AlterTenant (t : Z) (op : tenant_op)
| CreateUser (u : Z) (admin : bool) | DropUser (u : Z)
| AlterUser (u : Z) (op : user_op)
| CreateRole (r : Z) | DropRole (r : Z)
| GrantRevoke (r : Z)
| Maintain.    (* DROP/COPY/MOVE/COMPACT VNODE, COMPACT DATABASE, CHECKSUM GROUP, SHOW REPLICAS, REPLICA DESTORY/ADD/REMOVE/PROMOTE *)

(** Plans: what is handed to the executors. *)
Inductive plan :=
| DoScan (ts : list rtable)                    (* a query: the tables scanned *)
| DoWrite (target : rtable) (ts : list rtable) (* INSERT, UPDATE, COPY INTO table *)
| DoDelete (t : rtable)
| DoKill (qid : Z)
| DoCreateTable (t : rtable) | DoDropTable (t : rtable) | DoAlterTable (t : rtable)
| DoCreateDatabase (d : Z) | DoAlterDatabase (d : Z) | DoDropDatabase (d : Z) | DoRecoverDatabase (d : Z)
| DoCreateTenant (t : Z) | DoDropTenant (t : Z) | DoRecoverTenant (t : Z)
| DoAlterTenant (t : Z) (op : tenant_op)
| DoCreateUser (u : Z) (admin : bool) | DoDropUser (u : Z) | DoRenameUser (u : Z) | DoSetUser (u : Z) (o : user_opt) (clears : bool)
| DoCreateRole (r : Z) | DoDropRole (r : Z) | DoGrantRevoke (r : Z)
| DoMaintain.

(** SYSTEM roles cannot be created, dropped or granted to (planner.rs:688, 1780, 2060): names "owner" and "member". *)
Definition OWNER : Z := 1.
Definition MEMBER : Z := 2.
Definition system_role (r : Z) : bool := (r =? OWNER) || (r =? MEMBER).
(** is_system_database, metadata/mod.rs:399-409; [PUBLIC] is the default database. *)
Definition PUBLIC : Z := 4.
Definition system_db (tenant d : Z) : bool :=
  ((tenant =? CNOSDB) && ((d =? PUBLIC) || (d =? CLUSTER))) || (d =? INFO) || (d =? USAGE).

(** construct_alter_tenant_action_with_privilege, planner.rs:1810-1908, and the two functions of logical_planner.rs. *)
Definition alter_tenant_privilege (tid : Z) (op : tenant_op) : priv :=
  match op with
  | AddUser _ | SetUser _ | RemoveUser _ => TenantObject TMember (Some tid)
  | SetLimiter => Global GSystem
  | SetComment | SetDropAfter | UnsetOption => Global (GTenant (Some tid))
  end.

Section Password.
(** bcrypt, common/models/src/auth: [verify p h] tells whether [h] is a hash of [p]. *)
Context (verify : Z -> Z -> bool) (empty : Z).

(** alter_user_to_plan, planner.rs:1959-2036; the text of the password is empty unless the option is "password". *)
Definition alter_user_plan (c : catalog) (s : session) (u : Z) (op : user_op) (must_change : bool) : option (plan * list priv) :=
  match c_user c u with
  | None => None
  | Some d =>
      let own := [Global (GUser (Some (d_id d)))] in
      match op with
      | RenameTo _ => Some (DoRenameUser u, own)
      | SetOption o =>
          let req := match o with OMustChange _ => [Global GSystem] | _ => own end in
          let sets_hash := match o with OPassword _ | OHash _ => true | _ => false end in
          let password := match o with OPassword p => p | _ => empty end in
          if must_change && negb ((u_id (s_user s) =? d_id d) && sets_hash) then None
          else if match d_hash d with Some h => verify password h | None => false end then None
          else if d_root d && negb (s_root s) then None
          else match o with
               | OGrantedAdmin _ => if d_root d then None else Some (DoSetUser u o must_change, [Global GSystem])
               | _ => Some (DoSetUser u o must_change, req)
               end
      end
  end.

(** statement_to_plan, planner.rs:168-249, with the functions it calls; [None] is an error.  The second component lists the
    privileges checked afterwards (create_logical_plan, 136-155). *)
Fixpoint statement_to_plan (c : catalog) (s : session) (st : stmt) (auth : bool) : option (plan * list priv) :=
  if auth && s_must s then match st with AlterUser u op => alter_user_plan c s u op true | _ => None end
  else
  match st with
  | Query q =>                                                           (* 256-275 *)
      match plan_query s q [] with
      | Some (ts, acc) => Some (DoScan ts, databases_privileges PRead (s_tid s) acc)
      | None => None
      end
  | Insert target source =>                                              (* 470-525: the set is reset in between *)
      match plan_query s source [] with
      | Some (ts, acc) =>
          match get_table_source s target [] with
          | Some (t, acc') => Some (DoWrite t ts, databases_privileges PWrite (s_tid s) acc' ++ databases_privileges PRead (s_tid s) acc)
          | None => None
          end
      | None => None
      end
  | Update table from subqueries =>                                      (* 339-418 *)
      match get_table_source s (match from with Some f => f | None => table end) [] with
      | Some (t, acc) =>
          match plan_query s subqueries acc with
          | Some (ts, acc) => Some (DoWrite t ts, databases_privileges PWrite (s_tid s) acc)
          | None => None
          end
      | None => None
      end
  | Delete table =>                                                      (* 527-607; subqueries are refused by the executor *)
      match get_table_source s table [], resolve_object s table with
      | Some _, Some t => Some (DoDelete t, on_db PWrite (t_db t) s)
      | _, _ => None
      end
  | Kill qid => Some (DoKill qid, [])                                     (* 310-317 *)
  | Explain st =>                                                        (* 421-468; the flag is false *)
      match statement_to_plan c s st false with
      | Some (DoScan ts, req) => Some (DoScan ts, req)
      | Some (DoWrite t ts, req) => Some (DoWrite t ts, req)
      | _ => None
      end
  | CopyIntoTable target =>                                              (* 2365-2390, 2410-2475 *)
      match get_table_source s target [] with
      | Some (t, _) => Some (DoWrite t [], on_db PWrite (t_db t) s)
      | None => None
      end
  | CopyIntoLocation source =>                                           (* 2391-2403, 2477-2520 *)
      match plan_query s source [] with
      | Some (ts, acc) => Some (DoScan ts, databases_privileges PRead (s_tid s) acc)
      | None => None
      end
  | CreateExternalTable n =>                                             (* 885-906 *)
      let t := extract_name s n in Some (DoCreateTable t, on_db PFull (t_db t) s)
  | CreateTable n | CreateStreamTable n =>                               (* 908-968, 2269-2327 *)
      match resolve_object s n with Some t => Some (DoCreateTable t, on_db PFull (t_db t) s) | None => None end
  | DropTable n =>                                                       (* 609-647 *)
      match resolve_object s n with Some t => Some (DoDropTable t, on_db PFull (t_db t) s) | None => None end
  | AlterTable n =>                                                      (* 1090-1240 *)
      match get_table_source s n [] with
      | Some (t, _) => Some (DoAlterTable t, on_db PFull (t_db t) s)
      | None => None
      end
  | DescribeTable n =>                                                   (* 1044-1088 *)
      match resolve_object s n with
      | Some t => Some (DoScan [Rtable (s_tenant s) INFO V_COLUMNS], on_db PRead (t_db t) s)
      | None => None
      end
  | ShowTags n subqueries =>                                             (* 1314-1421 *)
      match get_table_source s n [] with
      | Some (t, acc) =>
          match plan_query s subqueries acc with
          | Some (ts, _) => Some (DoScan (t :: ts), on_db PRead (t_db t) s)
          | None => None
          end
      | None => None
      end
  | CreateDatabase d => Some (DoCreateDatabase d, [TenantObject (TDatabase PWrite None) (Some (s_tid s))])   (* 1423-1460 *)
  | AlterDatabase d => Some (DoAlterDatabase d, on_db PFull d s)          (* 1550-1572 *)
  | DropDatabase d => if system_db (s_tenant s) d then None else Some (DoDropDatabase d, on_db PFull d s)   (* 666-690 *)
  | RecoverDatabase d => Some (DoRecoverDatabase d, on_db PFull d s)      (* 765-796 *)
  | DescribeDatabase d => Some (DoScan [Rtable (s_tenant s) INFO V_DATABASES], on_db PRead d s)   (* 993-1042 *)
  | ShowDatabases => Some (DoScan [Rtable (s_tenant s) INFO V_DATABASES], [TenantObject (TDatabase PRead None) (Some (s_tid s))])   (* 1242-1270 *)
  | ShowTables d => Some (DoScan [Rtable (s_tenant s) INFO V_TABLES],
                          on_db PRead (match d with Some d => d | None => s_db s end) s)   (* 1272-1312 *)
  | ShowQueries => Some (DoScan [Rtable (s_tenant s) INFO V_QUERIES], [TenantObject (TDatabase PRead None) (Some (s_tid s))])   (* 2092-2118 *)
  | CreateTenant t => Some (DoCreateTenant t, [Global (GTenant None)])    (* 1725-1744 *)
  | DropTenant t => if t =? CNOSDB then None else Some (DoDropTenant t, [Global (GTenant None)])   (* 727-742 *)
  | RecoverTenant t => Some (DoRecoverTenant t, [Global (GTenant None)])  (* 798-819 *)
  | AlterTenant t op =>                                                  (* 1910-1957 *)
      match c_tenant c t with
      | Some tid =>
          match op with
          | SetLimiter => if t =? CNOSDB then None else Some (DoAlterTenant t op, [alter_tenant_privilege tid op])
          | _ => Some (DoAlterTenant t op, [alter_tenant_privilege tid op])
          end
      | None => None
      end
  | CreateUser u a => Some (DoCreateUser u a, [Global (GUser None)])          (* 1746-1765 *)
  | DropUser u => Some (DoDropUser u, [Global (GUser None)])              (* 743-754 *)
  | AlterUser u op => alter_user_plan c s u op false
  | CreateRole r => if system_role r then None else Some (DoCreateRole r, [TenantObject TRole (Some (s_tid s))])   (* 1767-1808 *)
  | DropRole r => if system_role r then None else Some (DoDropRole r, [TenantObject TRole (Some (s_tid s))])       (* 691-707 *)
  | GrantRevoke r => if system_role r then None else Some (DoGrantRevoke r, [TenantObject TRole (Some (s_tid s))]) (* 2038-2090 *)
  | Maintain => Some (DoMaintain, [Global GSystem])                       (* 2120-2267 *)
  end.

(** create_logical_plan, planner.rs:136-155: the plan goes on only when every privilege is held. *)
Definition create_logical_plan (c : catalog) (s : session) (st : stmt) : option plan :=
  match statement_to_plan c s st (s_auth s) with
  | Some (p, req) => if plan_check (s_user s) req then Some p else None
  | None => None
  end.
End Password.

(** What a request does to the objects of the instance. *)
Inductive effect :=
| Reads (t d : Z) | Writes (t d : Z) | Administers (t d : Z) | Describes (t d : Z) | CreatesDatabase (t : Z)
| ListsTenant (t : Z)                                       (* shows what is pending for a whole tenant *)
| ChangesUser (u : Z) | CreatesUser | DropsUser (name : Z) | MakesAdmin (u : Z) | MakesNewAdmin | ForcesPassword (u : Z)
| ChangesTenant (t : Z) | CreatesTenant | DropsTenant (name : Z) | LimitsTenant (t : Z) | ChangesMembers (t : Z) | ChangesRoles (t : Z)
| SeesQuery (owner t : Z) | CancelsQuery (owner t : Z) | SeesRoles (t : Z) | SeesOwnRole | SeesMembers (t : Z) | SeesCluster
| Maintains.

(** User::can_read_database and the like, user.rs:54-71 *)
Definition can_read (s : session) (t d : Z) : bool := user_check (s_user s) (TenantObject (TDatabase PRead (Some d)) (Some t)).
Definition can_system (s : session) (t : Z) : bool := user_check (s_user s) (TenantObject TSystem (Some t)).
Definition can_role (s : session) (t : Z) : bool := user_check (s_user s) (TenantObject TRole (Some t)).

(** filter_running_queries, information_schema_provider/factory/queries.rs:139-164 *)
Definition visible_queries (c : catalog) (s : session) : list running :=
  if s_admin s then c_running c
  else let own := filter (fun q => r_tenant q =? s_tid s) (c_running c) in
       if can_system s (s_tid s) then own else filter (fun q => r_owner q =? u_id (s_user s)) own.

(** The rows of an information_schema view: databases.rs:80-110, tables.rs:80-110, columns.rs:85-120, queries.rs:85-130,
    members.rs:70-90, roles.rs:80-110, database_privileges.rs:85-140, enabled_roles.rs:75-95, resource_status.rs:80-110. *)
Definition view_effects (c : catalog) (s : session) (v : Z) : list effect :=
  if (v =? V_DATABASES) || (v =? V_TABLES) || (v =? V_COLUMNS) then
    map (Describes (s_tid s)) (filter (can_read s (s_tid s)) (c_dbs c (s_tid s)))
  else if v =? V_QUERIES then map (fun q => SeesQuery (r_owner q) (r_tenant q)) (visible_queries c s)
  else if v =? V_MEMBERS then [SeesMembers (s_tid s)]
  else if v =? V_ROLES then if can_role s (s_tid s) then [SeesRoles (s_tid s)] else []
  else if v =? V_PRIVILEGES then if can_role s (s_tid s) then [SeesRoles (s_tid s)] else [SeesOwnRole]
  else if v =? V_ENABLED then [SeesOwnRole]
  else if v =? V_RESOURCES then
    flat_map (fun e => match snd e with
                       | Some d => if can_read s (fst e) d then [Describes (fst e) d] else []
                       | None => if s_admin s then [ListsTenant (fst e)] else []
                       end) (c_resources c)
  else [].

(** Reading a resolved table: build_table_handle and process_system_table_source, metadata/mod.rs:126-190.  The views of
    usage_schema show only the rows of the session's tenant (usage_schema_provider/mod.rs:84-113); the tables tenants and
    users of cluster_schema are empty except for administrators (cluster_schema_provider/factory/tenants.rs:70 and users.rs:69). *)
Definition scan_effects (c : catalog) (s : session) (t : rtable) : list effect :=
  if t_db t =? INFO then view_effects c s (t_name t)
  else if (t_tenant t =? CNOSDB) && (t_db t =? CLUSTER) && ((t_name t =? W_TENANTS) || (t_name t =? W_USERS)) then
    if s_admin s then [SeesCluster] else []
  else match c_tenant c (t_tenant t) with Some tid => [Reads tid (t_db t)] | None => [] end.

(** The object of a table plan: the executors look the tenant up by the name in the plan (execution/ddl/create_table.rs:44-53,
    create_external_table.rs:44-60, drop_database_object.rs:35-47, alter_table.rs). *)
Definition table_effect (c : catalog) (e : Z -> Z -> effect) (t : rtable) : list effect :=
  match c_tenant c (t_tenant t) with Some tid => [e tid (t_db t)] | None => [] end.

Definition user_id (c : catalog) (u : Z) (e : Z -> effect) : list effect :=
  match c_user c u with Some d => [e (d_id d)] | None => [] end.

(** What executing a plan does.  DROP USER refuses the name "root" (drop_global_object.rs:15, 47-51); RENAME is refused by the
    meta service (meta/src/store/storage.rs:1296-1305); KILL cancels the query whatever its owner (kill_query.rs:27-38). *)
Definition effects (c : catalog) (s : session) (p : plan) : list effect :=
  match p with
  | DoScan ts => flat_map (scan_effects c s) ts
  | DoWrite t ts => table_effect c Writes t ++ flat_map (scan_effects c s) ts
  | DoDelete t => table_effect c Writes t
  | DoKill qid => map (fun q => CancelsQuery (r_owner q) (r_tenant q)) (filter (fun q => r_qid q =? qid) (c_running c))
  | DoCreateTable t | DoDropTable t | DoAlterTable t => table_effect c Administers t
  | DoCreateDatabase _ => [CreatesDatabase (s_tid s)]
  | DoAlterDatabase d | DoDropDatabase d | DoRecoverDatabase d => [Administers (s_tid s) d]
  | DoCreateTenant _ => [CreatesTenant]
  | DoDropTenant t | DoRecoverTenant t => [DropsTenant t]
  | DoAlterTenant t op =>
      match c_tenant c t with
      | Some tid => match op with
                    | AddUser _ | SetUser _ | RemoveUser _ => [ChangesMembers tid]
                    | SetLimiter => [LimitsTenant tid]
                    | SetComment | SetDropAfter | UnsetOption => [ChangesTenant tid]
                    end
      | None => []
      end
  | DoCreateUser _ a => CreatesUser :: (if a then [MakesNewAdmin] else [])
  | DoDropUser u => if u =? ROOT then [] else [DropsUser u]
  | DoRenameUser _ => []
  | DoSetUser u o _ => match o with
                      | OGrantedAdmin _ => user_id c u MakesAdmin
                      | OMustChange _ => user_id c u ForcesPassword
                      | _ => user_id c u ChangesUser
                      end
  | DoCreateRole _ | DoDropRole _ | DoGrantRevoke _ => [ChangesRoles (s_tid s)]
  | DoMaintain => [Maintains]
  end.

(** Requests of the HTTP service. *)
Inductive request :=
| Sql (st : stmt)               (* /api/v1/sql, prom/read (which runs SQL as the user), Flight SQL *)
| WriteTo (d : Z)               (* /api/v1/write, opentsdb/*, prom/write, es/_bulk, traces: http_service.rs:2710-2759 *)
| ReadTraces (d : Z)            (* /api/traces, /api/services, /api/operations: 1817-2550; the user is only authenticated *)
| DumpDdl (t : Z)               (* /api/v1/dump/sql/ddl: 1370-1434; no authentication at all *).

(** What a request does when it is accepted; [None] when it is refused. *)
Definition serve verify empty (c : catalog) (s : session) (r : request) : option (list effect) :=
  match r with
  | Sql st => match create_logical_plan verify empty c s st with Some p => Some (effects c s p) | None => None end
  | WriteTo d => if s_auth s && s_must s then None
                 else if user_check (s_user s) (TenantObject (TDatabase PWrite (Some d)) (Some (s_tid s))) then Some [Writes (s_tid s) d] else None
  | ReadTraces d => if s_auth s && s_must s then None else Some [Reads (s_tid s) d]
  | DumpDdl t => match c_tenant c t with
                 | Some tid => Some (SeesCluster :: SeesRoles tid :: map (Describes tid) (c_dbs c tid))
                 | None => None
                 end
  end.

(** The user's options after an accepted ALTER USER ... SET: alter_user, storage.rs:1270-1294, with UserOptions::merge,
    user.rs:172-180, and change_password, 186-188.  Only the hash and the flag are kept. *)
Record account := Account { a_hash : option Z; a_must : bool }.
Definition set_account (hash_of : Z -> Z) (o : user_opt) (clears : bool) (a : account) : account :=
  Account (match o with OPassword p => Some (hash_of p) | OHash h => Some h | _ => a_hash a end)
          (match o with OMustChange b => b | _ => if clears then false else a_must a end).
