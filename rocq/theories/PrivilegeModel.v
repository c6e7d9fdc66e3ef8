(** Privileges, roles and users: common/models/src/auth/{privilege,role,user}.rs, the grant and revoke commands of
    meta/src/store/storage.rs and the resolution of a member's privileges in meta/src/model/meta_tenant.rs.
    Object ids (u128) and database names are integers: only equality is used on them.  HashSets are lists. *)
From Verif Require Import Prelude.

(** common/models/src/auth/privilege.rs:163-168 *)
Inductive db_priv := PRead | PWrite | PFull.
(** privilege.rs:109-124 *)
Inductive obj_priv := TSystem | TMember | TRole | TDatabase (p : db_priv) (db : option Z).
(** privilege.rs:56-65 *)
Inductive glob_priv := GSystem | GUser (u : option Z) | GTenant (t : option Z).
(** privilege.rs:12-18 *)
Inductive priv := Global (g : glob_priv) | TenantObject (o : obj_priv) (t : option Z).

(** derived PartialEq of DatabasePrivilege (privilege.rs:163) *)
Definition db_eqb (a b : db_priv) : bool :=
  match a, b with PRead, PRead | PWrite, PWrite | PFull, PFull => true | _, _ => false end.
(** derived PartialEq of Option<T> *)
Definition opt_eqb (a b : option Z) : bool :=
  match a, b with None, None => true | Some x, Some y => x =? y | _, _ => false end.
(** derived PartialEq of GlobalPrivilege (privilege.rs:55) *)
Definition glob_eqb (a b : glob_priv) : bool :=
  match a, b with GSystem, GSystem => true | GUser x, GUser y | GTenant x, GTenant y => opt_eqb x y | _, _ => false end.
(** derived PartialEq of TenantObjectPrivilege (privilege.rs:108) *)
Definition obj_eqb (a b : obj_priv) : bool :=
  match a, b with
  | TSystem, TSystem | TMember, TMember | TRole, TRole => true
  | TDatabase p x, TDatabase q y => db_eqb p q && opt_eqb x y
  | _, _ => false
  end.

(** DatabasePrivilege::check_privilege, privilege.rs:180-189 *)
Definition db_check (s o : db_priv) : bool :=
  match s, o with
  | PFull, _ => true
  | PWrite, PWrite | PWrite, PRead => true
  | PRead, PRead => true
  | l, r => db_eqb l r
  end.

(** TenantObjectPrivilege::check_privilege, privilege.rs:147-160 *)
Definition obj_check (s o : obj_priv) : bool :=
  match s, o with
  | TSystem, TSystem => true
  | TMember, TMember => true
  | TRole, TRole => true
  | TDatabase s None, TDatabase o _ => db_check s o
  | TDatabase s (Some a), TDatabase o (Some b) => (a =? b) && db_check s o
  | l, r => obj_eqb l r
  end.

(** GlobalPrivilege::check_privilege, privilege.rs:92-105 *)
Definition glob_check (s o : glob_priv) : bool :=
  match s, o with
  | GUser None, GUser _ => true
  | GUser (Some a), GUser (Some b) => a =? b
  | GTenant None, GTenant _ => true
  | GTenant (Some a), GTenant (Some b) => a =? b
  | l, r => glob_eqb l r
  end.

(** Privilege::check_privilege, privilege.rs:41-53 *)
Definition check (s o : priv) : bool :=
  match s, o with
  | Global s, Global o => glob_check s o
  | TenantObject s None, TenantObject o _ => obj_check s o
  | TenantObject s (Some a), TenantObject o (Some b) => (a =? b) && obj_check s o
  | _, _ => false
  end.

(** role.rs:93-96 *)
Inductive sys_role := Owner | Member.

(** SystemTenantRole::to_privileges, role.rs:120-144 *)
Definition sys_privileges (r : sys_role) (t : Z) : list priv :=
  match r with
  | Owner => [Global (GTenant (Some t)); TenantObject TSystem (Some t); TenantObject TMember (Some t);
              TenantObject TRole (Some t); TenantObject (TDatabase PFull None) (Some t)]
  | Member => [TenantObject (TDatabase PRead None) (Some t)]
  end.

(** CustomTenantRole, role.rs:157-164; the HashMap of additional privileges is an association list with distinct keys.
    The id and the name of the role are not used by the functions below and are left out. *)
Record custom := Custom { c_sys : option sys_role; c_add : list (Z * db_priv) }.

(** HashMap::get, insert, remove *)
Fixpoint m_get (m : list (Z * db_priv)) (k : Z) : option db_priv :=
  match m with [] => None | (k', v) :: m => if k =? k' then Some v else m_get m k end.
Definition m_remove (m : list (Z * db_priv)) (k : Z) : list (Z * db_priv) := filter (fun e => negb (fst e =? k)) m.
Definition m_insert (m : list (Z * db_priv)) (k : Z) (v : db_priv) : list (Z * db_priv) := (k, v) :: m_remove m k.

(** CustomTenantRole::to_privileges, role.rs:193-211 *)
Definition custom_privileges (r : custom) (t : Z) : list priv :=
  match c_sys r with Some s => sys_privileges s t | None => [] end ++
  map (fun e => TenantObject (TDatabase (snd e) (Some (fst e))) (Some t)) (c_add r).

(** TenantRole::to_privileges, role.rs:63-75 *)
Inductive tenant_role := RSys (s : sys_role) | RCustom (c : custom).
Definition tenant_role_privileges (r : tenant_role) (t : Z) : list priv :=
  match r with RSys s => sys_privileges s t | RCustom c => custom_privileges c t end.

(** UserRole::to_privileges, role.rs:22-44 *)
Inductive user_role := Dba | Public (roles : list (Z * tenant_role)).
Definition user_role_privileges (r : user_role) : list priv :=
  match r with
  | Dba => [Global GSystem; Global (GTenant None); Global (GUser None); TenantObject TSystem None; TenantObject TMember None;
            TenantObject TRole None; TenantObject (TDatabase PFull None) None]
  | Public rs => flat_map (fun e => tenant_role_privileges (snd e) (fst e)) rs
  end.

(** User::new, user.rs:27-41: the caller's set plus the right to alter oneself. *)
Record user := User { u_id : Z; u_privs : list priv }.
Definition new_user (id : Z) (ps : list priv) : user := User id (Global (GUser (Some id)) :: ps).
(** User::check_privilege, user.rs:50-52 *)
Definition user_check (u : user) (p : priv) : bool := existsb (fun e => check e p) (u_privs u).
(** check_privilege of a statement, query_server/query/src/sql/planner.rs:2909-2926: every listed privilege is required. *)
Definition plan_check (u : user) (ps : list priv) : bool := forallb (user_check u) ps.

(** CustomTenantRole::grant_privilege, role.rs:213-221 *)
Definition grant_privilege (r : custom) (db : Z) (p : db_priv) : custom := Custom (c_sys r) (m_insert (c_add r) db p).
(** CustomTenantRole::revoke_privilege, role.rs:223-245; None is PrivilegeNotFound. *)
Definition revoke_privilege (r : custom) (db : Z) (p : db_priv) : option custom :=
  match m_get (c_add r) db with
  | Some q => if db_eqb q p then Some (Custom (c_sys r) (m_remove (c_add r) db)) else None
  | None => None
  end.

(** process_grant_privileges, meta/src/store/storage.rs:1562-1587: [dbs] tells whether the database exists in the tenant.
    None is DatabaseNotFound, after which nothing is stored.  The lookup of the role by name is left to the caller. *)
Fixpoint process_grant (dbs : Z -> bool) (l : list (db_priv * Z)) (r : custom) : option custom :=
  match l with
  | [] => Some r
  | (p, db) :: l => if dbs db then process_grant dbs l (grant_privilege r db p) else None
  end.
(** process_revoke_privileges, storage.rs:1589-1616; None is PrivilegeCannotRevoke, after which nothing is stored. *)
Fixpoint process_revoke (l : list (db_priv * Z)) (r : custom) : option custom :=
  match l with
  | [] => Some r
  | (p, db) :: l => match revoke_privilege r db p with Some r' => process_revoke l r' | None => None end
  end.

(** GRANT and REVOKE statements on one role; a refused statement leaves the stored role as it was.  The set of existing
    databases may differ from one statement to the next. *)
Inductive stmt := Grant (dbs : Z -> bool) (l : list (db_priv * Z)) | Revoke (l : list (db_priv * Z)).
Definition run (r : custom) (s : stmt) : custom :=
  match match s with Grant dbs l => process_grant dbs l r | Revoke l => process_revoke l r end with
  | Some r' => r'
  | None => r
  end.

(** Privileges of a member with a custom role, TenantMeta::user_privileges, meta/src/model/meta_tenant.rs:193-227.
    [cache] is the local role table, filled by the watch under the role's name (meta_tenant.rs:926-934), but looked up with
    the decimal user id ([show uid]); [remote] is the role fetched by its name. *)
Definition member_privileges (show : Z -> Z) (cache : Z -> option custom) (remote : Z -> option custom)
  (tenant uid role_name : Z) : list priv :=
  match cache (show uid) with
  | Some r => custom_privileges r tenant
  | None => match remote role_name with Some r => custom_privileges r tenant | None => [] end
  end.
