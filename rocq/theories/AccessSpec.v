(** Who may do what, in terms of the actions a user's privileges allow (PrivilegeSpec). *)
From Verif Require Import Prelude PrivilegeModel PrivilegeSpec AccessModel.

(** The right each effect needs. *)
Definition permitted (s : session) (e : effect) : Prop :=
  let u := s_user s in
  match e with
  | Reads t d | Describes t d => may u (OnDatabase ReadData t d)
  | Writes t d => may u (OnDatabase WriteData t d)
  | Administers t d => may u (OnDatabase AdminData t d)
  | CreatesDatabase t => forall d, may u (OnDatabase WriteData t d)
  | ListsTenant _ => may u MaintainInstance
  | ChangesUser v => may u (ManageUser v)
  | CreatesUser | DropsUser _ => forall v, may u (ManageUser v)
  | MakesAdmin _ | MakesNewAdmin | ForcesPassword _ | LimitsTenant _ | Maintains | SeesCluster => may u MaintainInstance
  | ChangesTenant t => may u (ManageTenant t)
  | CreatesTenant | DropsTenant _ => forall t, may u (ManageTenant t)
  | ChangesMembers t => may u (TenantMembers t)
  | ChangesRoles t | SeesRoles t => may u (TenantRoles t)
  | SeesQuery owner t | CancelsQuery owner t => owner = u_id u \/ may u (TenantSystem t)
  | SeesOwnRole => True
  | SeesMembers t => t = s_tid s
  end.

(** The session as authentication builds it (auth_control.rs, meta_admin.rs:588-621): the tenant's id is the one of its name;
    the user holds the rights of an administrator, or of a role in that tenant. *)
Definition session_ok (c : catalog) (s : session) : Prop :=
  c_tenant c (s_tenant s) = Some (s_tid s) /\
  exists id r, s_user s = new_user id (if s_admin s then user_role_privileges Dba else tenant_role_privileges r (s_tid s)).

(** Statements outside the guarantee: KILL, an external table with a three-part name, SHOW SERIES / SHOW TAG VALUES with a
    subquery on another database. *)
Fixpoint regular (s : session) (st : stmt) : Prop :=
  match st with
  | Kill _ => False
  | CreateExternalTable (Full _ _ _) => False
  | ShowTags n sub => forall m, In m sub -> exists t r, resolve_object s n = Some t /\ resolve_object s m = Some r /\ t_db r = t_db t
  | Explain st => regular s st
  | _ => True
  end.
Definition regular_request (s : session) (r : request) : Prop :=
  match r with Sql st => regular s st | WriteTo _ => True | ReadTraces _ | DumpDdl _ => False end.

(** The statements whose needs are exactly their effects: reads, writes and administration of ordinary tables, databases,
    tenants, roles and users. *)
Definition ordinary (s : session) (n : tname) : Prop :=
  match n with Full _ _ _ => False | Partial d _ => d <> INFO /\ d <> CLUSTER | Bare _ => s_db s <> INFO /\ s_db s <> CLUSTER end.
Definition direct (c : catalog) (s : session) (st : stmt) : Prop :=
  match st with
  | Query q | CopyIntoLocation q => Forall (ordinary s) q
  | Insert t q => ordinary s t /\ Forall (ordinary s) q
  | Update t None [] => ordinary s t
  | Delete t | CopyIntoTable t | CreateTable t | CreateStreamTable t | DropTable t | AlterTable t => ordinary s t
  | ShowTags t [] => ordinary s t
  | AlterDatabase _ | DropDatabase _ | RecoverDatabase _ | Maintain | CreateRole _ | DropRole _ | GrantRevoke _ => True
  | AlterTenant t op => True
  | AlterUser u (SetOption _) => True
  | _ => False
  end.

(** The same session held by an administrator with the same id. *)
Definition as_admin (s : session) : session :=
  Session (s_tenant s) (s_tid s) (s_db s) (new_user (u_id (s_user s)) (user_role_privileges Dba)) (s_root s) true (s_must s) (s_auth s).

(** The tenant whose objects an effect touches, when it is one. *)
Definition touches (e : effect) : option Z :=
  match e with
  | Reads t _ | Writes t _ | Administers t _ | Describes t _ | CreatesDatabase t | ListsTenant t | ChangesTenant t | LimitsTenant t
  | ChangesMembers t | ChangesRoles t | SeesRoles t | SeesMembers t => Some t
  | _ => None
  end.
(** Effects on the instance as a whole, its users or its tenants. *)
Definition global_effect (s : session) (e : effect) : Prop :=
  match e with
  | CreatesUser | DropsUser _ | MakesAdmin _ | MakesNewAdmin | ForcesPassword _ | CreatesTenant | DropsTenant _ | LimitsTenant _ | Maintains
  | SeesCluster | ListsTenant _ => True
  | ChangesUser v => v <> u_id (s_user s)
  | _ => False
  end.

(** Names the server keeps for itself: its own databases, the default ones of the default tenant, its own roles. *)
Definition own_database (s : session) (d : Z) : Prop :=
  d = INFO \/ d = USAGE \/ (s_tenant s = CNOSDB /\ (d = PUBLIC \/ d = CLUSTER)).
Definition own_role (r : Z) : Prop := r = OWNER \/ r = MEMBER.
