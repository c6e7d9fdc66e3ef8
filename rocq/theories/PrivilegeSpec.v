(** What a privilege lets its holder do, as a set of elementary actions. *)
From Verif Require Import Prelude PrivilegeModel.

(** Elementary actions: maintain the instance, manage one user, manage one tenant, and within one tenant: system operations,
    manage members, manage roles, or read / write / administer one database. *)
Inductive level := ReadData | WriteData | AdminData.
Inductive action :=
| MaintainInstance
| ManageUser (u : Z)
| ManageTenant (t : Z)
| TenantSystem (t : Z)
| TenantMembers (t : Z)
| TenantRoles (t : Z)
| OnDatabase (l : level) (t db : Z).

Definition db_allows (p : db_priv) (l : level) : Prop :=
  match p, l with
  | PRead, ReadData => True
  | PWrite, (ReadData | WriteData) => True
  | PFull, _ => True
  | _, _ => False
  end.

(** [None] stands for "all". *)
Definition covers (o : option Z) (x : Z) : Prop := match o with None => True | Some y => x = y end.

Definition allows (p : priv) (a : action) : Prop :=
  match p, a with
  | Global GSystem, MaintainInstance => True
  | Global (GUser o), ManageUser u => covers o u
  | Global (GTenant o), ManageTenant t => covers o t
  | TenantObject TSystem o, TenantSystem t => covers o t
  | TenantObject TMember o, TenantMembers t => covers o t
  | TenantObject TRole o, TenantRoles t => covers o t
  | TenantObject (TDatabase p d) o, OnDatabase l t db => db_allows p l /\ covers d db /\ covers o t
  | _, _ => False
  end.

(** A user may do what one of the privileges held allows. *)
Definition may (u : user) (a : action) : Prop := exists p, In p (u_privs u) /\ allows p a.

(** What a member with role [r] in tenant [t] may do through the role. *)
Definition role_may (r : custom) (t : Z) (a : action) : Prop := exists p, In p (custom_privileges r t) /\ allows p a.

(** The tenant an action is about, when it is about one. *)
Definition about_tenant (a : action) : option Z :=
  match a with
  | ManageTenant t | TenantSystem t | TenantMembers t | TenantRoles t | OnDatabase _ t _ => Some t
  | _ => None
  end.
