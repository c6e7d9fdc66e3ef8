(** Authentication on one node: the check of the credentials (query_server/query/src/auth/auth_control.rs,
    common/models/src/auth/user.rs), the look-ups of users, members and roles through the node's copies of the metadata
    (meta/src/model/meta_admin.rs, meta_tenant.rs), the cache of authenticated users (query_server/query/src/instance.rs,
    common/models/src/auth/auth_cache.rs), its invalidation by statements (query_server/query/src/execution/ddl/*.rs) and the
    bearer tokens of Flight SQL (main/src/flight_sql/auth_middleware/generated_bearer_token_authenticator.rs).
    Names, passwords, hashes and keys are integers.  Time is in seconds. *)
From Verif Require Import Prelude.

(** UserDesc with the options used here, user.rs:74-92, 123-150. *)
Record desc := Desc { d_id : Z; d_hash : option Z; d_rsa : option Z; d_admin : bool }.
(** TenantRoleIdentifier, role.rs: a system role or the name of a custom one. *)
Inductive role := Sys (r : Z) | Cust (name : Z).
(** Keys and values of the metadata used by the check: users/<name>, tenants/<t>/members/<id>, tenants/<t>/roles/<name>. *)
Inductive key := KUser (n : Z) | KMember (t u : Z) | KRole (t r : Z).
Inductive value := VUser (d : desc) | VMember (r : role) | VRole (rights : Z).
Definition key_eqb (a b : key) : bool :=
  match a, b with
  | KUser n, KUser m => n =? m
  | KMember t u, KMember t' u' => (t =? t') && (u =? u')
  | KRole t r, KRole t' r' => (t =? t') && (r =? r')
  | _, _ => false
  end.

(** A change committed by the meta service, by whichever node asked for it; [None] deletes the key. *)
Record entry := Entry { e_time : Z; e_key : key; e_val : option value }.
(** The value of a key after the changes [l], oldest first. *)
Definition lookup (l : list entry) (k : key) : option value :=
  fold_left (fun v e => if key_eqb (e_key e) k then e_val e else v) l None.

(** The rights of an authenticated user: of an administrator, of a system role or of a custom role ([None]: the role is gone,
    no privileges) in a tenant. *)
Inductive rights := RAdmin | RSystem (t r : Z) | RCustom (t : Z) (v : option Z).
Record ident := Ident { i_name : Z; i_id : Z; i_rights : rights }.
(** A request: user, password, private key, tenant; [q_token]: over Flight SQL, the token that will be generated. *)
Record req := Req { q_name : Z; q_pw : Z; q_key : option Z; q_tenant : Z; q_token : option Z }.

(** A check in progress, with the time it began: its next step. *)
Inductive stage :=
| SUser                                  (* the user is to be looked up *)
| SMember (d : desc)                     (* the member's role is to be looked up *)
| SCache (d : desc) (r : role)           (* the role was read from the meta service and is to be put in the local copy *)
| SRole (d : desc) (r : role)            (* the privileges of the role are to be looked up *)
| SCheck (d : desc) (x : rights).        (* the credentials are to be checked *)
Record check := Check { c_no : Z; c_req : req; c_begin : Z; c_stage : stage }.

(** AuthCache: the key has no private key in it (auth_cache.rs:9-20); each entry has a fixed time of expiry (38-42). *)
Record centry := Centry { x_name : Z; x_pw : Z; x_tenant : Z; x_ident : ident; x_expires : Z }.
Record token := Token { t_no : Z; t_ident : ident; t_last : Z }.

Record state := State {
  now : Z;
  log : list entry;            (* what the meta service committed *)
  seen : nat;                  (* how much of it the watch of this node processed *)
  copy : key -> option value;  (* the node's copy of users and members *)
  pend : list check;
  cache : list centry;
  tokens : list token }.

(** The cache keeps an entry one hour (instance.rs:267-268), a token ten minutes after its last use (the authenticator, 33-37). *)
Definition TTL : Z := 3600.
Definition IDLE : Z := 600.

Inductive event :=
| Tick (d : Z)
| Commit (k : key) (v : option value)    (* a statement of any node that changes users, members or roles *)
| Watch                                  (* this node processes one more change *)
| Begin (no : Z) (r : req)
| Next (no : Z)
| PurgeName (n : Z)                      (* after ALTER USER, DROP USER on this node *)
| PurgeId (u : Z)                        (* after ALTER TENANT ... SET USER, REMOVE USER on this node *)
| Clear                                  (* after REVOKE, DROP ROLE on this node *)
| Evict (i : nat)                        (* the least recently used entry makes room *)
| UseToken (no : Z).

Inductive output := Accepted (r : req) (i : ident) | AcceptedToken (no : Z) (i : ident) | Refused.

Section Bcrypt.
(** bcrypt_verify password hash, and rsa_utils::verify private password public. *)
Context (verify : Z -> Z -> bool) (rsa : Z -> Z -> Z -> bool).

(** AuthType::from and access_check, user.rs:226-283 *)
Definition auth_ok (d : desc) (pw : Z) (k : option Z) : bool :=
  match d_rsa d with
  | Some pub => match k with Some k => rsa k pw pub | None => false end
  | None => match d_hash d with Some h => verify pw h | None => false end
  end.

(** process_watch_log, meta_admin.rs:425-432, meta_tenant.rs:915-926.  Roles are copied too, but looked up under the user's id
    (meta_tenant.rs:208-213), so the copy is not used. *)
Definition watched (k : key) : bool := match k with KRole _ _ => false | _ => true end.
Definition set_copy (w : key -> option value) (k : key) (v : option value) : key -> option value :=
  fun k' => if key_eqb k k' then v else w k'.

(** AuthCache::get, auth_cache.rs:73-86, and insert, 69-71 *)
Definition same_key (r : req) (x : centry) : bool := (x_name x =? q_name r) && (x_pw x =? q_pw r) && (x_tenant x =? q_tenant r).
Definition cached (s : state) (r : req) : option ident :=
  match find (same_key r) (cache s) with
  | Some x => if x_expires x <=? now s then None else Some (x_ident x)
  | None => None
  end.
Definition put_cache (s : state) (r : req) (i : ident) : list centry :=
  Centry (q_name r) (q_pw r) (q_tenant r) i (now s + TTL) :: filter (fun x => negb (same_key r x)) (cache s).
(** process_auth_result of the authenticator, 86-104: a login over Flight SQL stores a token. *)
Definition put_token (s : state) (r : req) (i : ident) : list token :=
  match q_token r with Some t => Token t i (now s) :: filter (fun x => negb (t_no x =? t)) (tokens s) | None => tokens s end.

Definition set_pend (s : state) (p : list check) : state := State (now s) (log s) (seen s) (copy s) p (cache s) (tokens s).
Definition set_tokens (s : state) (t : list token) : state := State (now s) (log s) (seen s) (copy s) (pend s) (cache s) t.
Definition set_cache (s : state) (x : list centry) : state := State (now s) (log s) (seen s) (copy s) (pend s) x (tokens s).

(** Cnosdbms::authenticate, instance.rs:66-82: the cache first. *)
Definition begin (s : state) (no : Z) (r : req) : state * list output :=
  match cached s r with
  | Some i => (set_tokens s (put_token s r i), [Accepted r i])
  | None => (set_pend s (Check no r (now s) SUser :: pend s), [])
  end.

(** One step of a check: user_with_privileges, meta_admin.rs:588-622, user_privileges and member_role, meta_tenant.rs:192-252
    (member_role is called twice in a row; the first call, whose answer is not used for privileges, is left out), access_check,
    auth_control.rs:22-45, and the insertion in the cache, instance.rs:79. *)
Definition advance (s : state) (c : check) : state * list output :=
  let r := c_req c in
  let goto st := (set_pend s (Check (c_no c) r (c_begin c) st :: pend s), []) in
  match c_stage c with
  | SUser =>
      match match copy s (KUser (q_name r)) with Some v => Some v | None => lookup (log s) (KUser (q_name r)) end with
      | Some (VUser d) => goto (if d_admin d then SCheck d RAdmin else SMember d)
      | _ => (s, [Refused])
      end
  | SMember d =>
      match copy s (KMember (q_tenant r) (d_id d)) with
      | Some (VMember x) => goto (SRole d x)
      | _ => match lookup (log s) (KMember (q_tenant r) (d_id d)) with
             | Some (VMember x) => goto (SCache d x)
             | _ => (s, [Refused])
             end
      end
  | SCache d x =>
      (State (now s) (log s) (seen s) (set_copy (copy s) (KMember (q_tenant r) (d_id d)) (Some (VMember x)))
         (Check (c_no c) r (c_begin c) (SRole d x) :: pend s) (cache s) (tokens s), [])
  | SRole d x =>
      match x with
      | Sys y => goto (SCheck d (RSystem (q_tenant r) y))
      | Cust name => goto (SCheck d (RCustom (q_tenant r) (match lookup (log s) (KRole (q_tenant r) name) with Some (VRole v) => Some v | _ => None end)))
      end
  | SCheck d x =>
      if auth_ok d (q_pw r) (q_key r) then
        let i := Ident (q_name r) (d_id d) x in
        (set_tokens (set_cache s (put_cache s r i)) (put_token s r i), [Accepted r i])
      else (s, [Refused])
  end.

Fixpoint take (no : Z) (l : list check) : option (check * list check) :=
  match l with
  | [] => None
  | c :: l => if c_no c =? no then Some (c, l)
              else match take no l with Some (d, l) => Some (d, c :: l) | None => None end
  end.

Definition step (s : state) (ev : event) : option (state * list output) :=
  match ev with
  | Tick d => if 0 <=? d then Some (State (now s + d) (log s) (seen s) (copy s) (pend s) (cache s) (tokens s), []) else None
  | Commit k v => Some (State (now s) (log s ++ [Entry (now s) k v]) (seen s) (copy s) (pend s) (cache s) (tokens s), [])
  | Watch =>
      match nth_error (log s) (seen s) with
      | Some e => Some (State (now s) (log s) (S (seen s)) (if watched (e_key e) then set_copy (copy s) (e_key e) (e_val e) else copy s)
                          (pend s) (cache s) (tokens s), [])
      | None => None
      end
  | Begin no r => Some (begin s no r)
  | Next no => match take no (pend s) with Some (c, l) => Some (advance (set_pend s l) c) | None => None end
  | PurgeName n => Some (set_cache s (filter (fun x => (x_expires x <=? now s) || negb (i_name (x_ident x) =? n)) (cache s)), [])   (* execution.rs:328-342 *)
  | PurgeId u => Some (set_cache s (filter (fun x => (x_expires x <=? now s) || negb (i_id (x_ident x) =? u)) (cache s)), [])       (* 344-358 *)
  | Clear => Some (set_cache s [], [])                                                                                              (* 360-362 *)
  | Evict i => Some (set_cache s (firstn i (cache s) ++ skipn (S i) (cache s)), [])
  | UseToken no =>                                                             (* the authenticator, 57-72 *)
      match find (fun x => t_no x =? no) (tokens s) with
      | Some t => if t_last t + IDLE <=? now s then Some (s, [Refused])
                  else Some (set_tokens s (Token no (t_ident t) (now s) :: filter (fun x => negb (t_no x =? no)) (tokens s)), [AcceptedToken no (t_ident t)])
      | None => Some (s, [Refused])
      end
  end.

Fixpoint run (s : state) (evs : list event) : option (state * list output) :=
  match evs with
  | [] => Some (s, [])
  | ev :: evs => match step s ev with
                 | Some (s, o) => match run s evs with Some (s, o') => Some (s, o ++ o') | None => None end
                 | None => None
                 end
  end.
End Bcrypt.
