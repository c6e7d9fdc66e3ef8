(** Model of the tasks behind DROP, RECOVER, ALTER TABLE and UPDATE of tags: the table of tasks in the meta service, the
    statements that add to it, the node that watches it, delayed execution, retry, and take-over from a dead node.
    /repo/coordinator/src/resource_manager.rs, /repo/common/models/src/schema/resource_info.rs,
    /repo/query_server/query/src/dispatcher/manager.rs, /repo/query_server/query/src/execution/ddl/*.rs,
    /repo/meta/src/model/meta_admin.rs, /repo/meta/src/store/storage.rs.
    Each call of the meta service is one step, so that statements and background tasks interleave in any way between them;
    the calls themselves do not fail.  What an operation does to the data is not modelled: it succeeds or fails, as the
    environment says, and a successful one is recorded.  The hiding of a dropped object is not modelled either.  All nodes
    read the same clock, in nanoseconds. *)
From Verif Require Import Prelude.

Definition str := list Z.
Fixpoint str_eqb (a b : str) : bool :=
  match a, b with [], [] => true | x :: a, y :: b => (x =? y) && str_eqb a b | _, _ => false end.

(** ResourceOperator, resource_info.rs:11-40.  AddColumn, DropColumn and AlterColumn carry the new schema, UpdateTagValue the
    new values and the series: here a number. *)
Inductive op :=
| DropTenant (t : str)
| DropDatabase (t d : str)
| DropTable (t d b : str)
| AlterColumn (t d b c : str) (schema : Z)
| UpdateTags (t d b : str) (change : Z).

Definition dash : Z := 45.
Definition update_tags_value : str := [85; 112; 100; 97; 116; 101; 84; 97; 103; 115; 86; 97; 108; 117; 101].
(** The name a task is stored under: drop_global_object.rs:87, drop_tenant_object.rs:96, drop_database_object.rs:61-66,
    alter_table.rs:138-145, service.rs:1162. *)
Definition name_of (o : op) : str :=
  match o with
  | DropTenant t => t
  | DropDatabase t d => t ++ dash :: d
  | DropTable t d b => t ++ dash :: d ++ dash :: b
  | AlterColumn t d b c _ => t ++ dash :: d ++ dash :: b ++ dash :: c
  | UpdateTags t d b _ => t ++ dash :: d ++ dash :: b ++ dash :: update_tags_value
  end.

(** ResourceStatus, resource_info.rs:56-64 *)
Inductive status := Schedule | Executing | Successed | Failed | Cancel | Fatal.
(** ResourceInfo, resource_info.rs:79-91; the name is [name_of] the operator. *)
Record info := Info { i_op : op; i_time : Z; i_try : Z; i_status : status; i_node : Z; i_new : bool }.
Definition i_name (i : info) : str := name_of (i_op i).
(** ResourceInfo::new, resource_info.rs:94-121; [after] in nanoseconds *)
Definition new_info (o : op) (after : option Z) (now node : Z) : info :=
  match after with
  | Some a => if a >? 0 then Info o (wrap_i64 (now + a)) 0 Schedule node true else Info o now 0 Executing node true
  | None => Info o now 0 Executing node true
  end.
Definition with_status (i : info) (s : status) (new : bool) : info := Info (i_op i) (i_time i) (i_try i) s (i_node i) new.
Definition with_node (i : info) (n : Z) (new : bool) : info := Info (i_op i) (i_time i) (i_try i) (i_status i) n new.

(** Where a statement or a background task stands.
    add_resource_task, resource_manager.rs:313-359: [Look], [Mark], [Put]; do_operator, 22-77: [Run], [Note];
    the RECOVER statements, recover_database.rs:42-57 and recover_tenant.rs:42-57: [Cancelling];
    exec_async_task, manager.rs:458-473: [Sleep], [Begin]; retry_failed_task, resource_manager.rs:361-394: [Wait], [Backoff]. *)
Inductive pc :=
| Look (i : info) | Mark (i : info) | Put (i : info) | Run (i : info) | Note (i : info) (ok : bool)
| Cancelling (i : info) | Sleep (i : info) (at_ : Z) | Begin (i : info) | Wait (i : info) (at_ : Z) | Backoff (i : info) (at_ : Z)
| Ended (ok : bool).

(** MetaModifyType, and the log of the meta service that carries it, storage.rs:250-262 *)
Inductive event := EInfo (i : info) | EDown (n : Z).

(** A data node: the position up to which it has handled the log, the background tasks it runs by name
    (async_task_joinhandle, failed_task_joinhandle), the tasks it is taking over, and the one of them it executes at once. *)
Record node := Node { n_up : bool; n_pos : nat; n_async : list (str * pc); n_retry : list (str * pc);
                      n_take : list info; n_inline : option pc }.
(** [entries]: the tasks of the meta service.  [mark]: which node is to handle tasks.  [clients]: statements, with their node.
    [done]: the operations carried out, with the time. *)
Record state := St { now : Z; entries : list (str * info); mark : Z * bool; log : list event; nodes : Z -> node;
                     clients : list (Z * pc); done : list (Z * op) }.

Section Maps.
  Context {A : Type}.
  Fixpoint get (k : str) (m : list (str * A)) : option A :=
    match m with [] => None | (k', v) :: m => if str_eqb k k' then Some v else get k m end.
  Fixpoint del (k : str) (m : list (str * A)) : list (str * A) :=
    match m with [] => [] | (k', v) :: m => if str_eqb k k' then del k m else (k', v) :: del k m end.
  Definition put (k : str) (v : A) (m : list (str * A)) : list (str * A) := (k, v) :: del k m.
End Maps.
Definition has {A} (k : str) (m : list (str * A)) : bool := match get k m with Some _ => true | None => false end.

(** process_write_resourceinfo, storage.rs:1652-1660: stored, and announced in the log *)
Definition write (i : info) (s : state) : state :=
  St (now s) (put (i_name i) i (entries s)) (mark s) (log s ++ [EInfo i]) (nodes s) (clients s) (done s).
Definition set_nodes (f : Z -> node) (s : state) : state :=
  St (now s) (entries s) (mark s) (log s) f (clients s) (done s).
Definition set_node (n : Z) (v : node) (s : state) : state := set_nodes (fun m => if m =? n then v else nodes s m) s.
Definition set_clients (c : list (Z * pc)) (s : state) : state := St (now s) (entries s) (mark s) (log s) (nodes s) c (done s).
Definition set_mark (m : Z * bool) (s : state) : state := St (now s) (entries s) m (log s) (nodes s) (clients s) (done s).
Definition carried (o : op) (s : state) : state :=
  St (now s) (entries s) (mark s) (log s) (nodes s) (clients s) (done s ++ [(now s, o)]).

(** The statuses with which add_resource_task goes on, resource_manager.rs:323-329 *)
Definition free_status (x : status) : bool :=
  match x with Schedule | Successed | Cancel | Fatal => true | Executing | Failed => false end.
Definition is_schedule (x : status) : bool := match x with Schedule => true | _ => false end.
Definition is_executing (x : status) : bool := match x with Executing => true | _ => false end.
(** The seconds retry_failed_task sleeps, in nanoseconds; u64 pow wraps. *)
Definition pause (i : info) : Z := wrap_u64 (2 ^ i_try i) * 1000000000.

(** One step of a statement or task.  [retry]: it is a retry_failed_task; [ok]: whether the operation, if this step is it,
    succeeds.  [None]: not yet (asleep), or over. *)
Definition step_pc (n : Z) (retry ok : bool) (p : pc) (s : state) : option (state * pc) :=
  match p with
  | Look i =>
      if match get (i_name i) (entries s) with Some old => free_status (i_status old) | None => true end
      then Some (s, if is_schedule (i_status i) then Mark i else Put i)
      else Some (s, Ended true)                               (* Ok(false), which the callers ignore *)
  | Mark i => Some (s, Put (if snd (mark s) then with_node i (fst (mark s)) (i_new i) else i))
  | Put i => Some (write i s, if is_executing (i_status i) then Run i else Ended true)
  | Run i => Some (if ok then carried (i_op i) s else s, Note i ok)
  | Note i r =>
      let i' := Info (i_op i) (i_time i) (i_try i + 1) (if r then Successed else Failed) (i_node i) (negb r) in
      Some (write i' s, if r then Ended true else if retry then Backoff i (now s + pause i) else Ended false)
  | Cancelling i => Some (write i s, Ended true)
  | Sleep i t => if t <=? now s then Some (s, Begin i) else None
  | Begin i => let i' := with_status i Executing false in Some (write i' s, Run i')
  | Wait i t => if t <=? now s then Some (s, Run (with_node i n (i_new i))) else None
  | Backoff i t =>
      if t <=? now s then
        match get (i_name i) (entries s) with Some r => Some (s, Run r) | None => Some (s, Ended false) end
      else None
  | Ended _ => None
  end.

(** exec_async_task, manager.rs:459-461: how long it sleeps; a negative interval is cast to u64. *)
Definition sleeping (i : info) (s : state) : pc := Sleep i (now s + wrap_u64 (wrap_i64 (i_time i - now s))).
Definition waiting (i : info) (s : state) : pc := Wait i (now s + pause i).

(** handle_meta_modify for a task, manager.rs:270-326; the statuses that reach it, meta_admin.rs:438-442 *)
Definition handle_info (n : Z) (i : info) (v : node) (s : state) : node :=
  if i_new i && (fst (mark s) =? n) && snd (mark s) then
    match i_status i with
    | Schedule => Node (n_up v) (n_pos v) (put (i_name i) (sleeping i s) (n_async v)) (n_retry v) (n_take v) (n_inline v)
    | Failed => if has (i_name i) (n_retry v) then v
                else Node (n_up v) (n_pos v) (n_async v) (put (i_name i) (waiting i s) (n_retry v)) (n_take v) (n_inline v)
    | Cancel => Node (n_up v) (n_pos v) (del (i_name i) (n_async v)) (n_retry v) (n_take v) (n_inline v)
    | _ => v
    end
  else v.
(** handle_meta_modify for a dead node, manager.rs:327-386: take the mark if the dead node has it, and list its tasks.  The
    calls on the mark are one step here: other nodes doing the same get ResourceInfosMarkIsLock, storage.rs:1662-1677. *)
Definition handle_down (n d : Z) (s : state) : state :=
  let s := if (fst (mark s) =? d) && snd (mark s) then set_mark (n, true) s else s in
  let v := nodes s n in
  if (fst (mark s) =? n) && snd (mark s) then
    set_node n (Node (n_up v) (n_pos v) (n_async v) (n_retry v) (filter (fun i => i_node i =? d) (map snd (entries s))) (n_inline v)) s
  else s.
(** One task of the dead node, manager.rs:387-438.  [return Ok(())] leaves the loop. *)
Definition take_one (n : Z) (i : info) (rest : list info) (s : state) : state :=
  let i := with_node i n false in
  let s := write i s in
  let v := nodes s n in
  match i_status i with
  | Schedule => if has (i_name i) (n_async v) then set_node n (Node (n_up v) (n_pos v) (n_async v) (n_retry v) [] (n_inline v)) s
                else set_node n (Node (n_up v) (n_pos v) (put (i_name i) (sleeping i s) (n_async v)) (n_retry v) rest (n_inline v)) s
  | Executing => set_node n (Node (n_up v) (n_pos v) (n_async v) (n_retry v) rest (Some (Look i))) s
  | Failed => if has (i_name i) (n_retry v) then set_node n (Node (n_up v) (n_pos v) (n_async v) (n_retry v) [] (n_inline v)) s
              else set_node n (Node (n_up v) (n_pos v) (n_async v) (put (i_name i) (waiting i s) (n_retry v)) rest (n_inline v)) s
  | _ => set_node n (Node (n_up v) (n_pos v) (n_async v) (n_retry v) rest (n_inline v)) s
  end.

Fixpoint remove_nth {A} (k : nat) (l : list A) : list A :=
  match l, k with [] , _ => [] | _ :: l, O => l | x :: l, S k => x :: remove_nth k l end.
Fixpoint set_nth {A} (k : nat) (x : A) (l : list A) : list A :=
  match l, k with [] , _ => [] | _ :: l, O => x :: l | y :: l, S k => y :: set_nth k x l end.

(** What can happen. *)
Inductive act :=
| Tick (d : Z)                                  (* time passes *)
| Issue (n : Z) (o : op) (after : option Z)     (* a statement arrives at node [n] *)
| Recover (n : Z) (o : op)                      (* RECOVER DATABASE or RECOVER TENANT *)
| Client (k : nat) (ok : bool)                  (* the k-th statement goes on *)
| Async (n : Z) (x : str) (ok : bool)           (* the delayed task of that name on node [n] goes on *)
| Retry (n : Z) (x : str) (ok : bool)
| Inline (n : Z) (ok : bool)
| Handle (n : Z)                                (* node [n] handles the next event of the log *)
| Take (n : Z) (j : nat)                        (* node [n] takes over the j-th of the tasks listed; the order is a hash map's *)
| Join (n : Z)                                  (* process_add_date_node, storage.rs:978-992: the first node gets the mark *)
| Down (n : Z)                                  (* the meta service reports node [n] unreachable, server.rs:143-163 *)
| Crash (n : Z) | Start (n : Z).

Definition recoverable (o : op) : bool := match o with DropTenant _ | DropDatabase _ _ => true | _ => false end.

(** [None]: cannot happen now. *)
Definition step (s : state) (a : act) : option state :=
  match a with
  | Tick d => if d >? 0 then Some (St (now s + d) (entries s) (mark s) (log s) (nodes s) (clients s) (done s)) else None
  | Issue n o after =>
      if n_up (nodes s n) && match after with Some _ => recoverable o | None => true end   (* only DROP DATABASE and DROP TENANT wait *)
      then Some (set_clients (clients s ++ [(n, Look (new_info o after (now s) n))]) s) else None
  | Recover n o =>
      if n_up (nodes s n) && recoverable o
      then Some (set_clients (clients s ++ [(n, Cancelling (with_status (new_info o None (now s) n) Cancel true))]) s) else None
  | Client k ok =>
      match nth_error (clients s) k with
      | Some (n, p) =>
          match step_pc n false ok p s with
          | Some (s', p') => Some (set_clients (set_nth k (n, p') (clients s)) s')
          | None => None
          end
      | None => None
      end
  | Async n x ok =>
      match get x (n_async (nodes s n)) with
      | Some p =>
          match step_pc n false ok p s with
          | Some (s', p') => let v := nodes s' n in
              Some (set_node n (Node (n_up v) (n_pos v) (put x p' (n_async v)) (n_retry v) (n_take v) (n_inline v)) s')
          | None => None
          end
      | None => None
      end
  | Retry n x ok =>
      match get x (n_retry (nodes s n)) with
      | Some p =>
          match step_pc n true ok p s with
          | Some (s', p') => let v := nodes s' n in
              Some (set_node n (Node (n_up v) (n_pos v) (n_async v) (put x p' (n_retry v)) (n_take v) (n_inline v)) s')
          | None => None
          end
      | None => None
      end
  | Inline n ok =>
      match n_inline (nodes s n) with
      | Some p =>
          match step_pc n false ok p s with
          | Some (s', p') => let v := nodes s' n in
              Some (set_node n (Node (n_up v) (n_pos v) (n_async v) (n_retry v) (n_take v)
                                     (match p' with Ended _ => None | _ => Some p' end)) s')
          | None => None
          end
      | None => None
      end
  | Handle n =>
      let v := nodes s n in
      match n_take v, n_inline v, nth_error (log s) (n_pos v) with
      | [], None, Some e =>
          if n_up v then
            let s' := set_node n (Node (n_up v) (S (n_pos v)) (n_async v) (n_retry v) (n_take v) (n_inline v)) s in
            match e with
            | EInfo i => Some (set_node n (handle_info n i (nodes s' n) s') s')
            | EDown d => Some (handle_down n d s')
            end
          else None
      | _, _, _ => None
      end
  | Take n j =>
      let v := nodes s n in
      match nth_error (n_take v) j, n_inline v with
      | Some i, None => if n_up v then Some (take_one n i (remove_nth j (n_take v)) s) else None
      | _, _ => None
      end
  | Join n => if n_up (nodes s n) then Some (if snd (mark s) then s else set_mark (n, true) s) else None
  | Down n => Some (St (now s) (entries s) (mark s) (log s ++ [EDown n]) (nodes s) (clients s) (done s))
  | Crash n =>
      let s' := set_node n (Node false (n_pos (nodes s n)) [] [] [] None) s in
      Some (set_clients (map (fun c => if fst c =? n then match snd c with Ended _ => c | _ => (n, Ended false) end else c) (clients s)) s')
  | Start n =>
      if n_up (nodes s n) then None else Some (set_node n (Node true (length (log s)) [] [] [] None) s)
  end.

Fixpoint run (s : state) (l : list act) : option state :=
  match l with [] => Some s | a :: l => match step s a with Some s' => run s' l | None => None end end.
(** Some nodes are up, nothing is asked for yet. *)
Definition start (t : Z) (up : list Z) : state :=
  St t [] (0, false) [] (fun n => Node (existsb (Z.eqb n) up) 0 [] [] [] None) [] [].
