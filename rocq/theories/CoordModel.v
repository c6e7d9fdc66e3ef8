(** Model of how the coordinator runs a request on a replica set
    (/repo/coordinator/src/tskv_executor.rs, /repo/coordinator/src/raft/writer.rs, /repo/coordinator/src/service.rs,
    /repo/coordinator/src/errors.rs) and of how it reads one
    (/repo/coordinator/src/service.rs table_vnodes, /repo/coordinator/src/reader/mod.rs,
    /repo/coordinator/src/reader/table_scan/opener.rs, /repo/tskv/src/reader/iterator.rs execute).

    Simplifications.  What the network and the other nodes do is a parameter: every call has a reply and either was
    executed by the replica set (agreed on and applied) or was not.  A record batch is a list of rows. *)
From Verif Require Import Prelude.

(** meta_data.rs:72-110 VnodeInfo, VnodeStatus, ReplicationSet *)
Inductive status := Running | Copying | Broken.
Record vnode := VN { v_id : Z; v_node : Z; v_status : status }.
Record rset := RS { g_id : Z; g_leader_node : Z; g_leader_vnode : Z; g_vnodes : list vnode }.

(** Vec::sort_by_key (stable) *)
Fixpoint ins_by (k : vnode -> Z) (x : vnode) (l : list vnode) : list vnode :=
  match l with [] => [x] | y :: l' => if k y <? k x then y :: ins_by k x l' else x :: l end.
Definition sort_by_key (k : vnode -> Z) (l : list vnode) : list vnode := fold_right (ins_by k) [] l.

(** ** Writing *)
(** Results of one call (errors.rs).  [Pre]: PreExecution, the node could not be connected (writer.rs:84-88,
    tskv_executor.rs:40-44).  [Forward v]: RaftForwardToLeader, the replica named vnode [v] as leader
    (writer.rs:118-127, errors.rs:367-375, 396).  [Fail]: any other error, such as a timeout, a refused pre-check or an
    error of the replica set (writer.rs:128-137, 141-146; errors.rs:401-407).  [NoReplica]: NoValidReplica. *)
Inductive result := Ok | Pre | Forward (v : Z) | Fail | NoReplica.
(** One call of a node as it happened.  [k_executed]: the replica set applied the request. *)
Record call := CALL { k_node : Z; k_redirected : bool; k_result : result; k_executed : bool }.

Section exec.
  (** the reply to the n-th call of a request, by node, and whether it was executed *)
  Variable net : nat -> Z -> result * bool.
  (** meta_tenant.rs replica_new_leader: the node of a vnode, as the metadata server answers at the n-th call *)
  Variable new_leader : nat -> Z -> option Z.

  (** tskv_executor.rs:83-115: the loop of do_request; [n] calls were made, [last] is the variable [result].  Returned:
      the result, the calls, the vnodes reported to the metadata server as leaders. *)
  Fixpoint loop (leader : Z) (vs : list vnode) (n : nat) (last : result) : result * list call * list Z :=
    match vs with
    | [] => (last, [], [])
    | v :: vs' =>
        let '(r, x) := net n (v_node v) in
        let c := CALL (v_node v) false r x in
        match r with
        | Pre => let '(r', cs, us) := loop leader vs' (S n) Pre in (r', c :: cs, us)
        | Forward nl =>
            (* tskv_executor.rs:118-134 redirect_request *)
            match new_leader n nl with
            | None => let '(r', cs, us) := loop leader vs' (S n) Fail in (r', c :: cs, nl :: us)
            | Some node =>
                let '(r2, x2) := net (S n) node in
                let c2 := CALL node true r2 x2 in
                match r2 with
                | Ok => (Ok, [c; c2], [nl])
                | _ => let '(r', cs, us) := loop leader vs' (S (S n)) r2 in (r', c :: c2 :: cs, nl :: us)
                end
            end
        | Ok => (Ok, [c], if v_node v =? leader then [] else [v_id v])
        | _ => (r, [c], [])
        end
    end.
  (** tskv_executor.rs:71-82 do_request *)
  Definition do_request (g : rset) : result * list call * list Z :=
    loop (g_leader_node g) (sort_by_key (fun v => if v_node v =? g_leader_node g then 0 else 1) (g_vnodes g)) 0 NoReplica.
End exec.

(** service.rs:607-646 write_lines (and 740-792 write_record_batch, 856-885 delete_from_table): the limiter is asked for
    every replica set before the first request starts (a future that is not polled does nothing); then all requests run,
    and the first error, in the order of the requests, is the answer. *)
Definition fan_out (admit : rset -> bool) (run : rset -> result * list call * list Z) (gs : list rset)
  : result * list (rset * list call) :=
  if forallb admit gs
  then (match find (fun g => match fst (fst (run g)) with Ok => false | _ => true end) gs with
        | Some g => fst (fst (run g)) | None => Ok end,
        map (fun g => (g, snd (fst (run g)))) gs)
  else (Fail, []).

(** ** Reading *)
Definition row := Z.
(** service.rs:517-541 table_vnodes: leader, running, copying; broken ones removed; two stay *)
Definition score (g : rset) (v : vnode) : Z :=
  if v_id v =? g_leader_vnode g then 0 else match v_status v with Running => 1 | Copying => 2 | Broken => 2147483647 end.
Definition is_broken (v : vnode) : bool := match v_status v with Broken => true | _ => false end.
Definition candidates (g : rset) : list vnode :=
  firstn 2 (filter (fun v => negb (is_broken v)) (sort_by_key (score g) (g_vnodes g))).

(** What opening a vnode does (opener.rs:67-126): the node cannot be connected (never so on the node itself); another
    error; or a stream of batches which may stop with an error after [n] of them (of a kind that marks the vnode broken,
    tskv::TskvError::vnode_broken_code, or not). *)
Inductive opened := Unreachable | OpenFails | Opened (fails_after : option (nat * bool)).
Inductive ending := Done | Failed.
(** The batches a stream gave, how it ended, the vnode it reported as broken *)
Record answer := ANS { a_batches : list (list row); a_end : ending; a_broken : option Z }.

Section read.
  (** contents of the vnodes, [None]: the node does not know the vnode *)
  Variable store : Z -> option (list (list row)).
  Variable open : Z -> opened.
  (** how many batches the limiter of the tenant lets pass (reader/mod.rs:128-138, 163-170), [None]: all *)
  Variable limit : option nat.

  (** iterator.rs:861-905 execute: a vnode the engine does not know has no rows *)
  Definition content (v : vnode) : list (list row) := match store (v_id v) with Some bs => bs | None => [] end.
  Definition min_opt (a : option nat) (b : option (nat * bool)) : option (nat * bool) :=
    match a, b with
    | None, _ => b
    | Some n, None => Some (n, false)
    | Some n, Some (m, k) => if (n <? m)%nat then Some (n, false) else Some (m, k)
    end.
  (** reader/mod.rs:125-188 StreamState::Scan *)
  Definition scan (v : vnode) (fails : option (nat * bool)) : answer :=
    let bs := content v in
    (* the limiter acts on a batch that arrived *)
    match min_opt (match limit with Some n => if (n <? length bs)%nat then Some n else None | None => None end) fails with
    | None => ANS bs Done None
    | Some (n, broken) =>
        if (n <=? length bs)%nat
        then ANS (firstn n bs) Failed (if broken then Some (v_id v) else None)
        else ANS bs Done None
    end.
  (** reader/mod.rs:93-123 Idle and Open: another vnode is tried when the node cannot be connected *)
  Fixpoint open_one (v : vnode) (rest : list vnode) : answer :=
    match open (v_id v) with
    | Opened f => scan v f
    | OpenFails => ANS [] Failed None
    | Unreachable => match rest with [] => ANS [] Failed None | v' :: rest' => open_one v' rest' end
    end.
  (** reader/mod.rs:72-91 Check; [admit]: the limiter lets the query in *)
  Definition read_set (admit : bool) (g : rset) : answer :=
    if admit then match candidates g with [] => ANS [] Failed None | v :: rest => open_one v rest end
    else ANS [] Failed None.
End read.

(** reader/mod.rs:143-157, 200-235: the vnode becomes broken in the metadata *)
Definition mark_broken (id : Z) (g : rset) : rset :=
  RS (g_id g) (g_leader_node g) (g_leader_vnode g)
     (map (fun v => if v_id v =? id then VN (v_id v) (v_node v) Broken else v) (g_vnodes g)).
(** a query reads every replica set (split/mod.rs:60-66: one split each); it fails when one read fails *)
Definition query (read : rset -> answer) (gs : list rset) : option (list row) :=
  if forallb (fun g => match a_end (read g) with Done => true | Failed => false end) gs
  then Some (concat (map (fun g => concat (a_batches (read g))) gs)) else None.
