(** The query tracker of a node: slots of running statements, KILL QUERY, and the stream queries that
    are saved in the meta service and run again after a restart. *)
From Verif Require Import Prelude.
Open Scope Z_scope.

(** ** Maps from ids of queries *)
(** std HashMap as an association list; [del] removes every entry of a key, so that [put] keeps keys
    distinct *)
Fixpoint get {V : Type} (l : list (Z * V)) (i : Z) : option V :=
  match l with
  | [] => None
  | (k, v) :: r => if k =? i then Some v else get r i
  end.
Definition del {V : Type} (l : list (Z * V)) (i : Z) : list (Z * V) :=
  filter (fun p => negb (fst p =? i)) l.
Definition put {V : Type} (l : list (Z * V)) (i : Z) (v : V) : list (Z * V) := (i, v) :: del l i.
Definition mem (l : list Z) (i : Z) : bool := existsb (Z.eqb i) l.
Definition rm (l : list Z) (i : Z) : list Z := filter (fun k => negb (k =? i)) l.

(** ** Statements *)
(** query_server/query/src/execution/factory.rs:67-160: a query (and INSERT), DDL or DELETE, KILL QUERY,
    and INSERT ... SELECT from a stream table *)
Inductive kind := KSql | KDdl | KKill (target : Z) | KStream.
(** Where a statement is: planned and about to ask for a slot, waiting to be saved, ready to start,
    starting, handing out its result, or resident (a stream query after its answer) *)
Inductive phase := PArrived | PTracked | PReady | PStarted | POpen | PResident.
Record exec := EX { x_kind : kind; x_phase : phase; x_abort : bool }.

(** query_server/query/src/dispatcher/query_tracker.rs:32-38 QueryTracker; [tracked] is [queries],
    [saved] the queries of this node in the meta service, [removing] the spawned tasks of
    persister.rs:27-40 that have not run yet, [todo] the rest of the list which
    manager.rs:210-241 executes after a start.  [used] are the ids given out.  Simplified: the ids are
    random 64 bit numbers (query_info.rs:12-15), here no id is given out twice. *)
Record state := ST {
  execs : list (Z * exec);
  tracked : list (Z * kind);
  saved : list Z;
  removing : list Z;
  todo : list Z;
  used : list Z
}.
Definition start : state := ST [] [] [] [] [] [].

(** execution/stream/mod.rs:273-275 need_persist; false for the others (spi execution.rs:66-68) *)
Definition need_persist (k : kind) : bool := match k with KStream => true | _ => false end.

(** query_tracker.rs:122-213 expire_query.  Left out: the line for sql_history. *)
Definition expire (s : state) (i : Z) : state :=
  match get (tracked s) i with
  | None => s
  | Some k => ST (execs s) (del (tracked s) i) (saved s)
                 (if need_persist k then i :: removing s else removing s) (todo s) (used s)
  end.

Definition with_execs (s : state) (x : list (Z * exec)) : state :=
  ST x (tracked s) (saved s) (removing s) (todo s) (used s).

(** cancel of the executions: execution/query.rs:78-98 aborts the future of [start] if there is one
    already; after its end the abort has no effect.  execution/stream/mod.rs:228-249 drops the job, which
    cancels it (models/src/runtime/executor.rs:86-92).  DDL (ddl/mod.rs:117-120), DELETE
    (dml/mod.rs:57-60) and KILL (sys/mod.rs:55-57) ignore it.  Simplified: an abort never meets a poll
    that is just finishing. *)
Definition cancel (s : state) (i : Z) : state :=
  match get (execs s) i with
  | Some (EX KSql PStarted _) => with_execs s (put (execs s) i (EX KSql PStarted true))
  | Some (EX KStream PResident _) => with_execs s (del (execs s) i)
  | _ => s
  end.

(** ** Steps *)
(** What [start] of an execution gives: rows, nothing, an error *)
Inductive outcome := OData | ONil | OErr.
Inductive event :=
| EArrive (i : Z) (k : kind)   (** a client sends a statement; it is parsed and planned *)
| EInsert (i : Z)              (** the second half of save_query, under the write lock *)
| EPersist (i : Z) (ok : bool) (** the meta service answers write_queryinfo *)
| EBegin (i : Z)               (** [start] is called *)
| EResult (i : Z) (o : outcome)(** [start] ends *)
| EDrop (i : Z)                (** the client reads the result to its end, or goes away *)
| EFlush (i : Z)               (** the meta service carries out a remove_queryinfo *)
| ELose (i : Z)                (** a remove_queryinfo fails; a warning is logged *)
| ECrash                       (** the process ends and starts again *)
| ERecover                     (** the next saved query is executed again *)
| ESkip.                       (** the next saved query cannot be planned; a warning is logged *)

(** What the client sees: waiting, refused for the limit, a slot, rows, an empty answer, an error, no
    such query, the end of the result, gone before an answer *)
Inductive answer := AWait | ARefused | ASlot | AData | ANil | AErr | ANotFound | AEnd | AGone.

(** query_tracker.rs:220-223: the check under the read lock *)
Definition arrive (limit : nat) (s : state) (i : Z) (k : kind) : state * answer :=
  if Nat.leb limit (length (tracked s)) then (s, ARefused)
  else (with_execs s (put (execs s) i (EX k PArrived false)), AWait).

(** query_tracker.rs:225-233 (insert), 235-238 (save) *)
Definition insert (limit : nat) (s : state) (i : Z) (k : kind) : state * answer :=
  if Nat.leb limit (length (tracked s)) then (with_execs s (del (execs s) i), ARefused)
  else (ST (put (execs s) i (EX k (if need_persist k then PTracked else PReady) false))
           (put (tracked s) i k) (saved s) (removing s) (todo s) (used s), ASlot).

Definition persist (s : state) (i : Z) (ok : bool) : state * answer :=
  if ok then
    (ST (put (execs s) i (EX KStream PReady false)) (tracked s)
        (if mem (saved s) i then saved s else saved s ++ [i]) (removing s) (todo s) (used s), AWait)
  else (with_execs s (del (execs s) i), AErr).

(** query_tracker.rs:271-299 QueryExecutionTrackedProxy::start for the batch kinds; a stream query is
    not wrapped (query_tracker.rs:81-94).  execution/stream/mod.rs:210-226: the resident job ends with
    its execution, which only the tracker keeps after the answer.  sys/kill_query.rs:27-39 KILL QUERY. *)
Definition result (s : state) (i : Z) (x : exec) (o : outcome) : option (state * answer) :=
  let gone := with_execs s (del (execs s) i) in
  match x_kind x, o with
  | KStream, OData =>
      Some (match get (tracked s) i with
            | Some _ => with_execs s (put (execs s) i (EX KStream PResident false))
            | None => gone
            end, AData)
  | KStream, OErr => Some (gone, AErr)
  | KStream, ONil => None
  | KSql, OData => if x_abort x then None
                   else Some (with_execs s (put (execs s) i (EX KSql POpen false)), AData)
  | KSql, OErr => Some (expire gone i, AErr)
  | KSql, ONil => None
  | KDdl, OData => Some (with_execs s (put (execs s) i (EX KDdl POpen false)), AData)
  | KDdl, OErr => Some (expire gone i, AErr)
  | KDdl, ONil => Some (expire gone i, ANil)
  | KKill t, ONil =>
      match get (tracked s) t with
      | Some _ => Some (expire (cancel (expire gone t) t) i, ANil)
      | None => Some (expire gone i, ANotFound)
      end
  | KKill _, _ => None
  end.

(** query_tracker.rs:335-340 Drop of TrackedRecordBatchStream.  A statement that is dropped before its
    answer has no such guard: the future of [execute_query] ends where it is. *)
Definition drop (s : state) (i : Z) (x : exec) : option (state * answer) :=
  let gone := with_execs s (del (execs s) i) in
  match x_phase x with
  | POpen => Some (expire gone i, AEnd)
  | PResident => None
  | _ => Some (gone, AGone)
  end.

(** One step; [None] if the event cannot happen in the state *)
Definition step (limit : nat) (s : state) (e : event) : option (state * answer) :=
  match e with
  | EArrive i k =>
      if mem (used s) i then None
      else Some (arrive limit (ST (execs s) (tracked s) (saved s) (removing s) (todo s) (i :: used s)) i k)
  | EInsert i =>
      match get (execs s) i with
      | Some (EX k PArrived _) => Some (insert limit s i k)
      | _ => None
      end
  | EPersist i ok =>
      match get (execs s) i with
      | Some (EX KStream PTracked _) => Some (persist s i ok)
      | _ => None
      end
  | EBegin i =>
      match get (execs s) i with
      | Some (EX k PReady a) => Some (with_execs s (put (execs s) i (EX k PStarted a)), AWait)
      | _ => None
      end
  | EResult i o =>
      match get (execs s) i with
      | Some x => match x_phase x with PStarted => result s i x o | _ => None end
      | None => None
      end
  | EDrop i =>
      match get (execs s) i with
      | Some x => drop s i x
      | None => None
      end
  | EFlush i =>
      if mem (removing s) i
      then Some (ST (execs s) (tracked s) (rm (saved s) i) (rm (removing s) i) (todo s) (used s), AWait)
      else None
  | ELose i =>
      if mem (removing s) i
      then Some (ST (execs s) (tracked s) (saved s) (rm (removing s) i) (todo s) (used s), AWait)
      else None
  | ECrash => Some (ST [] [] (saved s) [] (saved s) (used s), AWait)
  | ERecover =>
      match todo s with
      | i :: r => Some (arrive limit (ST (execs s) (tracked s) (saved s) (removing s) r (used s)) i KStream)
      | [] => None
      end
  | ESkip =>
      match todo s with
      | i :: r => Some (ST (execs s) (tracked s) (saved s) (removing s) r (used s), AWait)
      | [] => None
      end
  end.

Fixpoint run (limit : nat) (s : state) (h : list event) : option state :=
  match h with
  | [] => Some s
  | e :: r => match step limit s e with Some (s', _) => run limit s' r | None => None end
  end.
