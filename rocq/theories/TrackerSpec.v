(** What a user sees of the query tracker. *)
From Verif Require Import Prelude TrackerModel.

(** The queries that SHOW QUERIES lists: these hold the slots *)
Definition listed (s : state) (i : Z) : Prop := exists k, In (i, k) (tracked s).
(** The number of slots in use *)
Definition slots (s : state) : nat := length (tracked s).
(** A node can be in this state *)
Definition reached (limit : nat) (s : state) : Prop := exists h, run limit start h = Some s.
(** The statement is being worked on, or its result is being read *)
Definition executing (s : state) (i : Z) (k : kind) (p : phase) : Prop := exists a, In (i, EX k p a) (execs s).
(** A stream query that runs in the background *)
Definition streaming (s : state) (i : Z) : Prop := executing s i KStream PResident.
(** The statement asks for a slot in this event *)
Definition asks (s : state) (e : event) (i : Z) : Prop :=
  match e with
  | EArrive j _ => j = i
  | EInsert j => j = i
  | ERecover => exists r, todo s = i :: r
  | _ => False
  end.
Definition no_crash (h : list event) : Prop := ~ In ECrash h.
(** The client gives up, the meta service does not save the query, or the query fails *)
Definition broken_off (h : list event) (i : Z) : Prop :=
  In (EDrop i) h \/ In (EPersist i false) h \/ In (EResult i OErr) h.
(** All steps of a restart for one saved query *)
Definition again (i : Z) : list event := [ERecover; EInsert i; EPersist i true; EBegin i; EResult i OData].
