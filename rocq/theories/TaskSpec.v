(** What the theorems on tasks (C71, C72) speak about. *)
From Verif Require Import Prelude TaskModel.

(** The clock after some events. *)
Fixpoint clock (t : Z) (es : list act) : Z :=
  match es with [] => t | Tick d :: es => clock (t + d) es | _ :: es => clock t es end.
(** How long a statement wants to wait. *)
Definition delay (after : option Z) : Z := match after with Some a => Z.max 0 a | None => 0 end.
(** Among the events is a statement asking for [o] to be done at [t]. *)
Definition asked_for (t0 : Z) (es : list act) (o : op) (t : Z) : Prop :=
  exists es1 n after es2, es = es1 ++ Issue n o after :: es2 /\ clock t0 es1 + delay after = t.
(** A delay fits the integer it is kept in. *)
Definition delays_ok (es : list act) : Prop := forall n o a, In (Issue n o (Some a)) es -> a <= I64_MAX.
(** Two operations on the same object. *)
Definition same_object (a b : op) : Prop :=
  match a, b with
  | DropTenant t, DropTenant t' => t = t'
  | DropDatabase t d, DropDatabase t' d' => t = t' /\ d = d'
  | DropTable t d b, DropTable t' d' b' => t = t' /\ d = d' /\ b = b'
  | AlterColumn t d b c _, AlterColumn t' d' b' c' _ => t = t' /\ d = d' /\ b = b' /\ c = c'
  | UpdateTags t d b _, UpdateTags t' d' b' _ => t = t' /\ d = d' /\ b = b'
  | _, _ => False
  end.
(** The operations statements ask for or take back. *)
Definition mentioned (es : list act) (o : op) : Prop := exists n after, In (Issue n o after) es \/ In (Recover n o) es.
(** Different objects have different names. *)
Definition no_clash (es : list act) : Prop :=
  forall a b, mentioned es a -> mentioned es b -> name_of a = name_of b -> same_object a b.
(** No node fails or is taken for dead. *)
Definition no_loss (es : list act) : Prop :=
  forall a, In a es -> match a with Down _ | Crash _ | Start _ => False | _ => True end.
(** Nothing is asked about the name [x]. *)
Definition not_asked (x : str) (es : list act) : Prop :=
  forall a, In a es -> match a with Issue _ o _ | Recover _ o => name_of o <> x | _ => True end.
Definition not_recovered (x : str) (es : list act) : Prop :=
  forall a, In a es -> match a with Recover _ o => name_of o <> x | _ => True end.

(** A statement or task is at work on the name [x]. *)
Definition works_on (x : str) (p : pc) : Prop :=
  match p with
  | Look i | Mark i | Put i | Run i | Note i _ | Cancelling i | Sleep i _ | Begin i | Wait i _ | Backoff i _ => i_name i = x
  | Ended _ => False
  end.
(** Nobody is at work on [x] or about to take it up: no statement, no task on any node, no task being taken over, and no
    node still has to hear of one that was scheduled or failed. *)
Definition idle (x : str) (s : state) : Prop :=
  (forall c, In c (clients s) -> ~ works_on x (snd c)) /\
  (forall n k p, In (k, p) (n_async (nodes s n) ++ n_retry (nodes s n)) -> ~ works_on x p) /\
  (forall n p, n_inline (nodes s n) = Some p -> ~ works_on x p) /\
  (forall n i, In i (n_take (nodes s n)) -> i_name i <> x) /\
  (forall n k i, n_up (nodes s n) = true -> (n_pos (nodes s n) <= k)%nat -> nth_error (log s) k = Some (EInfo i) -> i_name i = x ->
     i_status i <> Schedule /\ i_status i <> Failed).
(** The entry of [x] has that status. *)
Definition stands (x : str) (st : status) (s : state) : Prop :=
  exists i, get x (entries s) = Some i /\ i_status i = st.
(** No task of the name [x] is under way or waits to be tried again, as far as the meta service knows. *)
Definition unclaimed (x : str) (s : state) : Prop := ~ stands x Executing s /\ ~ stands x Failed s.
(** The operations carried out for [x]. *)
Definition done_for (x : str) (s : state) : list (Z * op) := filter (fun d => str_eqb (name_of (snd d)) x) (done s).
(** Time passes, and the delayed task of [x] on node [m] goes on, its operation succeeding. *)
Definition only_task (m : Z) (x : str) (es : list act) : Prop :=
  forall a, In a es -> a = Async m x true \/ exists d, a = Tick d.
(** The [k]-th statement does nothing. *)
Definition client_waits (k : nat) (es : list act) : Prop := forall b, ~ In (Client k b) es.
(** Nothing is under way: statements and tasks are over, and every node that is up has heard of everything. *)
Definition at_rest (s : state) : Prop :=
  (forall c, In c (clients s) -> exists b, snd c = Ended b) /\
  (forall n k p, In (k, p) (n_async (nodes s n) ++ n_retry (nodes s n)) -> exists b, p = Ended b) /\
  (forall n, n_inline (nodes s n) = None /\ n_take (nodes s n) = []) /\
  (forall n, n_up (nodes s n) = true -> n_pos (nodes s n) = length (log s)).
(** The node has heard of everything. *)
Definition up_to_date (n : Z) (s : state) : Prop := n_pos (nodes s n) = length (log s).
