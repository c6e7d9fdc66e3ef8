(** What is expected of a continuous query. *)
From Verif Require Import Prelude StreamModel.

(** the rows of the table that belong to a group *)
Definition members (kf : row -> key) (k : key) (table : list row) : list row :=
  filter (fun r => key_eqb (kf r) k) table.

(** the last result that was written for a group *)
Definition latest (k : key) (outs : list output) : option (list row) :=
  fold_left (fun a g => if key_eqb (fst g) k then Some (snd g) else a) (concat (map o_groups outs)) None.

(** the rows an event finds in the table *)
Definition table_of (e : event) : option (list row) :=
  match e with Run t _ | RunError _ t _ | Crash t _ _ => Some t | Restart => None end.

(** rows are only added to the table, and a row that is added is later than the rows that were there
    when the query last looked *)
Fixpoint in_order (seen : list row) (es : list event) : Prop :=
  match es with
  | [] => True
  | e :: es' =>
      match table_of e with
      | None => in_order seen es'
      | Some t =>
          (exists new, Permutation t (seen ++ new)
                       /\ forall r n, In r seen -> In n new -> r_time r < r_time n)
          /\ in_order t es'
      end
  end.

(** event times are ordinary times, not the ends of the range of i64 *)
Definition proper (r : row) : Prop := I64_MIN < r_time r < I64_MAX.
Definition all_proper (es : list event) : Prop :=
  forall e t r, In e es -> table_of e = Some t -> In r t -> proper r.

(** the last batch with rows that the scan returns has the latest event time *)
Definition ends_latest (parts : list (list (list row))) : Prop :=
  concat (concat parts) = [] \/
  exists before b after r, concat parts = before ++ b :: after /\ concat after = []
    /\ In r b /\ forall x, In x (concat (concat parts)) -> r_time x <= r_time r.

Definition all_end_latest (es : list event) : Prop :=
  forall t parts, In (Run t parts) es -> ends_latest parts.

(** no run ends with an error *)
Definition no_errors (es : list event) : Prop := forall n t parts, ~ In (RunError n t parts) es.

(** after the server stopped, the first run finds a row that is later than all rows the last
    finished run found ([fin]), or an empty table *)
Fixpoint resumes (stopped : bool) (fin : list row) (es : list event) : Prop :=
  match es with
  | [] => True
  | Run t _ :: es' =>
      (stopped = true -> t = [] \/ exists r, In r t /\ forall f, In f fin -> r_time f < r_time r)
      /\ resumes (match t with [] => stopped | _ => false end) t es'
  | RunError _ t _ :: es' => resumes stopped fin es'
  | Crash _ _ _ :: es' | Restart :: es' => resumes true fin es'
  end.

(** the groups of the query do not end before their rows: there is no timestamp among the columns of
    the result, or one of them is at or after every event time that belongs to the group *)
Definition groups_end_late (q : query) (kf : row -> key) : Prop :=
  q_cols q = [] \/ exists c, In c (q_cols q) /\ forall r rs, r_time r <= c (kf r) rs.

(** the exchange before the final aggregation sends every key to a partition *)
Definition sane_query (q : query) : Prop := (0 < q_parts q)%nat /\ forall k, (q_hash q k < q_parts q)%nat.

(** a query over a table with event times in nanoseconds *)
Definition plain_query (q : query) : Prop := q_unit q = 1 /\ sane_query q.

(** event times are in the range of the scan: in nanoseconds they are times of the i64 range, and event
    times of a coarser unit are not before 1970 *)
Definition timely (q : query) (r : row) : Prop :=
  proper r /\ r_time r * q_unit q < I64_MAX /\ (q_unit q = 1 \/ (1 < q_unit q /\ 0 <= r_time r)).
Definition all_timely (q : query) (es : list event) : Prop :=
  forall e t r, In e es -> table_of e = Some t -> In r t -> timely q r.

(** [rs] has every row of [ms], perhaps several times, and no other row *)
Definition covers (rs ms : list row) : Prop := exists extra, Permutation rs (ms ++ extra) /\ incl extra ms.

(** only runs that end well *)
Definition only_runs (es : list event) : Prop := forall e, In e es -> exists t parts, e = Run t parts.

(** the rows a query without aggregation wrote *)
Definition written (outs : list output) : list row := concat (map o_rows outs).
