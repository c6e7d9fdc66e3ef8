(** The register of metrics and its two readers, the metrics page and the task that fills the system tables. *)
From Verif Require Import Prelude.
Open Scope Z_scope.

(** BTreeMap: entry(k) and update, in the order of keys *)
Fixpoint upd {A} (k : Z) (f : option A -> A) (l : list (Z * A)) : list (Z * A) :=
  match l with
  | [] => [(k, f None)]
  | (q, v) :: r => if k =? q then (k, f (Some v)) :: r else if k <? q then (k, f None) :: l else (q, v) :: upd k f r
  end.

(** A family of rows under one name; names, labels and values are numbers.  The labels of a row are those of the
    register extended by those of the recorder (common/metrics/src/metric.rs:36-45); the register's are left out,
    which is the same as long as recorders do not use its keys.  All metrics that stay are counters here. *)
Definition family : Type := Z * list (Z * Z).
(** metric_register.rs:15-28 MetricsRegister, without sub-registers, which the server does not use *)
Record register := RG { g_measures : list family; g_once : list family }.
Definition empty_register : register := RG [] [].

Inductive event :=
| EInc (name lab n : Z)          (** metric(name).recorder(lab).inc(n) *)
| EOnce (fs : list family)       (** append_onetime, tskv/src/tsfamily/tseries_family.rs:540 after a flush *)
| EReport (table : bool).        (** coordinator/src/service.rs:271, every ten seconds, or main/src/http/http_service.rs:1133 *)

(** What one report shows: first the metrics that stay, then those shown once *)
Record page := PG { p_table : bool; p_counters : list family; p_once : list family }.
(** the families in the order of the text (prom_reporter.rs:185-195 stop: one after the other; those
    without rows are skipped there, and none is handed in) *)
Definition text (p : page) : list family := p_counters p ++ p_once p.

Definition old {A} (d : A) (o : option A) : A := match o with Some x => x | None => d end.
(** metric_register.rs:82-105 metric, metric.rs:85-96 recorder, count.rs:14-16 inc: both are created if missing *)
Definition inc (name lab n : Z) (ms : list family) : list family :=
  upd name (fun rows => upd lab (fun v => (old 0 v + n) mod 2 ^ 64) (old [] rows)) ms.
(** metric_register.rs:107-110 append_onetime, 145-163 report *)
Definition step (s : register) (e : event) : register * list page :=
  match e with
  | EInc name lab n => (RG (inc name lab n (g_measures s)) (g_once s), [])
  | EOnce fs => (RG (g_measures s) (g_once s ++ fs), [])
  | EReport table => (RG (g_measures s) [], [PG table (g_measures s) (g_once s)])
  end.
Fixpoint pages (s : register) (h : list event) : list page :=
  match h with [] => [] | e :: r => snd (step s e) ++ pages (fst (step s e)) r end.
