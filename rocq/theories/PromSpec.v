(** What Prometheus expects of remote read: the semantics of label matchers (a label that is missing counts as empty, regular
    expressions match the whole value) and the latest sample written for every series and time. *)
From Verif Require Import Prelude PrecisionModel PromModel.

(** The value of a label; a missing label is the empty text. *)
Fixpoint value_of (ls : list label) (n : str) : str :=
  match ls with [] => [] | l :: ls => if list_eq_dec Z.eq_dec (l_name l) n then l_value l else value_of ls n end.
Definition same_labels (a b : list label) : Prop := forall n, value_of a n = value_of b n.
(** [full pattern v]: the regular expression matches all of [v]. *)
Definition matches (full : str -> str -> bool) (m : matcher) (v : str) : Prop :=
  match m_type m with MEq => v = m_value m | MNeq => v <> m_value m | MRe => full (m_value m) v = true | MNre => full (m_value m) v = false end.
(** The text __name__ *)
Definition metric_label : str := [95; 95; 110; 97; 109; 101; 95; 95].

(** The last write for the series and time, in a history of time series, gave this value. *)
Definition sent (h : list tseries) : list (list label * sample) := flat_map (fun ts => map (pair (ts_labels ts)) (ts_samples ts)) h.
Definition latest (h : list tseries) (ls : list label) (t v : Z) : Prop :=
  exists h1 ls' h2, sent h = h1 ++ (ls', Sample v t) :: h2 /\ same_labels ls' ls /\
    forall ls'' v'', In (ls'', Sample v'' t) h2 -> ~ same_labels ls'' ls.
(** The answer to a query: every selected sample, nothing else, one series for each set of labels, the samples in order. *)
Definition answers (full : str -> str -> bool) (h : list tseries) (q : query) (res : list tseries) : Prop :=
  (forall ls t v,
     (exists ts, In ts res /\ same_labels (ts_labels ts) ls /\ In (Sample v t) (ts_samples ts)) <->
     (latest h ls t v /\ q_start q <= t <= q_end q /\ forall m, In m (q_matchers q) -> matches full m (value_of ls (m_name m)))) /\
  (forall i j a b, nth_error res i = Some a -> nth_error res j = Some b -> same_labels (ts_labels a) (ts_labels b) -> i = j) /\
  Forall (fun ts => StronglySorted Z.lt (map s_ms (ts_samples ts))) res.

(** Milliseconds that fit as nanoseconds (the years 1677 to 2262). *)
Definition fits (ms : Z) : Prop := -9223372036854 <= ms <= 9223372036854.
(** A series as Prometheus sends it: its labels have different names, not "time" and not "value", and non-empty values; it has a name
    and samples.  Restrictions: no value has the control character 1, the name has no double quote. *)
Definition series_ok (ts : tseries) : Prop :=
  NoDup (map l_name (ts_labels ts)) /\
  Forall (fun l => l_name l <> [116; 105; 109; 101] /\ l_name l <> [118; 97; 108; 117; 101] /\ l_value l <> [] /\ ~ In 1 (l_value l)) (ts_labels ts) /\
  (exists l, In l (ts_labels ts) /\ l_name l = metric_label /\ ~ In 34 (l_value l)) /\
  ts_samples ts <> [] /\ Forall (fun s => fits (s_ms s)) (ts_samples ts).

(** Lower-case letters, digits and underscores, not beginning with a digit. *)
Definition plain_char (c : Z) : Prop := 97 <= c <= 122 \/ c = 95.
Definition plain_name (n : str) : Prop :=
  match n with [] => False | c :: n => plain_char c /\ Forall (fun c => plain_char c \/ 48 <= c <= 57) n end.
(** Searching the expression is the same as matching all of the value, as for expressions that begin with ^ and end with $. *)
Definition anchored (search full : str -> str -> bool) (m : matcher) : Prop :=
  match m_type m with MEq | MNeq => True | MRe | MNre => forall v, search (m_value m) v = full (m_value m) v end.
(** The restrictions on a query: one matcher on the name, = with a metric that exists or an anchored regular expression; the other
    matchers on plain names, values without a single quote; each on a label that the metrics in question have, and that all their
    series have if the matcher accepts series without the label. *)
Definition query_ok (search full : str -> str -> bool) (kw : str -> bool) (h : list tseries) (q : query) : Prop :=
  fits (q_start q) /\ fits (q_end q) /\ kw [116; 105; 109; 101] = false /\
  exists a nm b, q_matchers q = a ++ nm :: b /\ m_name nm = metric_label /\
    (m_type nm = MEq /\ (exists ts, In ts h /\ value_of (ts_labels ts) metric_label = m_value nm) \/ m_type nm = MRe /\ anchored search full nm) /\
    forall m, In m (a ++ b) ->
      m_name m <> metric_label /\ plain_name (m_name m) /\ kw (m_name m) = false /\ m_name m <> [97; 110; 100] /\ m_name m <> [111; 114] /\
      ~ In 39 (m_value m) /\ anchored search full m /\
      forall ts, In ts h -> matches full nm (value_of (ts_labels ts) metric_label) ->
        (exists ts', In ts' h /\ value_of (ts_labels ts') metric_label = value_of (ts_labels ts) metric_label /\ value_of (ts_labels ts') (m_name m) <> []) /\
        (matches full m [] -> value_of (ts_labels ts) (m_name m) <> []).

(** What searching and matching mean for a pattern without special characters. *)
Fixpoint begins (p v : str) : bool :=
  match p, v with [], _ => true | x :: p, y :: v => (x =? y) && begins p v | _, [] => false end.
Fixpoint search_text (p v : str) : bool := begins p v || match v with [] => false | _ :: v => search_text p v end.
Definition full_text (p v : str) : bool := if list_eq_dec Z.eq_dec p v then true else false.
