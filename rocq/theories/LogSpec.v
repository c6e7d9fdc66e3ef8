(** What a log record should become, in terms of the values of its document. *)
From Coq Require Import Ascii String.
From Coq Require Import List.
From Verif Require Import Prelude LogModel.
Open Scope list_scope.
Open Scope Z_scope.

(** [i] written in decimal, without leading zeros *)
Definition decimal (s : str) (i : Z) : Prop :=
  Forall (fun c => 48 <= c <= 57) s /\ fold_left (fun a c => 10 * a + (c - 48)) s 0 = i /\
  match s with [] => False | [_] => True | c :: _ => c <> 48 end.
(** the scalar [x] is found in the document by following the path: a key of an object, the position in an array *)
Inductive leaf : json -> list str -> json -> Prop :=
| leaf_null : leaf JNull [] JNull
| leaf_bool b : leaf (JBool b) [] (JBool b)
| leaf_num n : leaf (JNum n) [] (JNum n)
| leaf_str s : leaf (JStr s) [] (JStr s)
| leaf_obj m k v p x : In (k, v) m -> leaf v p x -> leaf (JObj m) (k :: p) x
| leaf_arr l i s v p x : nth_error l i = Some v -> decimal s (Z.of_nat i) -> leaf v p x -> leaf (JArr l) (s :: p) x.
(** the name of a column: the path, joined by dots *)
Fixpoint dotted (p : list str) : str := match p with [] => [] | [a] => a | a :: r => a ++ [46] ++ dotted r end.
(** the values of the record *)
Definition value_of (j : json) (k : str) (x : json) : Prop := exists p, leaf j p x /\ k = dotted p.

(** the keys of every object are distinct, not empty and have no dot *)
Inductive plain_keys : json -> Prop :=
| pk_null : plain_keys JNull
| pk_bool b : plain_keys (JBool b)
| pk_num n : plain_keys (JNum n)
| pk_str s : plain_keys (JStr s)
| pk_obj m : NoDup (map fst m) -> Forall (fun k => k <> [] /\ ~ In 46 k) (map fst m) -> Forall plain_keys (map snd m) -> plain_keys (JObj m)
| pk_arr l : Z.of_nat (length l) < 2 ^ 64 -> Forall plain_keys l -> plain_keys (JArr l).

(** text without quotes, backslashes and control characters *)
Definition plain_text (s : str) : Prop := Forall (fun c => 32 <= c /\ c <> 34 /\ c <> 92) s.
(** the text of a scalar: a string is its own text *)
Inductive text_of : json -> str -> Prop :=
| text_null : text_of JNull (txt "null")
| text_true : text_of (JBool true) (txt "true")
| text_false : text_of (JBool false) (txt "false")
| text_int z s : 0 <= z -> decimal s z -> text_of (JNum (NInt z)) s
| text_neg z s : 0 < z -> decimal s z -> text_of (JNum (NInt (- z))) (45 :: s)
| text_float t b : text_of (JNum (NFloat t b)) t
| text_str s : text_of (JStr s) s.
(** the value of a field: the same *)
Inductive same_value : json -> fval -> Prop :=
| same_bool b : same_value (JBool b) (VBool b)
| same_int z : same_value (JNum (NInt z)) (VF64 (FInt z))
| same_float t b : same_value (JNum (NFloat t b)) (VF64 (FBits b))
| same_str s : same_value (JStr s) (VStr s).
(** the time given by a value: nanoseconds, or a text *)
Inductive time_from (rfc3339 : str -> option (option Z)) : json -> Z -> Prop :=
| time_int z : - 2 ^ 63 <= z < 2 ^ 63 -> time_from rfc3339 (JNum (NInt z)) z
| time_text s t : rfc3339 s = Some (Some t) -> time_from rfc3339 (JStr s) t.

(** the names of the tag columns as the client writes them: separated by commas *)
Fixpoint commas (l : list str) : str := match l with [] => [] | [a] => a | a :: r => a ++ [44] ++ commas r end.
(** names that can be written so: at least one, no comma, no blank at either end *)
Definition listable (tags : list str) : Prop :=
  tags <> [] /\ Forall (fun a => ~ In 44 a /\ hd 0 a <> 32 /\ last a 0 <> 32) tags.

(** [ln] is the row of the record: its tags are the values in the tag columns, its fields the others, its time that of the time column,
    or else the clock *)
Record row_of (rfc3339 : str -> option (option Z)) (now : Z) (table tc : str) (tags : list str) (value : str -> json -> Prop) (ln : line) : Prop := {
  row_table : l_table ln = table;
  row_tags : forall k t, In (k, t) (l_tags ln) <-> In k tags /\ exists v, value k v /\ text_of v t;
  row_fields : forall k f, In (k, f) (l_fields ln) <-> ~ In k tags /\ k <> tc /\ exists v, value k v /\ same_value v f;
  row_once : NoDup (map fst (l_tags ln) ++ map fst (l_fields ln));
  row_time : forall v, ~ In tc tags -> value tc v -> time_from rfc3339 v (l_time ln);
  row_clock : (In tc tags \/ forall v, ~ value tc v) -> l_time ln = now }.

(** what a value must be to be stored as it is *)
Definition storable (rfc3339 : str -> option (option Z)) (tc : str) (tags : list str) (k : str) (v : json) : Prop :=
  if in_dec (list_eq_dec Z.eq_dec) k tags
  then match v with JStr s => plain_text s | JNum (NInt z) => Z.abs z < 2 ^ 64 | JNum (NFloat t _) => ~ In 34 t | _ => True end
  else if list_eq_dec Z.eq_dec k tc then exists t, time_from rfc3339 v t
  else match v with JNull => False | JNum (NInt z) => Z.abs z <= 2 ^ 53 | _ => True end.

(** * Requests *)
(** the entries of a Loki request in their order, each with the labels of its stream *)
Definition loki_entries (streams : list stream) : list (str * entry) := flat_map (fun s => map (fun e => (s_labels s, e)) (s_entries s)) streams.
(** the time of an entry in nanoseconds; without one it is the epoch *)
Definition nanos (e : entry) : Z := match e_time e with Some (s, n) => s * 1000000000 + n | None => 0 end.
