(** Specification: what page statistics must say, and which rows a predicate selects. *)
From Verif Require Import Prelude PruneModel.
Open Scope Z_scope.

(** A page written for the rows [vs] of one column, by a flush or by a compaction. *)
Inductive written : page -> list (option value) -> Prop :=
| by_flush : forall name ty vs p, flush_page name ty vs = Some p -> written p vs
| by_compaction : forall name ty vs p, arrow_array_to_page name ty vs = Some p -> written p vs.

(** Order of the values: numbers as numbers, false before true, strings by their bytes; floats by IEEE 754's
    total order. *)
Definition total (b : Z) : Z := if b <? 2 ^ 63 then b else 2 ^ 63 - 1 - b.
Inductive lex : list Z -> list Z -> Prop :=
| lex_nil : forall b, lex [] b
| lex_lt : forall x y a b, x < y -> lex (x :: a) (y :: b)
| lex_eq : forall x a b, lex a b -> lex (x :: a) (x :: b).
Inductive leq : value -> value -> Prop :=
| leq_bool : forall a b, (a = true -> b = true) -> leq (VBool a) (VBool b)
| leq_float : forall a b, total a <= total b -> leq (VFloat a) (VFloat b)
| leq_int : forall a b, a <= b -> leq (VInt a) (VInt b)
| leq_uint : forall a b, a <= b -> leq (VUint a) (VUint b)
| leq_str : forall a b, lex a b -> leq (VStr a) (VStr b).

(** Values that a column can have; a float that is no NaN and not -0.0 is [plain]. *)
Definition in_range (v : value) : Prop :=
  match v with
  | VFloat b => 0 <= b < 2 ^ 64
  | VInt z => - 2 ^ 63 <= z < 2 ^ 63
  | VUint z => 0 <= z < 2 ^ 64
  | VStr s => Forall (fun x => 0 <= x < 256) s
  | VBool _ => True
  end.
Definition NAN_ABOVE := 2047 * 2 ^ 52.
Definition plain (v : value) : Prop :=
  match v with VFloat b => b mod 2 ^ 63 <= NAN_ABOVE /\ b <> 2 ^ 63 | _ => True end.

(** The value of a column in a row of a group of pages. *)
Definition row_value (g : list page) (j : nat) (name : Z) : option value :=
  match find (fun p => pg_name p =? name) g with Some p => nth j (cells p) None | None => None end.
(** The rows for which a predicate is true.  A comparison with null never is. *)
Definition less (a b : value) : Prop := leq a b /\ a <> b.
Definition holds (op : cmpop) (a b : value) : Prop :=
  match op with
  | Eq => a = b
  | Ne => less a b \/ less b a
  | Lt => less a b
  | Le => leq a b
  | Gt => less b a
  | Ge => leq b a
  end.
Fixpoint selects (other : nat -> nat -> Prop) (g : list page) (j : nat) (e : expr) : Prop :=
  match e with
  | ECmp op n lit => exists a b, row_value g j n = Some a /\ lit = Some b /\ holds op a b
  | EBool n => row_value g j n = Some (VBool true)
  | ENot n => row_value g j n = Some (VBool false)
  | EAnd l r => selects other g j l /\ selects other g j r
  | EOr l r => selects other g j l \/ selects other g j r
  | EOther k => other k j
  end.
Definition plain_group (g : list page) : Prop := Forall (fun p => Forall (fun c => forall v, c = Some v -> in_range v /\ plain v) (cells p)) g.
Definition literals_ok : expr -> Prop :=
  fix go e := match e with
  | ECmp _ _ (Some v) => in_range v
  | EAnd l r | EOr l r => go l /\ go r
  | _ => True
  end.
(** The page of an integer column, or of times, in a group, and the rows it was written for *)
Definition int_column (ty : dtype) (n : Z) (g : list page) (p : page) (vs : list (option value)) : Prop :=
  find (fun p => pg_name p =? n) g = Some p /\ written p vs /\ pg_ty p = ty /\ forall v, In (Some v) vs -> in_range v.
