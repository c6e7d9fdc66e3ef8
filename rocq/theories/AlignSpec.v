(** Specification: what a query over one chunk must return when the schema has changed. *)
From Verif Require Import Prelude MergeModel EvolveModel EvolveSpec AlignModel.
Open Scope Z_scope.

(** A row of a group as the query's columns: the value of each column is found by its id, null if the
    group does not have the column. *)
Definition seen (T : list scol) (b : sblock) (r : mrow) : list (option Z) :=
  map (fun c => value (sc_id c) (time_col :: sb_cols b) (Some (r_ts r) :: r_cols r)) T.
Definition all_seen (T : list scol) (gs : list sblock) : list (list (option Z)) :=
  concat (map (fun b => map (seen T b) (sb_live b)) gs).

Section Sem.
Variable un : Z -> option Z -> option Z.
Variable bin : Z -> option Z -> option Z -> option Z.
(** The predicate of the query on such a row: columns by name; [tags] are the tag values of the series. *)
Fixpoint lookup (n : Z) (T : list scol) (row : list (option Z)) : option (option Z) :=
  match T, row with
  | c :: T', v :: row' => if sc_name c =? n then Some v else lookup n T' row'
  | _, _ => None
  end.
Fixpoint evaln (tags : Z -> option Z) (T : list scol) (row : list (option Z)) (e : pexpr) : option Z :=
  match e with
  | PCol n _ => match lookup n T row with Some v => v | None => tags n end
  | PLit v => v
  | PAnd l r => and3 (evaln tags T row l) (evaln tags T row r)
  | POr l r => or3 (evaln tags T row l) (evaln tags T row r)
  | PUn op x => un op (evaln tags T row x)
  | PBin op l r => bin op (evaln tags T row l) (evaln tags T row r)
  end.
Definition sat (tags : Z -> option Z) (T : list scol) (e : pexpr) (row : list (option Z)) : bool := is_true (evaln tags T row e).
End Sem.

(** AND and OR are only combined with each other, not below another operator. *)
Fixpoint atomic (e : pexpr) : Prop :=
  match e with
  | PCol _ _ => True
  | PLit _ => True
  | PAnd _ _ => False
  | POr _ _ => False
  | PUn _ x => atomic x
  | PBin _ l r => atomic l /\ atomic r
  end.
Fixpoint positive (e : pexpr) : Prop :=
  match e with
  | PAnd l r => positive l /\ positive r
  | POr l r => positive l /\ positive r
  | _ => atomic e
  end.
Fixpoint mentions (n : Z) (e : pexpr) : Prop :=
  match e with
  | PCol m _ => m = n
  | PLit _ => False
  | PAnd l r | POr l r | PBin _ l r => mentions n l \/ mentions n r
  | PUn _ x => mentions n x
  end.
(** A conjunct of the predicate. *)
Fixpoint conjunct (c e : pexpr) : Prop := c = e \/ match e with PAnd l r => conjunct c l \/ conjunct c r | _ => False end.

(** The query: time first, columns in the order of their ids, all names and ids different. *)
Definition query_ok (q : list (scol * bool)) : Prop :=
  (exists q', q = (time_col, false) :: q') /\
  StronglySorted (fun a b => sc_id (fst a) < sc_id (fst b)) q /\ NoDup (map (fun p => sc_name (fst p)) q).
(** A group: its pages in the order of their ids, after time; names different; one value per column. *)
Definition group_ok (b : sblock) : Prop :=
  StronglySorted (fun x y => sc_id x < sc_id y) (time_col :: sb_cols b) /\ NoDup (map sc_name (time_col :: sb_cols b)) /\
  Forall (fun r => length (r_cols r) = length (sb_cols b)) (sb_live b).
(** A column of the query that the predicate names has this name in the file for no other column. *)
Definition names_ok (q : list (scol * bool)) (e : pexpr) (b : sblock) : Prop :=
  forall c p, In c (sb_cols b) -> In p q -> sc_name c = sc_name (fst p) -> mentions (sc_name c) e -> snd p = false /\ sc_id c = sc_id (fst p).
(** What is assumed of pruning: a group with a row for which the expression is true is kept. *)
Definition prune_ok (un : Z -> option Z -> option Z) (bin : Z -> option Z -> option Z -> option Z)
  (prune : pexpr -> list scol -> list sblock -> list bool) : Prop :=
  forall e sch gs, length (prune e sch gs) = length gs /\
  forall i b r, nth_error gs i = Some b -> time_col :: sb_cols b = sch -> In r (sb_live b) ->
  is_true (eval un bin (Some (r_ts r) :: r_cols r) e) = true -> nth i (prune e sch gs) false = true.
