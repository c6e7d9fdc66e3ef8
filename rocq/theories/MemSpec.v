(** Specification of the in-memory cache: a cache is the list of the points written to it. *)
From Verif Require Import Prelude MergeModel MergeSpec MemModel.

(** Requests.  A write carries the version and the field columns of the table schema it was
    encoded with, and rows whose values are in the order of those columns. *)
Inductive cop :=
| CWrite (sid ver : Z) (cols : list Z) (rows : list mrow)
| CDelete (sids : list Z) (trs : list (Z * Z))
| CDeleteSeries (sids : list Z) (lo hi : Z).

(** What the cache does with them. *)
Definition cstep (m : mcache) (o : cop) : mcache :=
  match o with
  | CWrite sid ver cols rows => mc_write m sid (new_group (SC ver cols) rows)
  | CDelete sids trs => mc_delete m sids trs
  | CDeleteSeries sids lo hi => mc_delete_series m sids lo hi
  end.
Definition crun (parts : nat) (h : list cop) : mcache := fold_left cstep h (mc_new parts).
Definition mc_read (inr : Z -> bool) (m : mcache) (sid : Z) : list mrow :=
  match mc_get m sid with Some d => sd_read inr d | None => [] end.

(** A written row: its series, time stamp, and named values. *)
Record point := PT { p_sid : Z; p_ts : Z; p_vals : list (Z * option Z) }.
Fixpoint assoc (c : Z) (l : list (Z * option Z)) : option Z :=
  match l with [] => None | (k, v) :: l' => if k =? c then v else assoc c l' end.
Definition in_range (tr : Z * Z) (t : Z) : bool := (fst tr <=? t) && (t <=? snd tr).
Definition in_ranges (trs : list (Z * Z)) (t : Z) : bool := existsb (fun tr => in_range tr t) trs.
Definition mem_z (x : Z) (l : list Z) : bool := existsb (Z.eqb x) l.
(** The points that exist after a history, oldest first. *)
Definition lstep (L : list point) (o : cop) : list point :=
  match o with
  | CWrite sid ver cols rows => L ++ map (fun r => PT sid (r_ts r) (combine cols (r_cols r))) rows
  | CDelete sids trs => filter (fun p => negb (mem_z (p_sid p) sids && in_ranges trs (p_ts p))) L
  | CDeleteSeries sids lo hi => filter (fun p => negb (mem_z (p_sid p) sids && in_range (lo, hi) (p_ts p))) L
  end.
Definition points (h : list cop) : list point := fold_left lstep h [].
(** A point seen as a row over the columns [cols]. *)
Definition row_over (cols : list Z) (p : point) : mrow := MR (p_ts p) (map (fun c => assoc c (p_vals p)) cols).
Definition series_rows (sid : Z) (cols : list Z) (L : list point) : list mrow :=
  map (row_over cols) (filter (fun p => p_sid p =? sid) L).

(** Writes to series [sid], as (version, columns) in order. *)
Fixpoint schemas (sid : Z) (h : list cop) : list (Z * list Z) :=
  match h with
  | [] => []
  | CWrite s v c _ :: h' => if s =? sid then (v, c) :: schemas sid h' else schemas sid h'
  | _ :: h' => schemas sid h'
  end.
Definition last_columns (sid : Z) (h : list cop) : list Z := snd (last (schemas sid h) (0, [])).
(** Schema versions reach the series in non-decreasing order and a version names one schema. *)
Definition schemas_ok (l : list (Z * list Z)) : Prop :=
  StronglySorted (fun a b => fst a < fst b \/ a = b) l.
Definition write_ok (o : cop) : Prop :=
  match o with
  | CWrite _ _ cols rows =>
      NoDup (map r_ts rows) /\
      Forall (fun r => I64_MIN <= r_ts r < I64_MAX /\ length (r_cols r) = length cols) rows
  | _ => True
  end.
(** Rows carry 64-bit time stamps. *)
Definition ts_ok (o : cop) : Prop :=
  match o with CWrite _ _ _ rows => Forall (fun r => is_i64 (r_ts r)) rows | _ => True end.
Definition dup_free (o : cop) : Prop := match o with CWrite _ _ _ rows => NoDup (map r_ts rows) | _ => True end.
(** A version names one schema. *)
Definition one_schema (vs : list (Z * list Z)) : Prop := forall v c c', In (v, c) vs -> In (v, c') vs -> c = c'.
