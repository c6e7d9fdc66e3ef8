(** Specification of the storage engine: a series is the list of the rows written to it. *)
From Verif Require Import Prelude MergeModel MergeSpec MemModel MemSpec ReadModel ReadSpec CompactModel EngineModel.

(** Requests and background steps.  A flush of a cache is [EFlushRead] then [EFlushApply]; a
    compaction is [ECompactRead] (input file ids, output range) then [ECompactApply]. *)
Inductive eop :=
| EWrite (rows : list mrow)
| EDelete (ranges : list (Z * Z))
| ESwitch
| EFlushRead (cache : Z)
| EFlushApply (cache : Z)
| ECompactRead (files : list Z) (lo hi : Z)
| ECompactApply (output : Z).

Definition estep (cols : list Z) (bs : nat) (e : engine) (o : eop) : engine :=
  match o with
  | EWrite rows => en_write cols rows e
  | EDelete trs => en_delete trs e
  | ESwitch => en_switch e
  | EFlushRead id => en_flush_read id e
  | EFlushApply id => en_flush_apply id e
  | ECompactRead ids lo hi => en_compact_read (length cols) bs ids lo hi e
  | ECompactApply id => en_compact_apply id e
  end.
Definition erun (cols : list Z) (bs : nat) (h : list eop) : engine := fold_left (estep cols bs) h en_new.

(** The rows that exist after a history, oldest first: writes add rows, deletes remove the rows in
    the ranges, nothing else has an effect. *)
Definition rstep (L : list mrow) (o : eop) : list mrow :=
  match o with
  | EWrite rows => L ++ rows
  | EDelete trs => filter (fun r => negb (in_ranges trs (r_ts r))) L
  | _ => L
  end.
Definition rows_after (h : list eop) : list mrow := fold_left rstep h [].
(** Every row ever written. *)
Definition rows_written (h : list eop) : list mrow := concat (map (fun o => match o with EWrite rows => rows | _ => [] end) h).

(** Rows carry one value per column and a 64-bit time stamp below the largest one, and a batch names
    a time stamp once (C11_duplicates_refuted, C11_max_timestamp_refuted). *)
Definition op_ok (cols : list Z) (o : eop) : Prop :=
  match o with
  | EWrite rows =>
      rows <> [] /\ NoDup (map r_ts rows) /\
      Forall (fun r => I64_MIN <= r_ts r < I64_MAX /\ length (r_cols r) = length cols) rows
  | _ => True
  end.
Definition is_compaction (o : eop) : bool := match o with ECompactRead _ _ _ => true | _ => false end.
(** No flush has read a cache without being applied, and no compaction its inputs. *)
Definition idle (e : engine) : Prop := e_jobs e = [] /\ Forall (fun k => k_page k = None) (e_imm e).
(** No delete is processed in the middle of a flush or a compaction. *)
Definition deletes_idle (cols : list Z) (bs : nat) (h : list eop) : Prop :=
  forall before trs after, h = before ++ EDelete trs :: after -> idle (erun cols bs before).
(** The answers a query can get: the chunks are sorted by time range in any way. *)
Definition answers (cols : list Z) (bs : nat) (e : engine) (out : list mrow) : Prop :=
  exists l, time_sorted (chunks e) l /\ read_series (length cols) bs (fun _ => true) l = Some out.
(** [out] shows the rows [L], but not necessarily the latest values: the same time stamps, each
    value shown is one that was written there, and a null is shown only where nothing else was. *)
Definition shows (width : nat) (L out : list mrow) : Prop :=
  StronglySorted (fun a b => r_ts a < r_ts b) out /\
  (forall t, In t (map r_ts out) <-> In t (map r_ts L)) /\
  forall r, In r out -> length (r_cols r) = width /\
    forall c, (c < width)%nat ->
      match col c r with
      | Some v => exists w, In w L /\ r_ts w = r_ts r /\ col c w = Some v
      | None => forall w, In w L -> r_ts w = r_ts r -> col c w = None
      end.
