(** Specification of the series index: a dictionary between ids and series. *)
From Verif Require Import Prelude Bytes IndexModel.
Open Scope Z_scope.

(** * The operations *)
Inductive iop :=
| IAdd (k : series)                                     (** register a series *)
| IGetId (k : series) | IGetKey (id : Z)                (** look up *)
| IDel (id : Z)                                         (** delete a series *)
| IUpdate (upd : list (bytes * option bytes)) (matched : list series)  (** set tag values *)
| IFlush
| IClearTombs
| IEvict (keep_id keep_hash : Z -> bool)                (** the read caches drop entries *)
| ICrash                                                (** the process dies and reopens the index *)
| IQuery (tab : bytes) (doms : option (list (bytes * tdom))).   (** ids of the series satisfying tag conditions *)
Inductive iout := OId (r : res) | OKey (r : option (option series)) | ODone (ok : bool) | OSet (s : option (list Z)).

(** One operation of the model, with what it returns. *)
Definition istep (hash : series -> Z) (x : index) (o : iop) : index * iout :=
  match o with
  | IAdd k => let '(x, r) := ix_add hash x k in (x, OId r)
  | IGetId k => let '(x, r) := ix_get_id hash x k in (x, OId r)
  | IGetKey id => let '(x, r) := ix_get_key hash x id in (x, OKey r)
  | IDel id => let '(x, r) := ix_del hash x id in (x, ODone r)
  | IUpdate upd matched => let '(x, r) := ix_update hash x upd matched true in (x, ODone r)
  | IFlush => let '(x, r) := ix_check true x in (x, ODone r)
  | IClearTombs => (ix_clear_tombs x, ODone true)
  | IEvict f g => (ix_evict x f g, ODone true)
  | ICrash => match ix_open (x_st x) with Some x => (x, ODone true) | None => (x, ODone false) end
  | IQuery tab doms => (x, OSet (ix_query x tab doms))
  end.
Fixpoint iruns (hash : series -> Z) (x : index) (h : list iop) : index * list iout :=
  match h with
  | [] => (x, [])
  | o :: h => let '(x, r) := istep hash x o in let '(x, rs) := iruns hash x h in (x, r :: rs)
  end.
Definition irun (hash : series -> Z) (h : list iop) : index * list iout := iruns hash ix_new h.

(** * Valid inputs *)
(** A table name without a dot, not starting like one of the reserved keys. *)
Definition name_ok (tab : bytes) : Prop :=
  ~ In 46 tab /\ prefixb P_ID tab = false /\ prefixb P_KEY tab = false /\ prefixb P_TOMB tab = false.
(** Tag names are column ids in decimal. *)
Definition digit (c : Z) : Prop := 48 <= c <= 57.
Definition tag_name (k : bytes) : Prop := k <> [] /\ Forall digit k.
(** All of it fits in a key of the storage. *)
Definition key_ok (k : series) : Prop :=
  name_ok (sk_table k) /\ Forall (fun t => tag_name (fst t)) (sk_tags k) /\ (length (enc_key k) < MAX_KEY)%nat.
(** A range whose ends are in order; with both ends excluded they differ. *)
Definition range_ok (r : bnd * bnd) : Prop :=
  match fst r, snd r with
  | BIn a, BIn b | BIn a, BEx b | BEx a, BIn b => lex_lt b a = false
  | BEx a, BEx b => lex_lt a b = true
  | _, _ => True
  end.
Definition dom_ok (d : tdom) : Prop := match d with TRange l => Forall range_ok l | _ => True end.
Definition iop_ok (o : iop) : Prop :=
  match o with
  | IAdd k | IGetId k => key_ok k
  | IGetKey id | IDel id => 0 <= id < 2 ^ 32
  | IUpdate upd matched => Forall (fun k => key_ok k /\ key_ok (retag upd k)) matched
  | IQuery tab doms => name_ok tab /\ match doms with Some l => Forall (fun p => tag_name (fst p) /\ dom_ok (snd p)) l | None => True end
  | _ => True
  end.

(** * The dictionary *)
(** A live series, and whether it was flushed. *)
Record entry := EN { n_id : Z; n_key : series; n_saved : bool }.
Record dict := DI { d_live : list entry; d_last : Z }.
Definition d_new : dict := DI [] 0.
Definition has_key (D : dict) (k : series) : Prop := exists e, In e (d_live D) /\ n_key e = k.
Definition maps (D : dict) (i : Z) (k : series) : Prop := exists e, In e (d_live D) /\ n_id e = i /\ n_key e = k.

(** The condition on a tag value; a series without the tag fails a condition that names values. *)
Definition dom_holds (k : series) (p : bytes * tdom) : Prop :=
  match snd p with
  | TRange l => exists v r, In (fst p, v) (sk_tags k) /\ In r l /\ above (fst r) v = true /\ below (snd r) v = true
  | TIn l => exists v, In (fst p, v) (sk_tags k) /\ In v l
  | TNone => False
  | TNotIn _ | TAll => True
  end.
Definition selected (k : series) (tab : bytes) (doms : option (list (bytes * tdom))) : Prop :=
  sk_table k = tab /\ match doms with Some l => forall p, In p l -> dom_holds k p | None => False end.

(** An update renames the matched live series.  It is refused if a new name is taken, or if two
    series would get the same one. *)
Definition renamed (upd : list (bytes * option bytes)) (matched : list series) (e : entry) : entry :=
  if existsb (seq_eq (n_key e)) matched then EN (n_id e) (retag upd (n_key e)) false else e.
Definition refused (D : dict) (upd : list (bytes * option bytes)) (matched : list series) : Prop :=
  (exists k, In k matched /\ has_key D k /\ has_key D (retag upd k)) \/
  (exists a b c k k', matched = a ++ k :: b ++ k' :: c /\ has_key D k /\ has_key D k' /\ retag upd k = retag upd k').

(** What one operation does to the dictionary and returns. *)
Inductive dstep (D : dict) : iop -> iout -> dict -> Prop :=
| d_add_old k i : maps D i k -> dstep D (IAdd k) (OId (ROk i)) D
| d_add_new k : ~ has_key D k ->
    dstep D (IAdd k) (OId (ROk (d_last D + 1))) (DI (EN (d_last D + 1) k false :: d_live D) (d_last D + 1))
| d_get_id k i : maps D i k -> dstep D (IGetId k) (OId (ROk i)) D
| d_get_id_no k : ~ has_key D k -> dstep D (IGetId k) (OId RNo) D
| d_get_key i k : maps D i k -> dstep D (IGetKey i) (OKey (Some (Some k))) D
| d_get_key_no i : (forall k, ~ maps D i k) -> dstep D (IGetKey i) (OKey (Some None)) D
| d_del i : dstep D (IDel i) (ODone true) (DI (filter (fun e => negb (n_id e =? i)) (d_live D)) (d_last D))
| d_update upd matched : ~ refused D upd matched ->
    dstep D (IUpdate upd matched) (ODone true) (DI (map (renamed upd matched) (d_live D)) (d_last D))
| d_update_refused upd matched : refused D upd matched -> dstep D (IUpdate upd matched) (ODone false) D
| d_flush : dstep D IFlush (ODone true) (DI (map (fun e => EN (n_id e) (n_key e) true) (d_live D)) (d_last D))
| d_tombs : dstep D IClearTombs (ODone true) D
| d_evict f g : dstep D (IEvict f g) (ODone true) D
(** A crash loses series that were not flushed, and only those. *)
| d_crash keep last' : (forall e, In e (d_live D) -> n_saved e = true -> keep e = true) ->
    (forall e, In e (d_live D) -> keep e = true -> n_id e <= last') -> 0 <= last' <= d_last D ->
    dstep D ICrash (ODone true) (DI (filter keep (d_live D)) last')
| d_query tab doms s : NoDup s -> (forall i, In i s <-> exists k, maps D i k /\ selected k tab doms) ->
    dstep D (IQuery tab doms) (OSet (Some s)) D.
Inductive dsteps (D : dict) : list iop -> list iout -> dict -> Prop :=
| ds_nil : dsteps D [] [] D
| ds_cons o r D1 h rs D2 : dstep D o r D1 -> dsteps D1 h rs D2 -> dsteps D (o :: h) (r :: rs) D2.
(** The dictionary invariant: no id and no series twice, ids positive and not beyond the counter. *)
Definition dict_ok (D : dict) : Prop :=
  NoDup (map n_id (d_live D)) /\ NoDup (map n_key (d_live D)) /\ Forall (fun e => 1 <= n_id e <= d_last D) (d_live D).

(** Operations after which every live series is still there under the same id. *)
Definition keeps (o : iop) : Prop := match o with IDel _ | IUpdate _ _ | ICrash => False | _ => True end.
(** Operations other than deletions and updates: crashes are allowed. *)
Definition keeps_flushed (o : iop) : Prop := match o with IDel _ | IUpdate _ _ => False | _ => True end.
(** Operations other than updates and crashes: deletions are allowed. *)
Definition no_reuse (o : iop) : Prop := match o with IUpdate _ _ | ICrash => False | _ => True end.
