(** Model of the raft storage given to the consensus library, as far as the log is concerned: replication/src/node_store.rs,
    over the log store of [WalModel].  Log ids are reduced to their indexes.  The last purged id is kept in an LMDB database
    (state_store.rs:281-295), here a field. *)
From Verif Require Import Prelude Bytes RecordModel WalModel.

Section Node.
Variable crc : list Z -> Z.
Context {E : Type}.
Variables (e_index e_type : E -> Z) (enc : E -> list Z) (dec : list Z -> option E) (max_size : Z).

Record node := Node { n_log : store E; n_purged : option Z }.
Definition node_new : node := Node (store_new crc []) None.
Inductive nop := NAppend (es : list E) | NTruncate (k : Z) | NPurge (k : Z) | NGet (a b : Z) | NState.
Inductive nans := NOk | NError | NEntries (l : list E) | NLogState (purged last : option Z).

Definition log_step (s : store E) (o : op E) : option (ans E * store E) := step crc e_index e_type enc dec max_size s o.
Definition nstep (n : node) (o : nop) : option (nans * node) :=
  match o with
  | NAppend es =>                                   (* node_store.rs:388-412 append_to_log *)
      match es with
      | [] => Some (NOk, n)
      | e :: _ =>
          match log_step (n_log n) (ODelAfter (e_index e)) with
          | Some (AOk, s1) =>
              match log_step s1 (OAppend es) with
              | Some (a, s2) => Some (match a with AOk => NOk | _ => NError end, Node s2 (n_purged n))
              | None => None
              end
          | Some (_, s1) => Some (NError, Node s1 (n_purged n))
          | None => None
          end
      end
  | NTruncate k =>                                  (* node_store.rs:415-425 delete_conflict_logs_since *)
      match log_step (n_log n) (ODelAfter k) with
      | Some (a, s1) => Some (match a with AOk => NOk | _ => NError end, Node s1 (n_purged n))
      | None => None
      end
  | NPurge k =>                                     (* node_store.rs:427-446 purge_logs_upto: the purged id is stored first *)
      match log_step (n_log n) (ODelBefore (k + 1)) with
      | Some (a, s1) => Some (match a with AOk => NOk | _ => NError end, Node s1 (Some k))
      | None => None
      end
  | NGet a b =>                                     (* node_store.rs:188-225 try_get_log_entries *)
      match log_step (n_log n) (OEntries a b) with
      | Some (AEntries l, s1) => Some (NEntries l, Node s1 (n_purged n))
      | Some (_, s1) => Some (NError, Node s1 (n_purged n))
      | None => None
      end
  | NState =>                                       (* node_store.rs:330-355 get_log_state *)
      match log_step (n_log n) OLast with
      | Some (AEntry last, s1) =>
          Some (NLogState (n_purged n) (match last with None => n_purged n | Some e => Some (e_index e) end), Node s1 (n_purged n))
      | Some (_, s1) => Some (NError, Node s1 (n_purged n))
      | None => None
      end
  end.
End Node.
Arguments node : clear implicits.
Arguments nop : clear implicits.
Arguments nans : clear implicits.
