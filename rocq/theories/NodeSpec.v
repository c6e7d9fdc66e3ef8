(** The calls the consensus library makes. *)
From Verif Require Import Prelude Bytes RecordModel RecordSpec WalModel WalSpec NodeModel.

Section NodeRuns.
Variable crc : list Z -> Z.
Context {E : Type}.
Variables (e_index e_type : E -> Z) (enc : E -> list Z) (dec : list Z -> option E) (max_size : Z).

(** Entries are appended above the purged ones and leave no gap; truncation and purging as in [op_ok]. *)
Definition nop_ok (n : node E) (o : nop E) : Prop :=
  footers_ok crc e_index e_type enc (n_log n) /\
  match o with
  | NAppend [] => True
  | NAppend (e :: es) => Forall (coded e_type enc dec) (e :: es) /\ consecutive e_index (e :: es) /\
      (max_sequence (n_log n) = U64_MAX \/ e_index e <= max_sequence (n_log n) + 1) /\
      match n_purged n with None => True | Some p => p < e_index e end /\
      op_ok e_index e_type enc dec (n_log n) (ODelAfter (e_index e))
  | NTruncate k => op_ok e_index e_type enc dec (n_log n) (ODelAfter k)
  | NPurge k => 0 <= k < U64_MAX /\ match n_purged n with None => True | Some p => p <= k end
  | NGet _ _ | NState => True
  end.
Inductive nruns : node E -> list (nop E * nans E) -> node E -> Prop :=
| NRNil n : nruns n [] n
| NRCons n o a n1 tr n2 : nop_ok n o -> nstep crc e_index e_type enc dec max_size n o = Some (a, n1) -> nruns n1 tr n2 -> nruns n ((o, a) :: tr) n2.
End NodeRuns.
