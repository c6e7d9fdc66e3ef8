(** C11: DROP COLUMN in the in-memory cache. *)
From Verif Require Import Prelude MergeModel MergeSpec MemModel MemSpec MemDropSpec MemProofs MemProofs2.
Open Scope Z_scope.

(** After DROP COLUMN a read of a named series returns the rows it returned before, without the
    dropped columns; the remaining values, the rows and their order are the same.  Every other
    series reads as before.
    Missing: series in which a time stamp was written more than once
    ([C11_drop_column_refuted] shows that an older value then becomes visible). *)
Theorem C11_drop_column_partial parts h sids cids inr sid :
  (1 <= parts)%nat -> Forall write_ok h -> schemas_ok (schemas sid h) -> times_once sid h -> Forall columns_once h ->
  mc_read inr (mc_drop_columns (crun parts h) sids cids) sid =
  if mem_z sid sids then map (without cids (last_columns sid h)) (mc_read inr (crun parts h) sid)
  else mc_read inr (crun parts h) sid.
Proof. apply drop_column_ok. Qed.
Print Assumptions C11_drop_column_partial.

(** A series the request does not name is left alone, whatever was written to it. *)
Theorem C11_drop_column_elsewhere parts h sids cids inr sid :
  (1 <= parts)%nat -> Forall ts_ok h -> mem_z sid sids = false ->
  mc_read inr (mc_drop_columns (crun parts h) sids cids) sid = mc_read inr (crun parts h) sid.
Proof. apply drop_elsewhere. Qed.
Print Assumptions C11_drop_column_elsewhere.

Definition hist : list cop :=
  [ CWrite 7 1 [1; 2] [MR 5 [Some 50; Some 51]; MR 3 [Some 30; None]]; CWrite 8 1 [1; 2] [MR 5 [Some 1; Some 2]];
    CWrite 7 2 [1; 2; 4] [MR 4 [None; Some 41; Some 42]]; CDelete [7] [(3, 3)] ].
Example drop_hyps : Forall write_ok hist /\ schemas_ok (schemas 7 hist) /\ times_once 7 hist /\ Forall columns_once hist.
Proof.
  split; [|split; [|split]].
  - repeat (apply Forall_cons; [cbn; first [exact I|split; [repeat constructor; cbn; intuition congruence|repeat (apply Forall_cons; [cbn; split; [unfold I64_MIN, I64_MAX; cbn; lia|reflexivity]|]); apply Forall_nil]]|]). apply Forall_nil.
  - cbn. repeat constructor; cbn; lia.
  - unfold times_once. cbn. repeat constructor; cbn; intuition congruence.
  - repeat (apply Forall_cons; [cbn; first [exact I|repeat constructor; cbn; intuition congruence]|]). apply Forall_nil.
Qed.
Example drop_case :
  mc_read (fun _ => true) (crun 4 hist) 7 = [MR 4 [None; Some 41; Some 42]; MR 5 [Some 50; Some 51; None]] /\
  mc_read (fun _ => true) (mc_drop_columns (crun 4 hist) [7; 9] [2]) 7 = [MR 4 [None; Some 42]; MR 5 [Some 50; None]] /\
  mc_read (fun _ => true) (mc_drop_columns (crun 4 hist) [7; 9] [2]) 8 = [MR 5 [Some 1; Some 2]].
Proof. vm_compute. repeat split. Qed.
