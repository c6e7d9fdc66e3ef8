(** Model of the aggregate function SAMPLE(column, n)
    (/repo/query_server/query/src/extension/expr/aggregate_function/sample.rs).

    Simplifications.  A row is a number (a null is a row like others).  Random numbers make the
    functions relations between what they are given and what they may return.  The argument [n] is
    the same in all rows, between 1 and 2000 (283-300, extract_sample_n: anything else is an error);
    it is saved with each state in the code and is a parameter here.  The conversion between Arrow
    arrays and values is left out, as is the 32-bit size of row numbers. *)
From Verif Require Import Prelude.
From Coq Require Import Arith.

(** sample.rs:253-271 generate_unique_random_numbers(count, 0, max): draws until there are enough different numbers; a hash set's order *)
Definition draw (count max : nat) (idx : list nat) : Prop :=
  NoDup idx /\ Forall (fun i => (i < max)%nat) idx /\ length idx = Nat.min count max.
Definition take_rows (rows : list Z) (idx : list nat) : list Z := map (fun i => nth i rows 0) idx.
(** sample.rs:162-178 sample_data *)
Definition sample_data (rows : list Z) (n : nat) (out : list Z) : Prop :=
  if (length rows <=? n)%nat then out = rows else exists idx, draw n (length rows) idx /\ out = take_rows rows idx.
(** sample.rs:195-206: the loop of sample_state *)
Fixpoint sample_loop (states : list (list Z)) (total n remain : nat) (out : list Z) : Prop :=
  match states with
  | [] => out = []
  | s :: states' =>
      if (remain =? 0)%nat then out = []
      else
        let select := ((length s * n + total - 1) / total)%nat in
        exists idx out', draw select (length s) idx /\ sample_loop states' total n (remain - select) out' /\ out = take_rows s idx ++ out'
  end.
(** sample.rs:180-209 sample_state *)
Definition total_rows (states : list (list Z)) : nat := length (concat states).
Definition sample_state (states : list (list Z)) (n : nat) (out : list Z) : Prop := sample_loop states (total_rows states) n n out.
(** sample.rs:213-222 try_compact_state, 224-230, 232-250 update_batch_inner *)
Definition update_inner (n : nat) (states : list (list Z)) (rows : list Z) (states' : list (list Z)) : Prop :=
  exists sampled, sample_data rows n sampled /\
    let saved := states ++ [sampled] in
    if (n * 10 <? total_rows saved)%nat then exists out, sample_state saved n out /\ states' = [out] else states' = saved.
(** sample.rs:102-111 update_batch, 283-287: an empty batch is skipped; 113-135 merge_batch: so is an empty partial state *)
Definition update (n : nat) (states : list (list Z)) (rows : list Z) (states' : list (list Z)) : Prop :=
  match rows with [] => states' = states | _ => update_inner n states rows states' end.
Fixpoint updates (n : nat) (states : list (list Z)) (batches : list (list Z)) (states' : list (list Z)) : Prop :=
  match batches with [] => states' = states | b :: bs => exists mid, update n states b mid /\ updates n mid bs states' end.
(** sample.rs:87-100 state, 137-143 evaluate: the empty list is the null state *)
Definition state (n : nat) (states : list (list Z)) (out : list Z) : Prop :=
  match states with [] => out = [] | _ => sample_state states n out end.
