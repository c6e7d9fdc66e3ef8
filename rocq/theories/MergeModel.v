(** Model of the k-way merge of sorted streams
    (/repo/tskv/src/reader/sort_merge.rs:37-409, batch_builder.rs:14-199,
    partitioned_stream.rs:26-125).

    Simplifications.  A row is its time stamp and the list of its other columns ([None] is null);
    column values are opaque numbers.  A stream is the list of record batches it yields, without
    errors and without [Poll::Pending] (a pending poll returns with the state unchanged up to
    batches already fetched, and is retried).  The pair (batch index, row index) the builder
    keeps is represented by the row itself; [Cursor::offset] and [BatchCursor::row_idx] advance
    together (sort_merge.rs:273-277, batch_builder.rs:75-77), so one remaining-rows list stands for both. *)
From Verif Require Import Prelude.

Record mrow := MR { r_ts : Z; r_cols : list (option Z) }.
Definition batch := list mrow.

(** ** BatchMergeBuilder *)
(** batch_builder.rs:132-155 take_last_and_merge, for one column: from the last row backwards the
    first valid value, or the value of row 0. *)
Definition col (c : nat) (r : mrow) : option Z := nth c (r_cols r) None.
Fixpoint pick_rev (c : nat) (l : list mrow) : option Z :=
  match l with
  | [] => None
  | [r] => col c r
  | r :: l' => match col c r with Some v => Some v | None => pick_rev c l' end
  end.
(** batch_builder.rs:132-155 take_last_and_merge; [width] is the number of fields other than time.
    All merged rows have one time stamp. *)
Definition merge_same (width : nat) (same : list mrow) : list mrow :=
  match same with
  | [] => []
  | [r] => [r]
  | r :: _ => [MR (r_ts r) (map (fun c => pick_rev c (rev same)) (seq 0 width))]
  end.
Record builder := BB { b_last : option Z; b_same : list mrow; b_out : list mrow }.
Definition take_last (width : nat) (b : builder) : builder :=
  BB (b_last b) [] (b_out b ++ merge_same width (b_same b)).
(** batch_builder.rs:74-130 push_row; [None]: "data in stream is not sorted" *)
Definition push_row (width : nat) (b : builder) (r : mrow) : option builder :=
  match b_last b with
  | None => Some (BB (Some (r_ts r)) (b_same b ++ [r]) (b_out b))
  | Some t =>
      match t ?= r_ts r with
      | Eq => Some (BB (Some (r_ts r)) (b_same b ++ [r]) (b_out b))
      | Lt => let b' := take_last width (BB (Some (r_ts r)) (b_same b) (b_out b)) in
              Some (BB (b_last b') (b_same b' ++ [r]) (b_out b'))
      | Gt => None
      end
  end.
(** batch_builder.rs:177-198 build_record_batch *)
Definition build (b : builder) : option batch * builder :=
  match b_out b with
  | [] => (None, b)
  | l => (Some l, BB (b_last b) (b_same b) [])
  end.

(** ** The merge stream *)
(** [usize::MAX] in the loser tree is [None]. *)
Record mstate := MS {
  m_tree : list (option nat); m_adj : bool;
  m_cur : list (option (list mrow));   (* cursors: the rows left in the current batch *)
  m_src : list (list batch);           (* what the input streams still yield *)
  m_bld : builder }.
Definition cur_at (cur : list (option (list mrow))) (i : nat) : option (list mrow) := nth i cur None.
Definition set_nth {A} (i : nat) (x : A) (l : list A) : list A := firstn i l ++ x :: skipn (S i) l.
(** partitioned_stream.rs:42-56 FusedStreams::poll_next: empty batches are skipped *)
Fixpoint next_batch (s : list batch) : option batch * list batch :=
  match s with
  | [] => (None, [])
  | [] :: s' => next_batch s'
  | b :: s' => (Some b, s')
  end.
(** sort_merge.rs:226-241 maybe_poll_stream *)
Definition maybe_poll (i : nat) (st : mstate) : mstate :=
  match cur_at (m_cur st) i with
  | Some _ => st
  | None =>
      match next_batch (nth i (m_src st) []) with
      | (None, s) => MS (m_tree st) (m_adj st) (m_cur st) (set_nth i s (m_src st)) (m_bld st)
      | (Some b, s) => MS (m_tree st) (m_adj st) (set_nth i (Some b) (m_cur st)) (set_nth i s (m_src st)) (m_bld st)
      end
  end.
(** sort_merge.rs:309-315 is_gt *)
Definition is_gt (cur : list (option (list mrow))) (a b : nat) : bool :=
  match cur_at cur a, cur_at cur b with
  | None, _ => true
  | _, None => false
  | Some (ra :: _), Some (rb :: _) =>
      match r_ts ra ?= r_ts rb with Gt => true | Eq => Nat.ltb b a | Lt => false end
  | _, _ => true   (* a cursor is dropped when it is finished: never an empty list *)
  end.
Definition tget (t : list (option nat)) (j : nat) : option nat := nth j t None.
(** sort_merge.rs:346-354 lt_leaf_node_index, lt_parent_node_index *)
Definition leaf_of (n i : nat) : nat := (n + i) / 2.
(** sort_merge.rs:362-374 the inner loop of init_loser_tree *)
Fixpoint climb_init (fuel : nat) cur (t : list (option nat)) (winner node : nat) : list (option nat) :=
  match fuel with
  | O => t
  | S fuel' =>
      match node, tget t node with
      | S _, Some ch =>
          if is_gt cur winner ch then climb_init fuel' cur (set_nth node (Some winner) t) ch (node / 2)
          else climb_init fuel' cur t winner (node / 2)
      | _, _ => set_nth node (Some winner) t
      end
  end.
(** sort_merge.rs:358-376 init_loser_tree *)
Definition init_tree cur : list (option nat) :=
  let n := length cur in
  fold_left (fun t i => climb_init (S (leaf_of n i)) cur t i (leaf_of n i)) (seq 0 n) (repeat None n).
(** sort_merge.rs:383-390 the loop of update_loser_tree *)
Fixpoint climb (fuel : nat) cur (t : list (option nat)) (winner node : nat) : list (option nat) :=
  match fuel with
  | O => t
  | S fuel' =>
      match node with
      | O => set_nth 0 (Some winner) t
      | S _ =>
          match tget t node with
          | None => t          (* [cursors[usize::MAX]] panics; does not happen *)
          | Some ch =>
              if is_gt cur winner ch then climb fuel' cur (set_nth node (Some winner) t) ch (node / 2)
              else climb fuel' cur t winner (node / 2)
          end
      end
  end.
(** sort_merge.rs:379-393 update_loser_tree *)
Definition update_tree (cur : list (option (list mrow))) (t : list (option nat)) : list (option nat) :=
  match tget t 0 with
  | Some w => let j := leaf_of (length cur) w in climb (S j) cur t w j
  | None => t
  end.
(** sort_merge.rs:258-290 one pass of the loop of poll_next_inner *)
Inductive pass_res := Cont (st : mstate) | Ret (b : option batch) (st : mstate) | Fail.
Definition pass (width batch_size : nat) (st : mstate) : pass_res :=
  match tget (m_tree st) 0 with
  | None => Fail               (* no stream: [loser_tree[0]] panics; the callers never pass none *)
  | Some w =>
      let st1 := if m_adj st then st
                 else let s := maybe_poll w st in
                      MS (update_tree (m_cur s) (m_tree s)) true (m_cur s) (m_src s) (m_bld s) in
      match tget (m_tree st1) 0 with
      | None => Fail
      | Some i =>
          match cur_at (m_cur st1) i with
          | Some (r :: rest) =>
              (* advance: 293-304; push_row; [len() < batch_size] *)
              let cur' := set_nth i (match rest with [] => None | _ => Some rest end) (m_cur st1) in
              match push_row width (m_bld st1) r with
              | None => Fail
              | Some b =>
                  if Nat.ltb (length (b_out b)) batch_size then Cont (MS (m_tree st1) false cur' (m_src st1) b)
                  else let '(o, b') := build b in Ret o (MS (m_tree st1) false cur' (m_src st1) b')
              end
          | _ =>
              let '(o, b') := build (take_last width (m_bld st1)) in
              Ret o (MS (m_tree st1) (m_adj st1) (m_cur st1) (m_src st1) b')
          end
      end
  end.
(** The stream polled until it ends; [None]: an error, or out of fuel. *)
Fixpoint drain (fuel width batch_size : nat) (st : mstate) : option (list batch) :=
  match fuel with
  | O => None
  | S fuel' =>
      match pass width batch_size st with
      | Fail => None
      | Cont st' => drain fuel' width batch_size st'
      | Ret None _ => Some []
      | Ret (Some b) st' => match drain fuel' width batch_size st' with Some l => Some (b :: l) | None => None end
      end
  end.
(** sort_merge.rs:208-224 new, 243-254 the first poll *)
Definition start (streams : list (list batch)) : mstate :=
  let n := length streams in
  let s0 := MS [] false (repeat None n) streams (BB None [] []) in
  let s := fold_left (fun st i => maybe_poll i st) (seq 0 n) s0 in
  MS (init_tree (m_cur s)) true (m_cur s) (m_src s) (m_bld s).
Definition sort_merge (fuel width batch_size : nat) (streams : list (list batch)) : option (list batch) :=
  drain fuel width batch_size (start streams).
