(** C62: a row is identified by its table, tags and time whichever interface wrote it. *)
From Verif Require Import Prelude WriteModel BucketModel RouteModel RouteSpec.
From Verif Require RouteProofs3 RouteProofs4.

(** Missing for the full property: INSERTs into tables whose tags are declared in another order than that of their
    names, INSERTs that leave a tag NULL, the log API beside another interface, renamed tags and updated tag values.
    The theorems below named _refuted show that each of them puts two rows of one series and time into the result. *)
Theorem C62_lines_and_inserts_partial bs es table :
  always bs request_ok es -> always bs (lines_and_full_inserts table) es -> one_row_each bs es table.
Proof. apply RouteProofs3.lines_full_inserts. Qed.
Print Assumptions C62_lines_and_inserts_partial.

Theorem C62_any_tag_order_partial bs es table :
  power_of_two_shards bs -> always bs request_ok es -> always bs (lines_and_inserts_any_order table) es ->
  one_row_each bs es table.
Proof. apply RouteProofs4.lines_any_order. Qed.
Print Assumptions C62_any_tag_order_partial.

Theorem C62_inserts_partial bs es table names :
  always bs request_ok es -> always bs (inserts_only table names) es -> one_row_each bs es table.
Proof. apply RouteProofs3.only_inserts. Qed.
Print Assumptions C62_inserts_partial.

Theorem C62_logs_partial bs es table :
  always bs request_ok es -> always bs (logs_only table) es -> one_row_each bs es table.
Proof. apply RouteProofs3.only_logs. Qed.
Print Assumptions C62_logs_partial.

(** ** Concrete histories *)
Definition ex_set i := {| r_id := i; r_leader_node := 1; r_leader_vnode := i + 1; r_vnodes := [(i + 1, 1)] |}.
Definition ex_buckets n :=
  [{| b_id := 1; b_start := 0; b_end := 100; b_group := firstn n [ex_set 10; ex_set 20; ex_set 30] |};
   {| b_id := 2; b_start := 100; b_end := 200; b_group := firstn n [ex_set 40; ex_set 50; ex_set 60] |}].
Definition t_m : str := [109].
Definition t_a : str := [97].
Definition t_bb : str := [98; 98].
Definition t_c : str := [99].
Definition t_f : str := [102].
Definition t_g : str := [103].
Definition v_x : str := [120].
Definition v_y : str := [121].
Definition v_z : str := [122].

Ltac always_tac :=
  apply RouteProofs3.always_start;
  repeat first [exact (RouteProofs3.always_nil _ _ _) | refine (RouteProofs3.always_intro _ _ _ _ _ _ _)].
Ltac ok_tac := vm_compute; repeat split; try discriminate; intros; try congruence;
  repeat (constructor; [cbn; intuition discriminate|]); try constructor.
Ltac sorted_tac := vm_compute; repeat constructor.
Ltac side := first
  [ exact I | solve [ok_tac] | intros _; discriminate | intros _; reflexivity
  | intros _; split; [solve [sorted_tac]|cbn; intuition discriminate] | intros _; cbn; intuition discriminate
  | solve [sorted_tac] | reflexivity ].

(** a line, an INSERT that overwrites one of its fields, a row of another time and one of another bucket *)
Definition ex_lines : list event :=
  [ELine Text t_m [(t_bb, v_x); (t_a, v_y); (t_a, v_z)] 5 [(t_f, CI 1); (t_g, CI 7)];
   EInsert t_m [Some v_y; Some v_x] 5 [(t_f, CI 2)];
   ELine Api t_m [(t_bb, v_x); (t_a, v_y)] 6 [(t_f, CI 3)];
   EInsert t_m [Some v_y; Some v_x] 105 [(t_f, CI 4)]].
Example ex_lines_hypotheses : always (ex_buckets 3) request_ok ex_lines /\ always (ex_buckets 3) (lines_and_full_inserts t_m) ex_lines.
Proof.
  split; always_tac; side.
Qed.
Example ex_lines_rows : map (fun o => (o_ts o, o_fields o)) (select (run (ex_buckets 3) empty ex_lines) t_m)
  = [(5, [(t_f, CI 2); (t_g, CI 7)]); (6, [(t_f, CI 3)]); (105, [(t_f, CI 4)])].
Proof. reflexivity. Qed.

Definition ex_order : list event :=
  [EAddTag t_m t_bb; EAddTag t_m t_a; EInsert t_m [Some v_x; Some v_z] 5 [(t_f, CI 1)];
   ELine Text t_m [(t_a, v_z); (t_bb, v_x)] 5 [(t_f, CI 2)]].
Example ex_order_hypotheses : power_of_two_shards (ex_buckets 2) /\ always (ex_buckets 2) request_ok ex_order
  /\ always (ex_buckets 2) (lines_and_inserts_any_order t_m) ex_order.
Proof.
  split; [|split; always_tac; side]. intros b [<-|[<-|[]]]; exists 16; reflexivity.
Qed.
Definition ex_nulls : list event :=
  [EAddTag t_m t_c; EAddTag t_m t_a; EInsert t_m [None; Some v_z] 5 [(t_f, CI 1)];
   EInsert t_m [None; Some v_z] 5 [(t_f, CI 2)]; EInsert t_m [Some []; Some v_z] 5 [(t_f, CI 3)]].
Example ex_nulls_hypotheses : always (ex_buckets 3) request_ok ex_nulls
  /\ always (ex_buckets 3) (inserts_only t_m [t_c; t_a]) ex_nulls.
Proof. split; always_tac; side. Qed.
Example ex_nulls_rows : map (fun o => (o_tags o, o_fields o)) (select (run (ex_buckets 3) empty ex_nulls) t_m)
  = [([(t_a, v_z)], [(t_f, CI 2)]); ([(t_a, v_z); (t_c, [])], [(t_f, CI 3)])].
Proof. reflexivity. Qed.
Definition ex_logs : list event :=
  [ELine Log t_m [(t_a, v_y)] 5 [(t_f, CI 1)]; ELine Log t_m [(t_a, v_y)] 5 [(t_g, CI 2)]].
Example ex_logs_hypotheses : always (ex_buckets 3) request_ok ex_logs /\ always (ex_buckets 3) (logs_only t_m) ex_logs.
Proof. split; always_tac; side. Qed.

(** ** Two rows for one table, tags and time *)
Ltac twice := exists 0%nat, 1%nat; eexists; eexists; split; [discriminate|];
  split; [vm_compute; reflexivity|]; split; [vm_compute; reflexivity|]; split; [intros n|]; reflexivity.

(** The order in which a table declares its tags is part of the routing of INSERTs, the order of their names is part of
    the routing of lines. *)
Theorem C62_tag_order_refuted : exists bs es table,
  always bs request_ok es /\ always bs (lines_and_inserts_any_order table) es /\ shown_twice bs es table.
Proof.
  exists (ex_buckets 3), ex_order, t_m. split; [always_tac; side|]. split; [always_tac; side|twice].
Qed.
Print Assumptions C62_tag_order_refuted.

(** INSERT hashes the name of a tag that is NULL, a line without that tag does not. *)
Theorem C62_null_tag_refuted : exists bs es table,
  always bs request_ok es /\ always bs text_or_sorted_insert es /\ shown_twice bs es table.
Proof.
  exists (ex_buckets 2),
    [EAddTag t_m t_a; EAddTag t_m t_c; EInsert t_m [Some v_x; None] 5 [(t_f, CI 1)];
     ELine Text t_m [(t_a, v_x)] 5 [(t_f, CI 2)]], t_m.
  split; [always_tac; side|]. split; [always_tac; side|twice].
Qed.
Print Assumptions C62_null_tag_refuted.

(** INSERTs alone: adding a tag to the table moves every series. *)
Theorem C62_added_tag_refuted : exists bs es table,
  always bs request_ok es /\ always bs (only is_insert_or_add) es /\ shown_twice bs es table.
Proof.
  exists (ex_buckets 2),
    [EAddTag t_m t_a; EInsert t_m [Some v_x] 5 [(t_f, CI 1)];
     EAddTag t_m t_c; EInsert t_m [Some v_x; None] 5 [(t_f, CI 2)]], t_m.
  split; [always_tac; side|]. split; [always_tac; side|twice].
Qed.
Print Assumptions C62_added_tag_refuted.

(** Lines alone: renaming a tag moves every series. *)
Theorem C62_renamed_tag_refuted : exists bs es table,
  always bs request_ok es /\ always bs (only is_text_or_rename) es /\ shown_twice bs es table.
Proof.
  exists (ex_buckets 3),
    [ELine Text t_m [(t_a, v_x)] 5 [(t_f, CI 1)]; ERename t_m t_a [98];
     ELine Text t_m [([98], v_x)] 5 [(t_f, CI 2)]], t_m.
  split; [always_tac; side|]. split; [always_tac; side|twice].
Qed.
Print Assumptions C62_renamed_tag_refuted.

(** UPDATE of a tag value leaves the rows where the old value put them, and does not see the series that already has
    the new value in another replica set. *)
Theorem C62_updated_tag_refuted : exists bs es table,
  always bs request_ok es /\ always bs (only is_text_or_update) es /\ shown_twice bs es table.
Proof.
  exists (ex_buckets 2),
    [ELine Text t_m [(t_a, v_x)] 5 [(t_f, CI 1)]; EUpdate t_m [(t_a, v_x)] [(t_a, v_y)];
     ELine Text t_m [(t_a, v_y)] 5 [(t_f, CI 2)]], t_m.
  split; [always_tac; side|]. split; [always_tac; side|twice].
Qed.
Print Assumptions C62_updated_tag_refuted.
Theorem C62_update_conflict_refuted : exists bs es table e,
  always bs request_ok (es ++ [e]) /\ always bs (only is_line) es /\ is_text_or_update e
  /\ ~ shown_twice bs es table /\ shown_twice bs (es ++ [e]) table.
Proof.
  exists (ex_buckets 2),
    [ELine Text t_m [(t_a, v_x)] 5 [(t_f, CI 1)]; ELine Text t_m [(t_a, v_y)] 5 [(t_f, CI 2)]], t_m,
    (EUpdate t_m [(t_a, v_x)] [(t_a, v_y)]).
  split; [cbn [app]; always_tac; side|]. split; [always_tac; side|]. split; [exact I|]. split; [|cbn [app]; twice].
  intros (i & j & a & b & NE & A & B & E & _).
  change (select (run (ex_buckets 2) empty _) t_m)
    with [SR 10 t_m [(t_a, v_x)] 5 [(t_f, CI 1)]; SR 20 t_m [(t_a, v_y)] 5 [(t_f, CI 2)]] in A, B.
  specialize (E t_a).
  destruct i as [|[|i]], j as [|[|j]]; cbn in A, B; try congruence; try (destruct i; discriminate); try (destruct j; discriminate);
    injection A as <-; injection B as <-; vm_compute in E; discriminate.
Qed.
Print Assumptions C62_update_conflict_refuted.

(** The log APIs send every row to the first replica set of its bucket. *)
Theorem C62_log_refuted : exists bs es table,
  always bs request_ok es /\ always bs (only is_line) es /\ shown_twice bs es table.
Proof.
  exists (ex_buckets 2),
    [ELine Text t_m [(t_a, v_y)] 5 [(t_f, CI 1)]; ELine Log t_m [(t_a, v_y)] 5 [(t_f, CI 2)]], t_m.
  split; [always_tac; side|]. split; [always_tac; side|twice].
Qed.
Print Assumptions C62_log_refuted.
