(** C70: retention removes what is older than the TTL and nothing else. *)
From Verif Require Import Prelude PrecisionModel BucketModel BucketSpec TtlModel TtlSpec TtlProofs.

(** An acknowledged row that is not older than the TTL at instant [t] is returned by every later query (through any node
    whose metadata is up to date), whatever was scanned, deleted, half deleted or restarted anywhere up to [t].
    Partial: the TTL is finite and fits the precision, and is not altered (both needed, see the refuted theorems). *)
Theorem C70_kept_partial : forall p ttl next d sh rp tr1 n nodes c h ts r tr2 t q a z,
  ttl_fits p ttl -> 0 <= t <= I64_MAX -> is_i64 d -> 1 <= sh -> 1 <= rp ->
  clocks_upto t (tr1 ++ EvWrite n nodes c h ts :: tr2) -> no_alter (tr1 ++ EvWrite n nodes c h ts :: tr2) ->
  snd (step (run (new_db p ttl next d sh rp) tr1) (EvWrite n nodes c h ts)) = Acked r ->
  retained p ttl t ts -> a <= ts <= z ->
  In ts (query (run (new_db p ttl next d sh rp) (tr1 ++ EvWrite n nodes c h ts :: tr2 ++ [EvSync q])) q a z).
Proof. exact kept. Qed.
Print Assumptions C70_kept_partial.

(** A row not older than the TTL is never refused because of retention: with enough nodes the write is acknowledged. *)
Theorem C70_accepted : forall p ttl next d sh rp tr n nodes t h ts,
  ttl_fits p ttl -> 0 <= t <= I64_MAX -> is_i64 d -> 1 <= sh -> 1 <= rp ->
  clocks_upto t tr -> no_alter tr -> is_i64 ts -> ts <> I64_MAX -> 0 <= h -> rp <= Z.of_nat (length nodes) ->
  retained p ttl t ts ->
  exists r, snd (step (run (new_db p ttl next d sh rp) tr) (EvWrite n nodes t h ts)) = Acked r.
Proof. exact accepted. Qed.
Print Assumptions C70_accepted.

(** A row older than the TTL (by one unit of the precision or more) is refused and nothing changes, provided no bucket
    known to the node or the metadata covers its time.  Partial: rows falling into an existing bucket are let in. *)
Theorem C70_refused_partial : forall p ttl next d sh rp tr n nodes t0 t h ts,
  ttl_fits p ttl -> 0 <= t <= I64_MAX -> 0 <= t0 <= I64_MAX -> is_i64 d -> 1 <= sh -> 1 <= rp ->
  clocks_upto t0 tr -> no_alter tr -> is_i64 ts ->
  (ts + 1) * unit_ns p + dur_ns ttl <= t ->
  (forall b, In b (m_buckets (t_meta (run (new_db p ttl next d sh rp) tr))) \/
             In b (snd (t_cache (run (new_db p ttl next d sh rp) tr) n)) -> ~ (b_start b <= ts < b_end b)) ->
  step (run (new_db p ttl next d sh rp) tr) (EvWrite n nodes t h ts) = (run (new_db p ttl next d sh rp) tr, Refusal).
Proof. exact refused. Qed.
Print Assumptions C70_refused_partial.

(** With one node, storage on disk always belongs to a bucket the database still has: deleting expired buckets leaves
    nothing behind, even when deletions fail halfway or the node restarts between. *)
Theorem C70_reclaimed_partial : forall n tr p ttl next d sh rp,
  is_i64 d -> 1 <= sh -> 1 <= rp -> valid_alter tr -> only_node n tr ->
  forall v, In v (t_disk (run (new_db p ttl next d sh rp) tr)) -> owned (run (new_db p ttl next d sh rp) tr) v.
Proof. exact (fun n tr => reclaimed n tr). Qed.
Print Assumptions C70_reclaimed_partial.

(** With one node and no half-done deletion pending, one scan at instant [t] removes every row that is older than the
    TTL by a bucket's duration: no query returns it. *)
Theorem C70_gone_partial : forall p ttl next d sh rp n tr t a z ts,
  ttl_fits p ttl -> 0 <= t <= I64_MAX -> is_i64 d -> 0 < d -> 1 <= sh -> 1 <= rp ->
  clocks_upto I64_MAX tr -> no_alter tr -> only_node n tr ->
  t_shut (run (new_db p ttl next d sh rp) tr) = [] -> t_todo (run (new_db p ttl next d sh rp) tr) n = [] ->
  (ts + d + 1) * unit_ns p + dur_ns ttl <= t ->
  exists k, forall j, (k <= j)%nat ->
    ~ In ts (query (run (new_db p ttl next d sh rp)
                      (tr ++ [EvSync n; EvScan n t] ++ repeat (EvWork n Done) j ++ [EvSync n])) n a z).
Proof. exact gone. Qed.
Print Assumptions C70_gone_partial.

(** ** Cases that meet the hypotheses *)
Definition ms (x : Z) : Z := x * 1000000.
Definition db100 := new_db MS (CD (ms 100) false) 1 10 2 1.
(* two nodes; rows at 5 and 55 ms; at 140 ms the bucket [0, 10) is expired and deleted, the row at 55 stays *)
Example ex_kept :
  let tr1 := [EvWrite 1 [1; 2] (ms 5) 0 5; EvWrite 2 [1; 2] (ms 5) 1 5] in
  let tr2 := [EvSync 1; EvScan 1 (ms 140); EvWork 1 Done; EvWork 1 Done; EvWork 1 Done] in
  ttl_fits MS (CD (ms 100) false) /\ clocks_upto (ms 140) (tr1 ++ EvWrite 1 [1; 2] (ms 56) 0 55 :: tr2) /\
  snd (step (run db100 tr1) (EvWrite 1 [1; 2] (ms 56) 0 55)) = Acked 7 /\ retained MS (CD (ms 100) false) (ms 140) 55 /\
  query (run db100 (tr1 ++ EvWrite 1 [1; 2] (ms 56) 0 55 :: tr2 ++ [EvSync 2])) 2 0 100 = [55].
Proof.
  split; [split; [reflexivity|split; vm_compute; discriminate]|].
  split. { intros e X. cbn in X. repeat (destruct X as [<-|X]; [try exact I; try (split; [split; vm_compute; discriminate|split; vm_compute; discriminate]); try (split; vm_compute; discriminate)|]). contradiction. }
  split; [vm_compute; reflexivity|]. split; [right; vm_compute; discriminate|]. vm_compute. reflexivity.
Qed.
Example ex_accepted : snd (step db100 (EvWrite 1 [1; 2] (ms 105) 0 5)) = Acked 2.
Proof. vm_compute. reflexivity. Qed.
Example ex_refused : step db100 (EvWrite 1 [1; 2] (ms 106) 0 5) = (db100, Refusal) /\ (5 + 1) * unit_ns MS + ms 100 <= ms 106.
Proof. split; [reflexivity|vm_compute; discriminate]. Qed.
(* one node: after the deletion the disk holds only the vnodes of the bucket that is left, and the old row is gone *)
Example ex_gone :
  let tr := [EvWrite 1 [1] (ms 5) 0 5; EvWrite 1 [1] (ms 5) 1 6; EvWrite 1 [1] (ms 56) 0 55] in
  only_node 1 tr /\ t_shut (run db100 tr) = [] /\ t_todo (run db100 tr) 1 = [] /\ (6 + 10 + 1) * unit_ns MS + ms 100 <= ms 120 /\
  t_disk (run db100 tr) = [(8, 1); (5, 1); (3, 1)] /\
  t_disk (run db100 (tr ++ [EvSync 1; EvScan 1 (ms 120)] ++ repeat (EvWork 1 Done) 3 ++ [EvSync 1])) = [(8, 1)] /\
  query (run db100 (tr ++ [EvSync 1; EvScan 1 (ms 120)] ++ repeat (EvWork 1 Done) 3 ++ [EvSync 1])) 1 0 100 = [55].
Proof.
  cbv zeta. split. { intros e X. cbn in X. repeat (destruct X as [<-|X]; [split; reflexivity|]). contradiction. }
  split; [vm_compute; reflexivity|]. split; [vm_compute; reflexivity|]. split; [vm_compute; discriminate|].
  split; [vm_compute; reflexivity|]. split; vm_compute; reflexivity.
Qed.

(** ** Findings *)
(** A node deletes the replica sets it leads and then the whole bucket from the metadata: with two nodes the storage of a
    replica set led by the other one is forgotten, and whatever happens afterwards it stays on disk. *)
Definition db_leak := new_db MS (CD (ms 10) false) 1 10 2 1.
Definition leak_tr := [EvWrite 1 [1; 2] (ms 5) 0 5; EvWrite 1 [1; 2] (ms 5) 1 5; EvSync 2; EvScan 1 (ms 100);
                       EvWork 1 Done; EvWork 1 Done; EvWork 1 Done; EvSync 1; EvSync 2].
Lemma leak_others n : n <> 1 -> n <> 2 -> forallb (fun e => negb (done_by n e)) leak_tr = true.
Proof. intros N1 N2. unfold leak_tr, done_by. cbn [forallb]. replace (1 =? n) with false by lia. replace (2 =? n) with false by lia. reflexivity. Qed.
Theorem C70_leak_refuted : exists p ttl next d sh rp tr v,
  ttl_fits p ttl /\ is_i64 d /\ 1 <= sh /\ 1 <= rp /\ no_alter tr /\
  m_buckets (t_meta (run (new_db p ttl next d sh rp) tr)) = [] /\
  forall tr', valid_alter tr' -> In v (t_disk (run (new_db p ttl next d sh rp) (tr ++ tr'))).
Proof.
  exists MS, (CD (ms 10) false), 1, 10, 2, 1, leak_tr, (5, 2).
  split; [split; [reflexivity|split; vm_compute; discriminate]|]. split; [split; vm_compute; discriminate|]. split; [lia|]. split; [lia|].
  split. { intros e X. cbn in X. repeat (destruct X as [<-|X]; [exact I|]). contradiction. }
  split; [vm_compute; reflexivity|]. intros tr' HV. rewrite run_app. apply orphans_stay; auto.
  - split; [split; vm_compute; discriminate|split; vm_compute; discriminate].
  - vm_compute. auto.
  - split; [vm_compute; reflexivity|]. split; [|split].
    + intros (b&g&X&_). vm_compute in X. exact X.
    + intros n b g X. exfalso. destruct (Z.eq_dec n 2) as [->|N2]; [vm_compute in X; exact X|]. destruct (Z.eq_dec n 1) as [->|N1]; [vm_compute in X; exact X|].
      rewrite (proj1 (run_other n leak_tr _ (leak_others n N1 N2))) in X. exact X.
    + intros n b gs g X. exfalso. destruct (Z.eq_dec n 2) as [->|N2]; [vm_compute in X; exact X|]. destruct (Z.eq_dec n 1) as [->|N1]; [vm_compute in X; exact X|].
      rewrite (proj2 (run_other n leak_tr _ (leak_others n N1 N2))) in X. exact X.
Qed.
Print Assumptions C70_leak_refuted.

(** TTL 'INF' is taken as 2^63 - 1 units: in a nanosecond database rows dated before about 1734 (for a clock in 2026) are
    refused, and an acknowledged one is deleted when the clock has moved on. *)
Theorem C70_inf_refuted : exists ttl t ts c r tr,
  is_inf ttl = true /\ is_i64 ts /\ retained NS ttl t ts /\
  snd (step (new_db NS ttl 1 10 1 1) (EvWrite 1 [1] t 0 ts)) = Refusal /\
  snd (step (new_db NS ttl 1 10 1 1) (EvWrite 1 [1] c 0 ts)) = Acked r /\
  clocks_upto t tr /\ no_alter tr /\
  query (run (new_db NS ttl 1 10 1 1) (EvWrite 1 [1] c 0 ts :: tr ++ [EvSync 1])) 1 I64_MIN I64_MAX = [].
Proof.
  exists (CD 0 true), 1790000000000000020, (-7433372036854775807), 1790000000000000000, 2,
    [EvSync 1; EvScan 1 1790000000000000020; EvWork 1 Done; EvWork 1 Done].
  split; [reflexivity|]. split; [split; vm_compute; discriminate|]. split; [left; reflexivity|].
  split; [vm_compute; reflexivity|]. split; [vm_compute; reflexivity|].
  split. { intros e X. cbn in X. repeat (destruct X as [<-|X]; [try exact I; split; vm_compute; discriminate|]). contradiction. }
  split. { intros e X. cbn in X. repeat (destruct X as [<-|X]; [exact I|]). contradiction. }
  vm_compute. reflexivity.
Qed.
Print Assumptions C70_inf_refuted.

(** After ALTER DATABASE has made the TTL longer, a node that has not heard of it yet still deletes by the old one: an
    acknowledged row that the new TTL keeps is lost. *)
Theorem C70_alter_refuted : exists p ttl ttl' d ts c t r tr,
  ttl_fits p ttl /\ ttl_fits p ttl' /\ dur_ns ttl < dur_ns ttl' /\ clocks_upto t tr /\ no_alter tr /\
  snd (step (new_db p ttl 1 d 1 1) (EvWrite 1 [1] c 0 ts)) = Acked r /\
  retained p ttl c ts /\ retained p ttl' t ts /\
  ~ In ts (query (run (new_db p ttl 1 d 1 1) (EvWrite 1 [1] c 0 ts :: EvAlter ttl' d 1 1 :: tr ++ [EvSync 1])) 1 I64_MIN I64_MAX).
Proof.
  exists MS, (CD (ms 10) false), (CD (ms 1000) false), 10, 5, (ms 5), (ms 100), 2, [EvScan 1 (ms 100); EvWork 1 Done; EvWork 1 Done].
  split; [split; [reflexivity|split; vm_compute; discriminate]|]. split; [split; [reflexivity|split; vm_compute; discriminate]|].
  split; [vm_compute; reflexivity|].
  split. { intros e X. cbn in X. repeat (destruct X as [<-|X]; [try exact I; split; vm_compute; discriminate|]). contradiction. }
  split. { intros e X. cbn in X. repeat (destruct X as [<-|X]; [exact I|]). contradiction. }
  split; [vm_compute; reflexivity|]. split; [right; vm_compute; discriminate|]. split; [right; vm_compute; discriminate|].
  vm_compute. tauto.
Qed.
Print Assumptions C70_alter_refuted.

(** The TTL is only looked at for whole buckets: a row much older than the TTL is accepted into an existing bucket, and
    queries return it although every scan has done its work. *)
Theorem C70_old_rows_refuted : exists p ttl d ts c t r tr,
  ttl_fits p ttl /\ ts * unit_ns p + 50 * dur_ns ttl <= c /\ c <= t /\
  snd (step (run (new_db p ttl 1 d 1 1) [EvWrite 1 [1] c 0 (c / unit_ns p)]) (EvWrite 1 [1] c 0 ts)) = Acked r /\
  tr = [EvSync 1; EvScan 1 t; EvWork 1 Done; EvSync 1] /\
  In ts (query (run (new_db p ttl 1 d 1 1) (EvWrite 1 [1] c 0 (c / unit_ns p) :: EvWrite 1 [1] c 0 ts :: tr)) 1 I64_MIN I64_MAX).
Proof.
  exists MS, (CD (ms 10) false), 1000, 6, (ms 900), (ms 950), 2, [EvSync 1; EvScan 1 (ms 950); EvWork 1 Done; EvSync 1].
  split; [split; [reflexivity|split; vm_compute; discriminate]|]. split; [vm_compute; discriminate|]. split; [vm_compute; discriminate|].
  split; [vm_compute; reflexivity|]. split; [reflexivity|]. vm_compute. auto.
Qed.
Print Assumptions C70_old_rows_refuted.
