(** C13, C14: record files. *)
From Verif Require Import Prelude Bytes RecordModel RecordSpec RecordProofs.

(** ** C13 *)
(** Full statement: for every history of opens and appends, reading the file from the start gives the acknowledged records in
    order with their types, versions, data and positions, then Eof.  Missing here: files whose bytes happen to look like a footer
    (C13_footer_refuted) and a last record without data (C13_empty_last_refuted).  Holds for every consumer. *)
Theorem C13_read_back_partial : forall crc skip f rs, crc32_like crc -> skip Eof = false ->
  history crc (no_footer crc) f rs -> no_footer crc f ->
  read_file crc skip f = (readable rs, Some Eof).
Proof. intros crc skip f rs Hc Hs Hh Hn. exact (read_back crc Hc skip f rs Hs Hh Hn). Qed.

(** Random access: through any handle on the file, however it was used before and however the file grew meanwhile, reading at
    the position where a record was written gives that record. *)
Theorem C13_read_at_partial : forall crc f rs r rec, crc32_like crc ->
  history crc (no_footer crc) f rs -> handle crc f r -> In rec (readable rs) ->
  exists r', read_record_at crc f (reload_metadata f false r) (rec_pos rec) = Good rec r'.
Proof. intros crc f rs r rec Hc Hh Hd Hi. exact (read_at crc Hc f rs r rec Hh Hd Hi). Qed.

Definition item_okb (i : item) : bool :=
  let b x := ((0 <=? x) && (x <? 256))%bool in (b (it_version i) && b (it_type i) && forallb b (it_data i))%bool.
Lemma item_okb_ok i : item_okb i = true -> item_ok i.
Proof.
  unfold item_okb, item_ok, is_byte. rewrite !Bool.andb_true_iff, forallb_forall, Forall_forall. intros [[H1 H2] H3].
  split; [lia|]. split; [lia|]. intros x Hx. specialize (H3 x Hx). lia.
Qed.
Lemma crc32_ok : crc32_like crc32.
Proof. intros l. unfold crc32. apply Z.mod_pos_bound. reflexivity. Qed.
Definition app32 (f : list Z) (i : item) : list Z := match append crc32 f i with Some g => g | None => [] end.
Lemma write32 ok f rs i : history crc32 ok f rs -> item_okb i = true -> (zlen (it_data i) <? 2 ^ 32) = true ->
  history crc32 ok (app32 f i) (rs ++ [seen_as f i]).
Proof.
  intros Hh Hi Hs. eapply HWrite; [exact Hh|apply item_okb_ok, Hi|].
  unfold app32, append, write_record. rewrite Hs. reflexivity.
Qed.
Definition file0 : list Z := writer_open crc32 [].

(** A last record without data is not returned. *)
Theorem C13_empty_last_refuted : exists f rec, history crc32 (no_footer crc32) f [rec] /\ no_footer crc32 f /\
  read_file crc32 skip_none f = ([], Some Eof).
Proof.
  exists (app32 file0 (Item 1 8 [])), (seen_as file0 (Item 1 8 [])). split; [|split].
  - apply (write32 _ _ [] (Item 1 8 [])); [apply HNew|reflexivity|reflexivity].
  - apply no_footer_read. vm_compute. reflexivity.
  - vm_compute. reflexivity.
Qed.

(** A record whose data is 8 bytes holding the checksum of the file's first kilobyte followed by zeros, 32 bytes in all, is taken
    for the footer: it is not returned, and reopening the file for writing removes it. *)
Definition big : item := Item 1 8 (repeat 0 1010).
Definition fake : item := Item 1 8 (repeat 0 4 ++ be_bytes 4 (crc32 (slice (app32 file0 big) 4 1024)) ++ repeat 0 24).
Theorem C13_footer_refuted : exists f r1 r2, history crc32 (fun _ => True) f [r1; r2] /\ rec_data r2 <> [] /\
  read_file crc32 skip_none f = ([r1], Some Eof) /\
  history crc32 (fun _ => True) (writer_open crc32 f) [r1; r2] /\ zlen (writer_open crc32 f) = zlen f - 32.
Proof.
  assert (H : history crc32 (fun _ => True) (app32 (app32 file0 big) fake) [seen_as file0 big; seen_as (app32 file0 big) fake]).
  { apply (write32 _ _ [seen_as file0 big] fake); [|vm_compute; reflexivity|vm_compute; reflexivity].
    apply (write32 _ _ [] big); [apply HNew|vm_compute; reflexivity|vm_compute; reflexivity]. }
  exists (app32 (app32 file0 big) fake), (seen_as file0 big), (seen_as (app32 file0 big) fake).
  split; [exact H|]. split; [discriminate|]. split; [vm_compute; reflexivity|]. split; [apply HReopen; [exact H|exact I]|].
  vm_compute. reflexivity.
Qed.

(** ** C14 *)
(** A crash while the last record is being appended: whatever part of it reached the file, a reader that stops at errors gets
    exactly the acknowledged records, then Eof or the error naming the incomplete record. *)
Theorem C14_torn_tail_partial : forall crc skip f rs i g k, crc32_like crc ->
  (forall a b, skip (BadSize a b) = false) -> skip Eof = false ->
  history crc (no_footer crc) f rs -> item_ok i -> append crc f i = Some g ->
  zlen f < k < zlen g -> no_footer crc (slice g 0 k) ->
  read_file crc skip (slice g 0 k) = (rs, Some (if k - zlen f <=? 14 then Eof else BadSize (zlen f) (zlen (it_data i)))).
Proof. intros crc skip f rs i g k Hc. exact (torn_tail crc Hc skip f rs i g k). Qed.

(** WAL recovery (which goes on after errors): after any number of crashes and restarts, once one more record was written, exactly
    the acknowledged records are recovered.  Full statement: for every torn write.  Missing: torn writes that end inside the header
    after its first three bytes, or whose bytes contain the first byte of the magic number (refuted below). *)
Theorem C14_recovery_partial : forall crc f rs ts i g, crc32_like crc ->
  crash_history crc (fun t => short_tear t \/ clean_tear t) f rs ts ->
  item_ok i -> it_data i <> [] -> append crc f i = Some g -> no_footer crc g ->
  (forall p, In p ts -> slice g p 4 = RECORD_MAGIC -> torn_detected crc g p) ->
  read_file crc skip_errors g = (rs ++ [seen_as f i], Some Eof).
Proof. intros crc f rs ts i g Hc. exact (recover_after_write crc Hc f rs ts i g). Qed.

(** The same right after a crash. *)
Theorem C14_recovery_after_crash_partial : forall crc f rs ts i g k, crc32_like crc ->
  crash_history crc (fun t => short_tear t \/ clean_tear t) f rs ts ->
  item_ok i -> append crc f i = Some g -> zlen f < k < zlen g -> clean_tear (slice g (zlen f) (k - zlen f)) ->
  no_footer crc (slice g 0 k) ->
  (forall p, In p ts -> slice (slice g 0 k) p 4 = RECORD_MAGIC -> torn_detected crc (slice g 0 k) p) ->
  read_file crc skip_errors (slice g 0 k) = (rs, Some Eof).
Proof. intros crc f rs ts i g k Hc. exact (recover_after_tear crc Hc f rs ts i g k). Qed.

Definition anytear (_ : list Z) : Prop := True.
Lemma cwrite32 P f rs ts i : crash_history crc32 P f rs ts -> item_okb i = true -> (zlen (it_data i) <? 2 ^ 32) = true ->
  crash_history crc32 P (app32 f i) (rs ++ [seen_as f i]) ts.
Proof.
  intros Hh Hi Hs. eapply CWrite; [exact Hh|apply item_okb_ok, Hi|]. unfold app32, append, write_record. rewrite Hs. reflexivity.
Qed.
Definition tear32 (f : list Z) (i : item) (n : Z) : list Z := slice (app32 f i) 0 (zlen f + n).
Lemma ccrash32 P f rs ts i n : crash_history crc32 P f rs ts -> item_okb i = true -> (zlen (it_data i) <? 2 ^ 32) = true ->
  ((0 <? n) && (zlen f + n <? zlen (app32 f i)))%bool = true -> P (slice (app32 f i) (zlen f) n) -> read_footer crc32 (tear32 f i n) = None ->
  writer_open crc32 (tear32 f i n) = tear32 f i n ->
  crash_history crc32 P (tear32 f i n) rs (ts ++ [zlen f]).
Proof.
  intros Hh Hi Hs Hn Ht Hf Hw. rewrite <- Hw. unfold tear32 in *.
  apply no_footer_read in Hf. apply CCrash with (i := i) (k := zlen f + n); auto.
  - apply item_okb_ok, Hi.
  - unfold app32, append, write_record. rewrite Hs. reflexivity.
  - lia.
  - replace (zlen f + n - zlen f) with n by lia. exact Ht.
Qed.

Ltac crash32 f rs ts i n :=
  refine (ccrash32 _ f rs ts i n _ _ _ _ _ _ _); [ |vm_cast_no_check (eq_refl true)|vm_cast_no_check (eq_refl true)|vm_cast_no_check (eq_refl true)| |vm_compute; reflexivity|vm_compute; reflexivity].
(** One crash inside the header (here after six bytes), restart, one acknowledged append: recovery does not return the appended
    record. *)
Definition i1 : item := Item 1 8 [1; 2; 3].
Definition i2 : item := Item 1 8 (repeat 120 20).
Definition i3 : item := Item 1 8 [9].
Definition f1 : list Z := app32 file0 i1.
Theorem C14_torn_header_refuted : exists f r1 r2 t, crash_history crc32 anytear f [r1; r2] [t] /\ rec_data r2 <> [] /\
  read_file crc32 skip_errors f = ([r1], Some Eof).
Proof.
  exists (app32 (tear32 f1 i2 6) i3), (seen_as file0 i1), (seen_as (tear32 f1 i2 6) i3), (zlen f1).
  split; [|split; [discriminate|vm_compute; reflexivity]].
  apply (cwrite32 _ _ [seen_as file0 i1] [zlen f1] i3); [|reflexivity|reflexivity].
  crash32 f1 [seen_as file0 i1] (@nil Z) i2 6; [|exact I].
  apply (cwrite32 _ _ [] [] i1); [apply CNew|reflexivity|reflexivity].
Qed.

(** Two crashes, the first in a record's data, the second in the next header: reading the file panics at every later start. *)
Theorem C14_two_crashes_refuted : exists f r1 t1 t2, crash_history crc32 anytear f [r1] [t1; t2] /\
  read_file crc32 skip_errors f = ([r1], None).
Proof.
  exists (tear32 (tear32 f1 i2 32) i3 6), (seen_as file0 i1), (zlen f1), (zlen (tear32 f1 i2 32)).
  split; [|vm_compute; reflexivity].
  crash32 (tear32 f1 i2 32) [seen_as file0 i1] [zlen f1] i3 6; [|exact I].
  crash32 f1 [seen_as file0 i1] (@nil Z) i2 32; [|exact I].
  apply (cwrite32 _ _ [] [] i1); [apply CNew|reflexivity|reflexivity].
Qed.

(** A record whose data contains the image of a record: torn after the image, recovery returns a record that was never written. *)
Definition inner : list Z := record_bytes crc32 1 8 [6; 6; 6].
Definition i4 : item := Item 1 8 (inner ++ repeat 7 20).
Theorem C14_phantom_refuted : exists f r1 t ghost, crash_history crc32 anytear f [r1] [t] /\
  read_file crc32 skip_errors f = ([r1; ghost], Some Eof).
Proof.
  exists (tear32 f1 i4 50), (seen_as file0 i1), (zlen f1), (Rec 8 1 [6; 6; 6] 35).
  split; [|vm_compute; reflexivity].
  crash32 f1 [seen_as file0 i1] (@nil Z) i4 50; [|exact I].
  apply (cwrite32 _ _ [] [] i1); [apply CNew|reflexivity|reflexivity].
Qed.

(** The hypotheses are met: three records, a handle used in between, a torn record followed by another append. *)
Example C13_nonvacuous : let f := app32 (app32 f1 i2) i3 in
  no_footer crc32 f /\ read_file crc32 skip_none f = ([seen_as file0 i1; seen_as f1 i2; seen_as (app32 f1 i2) i3], Some Eof)
  /\ history crc32 (no_footer crc32) f [seen_as file0 i1; seen_as f1 i2; seen_as (app32 f1 i2) i3].
Proof.
  split; [apply no_footer_read; vm_compute; reflexivity|]. split; [vm_compute; reflexivity|].
  apply (write32 _ _ [seen_as file0 i1; seen_as f1 i2] i3); [|reflexivity|reflexivity].
  apply (write32 _ _ [seen_as file0 i1] i2); [|reflexivity|reflexivity].
  apply (write32 _ _ [] i1); [apply HNew|reflexivity|reflexivity].
Qed.
Example C14_nonvacuous : let f := tear32 f1 i2 30 in let g := app32 f i3 in
  crash_history crc32 (fun t => short_tear t \/ clean_tear t) f [seen_as file0 i1] [zlen f1] /\ no_footer crc32 g
  /\ torn_detected crc32 g (zlen f1) /\ slice g (zlen f1) 4 = RECORD_MAGIC
  /\ read_file crc32 skip_errors g = ([seen_as file0 i1; seen_as f i3], Some Eof).
Proof.
  split; [|split; [|split; [|split]]].
  - crash32 f1 [seen_as file0 i1] (@nil Z) i2 30.
    + apply (cwrite32 _ _ [] [] i1); [apply CNew|reflexivity|reflexivity].
    + right. split; [vm_compute; discriminate|]. vm_compute. repeat (apply Forall_cons; [discriminate|]). apply Forall_nil.
  - apply no_footer_read. vm_compute. reflexivity.
  - right. vm_compute. discriminate.
  - vm_compute. reflexivity.
  - vm_compute. reflexivity.
Qed.

Print Assumptions C13_read_back_partial.
Print Assumptions C13_read_at_partial.
Print Assumptions C13_empty_last_refuted.
Print Assumptions C13_footer_refuted.
Print Assumptions C14_torn_tail_partial.
Print Assumptions C14_recovery_partial.
Print Assumptions C14_recovery_after_crash_partial.
Print Assumptions C14_torn_header_refuted.
Print Assumptions C14_two_crashes_refuted.
Print Assumptions C14_phantom_refuted.
