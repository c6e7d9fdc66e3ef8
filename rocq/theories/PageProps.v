(** C44: data pages are lossless. *)
From Verif Require Import Prelude Bytes TimestampModel IntegerModel FloatModel PageModel CodecSpec PageSpec PageProofs.

(** Whatever the codec byte [enc] configured for the column, a column written to a page and read back is the
    same column.  Third-party compressors and the CRC are arbitrary functions; what is asked of them is that
    decompression inverts compression and that the checksum is 32 bits wide.
    Partial: [page_safe] excludes the two cases refuted under C07 and C09. *)
Theorem C44_page_roundtrip_partial :
  forall compress decompress pco_compress pco_decompress crc32 utf8,
  (forall e x, decompress e (compress e x) = Ok x) ->
  (forall x, pco_decompress (pco_compress x) = Ok x) -> (forall x, x <> [] -> pco_compress x <> []) ->
  (forall x, 0 <= crc32 x < 2 ^ 32) ->
  forall enc c bytes, wf_column utf8 c -> page_safe enc c -> Z.of_nat (length (validity c)) < 2 ^ 32 ->
  write_page compress pco_compress crc32 enc c = Ok bytes ->
  read_page decompress pco_decompress crc32 utf8 (ptype_of c) bytes = Ok c.
Proof. exact page_roundtrip. Qed.
Print Assumptions C44_page_roundtrip_partial.

(** Writing a page succeeds, except for gorilla float pages holding the end marker after the first value. *)
Theorem C44_page_write_total :
  forall compress decompress pco_compress pco_decompress crc32 utf8,
  (forall e x, decompress e (compress e x) = Ok x) ->
  (forall x, pco_decompress (pco_compress x) = Ok x) -> (forall x, x <> [] -> pco_compress x <> []) ->
  (forall x, 0 <= crc32 x < 2 ^ 32) ->
  forall enc c, wf_column utf8 c -> page_safe enc c -> Z.of_nat (length (validity c)) < 2 ^ 32 ->
  match c with ColF64 c => enc = ENC_NULL \/ enc = ENC_QUANTILE \/ ~ In SENTINEL (tl (non_nulls c)) | _ => True end ->
  exists bytes, write_page compress pco_compress crc32 enc c = Ok bytes.
Proof. exact page_write_ok. Qed.
Print Assumptions C44_page_write_total.

(** A string page with a null and an empty string, default codec; identity stands in for the compressors. *)
Example C44_nonvacuous :
  let id2 := fun (_ : Z) (x : list Z) => x in let ok2 := fun (_ : Z) (x : list Z) => Ok x in
  let c := ColStr [Some [104; 105]; None; Some []] in
  wf_column (fun _ => true) c /\ page_safe 0 c /\
  exists b, write_page id2 (fun x => x) (fun _ => 77) 0 c = Ok b /\
            read_page ok2 Ok (fun _ => 77) (fun _ => true) TStr b = Ok c /\
            read_page ok2 Ok (fun _ => 78) (fun _ => true) TStr b = Err.
Proof.
  cbn zeta. split; [|split; [exact I|]].
  - intros s [H|[H|[H|[]]]]; inversion H; subst; (split; [reflexivity|vm_compute; discriminate]).
  - eexists. split; [vm_compute; reflexivity|]. split; vm_compute; reflexivity.
Qed.
