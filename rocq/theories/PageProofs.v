From Verif Require Import Prelude Bytes BitBuf Simple8bModel IntegerModel IntegerProofs TimestampModel TimestampProofs BooleanModel BooleanProofs
  FloatModel FloatProofs PageModel CodecSpec PageSpec.

Lemma present_eq {A} (c : list (option A)) : present c = non_nulls c.
Proof. induction c as [|[v|] c IH]; cbn; congruence. Qed.

(** *** bitmap *)
Lemma lsb_byte_bits l : (length l <= 8)%nat -> firstn (length l) (lsb_bits (lsb_byte l)) = l.
Proof.
  intros H. do 9 (destruct l as [|? l]; [clear; repeat match goal with b : bool |- _ => destruct b end; reflexivity|]).
  cbn [length] in H. lia.
Qed.
Lemma lsb_bits_length b : length (lsb_bits b) = 8%nat.
Proof. reflexivity. Qed.
Lemma unpack_pack_lsb fuel l : (length l <= fuel)%nat -> unpack_lsb (length l) (pack_lsb fuel l) = l.
Proof.
  revert l. induction fuel as [|f IH]; intros l H.
  - destruct l; [reflexivity|cbn in H; lia].
  - destruct l as [|b l]; [reflexivity|]. set (L := b :: l) in *.
    assert (HL1 : (1 <= length L)%nat) by (cbn [L length]; lia).
    change (pack_lsb (S f) L) with (lsb_byte (firstn 8 L) :: pack_lsb f (skipn 8 L)).
    unfold unpack_lsb. cbn [flat_map]. rewrite firstn_app, lsb_bits_length.
    specialize (IH (skipn 8 L)). rewrite skipn_length in IH. unfold unpack_lsb in IH.
    rewrite IH by lia.
    destruct (Nat.le_gt_cases 8 (length L)).
    + rewrite firstn_all2 by (rewrite lsb_bits_length; lia).
      assert (H8 : length (firstn 8 L) = 8%nat) by (rewrite firstn_length; lia).
      pose proof (lsb_byte_bits (firstn 8 L) ltac:(lia)) as HB. rewrite H8 in HB.
      rewrite (firstn_all2 (n := 8)) in HB by (rewrite lsb_bits_length; lia).
      rewrite HB. apply firstn_skipn.
    + rewrite (firstn_all2 (n := 8) L) by lia. rewrite (skipn_all2 (n := 8) L) by lia. rewrite app_nil_r.
      apply lsb_byte_bits. lia.
Qed.
Lemma pack_lsb_length fuel l : (length (pack_lsb fuel l) <= length l)%nat.
Proof.
  revert l. induction fuel as [|f IH]; intros l; cbn [pack_lsb length]; [lia|].
  destruct l as [|b l]; [cbn; lia|]. cbn [length]. specialize (IH (skipn 8 (b :: l))). rewrite skipn_length in IH. cbn [length] in IH. lia.
Qed.

(** *** strings *)
Section Ext.
Variable compress : Z -> list Z -> list Z.
Variable decompress : Z -> list Z -> result (list Z).
Variable pco_compress : list Z -> list Z.
Variable pco_decompress : list Z -> result (list Z).
Variable crc32 : list Z -> Z.
Variable utf8 : bytestr -> bool.
Hypothesis decompress_compress : forall e x, decompress e (compress e x) = Ok x.
Hypothesis pco_ok : forall x, pco_decompress (pco_compress x) = Ok x.
Hypothesis pco_nonempty : forall x, x <> [] -> pco_compress x <> [].
Hypothesis crc_u32 : forall x, 0 <= crc32 x < 2 ^ 32.

Lemma split_stream_spec c : column_of (good_str utf8) c -> split_stream utf8 (valid_bits c) (str_frame (non_nulls c)) = Ok c.
Proof.
  induction c as [|[s|] c IH]; intros HC; cbn [valid_bits map split_stream non_nulls]; auto; fold (valid_bits c).
  - destruct (HC s ltac:(left; auto)) as [Hu Hl]. unfold str_frame. cbn [flat_map]. rewrite <- app_assoc.
    rewrite take_u64_be by (unfold is_u64; lia). fold (str_frame (non_nulls c)).
    rewrite app_length. destruct (_ <? _) eqn:E; [lia|]. rewrite Nat2Z.id.
    rewrite firstn_app, Nat.sub_diag, firstn_all, firstn_O, app_nil_r. rewrite Hu.
    rewrite skipn_app, skipn_all, Nat.sub_diag. cbn [skipn app]. rewrite IH by eauto with col. reflexivity.
  - rewrite IH by eauto with col. reflexivity.
Qed.
Lemma varint_nonempty n rest : varint_enc n ++ rest <> [].
Proof. unfold varint_enc. cbn [varint_enc_fuel]. destruct (n >=? 128); discriminate. Qed.
Lemma split_stream_var_spec c : column_of (good_str utf8) c -> split_stream_var utf8 (valid_bits c) (str_frame_var (non_nulls c)) = Ok c.
Proof.
  induction c as [|[s|] c IH]; intros HC; cbn [valid_bits map split_stream_var non_nulls]; auto; fold (valid_bits c).
  - destruct (HC s ltac:(left; auto)) as [Hu Hl]. unfold str_frame_var. cbn [flat_map]. rewrite <- app_assoc. fold (str_frame_var (non_nulls c)).
    destruct (varint_enc (Z.of_nat (length s)) ++ s ++ str_frame_var (non_nulls c)) as [|z l] eqn:EL; [apply varint_nonempty in EL; tauto|].
    rewrite <- EL. rewrite varint_roundtrip by (unfold is_u64; lia).
    rewrite skipn_app, skipn_all, Nat.sub_diag. cbn [skipn app].
    rewrite app_length. destruct (_ <? _) eqn:E; [lia|]. rewrite Nat2Z.id.
    rewrite firstn_app, Nat.sub_diag, firstn_all, firstn_O, app_nil_r. rewrite Hu.
    rewrite skipn_app, skipn_all, Nat.sub_diag. cbn [skipn app]. rewrite IH by eauto with col. reflexivity.
  - rewrite IH by eauto with col. reflexivity.
Qed.
Lemma str_roundtrip enc c : column_of (good_str utf8) c ->
  str_decode decompress utf8 (get_encoding (str_encode compress enc (non_nulls c))) (str_encode compress enc (non_nulls c)) (valid_bits c) = Ok c.
Proof.
  intros HC. unfold str_encode. destruct (non_nulls c) as [|s r] eqn:E.
  - cbn [str_decode]. f_equal. symmetry. apply no_values; auto.
  - rewrite <- E. destruct (enc =? ENC_NULL) eqn:E1.
    + cbn [get_encoding str_decode]. change (ENC_NULL =? ENC_NULL) with true. cbv iota. apply split_stream_spec; auto.
    + destruct ((enc =? ENC_GZIP) || (enc =? ENC_BZIP) || (enc =? ENC_ZSTD) || (enc =? ENC_ZLIB))%bool eqn:E2.
      * cbn [get_encoding str_decode]. rewrite E1, E2, decompress_compress. cbn [rbind]. apply split_stream_spec; auto.
      * cbn [get_encoding str_decode]. change (ENC_SNAPPY =? ENC_NULL) with false.
        change ((ENC_SNAPPY =? ENC_GZIP) || (ENC_SNAPPY =? ENC_BZIP) || (ENC_SNAPPY =? ENC_ZSTD) || (ENC_SNAPPY =? ENC_ZLIB))%bool with false. cbv iota.
        rewrite decompress_compress. cbn [rbind]. apply split_stream_var_spec; auto.
Qed.

(** *** codec dispatch *)
Lemma fill_lenient_spec c : fill_lenient (valid_bits c) (non_nulls c) = c.
Proof. induction c as [|[v|] c IH]; cbn [valid_bits map fill_lenient non_nulls]; auto; fold (valid_bits c); congruence. Qed.

Lemma i64_encode_header src b : i64_encode src = Ok b -> src = [] /\ b = [] \/ exists t, b = ENC_DELTA :: t.
Proof.
  destruct src as [|x rest]; cbn [i64_encode]; intros H; [left; inversion H; auto|right].
  destruct (_ && _)%bool.
  - destruct (zz_deltas x rest); inversion H; eauto.
  - destruct (_ >? _); [inversion H; eauto|]. destruct (s8b_encode _); cbn [rbind] in H; inversion H; eauto.
Qed.
Lemma ts_encode_header src b : ts_encode src = Ok b -> src = [] /\ b = [] \/ exists t, b = ENC_DELTATS :: t.
Proof.
  destruct src as [|x rest]; cbn [ts_encode]; intros H; [left; inversion H; auto|right].
  destruct (raw_deltas x rest).
  - destruct (s8b_encode _); cbn [rbind] in H; inversion H; eauto.
  - destruct (all_equal _); [inversion H; eauto|]. destruct (_ >? _); [inversion H; eauto|].
    destruct (s8b_encode _); cbn [rbind] in H; inversion H; eauto.
Qed.

Lemma empty_page_int b bs : dec_int pco_decompress b ENC_UNKNOWN [] bs = Ok (repeat None (length bs)).
Proof. unfold dec_int. change (ENC_UNKNOWN =? ENC_NULL) with false. change (ENC_UNKNOWN =? ENC_DELTA) with false.
  change (ENC_UNKNOWN =? ENC_DELTATS) with false. change (ENC_UNKNOWN =? ENC_QUANTILE) with false. destruct b; reflexivity. Qed.

Lemma int_roundtrip d enc c : column_of is_i64 c -> (uses_deltats d enc = true -> forall c', c <> None :: c') ->
  exists b, enc_int pco_compress d enc (non_nulls c) = Ok b /\ dec_int pco_decompress d (get_encoding b) b (valid_bits c) = Ok c.
Proof.
  intros HC HN.
  assert (E0 : non_nulls c = [] -> dec_int pco_decompress d (get_encoding []) [] (valid_bits c) = Ok c).
  { intros H. cbn [get_encoding]. rewrite empty_page_int. f_equal. symmetry. apply no_values; auto. }
  assert (D1 : exists b, i64_encode (non_nulls c) = Ok b /\ dec_int pco_decompress d (get_encoding b) b (valid_bits c) = Ok c).
  { destruct (i64_roundtrip c HC) as (b&HE&HD). exists b. split; auto.
    destruct (i64_encode_header _ _ HE) as [[Hs ->]|[t ->]]; auto. }
  assert (D2 : uses_deltats d enc = true -> exists b, ts_encode (non_nulls c) = Ok b /\ dec_int pco_decompress d (get_encoding b) b (valid_bits c) = Ok c).
  { intros HU. destruct (ts_roundtrip c HC (HN HU)) as (b&HE&HD). exists b. split; auto.
    destruct (ts_encode_header _ _ HE) as [[Hs ->]|[t ->]]; auto. }
  unfold enc_int. unfold uses_deltats in D2.
  destruct (enc =? ENC_NULL) eqn:E1.
  { eexists. split; [reflexivity|]. pose proof (ts_null_roundtrip c HC) as H. unfold ts_null_encode in *.
    destruct (non_nulls c) eqn:E; [apply E0; auto|]. exact H. }
  destruct (enc =? ENC_DELTA) eqn:E2; auto.
  destruct (enc =? ENC_DELTATS) eqn:E3; [apply D2; reflexivity|].
  destruct (enc =? ENC_QUANTILE) eqn:E4.
  { eexists. split; [reflexivity|]. unfold pco_encode. destruct (non_nulls c) as [|x r] eqn:E; [apply E0; auto|].
    change (dec_int pco_decompress d (get_encoding (ENC_QUANTILE :: pco_compress (x :: r))) (ENC_QUANTILE :: pco_compress (x :: r)) (valid_bits c))
      with (pco_decode_i64 pco_decompress (ENC_QUANTILE :: pco_compress (x :: r)) (valid_bits c)).
    cbn [pco_decode_i64]. rewrite pco_ok. cbn [rbind]. rewrite <- E, fill_lenient_spec. reflexivity. }
  destruct d; auto.
Qed.

Lemma u64_map_roundtrip c : column_of is_u64 c -> map (option_map wrap_u64) (map (option_map wrap_i64) c) = c.
Proof.
  intros HC. rewrite map_map. rewrite <- (map_id c) at 2. apply map_ext_in. intros [v|] Hv; auto. cbn. f_equal.
  assert (is_u64 v) by (apply HC; auto). wr.
Qed.
Lemma repeat_map_none n : map (option_map wrap_u64) (repeat None n) = repeat None n.
Proof. induction n; cbn; congruence. Qed.
Lemma u64_col_roundtrip enc c : column_of is_u64 c ->
  exists b, enc_u64 pco_compress enc (non_nulls c) = Ok b /\ dec_u64 pco_decompress (get_encoding b) b (valid_bits c) = Ok c.
Proof.
  intros HC.
  assert (HC' : column_of is_i64 (map (option_map wrap_i64) c)).
  { intros v Hv. apply in_map_iff in Hv as (o&Ho&_). destruct o; inversion Ho. apply wrap_i64_is_i64. }
  assert (E0 : non_nulls c = [] -> dec_u64 pco_decompress (get_encoding []) [] (valid_bits c) = Ok c).
  { intros H. unfold dec_u64. cbn [get_encoding]. change (ENC_UNKNOWN =? ENC_NULL) with false. change (ENC_UNKNOWN =? ENC_QUANTILE) with false. cbv iota.
    cbn [u64_decode]. f_equal. symmetry. apply no_values; auto. }
  unfold enc_u64. destruct (enc =? ENC_NULL) eqn:E1.
  { eexists. split; [reflexivity|]. pose proof (ts_null_roundtrip _ HC') as H. rewrite non_nulls_map, valid_bits_map in H.
    unfold ts_null_encode in *. destruct (non_nulls c) as [|x r] eqn:E; [apply E0; auto|]. cbn [map] in *.
    unfold dec_u64. change (get_encoding (ENC_NULL :: _)) with ENC_NULL. change (ENC_NULL =? ENC_NULL) with true. cbv iota.
    rewrite H. unfold rmap. cbn [rbind]. rewrite u64_map_roundtrip; auto. }
  destruct (enc =? ENC_QUANTILE) eqn:E4.
  { eexists. split; [reflexivity|]. unfold pco_encode. destruct (non_nulls c) as [|x r] eqn:E; [apply E0; auto|]. cbn [map].
    unfold dec_u64. change (get_encoding (ENC_QUANTILE :: _)) with ENC_QUANTILE. change (ENC_QUANTILE =? ENC_NULL) with false. change (ENC_QUANTILE =? ENC_QUANTILE) with true. cbv iota.
    cbn [pco_decode_i64]. rewrite pco_ok. unfold rmap. cbn [rbind].
    change (wrap_i64 x :: map wrap_i64 r) with (map wrap_i64 (x :: r)). rewrite <- E.
    pose proof (fill_lenient_spec (map (option_map wrap_i64) c)) as H. rewrite non_nulls_map, valid_bits_map in H. rewrite H.
    rewrite u64_map_roundtrip; auto. }
  destruct (u64_roundtrip c HC) as (b&HE&HD). exists b. split; auto.
  unfold u64_encode in HE. destruct (i64_encode_header _ _ HE) as [[Hs ->]|[t ->]].
  - apply E0. destruct (non_nulls c); [auto|discriminate].
  - exact HD.
Qed.

Lemma f64_col_roundtrip enc c b : column_of is_u64 c ->
  (enc <> ENC_NULL -> enc <> ENC_QUANTILE -> non_nulls c <> [SENTINEL]) ->
  enc_f64 pco_compress enc (non_nulls c) = Ok b -> dec_f64 pco_decompress (get_encoding b) b (valid_bits c) = Ok c.
Proof.
  intros HC HN.
  assert (E0 : non_nulls c = [] -> dec_f64 pco_decompress (get_encoding []) [] (valid_bits c) = Ok c).
  { intros H. unfold dec_f64. cbn [get_encoding]. change (ENC_UNKNOWN =? ENC_NULL) with false. change (ENC_UNKNOWN =? ENC_QUANTILE) with false. cbv iota.
    cbn [f64_decode]. f_equal. symmetry. apply no_values; auto. }
  unfold enc_f64. destruct (enc =? ENC_NULL) eqn:E1.
  { intros [= <-]. pose proof (f64_null_roundtrip c HC) as H. unfold f64_null_encode in *.
    destruct (non_nulls c) eqn:E; [apply E0; auto|]. exact H. }
  destruct (enc =? ENC_QUANTILE) eqn:E4.
  { intros [= <-]. unfold pco_encode. destruct (non_nulls c) as [|x r] eqn:E; [apply E0; auto|].
    change (dec_f64 pco_decompress (get_encoding (ENC_QUANTILE :: pco_compress (x :: r))) (ENC_QUANTILE :: pco_compress (x :: r)) (valid_bits c))
      with (pco_decode_f64 pco_decompress (ENC_QUANTILE :: pco_compress (x :: r)) (valid_bits c)).
    unfold pco_decode_f64. destruct (pco_compress (x :: r)) as [|z l] eqn:EP; [exfalso; apply (pco_nonempty (x :: r)); [discriminate|auto]|].
    rewrite <- EP, pco_ok. cbn [rbind]. rewrite <- E. apply fill_slots_spec. }
  intros HE. pose proof (f64_roundtrip c b HC (HN ltac:(lia) ltac:(lia)) HE) as HD.
  destruct (non_nulls c) as [|x r] eqn:E.
  - inversion HE; subst. apply E0; auto.
  - cbn [f64_encode] in HE. destruct (existsb _ r); [discriminate|]. inversion HE as [HB]. rewrite <- HB in HD. exact HD.
Qed.

Lemma bool_col_roundtrip enc c : Z.of_nat (length c) < 2 ^ 32 ->
  exists b, enc_bool enc (non_nulls c) = Ok b /\ dec_bool (get_encoding b) b (valid_bits c) = Ok c.
Proof.
  intros HL. unfold enc_bool. destruct (enc =? ENC_NULL) eqn:E1.
  { eexists. split; [reflexivity|]. pose proof (bool_null_roundtrip c) as H. unfold dec_bool.
    unfold bool_null_encode in *. cbn [get_encoding]. change (ENC_NULL =? ENC_NULL) with true. cbv iota. congruence. }
  destruct (bool_roundtrip c) as (b&HE&HD). { assert (2 ^ 32 < 2 ^ 56) by reflexivity. lia. }
  exists b. split; auto. unfold dec_bool. destruct b as [|z b]; auto.
  destruct (non_nulls c) as [|x r] eqn:E; [discriminate|].
  rewrite bool_encode_cons in HE by discriminate. cbv zeta in HE. destruct (_ <? _)%nat; [discriminate|].
  destruct (bool_loop _ _ _) as [[dst n]| | |] eqn:EL; try discriminate. cbn [rbind] in HE.
  assert (Hz : z = ENC_BITPACK).
  { pose proof (bool_loop_low _ _ _ _ _ EL 0%nat) as H0. cbn [nth] in H0.
    assert (Hd : nth 0 dst 0 = ENC_BITPACK). { apply H0. pose proof (Nat.div_str_pos (8 + length (varint_enc (Z.of_nat (length (x :: r)))) * 8) 8). lia. }
    destruct dst as [|d0 dst]; [rewrite firstn_nil in HE; discriminate|]. cbn [nth] in Hd.
    rewrite Nat.add_1_r in HE. cbn [firstn] in HE. inversion HE; subst; auto. }
  subst z. exact HD.
Qed.

(** *** pages *)
Lemma page_parts_write bitmap valid buf crc : Z.of_nat (length valid) < 2 ^ 32 -> 0 <= crc < 2 ^ 32 ->
  bitmap = pack_lsb (length valid) valid ->
  page_parts (be_bytes 4 (Z.of_nat (length bitmap)) ++ be_bytes 8 (Z.of_nat (length valid)) ++ be_bytes 4 crc ++ bitmap ++ buf)
   = Some (crc, valid, buf).
Proof.
  intros HL HC HB. unfold page_parts. rewrite !app_length, !be_bytes_length.
  destruct (_ <? 16)%nat eqn:E; [apply Nat.ltb_lt in E; lia|].
  set (A := be_bytes 4 (Z.of_nat (length bitmap))). set (B := be_bytes 8 (Z.of_nat (length valid))). set (C := be_bytes 4 crc).
  assert (LA : length A = 4%nat) by apply be_bytes_length. assert (LB : length B = 8%nat) by apply be_bytes_length. assert (LC : length C = 4%nat) by apply be_bytes_length.
  assert (F1 : firstn 4 (A ++ B ++ C ++ bitmap ++ buf) = A).
  { rewrite firstn_app, LA, Nat.sub_diag, firstn_O, app_nil_r. apply firstn_all2; lia. }
  assert (S1 : skipn 4 (A ++ B ++ C ++ bitmap ++ buf) = B ++ C ++ bitmap ++ buf).
  { rewrite skipn_app, LA, Nat.sub_diag. rewrite skipn_all2 by lia. reflexivity. }
  assert (F2 : firstn 8 (B ++ C ++ bitmap ++ buf) = B).
  { rewrite firstn_app, LB, Nat.sub_diag, firstn_O, app_nil_r. apply firstn_all2; lia. }
  assert (S2 : skipn 12 (A ++ B ++ C ++ bitmap ++ buf) = C ++ bitmap ++ buf).
  { rewrite app_assoc. rewrite skipn_app, app_length, LA, LB, Nat.sub_diag. rewrite skipn_all2 by (rewrite app_length; lia). reflexivity. }
  assert (F3 : firstn 4 (C ++ bitmap ++ buf) = C).
  { rewrite firstn_app, LC, Nat.sub_diag, firstn_O, app_nil_r. apply firstn_all2; lia. }
  assert (S3 : skipn 16 (A ++ B ++ C ++ bitmap ++ buf) = bitmap ++ buf).
  { rewrite !(app_assoc A), !(app_assoc (A ++ B)). rewrite skipn_app, !app_length, LA, LB, LC, Nat.sub_diag. rewrite skipn_all2 by (rewrite !app_length; lia). reflexivity. }
  rewrite F1, S1, F2, S2, F3, S3.
  assert (Hbl : (length bitmap <= length valid)%nat) by (subst bitmap; apply pack_lsb_length).
  unfold A, B, C. rewrite !of_be_be_bytes.
  change (256 ^ Z.of_nat 4) with (2 ^ 32). change (256 ^ Z.of_nat 8) with (2 ^ 64).
  assert (2 ^ 32 < 2 ^ 64) by reflexivity.
  rewrite !Z.mod_small by lia. rewrite !Nat2Z.id. rewrite app_length.
  clear E. destruct (_ <? _)%nat eqn:E2; [apply Nat.ltb_lt in E2; lia|].
  rewrite firstn_app, Nat.sub_diag, firstn_O, app_nil_r, firstn_all.
  rewrite skipn_app, Nat.sub_diag, skipn_all. cbn [skipn app].
  subst bitmap. rewrite unpack_pack_lsb by lia. reflexivity.
Qed.

Lemma page_roundtrip enc c bytes : wf_column utf8 c -> page_safe enc c -> Z.of_nat (length (validity c)) < 2 ^ 32 ->
  write_page compress pco_compress crc32 enc c = Ok bytes ->
  read_page decompress pco_decompress crc32 utf8 (ptype_of c) bytes = Ok c.
Proof.
  intros HW HS HL. unfold write_page. destruct (encode_column compress pco_compress enc c) as [buf| | |] eqn:EE; cbn [rbind]; try discriminate.
  intros HB. set (bm := pack_lsb (length (validity c)) (validity c)) in *.
  assert (Hb : bytes = be_bytes 4 (Z.of_nat (length bm)) ++ be_bytes 8 (Z.of_nat (length (validity c))) ++ be_bytes 4 (crc32 buf) ++ bm ++ buf) by congruence.
  rewrite Hb. unfold read_page. rewrite (page_parts_write bm (validity c) buf (crc32 buf)) by (auto; reflexivity).
  rewrite Z.eqb_refl. cbn [negb].
  destruct c as [c|c|c|c|c|c]; cbn [encode_column ptype_of validity wf_column page_safe] in *; fold (valid_bits c) in *; rewrite present_eq in EE.
  - destruct (int_roundtrip true enc c HW HS) as (b&HE&HD). assert (b = buf) by congruence. subst. rewrite HD. reflexivity.
  - destruct (int_roundtrip false enc c HW HS) as (b&HE&HD). assert (b = buf) by congruence. subst. rewrite HD. reflexivity.
  - destruct (u64_col_roundtrip enc c HW) as (b&HE&HD). assert (b = buf) by congruence. subst. rewrite HD. reflexivity.
  - rewrite (f64_col_roundtrip enc c buf HW HS EE). reflexivity.
  - unfold valid_bits in HL. rewrite map_length in HL. destruct (bool_col_roundtrip enc c HL) as (b&HE&HD). assert (b = buf) by congruence. subst. rewrite HD. reflexivity.
  - pose proof (str_roundtrip enc c HW) as HD. injection EE as <-. rewrite HD. reflexivity.
Qed.

(** Writing fails only for floats containing the end marker after the first value. *)
Lemma page_write_ok enc c : wf_column utf8 c -> page_safe enc c -> Z.of_nat (length (validity c)) < 2 ^ 32 ->
  match c with ColF64 c => enc = ENC_NULL \/ enc = ENC_QUANTILE \/ ~ In SENTINEL (tl (non_nulls c)) | _ => True end ->
  exists bytes, write_page compress pco_compress crc32 enc c = Ok bytes.
Proof.
  intros HW HS HL HF. unfold write_page.
  assert (exists buf, encode_column compress pco_compress enc c = Ok buf) as [buf ->]; [|eexists; reflexivity].
  destruct c as [c|c|c|c|c|c]; cbn [encode_column ptype_of validity wf_column page_safe] in *; fold (valid_bits c) in *; rewrite present_eq.
  - destruct (int_roundtrip true enc c HW HS) as (b&HE&HD). eauto.
  - destruct (int_roundtrip false enc c HW HS) as (b&HE&HD). eauto.
  - destruct (u64_col_roundtrip enc c HW) as (b&HE&HD). eauto.
  - unfold enc_f64. destruct (enc =? ENC_NULL) eqn:E1; eauto. destruct (enc =? ENC_QUANTILE) eqn:E2; eauto.
    apply f64_encode_ok. destruct HF as [?|[?|?]]; auto; lia.
  - unfold valid_bits in HL. rewrite map_length in HL. destruct (bool_col_roundtrip enc c HL) as (b&HE&HD). eauto.
  - eauto.
Qed.
End Ext.
