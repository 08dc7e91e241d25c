(** The Writer as a whole: invariant of a session (NewWriter/Reset .. Close). *)
From Verif Require Import Base SpecChecksum SpecEvents SpecHuffman SpecDeflate SpecFormats MChecksum PChecksum MToken MCommon MWriter MReader SpecLib
  PToken PHuffman PTree PBits PActs PBlocks PCompress.

(** ** Contract of buffer.LZ77 (library) for a meaning [lk] of back references:
    reported matches are real, of legal length and distance. *)
Definition match_ok (env : wenv) (o : lzopts) (lk : list N -> N -> option N) : Prop :=
  forall calls hist buf d len, e_match env calls o hist buf = Some (d, len) ->
    (3 <= len <= 258)%N /\ (len <= lenN buf)%N /\ (1 <= d <= 32768)%N /\
    forall i, (N.of_nat i < len)%N -> lk (rev (firstn i buf) ++ hist) d = nth_error buf i.

(** ** Checksums of the input *)
Definition sums_of (s : wsum) (data : list N) : Prop :=
  inAdler s = spec_adler32 data /\ inCRC s = spec_crc32 data /\ inStream s = (lenN data mod two64)%N.

Lemma sums_app s d p : sums_of s d -> bytes_ok d -> bytes_ok p -> sums_of (sum_bytes s p) (d ++ p).
Proof.
  intros [H1 [H2 H3]] Hd Hp. unfold sums_of, sum_bytes; cbn [inAdler inCRC inStream].
  assert (A1 := @adler_chunks [d] (Forall_cons _ Hd (Forall_nil _))).
  assert (A2 := @adler_chunks [d; p] (Forall_cons _ Hd (Forall_cons _ Hp (Forall_nil _)))).
  assert (C1 := @crc_chunks [d] (Forall_cons _ Hd (Forall_nil _))).
  assert (C2 := @crc_chunks [d; p] (Forall_cons _ Hd (Forall_cons _ Hp (Forall_nil _)))).
  cbn [fold_left concat] in *. rewrite !app_nil_r in *.
  rewrite H1, H2, H3, <- A1, <- C1, A2, C2. repeat split; auto.
  unfold add64. rewrite lenN_app, N.add_mod_idemp_l by discriminate. reflexivity.
Qed.
Lemma sums_reset t s : s = 0%N -> sums_of (WSum adler_reset crc_reset t s) [].
Proof. intros ->. repeat split. Qed.

(** ** Events *)
Lemma EvCnt_trace w s k k' pres evs' : EvTrace w 0 s k k' pres evs' ->
  forall evs ti, EvCnt evs ti k -> inTotal (w_in w) = (ti mod two64)%N -> EvCnt (evs ++ evs') ti k'.
Proof.
  induction 1 as [k k' Hk|k k1 k' p pres evs' Hk HE IH]; intros evs ti HC Ht.
  - rewrite app_nil_r. eapply ec_weaken; eauto. lia.
  - change (?a :: ?b) with ([a] ++ b). rewrite app_assoc. apply IH; auto.
    eapply (ec_snoc HC); [lia|exact Hk| |].
    + unfold mk_ev; cbn [e_inTotal]. auto.
    + unfold mk_ev; cbn [e_outTotal]. unfold add64. now rewrite N.add_0_l.
Qed.

Lemma map_pre_trace w t s k k' pres evs : EvTrace w t s k k' pres evs -> map pre_of evs = pres.
Proof. induction 1; cbn [map]; auto. f_equal; auto. destruct p; reflexivity. Qed.

(** ** Bytes from bits *)
Lemma bits_prefix a s m : bytes_ok a -> bytes_ok s -> bits_of_bytes s = bits_of_bytes a ++ m ->
  exists t, s = a ++ t /\ bits_of_bytes t = m.
Proof.
  intros Ha Hs H. exists (skipn (length a) s).
  assert (L : length a <= length s).
  { apply (f_equal (@length bool)) in H. rewrite app_length, !length_bits_of_bytes in H. lia. }
  rewrite <- (firstn_skipn (length a) s), bits_of_bytes_app in H.
  apply app_inj_length in H.
  - destruct H as [H1 H2]. split; auto.
    apply bits_of_bytes_inj in H1; auto.
    + rewrite <- H1 at 1. now rewrite firstn_skipn.
    + apply (bytes_ok_app (firstn (length a) s) (skipn (length a) s)). now rewrite firstn_skipn.
  - rewrite !length_bits_of_bytes, firstn_length. lia.
Qed.

Lemma bits_suffix f s m : bytes_ok f -> bytes_ok s -> bits_of_bytes s = m ++ bits_of_bytes f ->
  exists b, s = b ++ f /\ bits_of_bytes b = m.
Proof.
  intros Hf Hs H. set (n := length s - length f).
  assert (L : 8 * length s = length m + 8 * length f).
  { apply (f_equal (@length bool)) in H. rewrite app_length, !length_bits_of_bytes in H. lia. }
  exists (firstn n s).
  rewrite <- (firstn_skipn n s), bits_of_bytes_app in H.
  apply app_inj_length in H.
  - destruct H as [H1 H2]. split; auto.
    apply bits_of_bytes_inj in H2; auto.
    + rewrite <- H2 at 1. now rewrite firstn_skipn.
    + apply (bytes_ok_app (firstn n s) (skipn n s)). now rewrite firstn_skipn.
  - rewrite !length_bits_of_bytes, firstn_length. unfold n. lia.
Qed.

(** ** Headers *)
Definition header_typed (h : header) : Prop :=
  bytes_ok (h_name h) /\ bytes_ok (h_comment h) /\
  Forall (fun r => is_byte (x_id0 r) /\ is_byte (x_id1 r) /\ bytes_ok (x_bytes r)) (h_extra h).
(** what SetHeader checks *)
Definition header_checked (h : header) : Prop :=
  checkHeaderFileName h + checkHeaderComment h + checkHeaderLastModified h
  + checkHeaderOSType h + checkHeaderExtraData h = 0.
Definition header_ok (h : header) : Prop := header_typed h /\ header_checked h.

Lemma indexByte_none l c : indexByte l c = None <-> ~ In c l.
Proof.
  induction l as [|x l IH]; cbn [indexByte In]; [tauto|].
  destruct (N.eqb_spec x c) as [->|Hne]; [split; [discriminate|tauto]|].
  destruct (indexByte l c); split; intros H; auto; try discriminate.
  - exfalso. assert (E : Some n = None) by (apply IH; tauto). discriminate.
  - intros [H1|H1]; [congruence|]. apply IH in H1; auto.
Qed.
Lemma has_byte_spec l c : has_byte l c = true <-> In c l.
Proof.
  unfold has_byte. destruct (indexByte l c) eqn:E.
  - split; auto. intros _. destruct (in_dec N.eq_dec c l) as [H|H]; auto. apply indexByte_none in H. congruence.
  - apply indexByte_none in E. split; [discriminate|tauto].
Qed.

(** Bytes of the stream header for header [h] *)
Definition gzip_body (o : options) (h : header) : list N :=
  gzipHeader10 o h
  ++ match h_extra h with [] => [] | _ => le16 (lenN (extra_bytes (h_extra h)) mod two16) ++ extra_bytes (h_extra h) end
  ++ match h_name h with [] => [] | _ => h_name h ++ [0%N] end
  ++ match h_comment h with [] => [] | _ => h_comment h ++ [0%N] end.
Definition hdr_bytes (o : options) (h : header) : list N :=
  match o_format o with
  | RawFormat | DefaultFormat => []
  | ZlibFormat => zlibHeaderBytes o
  | GZIPFormat => gzip_body o h ++ le16 (crc_update crc_reset (gzip_body o h) mod two16)
  end.
Definition ftr_bytes (o : options) (data : list N) : list N :=
  match o_format o with
  | RawFormat | DefaultFormat => []
  | ZlibFormat => be32 (spec_adler32 data)
  | GZIPFormat => le32 (spec_crc32 data) ++ le32 (lenN data mod two32)
  end.

Lemma gzip10_ok o h : bytes_ok (gzipHeader10 o h).
Proof.
  unfold gzipHeader10, gzipFlagBits, bytes_ok.
  apply Forall_app; split; [|apply Forall_app; split].
  - repeat constructor; unfold is_byte; destruct (h_datatype h), (h_extra h), (h_name h), (h_comment h); vm_compute; reflexivity.
  - destruct (h_mtime h); [apply le32_bytes|repeat constructor].
  - repeat constructor; unfold is_byte.
    + destruct (lowLevel o), (o_clevel o =? 9)%Z; reflexivity.
    + unfold ostype_encode. destruct ((1 <=? h_os h)%N && (h_os h <=? 14)%N) eqn:E; [|reflexivity]. lia.
Qed.
Lemma extra_bytes_ok l : Forall (fun r => is_byte (x_id0 r) /\ is_byte (x_id1 r) /\ bytes_ok (x_bytes r)) l ->
  bytes_ok (extra_bytes l).
Proof.
  induction 1 as [|r l [H1 [H2 H3]] Hl IH]; [constructor|].
  unfold extra_bytes. cbn [flat_map]. fold (extra_bytes l).
  apply bytes_ok_app. split; auto. apply bytes_ok_app. split; [repeat constructor; auto|].
  apply bytes_ok_app. split; auto. apply le16_bytes.
Qed.
Lemma zero_byte : bytes_ok [0%N].
Proof. repeat constructor. Qed.
Lemma gzip_body_ok o h : header_typed h -> bytes_ok (gzip_body o h).
Proof.
  intros [H1 [H2 H3]]. unfold gzip_body.
  apply bytes_ok_app. split; [apply gzip10_ok|].
  apply bytes_ok_app. split.
  { pose proof (extra_bytes_ok H3). destruct (h_extra h); [constructor|].
    apply bytes_ok_app. split; auto. apply le16_bytes. }
  apply bytes_ok_app. split.
  - destruct (h_name h); [constructor|]. apply bytes_ok_app. split; auto. apply zero_byte.
  - destruct (h_comment h); [constructor|]. apply bytes_ok_app. split; auto. apply zero_byte.
Qed.

Lemma lor_lt a b n : (a < 2 ^ n -> b < 2 ^ n -> N.lor a b < 2 ^ n)%N.
Proof.
  intros Ha Hb. destruct (N.eq_dec (N.lor a b) 0) as [->|E]; [apply pow2_pos|].
  apply N.log2_lt_pow2; [lia|]. rewrite N.log2_lor. apply N.max_lub_lt.
  - destruct (N.eq_dec a 0) as [->|]; [|apply N.log2_lt_pow2; lia].
    cbn. destruct n; [|lia]. change (2 ^ 0)%N with 1%N in *. assert (b = 0)%N by lia. subst. cbn in E. congruence.
  - destruct (N.eq_dec b 0) as [->|]; [|apply N.log2_lt_pow2; lia].
    cbn. destruct n; [|lia]. change (2 ^ 0)%N with 1%N in *. assert (a = 0)%N by lia. subst. cbn in E. congruence.
Qed.
Lemma zlib_hdr_ok o : bytes_ok (zlibHeaderBytes o).
Proof.
  unfold zlibHeaderBytes. set (fl := if lowLevel o then _ else _).
  assert (F : (fl <= 3)%N) by (unfold fl; repeat match goal with |- context [if ?b then _ else _] => destruct b end; lia).
  clearbody fl.
  apply bytes_ok_app. split.
  - constructor; [|constructor; [|constructor]]; unfold is_byte; change 256%N with (2 ^ 8)%N.
    + apply lor_lt; [|reflexivity]. apply N.mod_lt. discriminate.
    + apply lor_lt.
      * destruct (o_dict o); [apply lor_lt; [|reflexivity]|]; apply N.mod_lt; discriminate.
      * change (2 ^ 8)%N with 256%N. lia.
  - destruct (o_dict o); [apply be32_bytes|constructor].
Qed.
Lemma hdr_bytes_ok o h : header_typed h -> bytes_ok (hdr_bytes o h).
Proof.
  intros H. unfold hdr_bytes. destruct (o_format o); try (apply Forall_nil).
  - apply zlib_hdr_ok.
  - apply bytes_ok_app. split; [apply gzip_body_ok; auto|apply le16_bytes].
Qed.
Lemma ftr_bytes_ok o d : bytes_ok (ftr_bytes o d).
Proof.
  unfold ftr_bytes. destruct (o_format o); try (apply Forall_nil); [apply be32_bytes|].
  apply bytes_ok_app. split; apply le32_bytes.
Qed.
