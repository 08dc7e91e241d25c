(** Stream headers of the Writer against RFC 1950 / RFC 1952; SetHeader's checks. *)
From Verif Require Import Base SpecChecksum SpecEvents SpecHuffman SpecDeflate SpecFormats SpecSession MChecksum PChecksum MToken MCommon MWriter MReader SpecLib
  PToken PHuffman PTree PBits PActs PBlocks PCompress PWriter PSession PInv.

(** ** zlib *)
Lemma zlib_header_facts o : (8 <= o_wbits o <= 15)%N ->
  exists cmf flg, zlibHeaderBytes o = [cmf; flg] ++ match o_dict o with Some d => be32 (adler_checksum d) | None => [] end /\
    is_byte cmf /\ is_byte flg /\ (cmf mod 16 = 8)%N /\ (cmf / 16 = o_wbits o - 8)%N /\
    ((cmf * 256 + flg) mod 31 = 0)%N /\ N.testbit flg 5 = is_some (o_dict o).
Proof.
  intros Hw. unfold zlibHeaderBytes. set (fl := if lowLevel o then 0%N else _).
  assert (F : fl = 0%N \/ fl = 1%N \/ fl = 2%N \/ fl = 3%N).
  { unfold fl. repeat match goal with |- context [if ?b then _ else _] => destruct b end; auto. }
  clearbody fl.
  assert (W : exists k, o_wbits o = (8 + N.of_nat k)%N /\ k < 8) by (exists (N.to_nat (o_wbits o - 8)); lia).
  destruct W as [k [-> Hk]]. clear Hw.
  destruct (o_dict o); cbn [is_some];
  do 8 (destruct k as [|k]; [destruct F as [F|[F|[F|F]]]; rewrite F;
    eexists _, _; (split; [reflexivity|]); unfold is_byte; vm_compute; repeat split|]); exfalso; lia.
Qed.

(** ** gzip *)
Lemma extra_bytes_enc l : Forall (fun r => (4 + lenN (x_bytes r) <= 65535)%N) l -> extra_bytes l = extra_enc l.
Proof.
  induction 1 as [|r l H Hl IH]; auto. unfold extra_bytes, extra_enc. cbn [flat_map].
  fold (extra_bytes l) (extra_enc l). rewrite IH, N.mod_small; auto. unfold two16. lia.
Qed.

Lemma filter_len0 {A} (f : A -> bool) l : length (filter f l) = 0 <-> Forall (fun x => f x = false) l.
Proof.
  induction l as [|x l IH]; cbn [filter]; [split; auto|]. destruct (f x) eqn:E.
  - cbn [length]. split; [discriminate|]. intros H. inversion H. congruence.
  - rewrite IH. split; intros H; [constructor; auto|]. inversion H; auto.
Qed.
Lemma b2nat0 b : b2nat b = 0 <-> b = false.
Proof. destruct b; cbn; split; auto; discriminate. Qed.
Lemma has_byte_false l c : has_byte l c = false <-> ~ In c l.
Proof. rewrite <- has_byte_spec. destruct (has_byte l c); split; congruence. Qed.

(** SetHeader's checks accept exactly the representable headers. *)
Lemma checked_iff h : header_checked h <-> Representable h.
Proof.
  unfold header_checked, Representable, checkHeaderFileName, checkHeaderComment, checkHeaderLastModified,
    checkHeaderOSType, checkHeaderExtraData.
  set (n1 := b2nat (256 <=? lenN (h_name h))%N). set (n2 := b2nat (has_byte (h_name h) 0)).
  set (n3 := b2nat (has_byte (h_name h) 0x2f)). set (n4 := b2nat (has_byte (h_name h) 0x5c)).
  set (n5 := b2nat (256 <=? lenN (h_comment h))%N). set (n6 := b2nat (has_byte (h_comment h) 0)).
  set (n7 := match h_mtime h with None => 0 | Some s => _ end).
  set (n8 := b2nat (negb (ostype_valid (h_os h)))).
  set (n9 := length _). set (n10 := b2nat (65535 <? lenN (extra_bytes (h_extra h)))%N).
  assert (E1 : n1 = 0 <-> (lenN (h_name h) < 256)%N) by (unfold n1; rewrite b2nat0; lia).
  assert (E2 : n2 = 0 <-> ~ In 0%N (h_name h)) by (unfold n2; rewrite b2nat0; apply has_byte_false).
  assert (E3 : n3 = 0 <-> ~ In 0x2f%N (h_name h)) by (unfold n3; rewrite b2nat0; apply has_byte_false).
  assert (E4 : n4 = 0 <-> ~ In 0x5c%N (h_name h)) by (unfold n4; rewrite b2nat0; apply has_byte_false).
  assert (E5 : n5 = 0 <-> (lenN (h_comment h) < 256)%N) by (unfold n5; rewrite b2nat0; lia).
  assert (E6 : n6 = 0 <-> ~ In 0%N (h_comment h)) by (unfold n6; rewrite b2nat0; apply has_byte_false).
  assert (E7 : n7 = 0 <-> match h_mtime h with None => True | Some s => (0 <= s < 4294967295)%Z end).
  { unfold n7. destruct (h_mtime h); [rewrite b2nat0; lia|tauto]. }
  assert (E8 : n8 = 0 <-> (h_os h <= 14)%N) by (unfold n8, ostype_valid; rewrite b2nat0; lia).
  assert (E9 : n9 = 0 <-> Forall (fun r => (4 + lenN (x_bytes r) <= 65535)%N) (h_extra h)).
  { unfold n9. rewrite filter_len0, !Forall_forall. split; intros H x Hx; specialize (H x Hx); lia. }
  assert (E10 : n10 = 0 <-> (lenN (extra_bytes (h_extra h)) <= 65535)%N) by (unfold n10; rewrite b2nat0; lia).
  clearbody n1 n2 n3 n4 n5 n6 n7 n8 n9 n10.
  split.
  - intros H. assert (n9 = 0) as H9 by lia. pose proof (proj1 E9 H9) as X. rewrite <- (extra_bytes_enc X).
    rewrite <- E1, <- E2, <- E3, <- E4, <- E5, <- E6, <- E7, <- E8, <- E9, <- E10. lia.
  - intros [A1 [A2 [A3 [A4 [A5 [A6 [A7 [A8 [A9 A10]]]]]]]]].
    rewrite <- (extra_bytes_enc A9) in A10.
    apply E1 in A1. apply E2 in A2. apply E3 in A3. apply E4 in A4. apply E5 in A5. apply E6 in A6.
    apply E7 in A7. apply E8 in A8. apply E9 in A9. apply E10 in A10. lia.
Qed.

Definition fields_of (o : options) (h : header) : gzip_fields :=
  GzipFields (match h_datatype h with TextData => true | _ => false end) true
    (some_if (extra_enc (h_extra h))) (some_if (h_name h)) (some_if (h_comment h))
    (match h_mtime h with None => 0%N | Some s => Z.to_N s end)
    (if lowLevel o then 4 else if (o_clevel o =? 9)%Z then 2 else 0)%N
    (if (h_os h =? 0)%N then 255 else h_os h - 1)%N.

Lemma some_if_nil l : some_if l = None <-> l = [].
Proof. destruct l; cbn; split; auto; discriminate. Qed.
Lemma extra_enc_nil l : extra_enc l = [] <-> l = [].
Proof. destruct l; cbn; split; auto; discriminate. Qed.

Lemma gzip_body_fields o h : header_ok h -> gzip_body o h = gzip_header_nocrc (fields_of o h).
Proof.
  intros [Ht Hc]. apply checked_iff in Hc. destruct Hc as [A1 [A2 [A3 [A4 [A5 [A6 [A7 [A8 [A9 A10]]]]]]]]].
  unfold gzip_body, gzip_header_nocrc, gzipHeader10. rewrite (extra_bytes_enc A9).
  assert (EF : N.lor 2 (gzipFlagBits h) = gzip_flags (fields_of o h)).
  { unfold gzipFlagBits, gzip_flags, fields_of, gz_text, gz_hcrc, gz_extra, gz_name, gz_comment.
    destruct (h_datatype h), (h_extra h) as [|[? ? ?] ?], (h_name h), (h_comment h); reflexivity. }
  rewrite EF. rewrite <- !app_assoc. cbn [app]. do 4 f_equal.
  cbn [gz_mtime gz_xfl gz_os gz_extra gz_name gz_comment fields_of].
  assert (EM : match h_mtime h with None => [0; 0; 0; 0]%N | Some s => le32 (Z.to_N (s mod 4294967296)) end
             = le32 (match h_mtime h with None => 0%N | Some s => Z.to_N s end)).
  { destruct (h_mtime h) as [s|]; [|reflexivity]. rewrite Z.mod_small by lia. reflexivity. }
  rewrite EM. f_equal. cbn [app]. f_equal.
  assert (EO : match ostype_encode (h_os h) with Some b => b | None => 255%N end = (if (h_os h =? 0)%N then 255 else h_os h - 1)%N).
  { unfold ostype_encode. destruct (N.eqb_spec (h_os h) 0) as [->|]; [reflexivity|].
    destruct ((1 <=? h_os h)%N && (h_os h <=? 14)%N) eqn:E; auto. lia. }
  rewrite EO. f_equal.
  assert (EX : match h_extra h with [] => [] | _ => le16 (lenN (extra_enc (h_extra h)) mod two16) ++ extra_enc (h_extra h) end
     = match some_if (extra_enc (h_extra h)) with Some x => le16 (lenN x) ++ x | None => [] end).
  { rewrite N.mod_small by (unfold two16; lia). destruct (h_extra h) as [|r l] eqn:E; [reflexivity|].
    rewrite <- E. destruct (extra_enc (h_extra h)) eqn:E2; [|reflexivity].
    apply extra_enc_nil in E2. congruence. }
  rewrite EX. f_equal. unfold zstring. destruct (h_name h), (h_comment h); reflexivity.
Qed.

Lemma fields_of_ok o h : header_ok h -> gzip_fields_ok (fields_of o h).
Proof.
  intros [Ht Hc]. apply checked_iff in Hc. destruct Hc as [A1 [A2 [A3 [A4 [A5 [A6 [A7 [A8 [A9 A10]]]]]]]]].
  destruct Ht as [T1 [T2 T3]].
  unfold gzip_fields_ok, fields_of; cbn [gz_mtime gz_xfl gz_os gz_extra gz_name gz_comment]. unfold is_byte.
  split; [destruct (h_mtime h); unfold two32; lia|].
  split; [destruct (lowLevel o), (o_clevel o =? 9)%Z; reflexivity|].
  split; [destruct (N.eqb_spec (h_os h) 0); lia|].
  pose proof (extra_bytes_ok T3) as X. rewrite (extra_bytes_enc A9) in X.
  split; [destruct (extra_enc (h_extra h)) eqn:E; cbn [some_if]; auto; rewrite <- E in *; split; auto; unfold two16; lia|].
  split; [destruct (h_name h) eqn:E; cbn [some_if]; auto; rewrite <- E in *; auto|].
  destruct (h_comment h) eqn:E; cbn [some_if]; auto; rewrite <- E in *; auto.
Qed.

Lemma fields_of_for o h h' : hnorm o h h' -> GzipFieldsFor o h (fields_of o h').
Proof.
  intros [E1 E2 E3 E4 E5 E6 E7 E8 E9]. unfold GzipFieldsFor, fields_of; cbn [gz_name gz_comment gz_extra gz_mtime gz_os gz_hcrc gz_text].
  rewrite E1, E2, E3, E4, E5. change OSTypeUnknown with 0%N. change OSTypeUnix with 4%N.
  split; [auto|]. split; [auto|]. split; [auto|]. split; [auto|].
  split; [destruct (N.eqb_spec (h_os h) 0) as [e|]; [reflexivity|]; destruct (N.eqb_spec (h_os h) 0); [congruence|reflexivity]|].
  split; [auto|]. split; [|split].
  - intros H. rewrite E7 by congruence. rewrite H. reflexivity.
  - intros H. rewrite E7 by congruence. rewrite H. reflexivity.
  - unfold xfl_for, lowLevel. cbn [gz_xfl]. destruct (o_strategy o); reflexivity.
Qed.

(** ** From bits to a stream *)
Section Stream.
Variable opt : options.
Hypothesis Hopt : wopt_ok opt.
Variable B : blockpred.
Hypothesis HBpos : forall k pos h f w h', B (8 * k + pos) h f w h' <-> B pos h f w h'.
Notation dictb := (dictb opt).

Lemma Blocks_pos k pos h w h' : Blocks B (8 * k + pos) h w h' <-> Blocks B pos h w h'.
Proof.
  split; induction 1 as [|w h1 w' h2 H IH HB]; try constructor; econstructor; eauto.
  - rewrite <- Nat.add_assoc in HB. apply HBpos in HB. auto.
  - rewrite <- Nat.add_assoc. apply HBpos. auto.
Qed.

Definition StreamB (h' : header) (b d : list N) : Prop :=
  exists body, b = hdr_bytes opt h' ++ body ++ ftr_bytes opt d /\ RawStream B dictb body d.

Lemma closed_stream s h' cur s' : header_typed h' -> bytes_ok s -> bytes_ok s' ->
  Closed opt B (smark opt s h') (rev dictb) [] cur s' -> exists b, s' = s ++ b /\ StreamB h' b cur.
Proof.
  intros Hh Hs Hs' [w2 [h [w3 [pad [d2 [P1 [P2 [P3 [P4 P5]]]]]]]]]. cbn [app] in P5. subst d2.
  unfold smark in *. assert (Hm : bytes_ok (s ++ hdr_bytes opt h')) by (apply bytes_ok_app; split; auto; apply hdr_bytes_ok; auto).
  destruct (@bits_prefix _ _ _ Hm Hs' P2) as [t [T1 T2]].
  rewrite !app_assoc in T2.
  assert (Ht : bytes_ok t) by (subst s'; apply bytes_ok_app in Hs'; tauto).
  destruct (@bits_suffix _ _ _ (ftr_bytes_ok opt cur) Ht T2) as [body [B1 B2]].
  exists (hdr_bytes opt h' ++ body ++ ftr_bytes opt cur). split; [subst s' t; rewrite <- !app_assoc; reflexivity|].
  exists body. split; auto. split; [subst t; apply bytes_ok_app in Ht; tauto|].
  exists (w2 ++ w3), pad. split; auto. split; [rewrite B2; reflexivity|].
  rewrite length_bits_of_bytes in *. set (k := length (s ++ hdr_bytes opt h')) in *.
  exists w2, h, w3. split; [|split; auto].
  - apply (Blocks_pos k 0). rewrite Nat.add_0_r. auto.
  - apply (HBpos k). auto.
Qed.

(** The stream satisfies the RFC of its container. *)
Lemma streamB_spec Bw h h' b d : header_ok h' -> hnorm opt h h' -> StreamB h' b d ->
  (forall win, (2 ^ o_wbits opt <= win)%N -> forall body, RawStream B dictb body d -> RawStream (Bw win) dictb body d) ->
  WriterStream Bw opt h b d.
Proof.
  intros Hh Hn [body [Eb HR]] HBw. unfold WriterStream.
  assert (HW : (2 ^ o_wbits opt <= 32768)%N).
  { change 32768%N with (2 ^ 15)%N. apply N.pow_le_mono_r; [lia|]. apply (wo_wbits Hopt). }
  destruct (o_format opt) eqn:EF.
  - exact (wo_format Hopt EF).
  - unfold hdr_bytes, ftr_bytes in Eb. rewrite EF, app_nil_r in Eb. cbn [app] in Eb. subst b. apply HBw; auto. reflexivity.
  - destruct (zlib_header_facts (wo_wbits Hopt)) as [cmf [flg [Z1 [Z2 [Z3 [Z4 [Z5 [Z6 Z7]]]]]]]].
    unfold hdr_bytes, ftr_bytes in Eb. rewrite EF, Z1 in Eb.
    split; [|rewrite Eb; cbn; f_equal; pose proof (N.div_mod cmf 16 ltac:(discriminate)); lia].
    exists cmf, flg, (match o_dict opt with Some d => be32 (adler_checksum d) | None => [] end), body.
    pose proof (wo_wbits Hopt). split; auto. split; auto. split; auto. split; [lia|]. split; auto. split.
    { pose proof (wo_dict Hopt) as HD. destruct (o_dict opt); split; auto. rewrite adler_checksum_spec; tauto. }
    split; [apply HBw; auto; rewrite Z5; replace (o_wbits opt - 8 + 8)%N with (o_wbits opt) by lia; reflexivity|].
    rewrite Eb. rewrite <- !app_assoc. reflexivity.
  - unfold hdr_bytes, ftr_bytes in Eb. rewrite EF in Eb.
    exists (fields_of opt h'). split; [eapply fields_of_for; eauto|].
    split; [apply fields_of_ok; auto|]. exists body. split; [apply HBw; auto; reflexivity|].
    rewrite Eb. unfold gzip_header. cbn [gz_hcrc fields_of]. rewrite (gzip_body_fields opt Hh).
    pose proof (@gzip_body_ok opt h' (proj1 Hh)) as HB. rewrite (gzip_body_fields opt Hh) in HB.
    assert (EC := @crc_chunks [gzip_header_nocrc (fields_of opt h')] (Forall_cons _ HB (Forall_nil _))).
    cbn [fold_left concat] in EC. rewrite app_nil_r in EC. rewrite EC. reflexivity.
Qed.
End Stream.
