(** The Writer between creation and Close: what every method preserves. *)
From Verif Require Import Base SpecChecksum SpecEvents SpecHuffman SpecDeflate SpecFormats MChecksum PChecksum MToken MCommon MWriter MReader SpecLib
  PToken PHuffman PTree PBits PActs PBlocks PCompress PWriter.

Lemma lenN_nil {A} : lenN (@nil A) = 0%N.
Proof. reflexivity. Qed.

Definition tlen (ds : list (list N)) : N := lenN (concat ds).
Lemma tlen_snoc ds d : tlen (ds ++ [d]) = (tlen ds + lenN d)%N.
Proof. unfold tlen. rewrite concat_app, lenN_app. cbn [concat]. now rewrite app_nil_r. Qed.

(** Options a Writer can have (after defaults). *)
Record wopt_ok (o : options) : Prop := WoptOk {
  wo_format : o_format o <> DefaultFormat;
  wo_wbits : (8 <= o_wbits o <= 15)%N;
  wo_mlevel : (1 <= o_mlevel o <= 9)%N;
  wo_clevel : (0 <= o_clevel o <= 9)%Z;
  wo_dict : match o_dict o with Some d => bytes_ok d /\ d <> [] | None => True end }.

Definition from_env (env : wenv) (e : goerr) : Prop :=
  (exists n buf k, e_sink env n buf = Some (k, e)) \/ (exists n, e_flushw env n = Some e)
  \/ (exists n, e_syncw env n = Some e /\ e <> EINVAL).
Definition wfailed (env : wenv) (w : writer) : Prop :=
  w_state w = errorState /\ exists e, werr (w_out w) = Some e /\ from_env env e.

(** Header fields as written for the header [h] given by the user. *)
Record hnorm (o : options) (h h' : header) : Prop := HNorm {
  hn_name : h_name h' = h_name h; hn_comment : h_comment h' = h_comment h;
  hn_mtime : h_mtime h' = h_mtime h; hn_extra : h_extra h' = h_extra h;
  hn_os : h_os h' = if (h_os h =? OSTypeUnknown)%N then OSTypeUnix else h_os h;
  hn_dt : h_datatype h' <> UnknownData;
  hn_dt' : h_datatype h <> UnknownData -> h_datatype h' = h_datatype h;
  hn_wbits : h_wbits h' = o_wbits o; hn_clevel : h_clevel h' = o_clevel o }.

Lemma hnorm_ok o h h' : hnorm o h h' -> header_ok h -> header_ok h'.
Proof.
  intros [E1 E2 E3 E4 E5 E6 E7 E8 E9] [[T1 [T2 T3]] C]. split.
  - unfold header_typed. rewrite E1, E2, E4. auto.
  - unfold header_checked, checkHeaderFileName, checkHeaderComment, checkHeaderLastModified, checkHeaderOSType, checkHeaderExtraData in *.
    rewrite E1, E2, E3, E4, E5. destruct (h_os h =? OSTypeUnknown)%N; auto.
    assert (b2nat (negb (ostype_valid OSTypeUnix)) = 0) by reflexivity. lia.
Qed.
(** Normalising twice: the header kept by the Writer after a stream. *)
Lemma hnorm_trans o h h1 h2 : hnorm o h h1 -> hnorm o h1 h2 -> hnorm o h h2.
Proof.
  intros [E1 E2 E3 E4 E5 E6 E7 E8 E9] [F1 F2 F3 F4 F5 F6 F7 F8 F9]. constructor; try congruence.
  - rewrite F5, E5. destruct (h_os h =? OSTypeUnknown)%N eqn:E; auto. rewrite E. reflexivity.
  - intros H. rewrite F7; auto.
Qed.

Section Env.
Variable env : wenv.
Hypothesis Hbpb : bytesPerBlock env = 4 \/ bytesPerBlock env = 8.

(** ** Output buffer after an error (only the second footer write of gzip gets there) *)
Lemma outputBufferLoop_err cap : (0 < cap)%N -> forall fuel o buf,
  wstate o = errorState -> (exists e, werr o = Some e /\ from_env env e) ->
  length buf + (match outBuf o with [] => 0 | _ => 1 end) < fuel ->
  exists o' ok, outputBufferLoop env fuel cap o buf = Ok (o', ok) /\
    wstate o' = errorState /\ exists e, werr o' = Some e /\ from_env env e.
Proof.
  intros Hc. induction fuel as [|f IH]; intros o buf Hs He Hf; [lia|].
  destruct buf as [|x buf]; [exists o, true; auto|]. cbn [outputBufferLoop].
  set (nn := N.to_nat (N.min (lenN (x :: buf)) (cap - lenN (outBuf o)))).
  assert (Hnn : nn <= length (x :: buf)) by (unfold nn, lenN; lia).
  assert (Hpos : outBuf o = [] -> 1 <= nn) by (intros E; unfold nn; rewrite E; unfold lenN; cbn [length]; lia).
  clearbody nn.
  destruct o as [a b ob snk n c t st s e]. cbn [outBuf wstate werr] in *. unfold outputBufferFlush.
  destruct (e_sink env n (ob ++ firstn nn (x :: buf))) as [[k err]|] eqn:E.
  - eexists _, false. split; [reflexivity|]. cbn [wstate werr]. split; auto. exists err. split; auto.
    left. eexists _, _, _. exact E.
  - destruct (IH (WOut a b [] (snk ++ ob ++ firstn nn (x :: buf)) (S n) (crc_update c (firstn nn (x :: buf)))
                 (add64 t (N.of_nat nn)) (add64 st (N.of_nat nn)) s e) (skipn nn (x :: buf))) as [o' [ok R]]; auto.
    + cbn [outBuf]. rewrite skipn_length. destruct ob; [specialize (Hpos eq_refl)|]; lia.
    + exists o', ok. exact R.
Qed.

(** ** Byte strings written at a byte boundary *)
Record wbuf (w w' : writer) (buf : list N) : Prop := WBuf {
  wb_frame : w_frame w w';
  wb_ev : w_events w' = w_events w;
  wb_ext : o_ext (w_out w) (w_out w') buf;
  wb_out : out_ok env (w_out w');
  wb_cnt : counters_ok (w_out w');
  wb_len : obLen (w_out w') = 0 }.

Lemma wbuf_refl w : out_ok env (w_out w) -> counters_ok (w_out w) -> obLen (w_out w) = 0 -> wbuf w w [].
Proof. intros H1 H2 H3. constructor; auto. - apply w_frame_refl. - apply o_ext_refl; auto. apply H1. Qed.
Lemma wbuf_trans w w1 w2 a b : (outCRC (w_out w) < two32)%N -> bytes_ok a -> bytes_ok b ->
  wbuf w w1 a -> wbuf w1 w2 b -> wbuf w w2 (a ++ b).
Proof.
  intros Hc Ha Hb [a1 a2 a3 a4 a5 a6] [b1 b2 b3 b4 b5 b6]. constructor; auto; try congruence.
  - eapply w_frame_trans; eauto.
  - eapply o_ext_trans; eauto.
Qed.

Definition post0 (P : writer -> Prop) (r : res (writer * bool)) : Prop :=
  match r with
  | Ok (w, true) => P w
  | Ok (w, false) => wfailed env w
  | _ => False
  end.
Lemma post0_bind (P Q : writer -> Prop) x k : post0 P x -> (forall w, P w -> post0 Q (k w)) ->
  post0 Q (let? w := x in k w).
Proof. intros H1 H2. destruct x as [[w []]| |]; cbn [rbind post0] in *; auto. Qed.
Lemma post0_impl (P Q : writer -> Prop) x : post0 P x -> (forall w, P w -> Q w) -> post0 Q x.
Proof. intros H1 H2. destruct x as [[w []]| |]; cbn [post0] in *; auto. Qed.

Lemma o_failed_wfailed o w' : o_failed env o (w_out w') -> wfailed env w'.
Proof.
  intros [S [n [buf [k [e [E1 [E2 _]]]]]]]. split; auto. exists e. split; auto. left. eauto.
Qed.

Lemma bufw w buf : out_ok env (w_out w) -> counters_ok (w_out w) -> obLen (w_out w) = 0 -> bytes_ok buf ->
  post0 (fun w' => wbuf w w' buf) (w_bufferWrite env w buf).
Proof.
  intros Ho Hc Hl Hb.
  destruct (@o_bufferWrite_ok env Hbpb (cap_of w) (w_out w) buf (cap_pos w) Ho Hc Hb) as [o [ok [E [L [Bk R]]]]].
  unfold w_bufferWrite, on_out. fold (cap_of w). rewrite E. cbn [rbind post0]. destruct ok.
  - destruct R as [X [C [O Bi]]]. rewrite Hl in X. change ((0 + 7) / 8) with 0 in X. cbn [le_bytes app] in X.
    constructor; rewrite ?w_out_set, ?w_events_set; auto. apply w_frame_set.
  - eapply o_failed_wfailed with (o := w_out w). rewrite w_out_set. apply R.
Qed.
Lemma bufw_then w0 w buf acc : wbuf w0 w acc -> (outCRC (w_out w0) < two32)%N -> bytes_ok acc -> bytes_ok buf ->
  post0 (fun w' => wbuf w0 w' (acc ++ buf)) (w_bufferWrite env w buf).
Proof.
  intros H Hc Ha Hb. eapply post0_impl; [apply bufw; try apply H; auto|].
  intros w' H'. eapply wbuf_trans; eauto.
Qed.

Lemma bufw_err w buf : wfailed env w -> exists w' ok, w_bufferWrite env w buf = Ok (w', ok) /\ wfailed env w'.
Proof.
  intros [Hs He]. unfold w_bufferWrite, on_out, o_bufferWrite. fold (cap_of w).
  assert (HF : forall o p, wstate o = errorState -> (exists e, werr o = Some e /\ from_env env e) ->
     exists o' ok, outputBufferLoop env (out_fuel p) (cap_of w) o p = Ok (o', ok) /\
       wstate o' = errorState /\ exists e, werr o' = Some e /\ from_env env e).
  { intros o p H1 H2. apply outputBufferLoop_err; auto; [apply cap_pos|]. unfold out_fuel. destruct (outBuf o); lia. }
  assert (H1 : exists o' ok, o_bitsFlush env (cap_of w) (w_out w) = Ok (o', ok) /\
       wstate o' = errorState /\ exists e, werr o' = Some e /\ from_env env e).
  { unfold o_bitsFlush. destruct (Nat.eqb (obLen (w_out w)) 0); [exists (w_out w), true; auto|].
    unfold w_state in Hs. apply HF; destruct (w_out w); auto. }
  destruct H1 as [o1 [ok1 [E1 [S1 X1]]]]. rewrite E1. cbn [rbind]. destruct ok1.
  - destruct (HF o1 buf S1 X1) as [o2 [ok2 [E2 [S2 X2]]]]. rewrite E2. cbn [rbind].
    exists (set_out w o2), ok2. split; auto. split; [unfold w_state|]; rewrite w_out_set; auto.
  - cbn [rbind]. exists (set_out w o1), false. split; auto. split; [unfold w_state|]; rewrite w_out_set; auto.
Qed.

(** ** Header bytes *)
Lemma writeStringZ_ok w s : has_byte s 0 = false -> writeStringZ env w s = w_bufferWrite env w (s ++ [0%N]).
Proof. unfold has_byte, writeStringZ. destruct (indexByte s 0); [discriminate|auto]. Qed.

Lemma checked_zero h : header_checked h -> has_byte (h_name h) 0 = false /\ has_byte (h_comment h) 0 = false.
Proof.
  unfold header_checked, checkHeaderFileName, checkHeaderComment.
  destruct (has_byte (h_name h) 0), (has_byte (h_comment h) 0); cbn [b2nat]; try lia; auto.
Qed.

Lemma set_outcrc_frame w c : w_frame w (set_out w (set_outcrc (w_out w) c)).
Proof. apply w_frame_set. Qed.

Lemma out_ok_crc o c : out_ok env o -> (c < two32)%N -> out_ok env (set_outcrc o c).
Proof. destruct o. unfold out_ok; cbn. tauto. Qed.

(** [wbuf] up to the running CRC of the header *)
Definition wemit (w w' : writer) (buf : list N) : Prop :=
  w_frame w w' /\ w_events w' = w_events w /\ sink (w_out w') = sink (w_out w) ++ buf /\
  outTotal (w_out w') = add64 (outTotal (w_out w)) (lenN buf) /\
  wstate (w_out w') = wstate (w_out w) /\ werr (w_out w') = werr (w_out w) /\
  out_ok env (w_out w') /\ counters_ok (w_out w') /\ obLen (w_out w') = 0.
Lemma wbuf_wemit w w' buf : wbuf w w' buf -> wemit w w' buf.
Proof. intros [F E X O C L]. repeat split; auto; try apply F; try apply X; try apply O; try apply C. Qed.

Lemma writeHeaderGZIP_ok w : out_ok env (w_out w) -> counters_ok (w_out w) -> obLen (w_out w) = 0 ->
  header_ok (w_hdr w) -> o_format (w_opt w) = GZIPFormat ->
  post0 (fun w' => wemit w w' (hdr_bytes (w_opt w) (w_hdr w))) (writeHeaderGZIP env w).
Proof.
  intros Ho Hc Hl [Ht Hk] Hf. destruct (checked_zero Hk) as [Z1 Z2].
  unfold writeHeaderGZIP. set (w0 := set_out w (set_outcrc (w_out w) crc_reset)).
  assert (F0 : w_frame w w0) by apply w_frame_set.
  assert (E0 : w_out w0 = set_outcrc (w_out w) crc_reset) by apply w_out_set.
  assert (O0 : out_ok env (w_out w0)) by (rewrite E0; apply out_ok_crc; auto; reflexivity).
  assert (C0 : counters_ok (w_out w0)) by (rewrite E0; destruct (w_out w); exact Hc).
  assert (L0 : obLen (w_out w0) = 0) by (rewrite E0; destruct (w_out w); exact Hl).
  assert (Hcrc : (outCRC (w_out w0) < two32)%N) by apply O0.
  assert (Hcrc0 : outCRC (w_out w0) = crc_reset) by (rewrite E0; destruct (w_out w); reflexivity).
  assert (Hh : w_hdr w0 = w_hdr w) by apply F0. assert (Hop : w_opt w0 = w_opt w) by apply F0.
  assert (HS : sink (w_out w0) = sink (w_out w) /\ outTotal (w_out w0) = outTotal (w_out w) /\
     wstate (w_out w0) = wstate (w_out w) /\ werr (w_out w0) = werr (w_out w)).
  { rewrite E0. destruct (w_out w); auto. }
  assert (Hev : w_events w0 = w_events w) by apply w_events_set.
  clearbody w0. rewrite Hh, Hop. set (h := w_hdr w) in *. set (o := w_opt w) in *.
  pose proof (gzip_body_ok o Ht) as Hbody. unfold gzip_body in Hbody.
  apply bytes_ok_app in Hbody. destruct Hbody as [B1 Hbody]. apply bytes_ok_app in Hbody. destruct Hbody as [B2 Hbody].
  apply bytes_ok_app in Hbody. destruct Hbody as [B3 B4].
  eapply post0_bind; [apply bufw; auto|]. intros w1 H1.
  apply (@post0_bind (fun w' => wbuf w0 w' (gzipHeader10 o h ++
     match h_extra h with [] => [] | _ => le16 (lenN (extra_bytes (h_extra h)) mod two16) ++ extra_bytes (h_extra h) end))).
  { destruct (h_extra h) as [|r l] eqn:EX.
    - cbn [post0]. rewrite app_nil_r. auto.
    - rewrite <- EX in *. apply bytes_ok_app in B2. destruct B2 as [B2a B2b].
      eapply post0_bind; [apply (bufw_then H1); auto|]. intros w2 H2. rewrite app_assoc.
      apply (bufw_then H2); auto. apply bytes_ok_app; auto. }
  intros w2 H2. set (p2 := gzipHeader10 o h ++ _) in H2. assert (P2 : bytes_ok p2) by (apply bytes_ok_app; auto).
  apply (@post0_bind (fun w' => wbuf w0 w' (p2 ++ match h_name h with [] => [] | _ => h_name h ++ [0%N] end))).
  { destruct (h_name h) as [|x l] eqn:EX.
    - cbn [post0]. rewrite app_nil_r. auto.
    - rewrite <- EX in *. rewrite writeStringZ_ok by auto. apply (bufw_then H2); auto. }
  intros w3 H3. set (p3 := p2 ++ _) in H3. assert (P3 : bytes_ok p3) by (apply bytes_ok_app; auto).
  apply (@post0_bind (fun w' => wbuf w0 w' (p3 ++ match h_comment h with [] => [] | _ => h_comment h ++ [0%N] end))).
  { destruct (h_comment h) as [|x l] eqn:EX.
    - cbn [post0]. rewrite app_nil_r. auto.
    - rewrite <- EX in *. rewrite writeStringZ_ok by auto. apply (bufw_then H3); auto. }
  intros w4 H4.
  assert (EB : p3 ++ match h_comment h with [] => [] | _ => h_comment h ++ [0%N] end = gzip_body o h).
  { unfold p3, p2, gzip_body. rewrite <- !app_assoc. reflexivity. }
  rewrite EB in H4.
  assert (EC : outCRC (w_out w4) = crc_update crc_reset (gzip_body o h)).
  { rewrite (oe_crc (wb_ext H4)), Hcrc0. reflexivity. }
  rewrite EC.
  eapply post0_impl; [apply (bufw_then H4); auto; [apply gzip_body_ok; auto|apply le16_bytes]|].
  intros w5 H5. assert (EH : hdr_bytes o h = gzip_body o h ++ le16 (crc_update crc_reset (gzip_body o h) mod two16)).
  { unfold hdr_bytes. rewrite Hf. reflexivity. }
  rewrite EH. destruct HS as [S1 [S2 [S3 S4]]]. destruct (wbuf_wemit H5) as [a [b [c [d [e [f g]]]]]].
  split; [eapply w_frame_trans; eauto|]. repeat split; try apply g; congruence.
Qed.

Lemma header_post w : out_ok env (w_out w) -> counters_ok (w_out w) -> obLen (w_out w) = 0 ->
  header_ok (w_hdr w) -> o_format (w_opt w) <> DefaultFormat ->
  post0 (fun w' => wemit w w' (hdr_bytes (w_opt w) (w_hdr w)))
   (match o_format (w_opt w) with
    | RawFormat => Ok (w, true)
    | ZlibFormat => writeHeaderZlib env w
    | GZIPFormat => writeHeaderGZIP env w
    | DefaultFormat => Panic PAssert
    end).
Proof.
  intros Ho Hc Hl Hh Hf. destruct (o_format (w_opt w)) eqn:E; [congruence| | |].
  - cbn [post0]. unfold hdr_bytes. rewrite E. apply wbuf_wemit, wbuf_refl; auto.
  - unfold writeHeaderZlib. eapply post0_impl; [apply bufw; auto; apply zlib_hdr_ok|].
    intros w' H. unfold hdr_bytes. rewrite E. apply wbuf_wemit. auto.
  - apply writeHeaderGZIP_ok; auto.
Qed.

(** ** Footer bytes *)
Lemma footer_post w data : out_ok env (w_out w) -> counters_ok (w_out w) -> obLen (w_out w) = 0 ->
  o_format (w_opt w) <> DefaultFormat -> sums_of (w_in w) data ->
  post0 (fun w' => wemit w w' (ftr_bytes (w_opt w) data))
   (match o_format (w_opt w) with
    | RawFormat => Ok (w, true)
    | ZlibFormat => writeFooterZlib env w (inAdler (w_in w))
    | GZIPFormat => writeFooterGZIP env w (inCRC (w_in w))
    | DefaultFormat => Panic PAssert
    end).
Proof.
  intros Ho Hc Hl Hf [S1 [S2 S3]]. unfold ftr_bytes. rewrite S1, S2.
  destruct (o_format (w_opt w)) eqn:E; [congruence| | |].
  - cbn [post0]. apply wbuf_wemit, wbuf_refl; auto.
  - unfold writeFooterZlib. eapply post0_impl; [apply bufw; auto; apply be32_bytes|].
    intros w' H. apply wbuf_wemit. auto.
  - unfold writeFooterGZIP.
    pose proof (@bufw w (le32 (spec_crc32 data)) Ho Hc Hl (le32_bytes _)) as H1.
    destruct (w_bufferWrite env w (le32 (spec_crc32 data))) as [[w1 ok1]| |]; cbn [post0 rbind] in *; try contradiction.
    destruct ok1.
    + assert (EI : inStream (w_in w1) = (lenN data mod two64)%N).
      { destruct (wb_frame H1) as [_ [_ [_ [A _]]]]. congruence. }
      rewrite EI. assert (EM : ((lenN data mod two64) mod two32 = lenN data mod two32)%N).
      { unfold two64, two32. change 18446744073709551616%N with (4294967296 * 4294967296)%N.
        rewrite N.mod_mul_r by lia. rewrite (N.mul_comm 4294967296 ((_ / _) mod _)), N.mod_add by lia. apply N.mod_mod. lia. }
      rewrite EM. pose proof (@bufw_then w w1 (le32 (lenN data mod two32)) _ H1 (proj2 (proj2 (proj2 (proj2 Ho)))) (le32_bytes _) (le32_bytes _)) as H2.
      destruct (w_bufferWrite env w1 (le32 (lenN data mod two32))) as [[w2 ok2]| |]; cbn [post0 rbind] in *; try contradiction.
      destruct ok2; cbn [andb]; auto. apply wbuf_wemit; auto.
    + destruct (@bufw_err w1 (le32 (inStream (w_in w1) mod two32)) H1) as [w2 [ok2 [E2 F2]]].
      rewrite E2. cbn [rbind andb post0]. auto.
Qed.
End Env.
