(** Bytes already handed to the underlying writer stay: used for the text flag (C26). *)
From Verif Require Import Base SpecHuffman MChecksum MToken MCommon MWriter SpecEvents SpecSession MSession PWFrame.

Section Prefix.
Variable env : wenv.
Variable pre : list N.
Definition Q (o : wout) : Prop := exists rest, sink o = pre ++ rest.
Definition U (w : writer) : Prop := Q (w_out w).
Lemma q_loop cap fuel : forall o buf, Q o -> ho Q Q (outputBufferLoop env fuel cap o buf).
Proof.
  induction fuel as [|f IH]; intros o buf H; cbn [outputBufferLoop]; destruct buf as [|x buf]; try exact H; [exact I|].
  set (nn := N.to_nat _). set (q := firstn nn _). destruct o as [a b bf sk n c t st s e]. unfold outputBufferFlush.
  destruct (e_sink env n _) as [[k e']|].
  { destruct H as [r H]. cbn in *. subst sk. eexists. cbn. rewrite <- app_assoc. reflexivity. }
  apply IH. destruct H as [r H]. cbn in *. subst sk. eexists. cbn. rewrite <- app_assoc. reflexivity.
Qed.
Lemma q_bitsFlush cap o : Q o -> ho Q Q (o_bitsFlush env cap o).
Proof. intros H. unfold o_bitsFlush. destruct (Nat.eqb _ _); [exact H|]. apply q_loop. destruct o; exact H. Qed.
Lemma q_bufferWrite cap o p : Q o -> ho Q Q (o_bufferWrite env cap o p).
Proof. intros H. unfold o_bufferWrite. eapply ho_bind; [apply q_bitsFlush; auto|]. intros. apply q_loop; auto. Qed.
Lemma q_bitsLoop cap fuel : forall o n x, Q o -> ho Q Q (o_bitsLoop env fuel cap o n x).
Proof.
  induction fuel as [|f IH]; intros o n x H; cbn [o_bitsLoop]; destruct n as [|n]; try exact H; [exact I|]. cbv zeta.
  match goal with |- ho _ _ (if Nat.eqb (obLen ?y) _ then _ else _) => set (o1 := y); assert (H1 : Q o1) by (unfold o1; destruct o; exact H) end. clearbody o1.
  destruct (Nat.eqb _ _); [|apply IH; auto]. eapply ho_bind; [apply q_bitsFlush; auto|]. intros; apply IH; auto.
Qed.
Lemma q_bitsWrite cap o n x : Q o -> ho Q Q (o_bitsWrite env cap o n x).
Proof. intros H. unfold o_bitsWrite. repeat apply ho_assert. apply q_bitsLoop; auto. Qed.
Lemma on w f : (forall o, Q o -> ho Q Q (f o)) -> U w -> ho U U (on_out f w).
Proof. intros H HU. unfold on_out. pose proof (H _ HU) as K. destruct (f _) as [[o []]| |]; cbn [rbind ho] in *; auto; destruct w; exact K. Qed.
Lemma x_buf w p : U w -> ho U U (w_bufferWrite env w p).
Proof. intros H. apply on; auto. intros; apply q_bufferWrite; auto. Qed.
Lemma x_bits w n x : U w -> ho U U (w_bitsWrite env w n x).
Proof. intros H. apply on; auto. intros; apply q_bitsWrite; auto. Qed.
Lemma x_flush w : U w -> ho U U (w_bitsFlush env w).
Proof. intros H. apply on; auto. intros; apply q_bitsFlush; auto. Qed.
Lemma x_event w e : U w -> U (sendEvent w e).
Proof. destruct w; auto. Qed.
Notation bw := (bw_writer env).
Lemma x_stored w data fin : U w -> ho U U (writeStoredBlock bw w data fin).
Proof.
  intros H. unfold writeStoredBlock. apply ho_assert. cbv zeta. cbn [bw_writer bw_bitsWrite bw_bitsFlush bw_writeU16le bw_bufferWrite bw_event].
  eapply ho_bind; [apply x_bits, x_event; eauto|]. intros x1 H1. eapply ho_bind; [apply x_flush; eauto|]. intros x2 H2.
  eapply ho_bind; [apply x_buf; eauto|]. intros x3 H3. eapply ho_bind; [apply x_buf; eauto|]. intros x4 H4.
  eapply ho_bind; [apply x_buf; eauto|]. intros x5 H5. apply x_event; auto.
Qed.
Lemma x_opt (b : bool) w n x : U w -> ho U U (if b then Ok (w, true) else w_bitsWrite env w n x).
Proof. intros H. destruct b; [exact H|apply x_bits; auto]. Qed.
Lemma x_lld ll d t w : U w -> ho U U (encodeLLD bw ll d t w).
Proof.
  intros H. unfold encodeLLD, bw_writeHC. cbn [bw_writer bw_bitsWrite]. apply ho_let. intros [[sl nl] xl]. apply ho_let. intros [[sd nd] xd]. destruct sl as [sl|]; [|exact H].
  eapply ho_bind; [apply x_bits; eauto|]. intros x1 H1. eapply ho_bind; [apply x_opt; eauto|]. intros x2 H2. destruct sd as [sd|]; [|exact H2].
  eapply ho_bind; [apply x_bits; eauto|]. intros x3 H3. eapply ho_bind; [apply x_opt; eauto|]. intros x4 H4. exact H4.
Qed.
Lemma x_x hx t w : U w -> ho U U (encodeX bw hx t w).
Proof.
  intros H. unfold encodeX, bw_writeHC. cbn [bw_writer bw_bitsWrite]. destruct (symbolX t) as [[sx nx] xx]. destruct sx as [sx|]; [|exact H].
  eapply ho_bind; [apply x_bits; eauto|]. intros x1 H1. eapply ho_bind; [apply x_opt; eauto|]. intros x2 H2. exact H2.
Qed.
Lemma x_static w tokens fin : U w -> ho U U (writeStaticBlock bw w tokens fin).
Proof.
  intros H. unfold writeStaticBlock. apply ho_assert. cbv zeta. cbn [bw_writer bw_bitsWrite bw_event]. eapply ho_bind; [apply x_bits, x_event; eauto|]. intros x1 H1.
  eapply ho_bind; [apply ho_for; [intros; apply x_lld; eauto|apply x_event; eauto]|]. intros x2 H2. apply x_event; auto.
Qed.
Lemma x_dynamic w ll d tokens fin : U w -> ho U U (writeDynamicBlock env bw w ll d tokens fin).
Proof.
  intros H. unfold writeDynamicBlock. apply ho_assert. cbv zeta. cbn [bw_writer bw_bitsWrite bw_event]. eapply ho_bind; [apply x_bits, x_event; eauto|]. intros x1 H1.
  apply ho_let. intros [xt1 nll]. apply ho_let. intros [xt nd]. apply ho_let. intros fx.
  eapply ho_bind; [apply x_bits; eauto|]. intros x2 H2. eapply ho_bind; [apply x_bits; eauto|]. intros x3 H3.
  eapply ho_bind; [apply x_bits; eauto|]. intros x4 H4.
  eapply ho_bind; [apply ho_for; [intros; apply x_bits; eauto|eauto]|]. intros x5 H5.
  eapply ho_bind; [apply ho_for; [intros; apply x_x; eauto|eauto]|]. intros x6 H6.
  eapply ho_bind; [apply ho_for; [intros; apply x_lld; eauto|apply x_event; eauto]|]. intros x7 H7. apply x_event; auto.
Qed.
Lemma x_tokens w data tokens fin : U w -> ho U U (compressTokens env bw w data tokens fin).
Proof.
  intros H. unfold compressTokens. apply ho_let. intros [fll fd]. cbv zeta. apply ho_let. intros [dc b1]. apply ho_let. intros [sc b2].
  match goal with |- ho _ _ (if ?b then _ else _) => destruct b end; [apply x_stored; auto|].
  match goal with |- ho _ _ (if ?b then _ else _) => destruct b end; [apply x_static; auto|apply x_dynamic; auto].
Qed.
Lemma x_lz w l : U w -> U (set_lz w l). Proof. destruct w; auto. Qed.
Lemma x_in w i : U w -> U (set_in w i). Proof. destruct w; auto. Qed.
Lemma x_take w n : U w -> U (fst (inputBufferRead w n)).
Proof. intros H. unfold inputBufferRead, lz_take. cbn [fst]. apply x_in, x_lz; auto. Qed.
Lemma x_storeLoop fuel : forall w, U w -> ho U U (compressStoreLoop env fuel w).
Proof.
  induction fuel as [|f IH]; intros w H; cbn [compressStoreLoop]; destruct (lz_buf (w_lz w)) eqn:E; try exact H; [exact I|].
  pose proof (x_take (N.to_nat storedBlockSize) H) as K. destruct (inputBufferRead w _) as [w1 p]. cbn [fst] in K.
  eapply ho_bind; [apply x_stored; eauto|]. intros x Hx. apply IH; auto.
Qed.
Lemma x_slowLoop fuel : forall w w1 d t, U w -> compressSlowLoop env fuel w = Ok (w1, d, t) -> U w1.
Proof.
  induction fuel as [|f IH]; intros w w1 d t H; cbn [compressSlowLoop]; destruct (lz_buf (w_lz w)) eqn:E; try discriminate; try (intros EQ; inversion EQ; subst; exact H).
  unfold inputBufferAdvance, lz_take. cbv zeta.
  set (m := e_match env _ _ _ _). set (l' := LZ _ _ _ _). set (p := firstn _ _). set (w2 := set_in _ _).
  assert (H2 : U w2) by (apply x_in, x_lz; auto). clearbody w2. destruct m as [[dd len]|].
  - unfold assertb. destruct (3 <=? len)%N; [|discriminate]. destruct (1 <=? dd)%N; [|discriminate]. destruct (makeCopyToken _ _); cbn [rbind]; try discriminate.
    destruct (compressSlowLoop env f w2) as [[[w3 d3] t3]| |] eqn:E3; cbn [rbind]; try discriminate. intros EQ. inversion EQ; subst. eapply IH; eauto.
  - destruct p; [discriminate|]. destruct (compressSlowLoop env f w2) as [[[w3 d3] t3]| |] eqn:E3; cbn [rbind]; try discriminate. intros EQ. inversion EQ; subst. eapply IH; eauto.
Qed.
Lemma x_compress w all : U w -> ho U U (if isStoreConfig (w_cfg w) then compressStore env w all else compressSlow env w all).
Proof.
  intros H. destruct (isStoreConfig _).
  - unfold compressStore. destruct (_ && _)%bool; [exact H|apply x_storeLoop; auto].
  - unfold compressSlow. destruct (_ && _)%bool; [exact H|]. destruct (compressSlowLoop env _ w) as [[[w1 d] t]| |] eqn:E; cbn [rbind ho]; auto; try exact I.
    apply x_tokens. eapply x_slowLoop; eauto.
Qed.
Lemma x_stringZ w p : U w -> ho U U (writeStringZ env w p).
Proof. intros H. unfold writeStringZ. destruct (indexByte p 0); [|apply x_buf; auto]. destruct (Nat.eqb _ _); [apply x_buf; auto|exact I]. Qed.
(** the gzip header after its first ten bytes *)
Lemma x_gzip_rest w h : U w ->
  ho U U (let? w := (match h_extra h with
             | [] => Ok (w, true)
             | _ => let xdata := extra_bytes (h_extra h) in
                    let? w := w_bufferWrite env w (le16 (lenN xdata mod two16)) in
                    w_bufferWrite env w xdata
             end) in
  let? w := (match h_name h with [] => Ok (w, true) | _ => writeStringZ env w (h_name h) end) in
  let? w := (match h_comment h with [] => Ok (w, true) | _ => writeStringZ env w (h_comment h) end) in
  w_bufferWrite env w (le16 (outCRC (w_out w) mod two16))).
Proof.
  intros H2. eapply ho_bind with (P := U).
  { destruct (h_extra h); [exact H2|]. cbv zeta. eapply ho_bind; [apply x_buf; eauto|]. intros a Ha. apply x_buf; auto. }
  intros x3 H3. eapply ho_bind with (P := U); [destruct (h_name h); [exact H3|apply x_stringZ; auto]|]. intros x4 H4.
  eapply ho_bind with (P := U); [destruct (h_comment h); [exact H4|apply x_stringZ; auto]|]. intros x5 H5. apply x_buf; auto.
Qed.
Lemma x_gzip w : U w -> ho U U (writeHeaderGZIP env w).
Proof.
  intros H. unfold writeHeaderGZIP. cbv zeta. set (x := set_out w _).
  assert (H1 : U x) by (unfold x; unfold U in *; destruct w as [? ? ? ? o ? ? ? ? ?]; destruct o; exact H). clearbody x. set (h := w_hdr x). clearbody h.
  eapply ho_bind; [apply x_buf; eauto|]. intros x2 H2. apply x_gzip_rest; auto.
Qed.
Lemma x_header w : U w -> ho U U (writeHeader env w).
Proof.
  intros H. unfold writeHeader. cbv zeta.
  set (h := set_levels _ _ _). set (w1 := set_hdr _ _).
  assert (H1 : U w1).
  { unfold w1. clearbody h. clear w1. unfold U in *. destruct w as [o c l i u n hh f s e]. cbn in *.
    assert (D' : Q (set_outstream u 0)) by (destruct u; exact H). destruct (o_dict o); exact D'. }
  clearbody w1. clearbody h. clear h. eapply ho_bind with (P := U).
  - destruct (o_format (w_opt w1)); [exact I|exact H1|apply x_buf; auto|apply x_gzip; auto].
  - intros x Hx. cbn [ho]. apply x_in, x_event; auto.
Qed.
Lemma x_footer w : U w -> ho U U (writeFooter env w).
Proof.
  intros H. unfold writeFooter. eapply ho_bind; [apply x_flush; eauto|]. intros x1 H1. cbv zeta. set (p := ev_footer _ _). pose proof (x_event p H1) as H2.
  set (x2 := sendEvent x1 p) in *. clearbody x2. eapply ho_bind with (P := U).
  - destruct (o_format (w_opt x2)); [exact I|exact H2|apply x_buf; auto|]. unfold writeFooterGZIP.
    pose proof (x_buf (le32 (inCRC (w_in x1))) H2) as HA. destruct (w_bufferWrite env x2 _) as [[x3 [|]]| |]; cbn [ho rbind] in *; auto; try exact I.
    + pose proof (x_buf (le32 (inStream (w_in x3) mod two32)) HA) as HC. destruct (w_bufferWrite env x3 _) as [[x4 [|]]| |]; cbn [ho rbind andb] in *; auto; try exact I.
    + pose proof (x_buf (le32 (inStream (w_in x3) mod two32)) HA) as HC. destruct (w_bufferWrite env x3 _) as [[x4 []]| |]; cbn [ho rbind andb] in *; auto; try exact I.
  - intros x3 H3. cbn [ho]. apply x_event; auto.
Qed.
Lemma x_setstate w st : U w -> U (w_setstate w st).
Proof. unfold U, w_setstate. destruct w as [? ? ? ? o ? ? ? ? ?]; destruct o; auto. Qed.
Lemma x_hdr_open w : U w -> ho U U (let? w := writeHeader env w in Ok (w_setstate w openStream, true)).
Proof. intros H. eapply ho_bind; [apply x_header; eauto|]. intros. apply x_setstate; auto. Qed.
Lemma x_ftr_closed w : U w -> ho U U (let? w := writeFooter env w in Ok (w_setstate w closedStream, true)).
Proof. intros H. eapply ho_bind; [apply x_footer; eauto|]. intros. apply x_setstate; auto. Qed.
Lemma x_compressImpl w all : U w -> ho U U (compressImpl env w all).
Proof.
  intros H. unfold compressImpl. destruct (lz_buf (w_lz w)); [exact H|]. eapply ho_bind with (P := U); [destruct (w_state w); try exact H; apply x_ftr_closed; auto|].
  intros x Hx. eapply ho_bind with (P := U); [destruct (w_state x); try exact Hx; apply x_hdr_open; auto|]. intros y Hy. apply x_compress; auto.
Qed.
Lemma x_guts ft w : U w -> ho U U (flushGuts env w ft).
Proof.
  intros H. destruct ft; cbn [flushGuts]; [exact H|apply x_static; auto|apply x_stored; auto| |]; (eapply ho_bind; [apply x_stored; eauto|]; intros x Hx; cbn [ho]; try apply x_setstate; apply x_lz; auto).
Qed.
Lemma x_flushImpl w ft : U w -> ho U U (flushImpl env w ft).
Proof.
  intros H. unfold flushImpl. eapply ho_bind; [apply x_compressImpl; eauto|]. intros x1 H1.
  eapply ho_bind with (P := U); [destruct (is_finish ft); [|exact H1]; destruct (w_state x1); try exact H1; apply x_hdr_open; auto|]. intros x2 H2.
  eapply ho_bind with (P := U); [destruct (w_state x2); try exact H2; apply x_guts; auto|]. intros x3 H3.
  eapply ho_bind with (P := U); [destruct (w_state x3); try exact H3; apply x_ftr_closed; auto|]. intros x4 H4. cbv zeta.
  assert (HS : forall a b, U (set_calls x4 a b)) by (intros; destruct x4; exact H4).
  assert (HF : forall x e, U x -> U (w_fail x e)) by (intros x e; unfold U, w_fail; destruct x as [? ? ? ? o ? ? ? ? ?]; destruct o; auto).
  destruct (e_flushw _ _); [apply HF, HS|]. destruct (e_syncw _ _) as [[]|]; cbn [ho]; try apply HF; destruct x4; exact H4.
Qed.
Lemma x_writeLoop fuel : forall w buf, U w -> ho U U (writeLoop env fuel w buf).
Proof.
  induction fuel as [|f IH]; intros w buf H; cbn [writeLoop]; destruct buf as [|b buf]; try exact H; [exact I|].
  destruct (lz_write _ _) as [[l nn] full]. cbv zeta. eapply ho_bind; [apply x_compressImpl, x_lz; eauto|]. intros. apply IH; auto.
Qed.
Definition U1 {A} (r : res (writer * A)) : Prop := match r with Ok (w, _) => U w | _ => True end.
Lemma x_Write w p : U w -> U1 (w_Write env w p).
Proof.
  intros H. unfold w_Write. pose proof (x_writeLoop (2 * length p + 2) p H) as K.
  destruct (w_state w); cbn [U1]; auto; destruct (writeLoop _ _ _ _) as [[x []]| |]; cbn [rbind U1 ho] in *; auto.
Qed.
Lemma x_Flush w ft : U w -> U1 (w_Flush env w ft).
Proof.
  intros H. unfold w_Flush. pose proof (x_flushImpl ft H) as K.
  destruct (w_state w); cbn [U1]; auto; destruct (flushImpl _ _ _) as [[x []]| |]; cbn [rbind U1 ho] in *; auto.
Qed.
Lemma x_step w op : U w -> U1 (w_step env w op).
Proof.
  intros H. destruct op as [p|ft|h]; cbn [w_step].
  - pose proof (x_Write p H) as K. destruct (w_Write _ _ _) as [[x [n e]]| |]; cbn [rbind U1] in *; auto.
  - apply x_Flush; auto.
  - cbn [U1]. unfold w_SetHeader. destruct (Nat.eqb _ _); cbn [fst]; auto. destruct w; auto.
Qed.
Lemma x_run : forall ops w, U w -> U1 (w_run env w ops).
Proof.
  induction ops as [|op r IH]; intros w H; cbn [w_run]; [exact H|]. pose proof (x_step op H) as K.
  destruct (w_step env w op) as [[x [e|]]| |]; cbn [rbind U1] in *; auto.
Qed.
Lemma x_Close w : U w -> U1 (w_Close env w).
Proof.
  intros H. unfold w_Close. pose proof (x_flushImpl FinishFlush H) as K.
  assert (HC : forall x, U x -> U1 (Ok (close_helper x))) by (intros x; unfold U1, U, close_helper; destruct x as [? ? ? ? o ? ? ? ? ?]; destruct o; auto).
  destruct (w_state w); try (exact H); try (apply HC; auto); destruct (flushImpl _ _ _) as [[x []]| |]; cbn [rbind ho] in *; auto; try exact I; apply x_setstate; auto.
Qed.
Lemma x_session ops w : U w -> U1 (w_session env w ops).
Proof.
  intros H. unfold w_session. pose proof (x_run ops H) as K. destruct (w_run _ _ _) as [[x [e|]]| |]; cbn [rbind U1] in *; auto. apply x_Close; auto.
Qed.
End Prefix.

(** Buffered bytes are appended in full unless the underlying writer fails. *)
Lemma loop_appends env cap fuel : (0 < cap)%N -> forall o buf, outBuf o = [] ->
  match outputBufferLoop env fuel cap o buf with Ok (o', true) => sink o' = sink o ++ buf /\ outBuf o' = [] | _ => True end.
Proof.
  intros HC. induction fuel as [|f IH]; intros o buf HB; cbn [outputBufferLoop]; destruct buf as [|x buf]; try (rewrite app_nil_r; auto; fail); [exact I|].
  set (nn := N.to_nat _). destruct o as [a b bf sk n c t st s e]. cbn in HB. subst bf. unfold outputBufferFlush. cbn [app].
  destruct (e_sink env n _) as [[k e']|]; [exact I|].
  match goal with |- match outputBufferLoop _ _ _ ?o1 ?b1 with _ => _ end => pose proof (IH o1 b1 eq_refl) as K; destruct (outputBufferLoop env f cap o1 b1) as [[o' []]| |]; auto end.
  destruct K as [K1 K2]. split; auto. rewrite K1. cbn [sink]. rewrite <- app_assoc, firstn_skipn. reflexivity.
Qed.

Section TextFlag.
Variable env : wenv.
Definition E (w : writer) : Prop := werr (w_out w) <> None.
Lemma loop_fails cap fuel : forall o buf, match outputBufferLoop env fuel cap o buf with Ok (o', false) => werr o' <> None | _ => True end.
Proof.
  induction fuel as [|f IH]; intros o buf; cbn [outputBufferLoop]; destruct buf as [|x buf]; try exact I.
  destruct o as [a b bf sk n c t st s e]. unfold outputBufferFlush. destruct (e_sink env n _) as [[k e']|]; [discriminate|]. apply IH.
Qed.
Definition flag_bytes (h : header) : list N := [0x1f; 0x8b; 8; N.lor 2 (gzipFlagBits h)]%N.
Lemma gz_first w : outBuf (w_out w) = [] -> obLen (w_out w) = 0 ->
  ho (U (sink (w_out w) ++ flag_bytes (w_hdr w))) (fun x => U (sink (w_out w) ++ flag_bytes (w_hdr w)) x \/ E x) (writeHeaderGZIP env w).
Proof.
  intros HB HL. set (pre := sink (w_out w) ++ flag_bytes (w_hdr w)). unfold writeHeaderGZIP. cbv zeta.
  assert (HH : w_hdr (set_out w (set_outcrc (w_out w) crc_reset)) = w_hdr w) by (destruct w; reflexivity). rewrite HH.
  assert (HO : w_out (set_out w (set_outcrc (w_out w) crc_reset)) = set_outcrc (w_out w) crc_reset) by (destruct w; reflexivity).
  set (x := set_out w _) in *. clearbody x.
  assert (B1 : outBuf (w_out x) = [] /\ obLen (w_out x) = 0 /\ sink (w_out x) = sink (w_out w)) by (rewrite HO; destruct (w_out w); auto).
  destruct B1 as [B1 [B2 B3]]. eapply ho_bind with (P := U pre).
  - unfold w_bufferWrite, on_out, o_bufferWrite, o_bitsFlush. rewrite B2. cbn [Nat.eqb rbind].
    assert (HC : (0 < out_cap (w_opt x))%N) by (unfold out_cap; apply N.neq_0_lt_0, N.pow_nonzero; discriminate).
    pose proof (@loop_appends env (out_cap (w_opt x)) (out_fuel (gzipHeader10 (w_opt x) (w_hdr w))) HC (w_out x) (gzipHeader10 (w_opt x) (w_hdr w)) B1) as K.
    pose proof (loop_fails (out_cap (w_opt x)) (out_fuel (gzipHeader10 (w_opt x) (w_hdr w))) (w_out x) (gzipHeader10 (w_opt x) (w_hdr w))) as K2.
    destruct (outputBufferLoop _ _ _ _ _) as [[o []]| |]; cbn [rbind ho]; auto.
    + destruct K as [K1 K3]. unfold U, Q. exists (skipn 4 (gzipHeader10 (w_opt x) (w_hdr w))).
      assert (w_out (set_out x o) = o) as -> by (destruct x; reflexivity). rewrite K1, B3. unfold pre. rewrite <- app_assoc. reflexivity.
    + right. unfold E. assert (w_out (set_out x o) = o) as -> by (destruct x; reflexivity). exact K2.
  - intros y Hy. eapply ho_impl; [apply x_gzip_rest; exact Hy|auto|auto].
Qed.
Definition detected (w : writer) : header :=
  let buf := firstn (Nat.min (e_peek env (lz_calls (w_lz w))) (N.to_nat 4096)) (lz_buf (w_lz w)) in
  set_datatype (w_hdr w) (if isText buf then TextData else BinaryData).
Definition mark (w : writer) : list N := sink (w_out w) ++ flag_bytes (detected w).
Lemma flag_irrelevant h os wb cl : flag_bytes (set_levels (if (os : bool) then set_os h OSTypeUnix else h) wb cl) = flag_bytes h.
Proof. destruct h, os; reflexivity. Qed.
Lemma header_first w : o_format (w_opt w) = GZIPFormat -> outBuf (w_out w) = [] -> obLen (w_out w) = 0 -> h_datatype (w_hdr w) = UnknownData ->
  ho (U (mark w)) (fun x => U (mark w) x \/ E x) (writeHeader env w).
Proof.
  intros HF HB HL HD. unfold writeHeader. cbv zeta.
  set (wa := match o_dict _ with Some _ => _ | None => _ end).
  assert (A : w_opt wa = w_opt w /\ w_hdr wa = w_hdr w /\ lz_buf (w_lz wa) = lz_buf (w_lz w) /\ lz_calls (w_lz wa) = lz_calls (w_lz w) /\
              outBuf (w_out wa) = [] /\ obLen (w_out wa) = 0 /\ sink (w_out wa) = sink (w_out w)).
  { unfold wa. clear - HB HL. destruct w as [o c l i u n hh f s e]. cbn in *. destruct u; cbn in *. destruct (o_dict o); cbn; repeat split; auto. }
  clearbody wa. destruct A as [A1 [A2 [A3 [A4 [A5 [A6 A7]]]]]].
  assert (X : w_opt (sendEvent wa (ev_simple StreamBeginEvent)) = w_opt wa /\ w_hdr (sendEvent wa (ev_simple StreamBeginEvent)) = w_hdr wa /\
     w_lz (sendEvent wa (ev_simple StreamBeginEvent)) = w_lz wa /\ w_out (sendEvent wa (ev_simple StreamBeginEvent)) = w_out wa) by (destruct wa; auto).
  set (wb := sendEvent wa _) in *. clearbody wb. destruct X as [X1 [X2 [X3 X4]]]. rewrite X2, A2, HD, X3, A4, A3.
  fold (detected w). set (h1 := set_levels _ _ _).
  assert (FB : flag_bytes h1 = flag_bytes (detected w)) by (apply flag_irrelevant). clearbody h1.
  assert (Y : w_opt (set_hdr wb h1) = w_opt w /\ w_hdr (set_hdr wb h1) = h1 /\ w_out (set_hdr wb h1) = w_out wb) by (destruct wb; cbn in *; repeat split; auto; congruence).
  set (wc := set_hdr wb h1) in *. clearbody wc. destruct Y as [Y1 [Y2 Y3]]. rewrite Y1, HF.
  assert (EM : mark w = sink (w_out wc) ++ flag_bytes (w_hdr wc)). { unfold mark. rewrite Y2, FB, Y3, X4, A7. reflexivity. }
  rewrite EM. eapply ho_bind; [apply gz_first; rewrite Y3, X4; auto|].
  intros x Hx. cbn [ho]. apply x_in, x_event; auto.
Qed.
Lemma write_first w p : o_format (w_opt w) = GZIPFormat -> outBuf (w_out w) = [] -> obLen (w_out w) = 0 -> h_datatype (w_hdr w) = UnknownData ->
  w_state w = noStream \/ w_state w = closedStream -> lz_buf (w_lz w) = [] -> p <> [] ->
  match w_Write env w p with
  | Ok (w', (_, None)) =>
      U (sink (w_out w) ++ flag_bytes (set_datatype (w_hdr w)
           (if isText (firstn (Nat.min (e_peek env (lz_calls (w_lz w))) (N.to_nat 4096)) (firstn (N.to_nat (lz_cap (w_lz w))) p)) then TextData else BinaryData))) w'
  | _ => True
  end.
Proof.
  intros HF HB HL HD HS HE HP. set (pre := _ ++ _).
  assert (G : ho (U pre) (fun x => U pre x \/ E x) (writeLoop env (2 * length p + 2) w p)).
  { replace (2 * length p + 2) with (S (2 * length p + 1)) by lia. cbn [writeLoop]. destruct p as [|b p]; [congruence|]. set (buf := b :: p) in *.
    destruct (lz_write (w_lz w) buf) as [[l nn] full] eqn:EW. cbv zeta.
    assert (HC : (0 < lz_cap (w_lz w))%N) by (unfold lz_cap; apply N.neq_0_lt_0, N.pow_nonzero; discriminate).
    assert (L : lz_buf l = firstn (N.to_nat (lz_cap (w_lz w))) buf /\ lz_calls l = lz_calls (w_lz w)).
    { unfold lz_write in EW. inversion EW as [[E1 E2 E3]]. clear EW E2 E3. rewrite HE. cbn [app lz_buf lz_calls]. split; auto.
      unfold lenN. cbn [length N.of_nat]. rewrite N.sub_0_r.
      destruct (N.min_spec (N.of_nat (length buf)) (lz_cap (w_lz w))) as [[M1 ->]|[M1 ->]]; auto.
      rewrite !firstn_all2; auto; clear - M1; lia. }
    destruct L as [L1 L2].
    assert (W : w_opt (set_lz w l) = w_opt w /\ w_out (set_lz w l) = w_out w /\ w_hdr (set_lz w l) = w_hdr w /\ w_state (set_lz w l) = w_state w /\ w_lz (set_lz w l) = l) by (destruct w; repeat split).
    set (w1 := set_lz w l) in *. clearbody w1. destruct W as [W1 [W2 [W3 [W4 W5]]]].
    assert (EM : mark w1 = pre) by (unfold mark, detected, pre; rewrite W2, W3, W5, L1, L2; reflexivity).
    eapply ho_bind with (P := U pre).
    2:{ intros x Hx. eapply ho_impl; [apply x_writeLoop; exact Hx|auto|auto]. }
    unfold compressImpl. rewrite W5, L1.
    destruct (firstn (N.to_nat (lz_cap (w_lz w))) buf) eqn:EF.
    { exfalso. destruct (N.to_nat (lz_cap (w_lz w))) eqn:EN; [clear - EN HC; lia|discriminate EF]. }
    assert (SW : match w_state w1 with closingStream => let? w := writeFooter env w1 in Ok (w_setstate w closedStream, true) | _ => Ok (w1, true) end = Ok (w1, true)).
    { rewrite W4. destruct HS as [-> | ->]; reflexivity. }
    rewrite SW. cbn [rbind]. clear SW. eapply ho_bind with (P := U pre).
    2:{ intros x Hx. eapply ho_impl; [apply x_compress; exact Hx|auto|auto]. }
    assert (SW : match w_state w1 with noStream | closedStream => let? w := writeHeader env w1 in Ok (w_setstate w openStream, true) | _ => Ok (w1, true) end = (let? w := writeHeader env w1 in Ok (w_setstate w openStream, true))).
    { rewrite W4. destruct HS as [-> | ->]; reflexivity. }
    rewrite SW. clear SW. rewrite <- EM. eapply ho_bind; [apply header_first; congruence|]. intros x Hx. apply x_setstate; auto. }
  unfold w_Write. assert (EW : match w_state w with closedState => Ok (w, (0%N, Some ErrClosed)) | errorState => Ok (w, (0%N, werr (w_out w)))
     | _ => let* (w, ok) := writeLoop env (2 * length p + 2) w p in if (ok : bool) then Ok (w, (lenN p, None)) else Ok (w, (0%N, werr (w_out w))) end =
     (let* (w, ok) := writeLoop env (2 * length p + 2) w p in if (ok : bool) then Ok (w, (lenN p, None)) else Ok (w, (0%N, werr (w_out w))))).
  { destruct HS as [-> | ->]; auto. }
  rewrite EW. clear EW. destruct (writeLoop _ _ _ _) as [[x []]| |]; cbn [rbind ho] in *; auto.
  destruct (werr (w_out x)) eqn:EE; auto. destruct G as [G|G]; auto. contradiction.
Qed.
End TextFlag.
