(** What the underlying writer is handed: slices that are neither empty nor
    larger than the output buffer.  Used for C93. *)
From Verif Require Import Base SpecHuffman MChecksum MToken MCommon MWriter SpecEvents SpecSession MSession PWFrame.
From Verif Require PBody.

Section Slice.
Variable env : wenv.
Variable C : N.
Variable G : goerr -> Prop.
(** the errors the underlying writer gives for such slices *)
Definition slice_ok (p : list N) : Prop := p <> [] /\ (lenN p <= C)%N.
Hypothesis Hsink : forall n p, slice_ok p -> forall k e, e_sink env n p = Some (k, e) -> G e.
Hypothesis Hflush : forall n e, e_flushw env n = Some e -> G e.
Hypothesis Hsync : forall n e, e_syncw env n = Some e -> G e.
Hypothesis HC : (0 < C)%N.
Definition Q (o : wout) : Prop := (lenN (outBuf o) <= C)%N /\ forall e, werr o = Some e -> G e.
Definition U (w : writer) : Prop := out_cap (w_opt w) = C /\ Q (w_out w).
Lemma q_loop fuel : forall o buf, Q o -> ho Q Q (outputBufferLoop env fuel C o buf).
Proof.
  induction fuel as [|f IH]; intros o buf H; cbn [outputBufferLoop]; destruct buf as [|x buf]; try exact H; [exact I|].
  set (nn := N.to_nat _). set (q := firstn nn _). destruct o as [a b bf sk n c t st s e]. unfold outputBufferFlush. destruct H as [H1 H2]. cbn [outBuf werr] in *.
  assert (K : slice_ok (bf ++ q)).
  { unfold q, nn. split.
    - destruct bf as [|y bf]; [|discriminate]. unfold lenN. cbn [app length]. destruct (N.to_nat _) eqn:EN; [exfalso; revert EN H1; unfold lenN; cbn [length]; lia|discriminate].
    - unfold lenN in *. rewrite app_length, firstn_length. cbn [length]. lia. }
  pose proof (@Hsink n (bf ++ q) K) as NB.
  destruct (e_sink env n (bf ++ q)) as [[k e']|].
  { split; cbn [outBuf werr]; [|intros e0 EB; injection EB as <-; exact (@NB k _ eq_refl)]. destruct K as [_ K]. unfold lenN in *. rewrite skipn_length. lia. }
  apply IH. split; cbn; [lia|exact H2].
Qed.
Lemma q_bitsFlush o : Q o -> ho Q Q (o_bitsFlush env C o).
Proof. intros H. unfold o_bitsFlush. destruct (Nat.eqb _ _); [exact H|]. apply q_loop. destruct o; exact H. Qed.
Lemma q_bufferWrite o p : Q o -> ho Q Q (o_bufferWrite env C o p).
Proof. intros H. unfold o_bufferWrite. eapply ho_bind; [apply q_bitsFlush; auto|]. intros. apply q_loop; auto. Qed.
Lemma q_bitsLoop fuel : forall o n x, Q o -> ho Q Q (o_bitsLoop env fuel C o n x).
Proof.
  induction fuel as [|f IH]; intros o n x H; cbn [o_bitsLoop]; destruct n as [|n]; try exact H; [exact I|]. cbv zeta.
  match goal with |- ho _ _ (if Nat.eqb (obLen ?y) _ then _ else _) => set (o1 := y); assert (H1 : Q o1) by (unfold o1; destruct o; exact H) end. clearbody o1.
  destruct (Nat.eqb _ _); [|apply IH; auto]. eapply ho_bind; [apply q_bitsFlush; auto|]. intros; apply IH; auto.
Qed.
Lemma q_bitsWrite o n x : Q o -> ho Q Q (o_bitsWrite env C o n x).
Proof. intros H. unfold o_bitsWrite. repeat apply ho_assert. apply q_bitsLoop; auto. Qed.
Lemma on w f : (forall o, Q o -> ho Q Q (f o)) -> U w -> ho U U (on_out f w).
Proof. intros H [HO HU]. unfold on_out. pose proof (H _ HU) as K. destruct (f _) as [[o []]| |]; cbn [rbind ho] in *; auto; destruct w; split; auto. Qed.
Lemma x_buf w p : U w -> ho U U (w_bufferWrite env w p).
Proof. intros H. unfold w_bufferWrite. rewrite (proj1 H). apply on; auto. intros; apply q_bufferWrite; auto. Qed.
Lemma x_bits w n x : U w -> ho U U (w_bitsWrite env w n x).
Proof. intros H. unfold w_bitsWrite. rewrite (proj1 H). apply on; auto. intros; apply q_bitsWrite; auto. Qed.
Lemma x_flush w : U w -> ho U U (w_bitsFlush env w).
Proof. intros H. unfold w_bitsFlush. rewrite (proj1 H). apply on; auto. intros; apply q_bitsFlush; auto. Qed.
Lemma x_event w e : U w -> U (sendEvent w e).
Proof. destruct w; auto. Qed.
Notation bw := (bw_writer env).
Lemma x_stored w data fin : U w -> ho U U (writeStoredBlock bw w data fin).
Proof.
  intros H. unfold writeStoredBlock. apply ho_assert. cbv zeta. cbn [bw_writer bw_bitsWrite bw_bitsFlush bw_writeU16le bw_bufferWrite bw_event].
  eapply ho_bind; [apply x_bits, x_event; eauto|]. intros x1 H1. eapply ho_bind; [apply x_flush; eauto|]. intros x2 H2.
  eapply ho_bind; [apply x_buf; eauto|]. intros x3 H3. eapply ho_bind; [apply x_buf; eauto|]. intros x4 H4.
  eapply ho_bind; [apply x_buf; eauto|]. intros x5 H5. apply x_event; auto.
Qed.
Lemma x_opt (b : bool) w n x : U w -> ho U U (if b then Ok (w, true) else w_bitsWrite env w n x).
Proof. intros H. destruct b; [exact H|apply x_bits; auto]. Qed.
Lemma x_lld ll d t w : U w -> ho U U (encodeLLD bw ll d t w).
Proof.
  intros H. unfold encodeLLD, bw_writeHC. cbn [bw_writer bw_bitsWrite]. apply ho_let. intros [[sl nl] xl]. apply ho_let. intros [[sd nd] xd]. destruct sl as [sl|]; [|exact H].
  eapply ho_bind; [apply x_bits; eauto|]. intros x1 H1. eapply ho_bind; [apply x_opt; eauto|]. intros x2 H2. destruct sd as [sd|]; [|exact H2].
  eapply ho_bind; [apply x_bits; eauto|]. intros x3 H3. eapply ho_bind; [apply x_opt; eauto|]. intros x4 H4. exact H4.
Qed.
Lemma x_x hx t w : U w -> ho U U (encodeX bw hx t w).
Proof.
  intros H. unfold encodeX, bw_writeHC. cbn [bw_writer bw_bitsWrite]. destruct (symbolX t) as [[sx nx] xx]. destruct sx as [sx|]; [|exact H].
  eapply ho_bind; [apply x_bits; eauto|]. intros x1 H1. eapply ho_bind; [apply x_opt; eauto|]. intros x2 H2. exact H2.
Qed.
Lemma x_static w tokens fin : U w -> ho U U (writeStaticBlock bw w tokens fin).
Proof.
  intros H. unfold writeStaticBlock. apply ho_assert. cbv zeta. cbn [bw_writer bw_bitsWrite bw_event]. eapply ho_bind; [apply x_bits, x_event; eauto|]. intros x1 H1.
  eapply ho_bind; [apply ho_for; [intros; apply x_lld; eauto|apply x_event; eauto]|]. intros x2 H2. apply x_event; auto.
Qed.
Lemma x_dynamic w ll d tokens fin : U w -> ho U U (writeDynamicBlock env bw w ll d tokens fin).
Proof.
  intros H. unfold writeDynamicBlock. apply ho_assert. cbv zeta. cbn [bw_writer bw_bitsWrite bw_event]. eapply ho_bind; [apply x_bits, x_event; eauto|]. intros x1 H1.
  apply ho_let. intros [xt1 nll]. apply ho_let. intros [xt nd]. apply ho_let. intros fx.
  eapply ho_bind; [apply x_bits; eauto|]. intros x2 H2. eapply ho_bind; [apply x_bits; eauto|]. intros x3 H3.
  eapply ho_bind; [apply x_bits; eauto|]. intros x4 H4.
  eapply ho_bind; [apply ho_for; [intros; apply x_bits; eauto|eauto]|]. intros x5 H5.
  eapply ho_bind; [apply ho_for; [intros; apply x_x; eauto|eauto]|]. intros x6 H6.
  eapply ho_bind; [apply ho_for; [intros; apply x_lld; eauto|apply x_event; eauto]|]. intros x7 H7. apply x_event; auto.
Qed.
Lemma x_tokens w data tokens fin : U w -> ho U U (compressTokens env bw w data tokens fin).
Proof.
  intros H. unfold compressTokens. apply ho_let. intros [fll fd]. cbv zeta. apply ho_let. intros [dc b1]. apply ho_let. intros [sc b2].
  match goal with |- ho _ _ (if ?b then _ else _) => destruct b end; [apply x_stored; auto|].
  match goal with |- ho _ _ (if ?b then _ else _) => destruct b end; [apply x_static; auto|apply x_dynamic; auto].
Qed.
Lemma x_lz w l : U w -> U (set_lz w l). Proof. destruct w; auto. Qed.
Lemma x_in w i : U w -> U (set_in w i). Proof. destruct w; auto. Qed.
Lemma x_take w n : U w -> U (fst (inputBufferRead w n)).
Proof. intros H. unfold inputBufferRead, lz_take. cbn [fst]. apply x_in, x_lz; auto. Qed.
Lemma x_storeLoop fuel : forall w, U w -> ho U U (compressStoreLoop env fuel w).
Proof.
  induction fuel as [|f IH]; intros w H; cbn [compressStoreLoop]; destruct (lz_buf (w_lz w)) eqn:E; try exact H; [exact I|].
  pose proof (x_take (N.to_nat storedBlockSize) H) as K. destruct (inputBufferRead w _) as [w1 p]. cbn [fst] in K.
  eapply ho_bind; [apply x_stored; eauto|]. intros x Hx. apply IH; auto.
Qed.
Lemma x_slowLoop fuel : forall w w1 d t, U w -> compressSlowLoop env fuel w = Ok (w1, d, t) -> U w1.
Proof.
  induction fuel as [|f IH]; intros w w1 d t H; cbn [compressSlowLoop]; destruct (lz_buf (w_lz w)) eqn:E; try discriminate; try (intros EQ; inversion EQ; subst; exact H).
  unfold inputBufferAdvance, lz_take. cbv zeta.
  set (m := e_match env _ _ _ _). set (l' := LZ _ _ _ _). set (p := firstn _ _). set (w2 := set_in _ _).
  assert (H2 : U w2) by (apply x_in, x_lz; auto). clearbody w2. destruct m as [[dd len]|].
  - unfold assertb. destruct (3 <=? len)%N; [|discriminate]. destruct (1 <=? dd)%N; [|discriminate]. destruct (makeCopyToken _ _); cbn [rbind]; try discriminate.
    destruct (compressSlowLoop env f w2) as [[[w3 d3] t3]| |] eqn:E3; cbn [rbind]; try discriminate. intros EQ. inversion EQ; subst. eapply IH; eauto.
  - destruct p; [discriminate|]. destruct (compressSlowLoop env f w2) as [[[w3 d3] t3]| |] eqn:E3; cbn [rbind]; try discriminate. intros EQ. inversion EQ; subst. eapply IH; eauto.
Qed.
Lemma x_compress w all : U w -> ho U U (if isStoreConfig (w_cfg w) then compressStore env w all else compressSlow env w all).
Proof.
  intros H. destruct (isStoreConfig _).
  - unfold compressStore. destruct (_ && _)%bool; [exact H|apply x_storeLoop; auto].
  - unfold compressSlow. destruct (_ && _)%bool; [exact H|]. destruct (compressSlowLoop env _ w) as [[[w1 d] t]| |] eqn:E; cbn [rbind ho]; auto; try exact I.
    apply x_tokens. eapply x_slowLoop; eauto.
Qed.
Lemma x_stringZ w p : U w -> ho U U (writeStringZ env w p).
Proof. intros H. unfold writeStringZ. destruct (indexByte p 0); [|apply x_buf; auto]. destruct (Nat.eqb _ _); [apply x_buf; auto|exact I]. Qed.
(** the gzip header after its first ten bytes *)
Lemma x_gzip_rest w h : U w ->
  ho U U (let? w := (match h_extra h with
             | [] => Ok (w, true)
             | _ => let xdata := extra_bytes (h_extra h) in
                    let? w := w_bufferWrite env w (le16 (lenN xdata mod two16)) in
                    w_bufferWrite env w xdata
             end) in
  let? w := (match h_name h with [] => Ok (w, true) | _ => writeStringZ env w (h_name h) end) in
  let? w := (match h_comment h with [] => Ok (w, true) | _ => writeStringZ env w (h_comment h) end) in
  w_bufferWrite env w (le16 (outCRC (w_out w) mod two16))).
Proof.
  intros H2. eapply ho_bind with (P := U).
  { destruct (h_extra h); [exact H2|]. cbv zeta. eapply ho_bind; [apply x_buf; eauto|]. intros a Ha. apply x_buf; auto. }
  intros x3 H3. eapply ho_bind with (P := U); [destruct (h_name h); [exact H3|apply x_stringZ; auto]|]. intros x4 H4.
  eapply ho_bind with (P := U); [destruct (h_comment h); [exact H4|apply x_stringZ; auto]|]. intros x5 H5. apply x_buf; auto.
Qed.
Lemma x_gzip w : U w -> ho U U (writeHeaderGZIP env w).
Proof.
  intros H. unfold writeHeaderGZIP. cbv zeta. set (x := set_out w _).
  assert (H1 : U x) by (unfold x; unfold U in *; destruct w as [? ? ? ? o ? ? ? ? ?]; destruct o; exact H). clearbody x. set (h := w_hdr x). clearbody h.
  eapply ho_bind; [apply x_buf; eauto|]. intros x2 H2. apply x_gzip_rest; auto.
Qed.
Lemma x_header w : U w -> ho U U (writeHeader env w).
Proof.
  intros H. unfold writeHeader. cbv zeta.
  set (h := set_levels _ _ _). set (w1 := set_hdr _ _).
  assert (H1 : U w1).
  { unfold w1. clearbody h. clear w1. unfold U in *. destruct w as [o c l i u n hh f s e]. cbn in *.
    destruct H as [H0 H]. assert (D' : Q (set_outstream u 0)) by (destruct u; exact H). destruct (o_dict o); (split; [exact H0|exact D']). }
  clearbody w1. clearbody h. clear h. eapply ho_bind with (P := U).
  - destruct (o_format (w_opt w1)); [exact I|exact H1|apply x_buf; auto|apply x_gzip; auto].
  - intros x Hx. cbn [ho]. apply x_in, x_event; auto.
Qed.
Lemma x_footer w : U w -> ho U U (writeFooter env w).
Proof.
  intros H. unfold writeFooter. eapply ho_bind; [apply x_flush; eauto|]. intros x1 H1. cbv zeta. set (p := ev_footer _ _). pose proof (x_event p H1) as H2.
  set (x2 := sendEvent x1 p) in *. clearbody x2. eapply ho_bind with (P := U).
  - destruct (o_format (w_opt x2)); [exact I|exact H2|apply x_buf; auto|]. unfold writeFooterGZIP.
    pose proof (x_buf (le32 (inCRC (w_in x1))) H2) as KA. destruct (w_bufferWrite env x2 _) as [[x3 [|]]| |]; cbn [ho rbind] in *; auto; try exact I.
    + pose proof (x_buf (le32 (inStream (w_in x3) mod two32)) KA) as KC. destruct (w_bufferWrite env x3 _) as [[x4 [|]]| |]; cbn [ho rbind andb] in *; auto; try exact I.
    + pose proof (x_buf (le32 (inStream (w_in x3) mod two32)) KA) as KC. destruct (w_bufferWrite env x3 _) as [[x4 []]| |]; cbn [ho rbind andb] in *; auto; try exact I.
  - intros x3 H3. cbn [ho]. apply x_event; auto.
Qed.
Lemma x_setstate w st : U w -> U (w_setstate w st).
Proof. unfold U, w_setstate. destruct w as [? ? ? ? o ? ? ? ? ?]; destruct o; auto. Qed.
Lemma x_hdr_open w : U w -> ho U U (let? w := writeHeader env w in Ok (w_setstate w openStream, true)).
Proof. intros H. eapply ho_bind; [apply x_header; eauto|]. intros. apply x_setstate; auto. Qed.
Lemma x_ftr_closed w : U w -> ho U U (let? w := writeFooter env w in Ok (w_setstate w closedStream, true)).
Proof. intros H. eapply ho_bind; [apply x_footer; eauto|]. intros. apply x_setstate; auto. Qed.
Lemma x_compressImpl w all : U w -> ho U U (compressImpl env w all).
Proof.
  intros H. unfold compressImpl. destruct (lz_buf (w_lz w)); [exact H|]. eapply ho_bind with (P := U); [destruct (w_state w); try exact H; apply x_ftr_closed; auto|].
  intros x Hx. eapply ho_bind with (P := U); [destruct (w_state x); try exact Hx; apply x_hdr_open; auto|]. intros y Hy. apply x_compress; auto.
Qed.
Lemma x_guts ft w : U w -> ho U U (flushGuts env w ft).
Proof.
  intros H. destruct ft; cbn [flushGuts]; [exact H|apply x_static; auto|apply x_stored; auto| |]; (eapply ho_bind; [apply x_stored; eauto|]; intros x Hx; cbn [ho]; try apply x_setstate; apply x_lz; auto).
Qed.
Lemma x_flushImpl w ft : U w -> ho U U (flushImpl env w ft).
Proof.
  intros H. unfold flushImpl. eapply ho_bind; [apply x_compressImpl; eauto|]. intros x1 H1.
  eapply ho_bind with (P := U); [destruct (is_finish ft); [|exact H1]; destruct (w_state x1); try exact H1; apply x_hdr_open; auto|]. intros x2 H2.
  eapply ho_bind with (P := U); [destruct (w_state x2); try exact H2; apply x_guts; auto|]. intros x3 H3.
  eapply ho_bind with (P := U); [destruct (w_state x3); try exact H3; apply x_ftr_closed; auto|]. intros x4 H4. cbv zeta.
  assert (HS : forall a b, U (set_calls x4 a b)) by (intros; destruct x4; exact H4).
  assert (HF : forall x e, G e -> U x -> U (w_fail x e)) by (intros x e NB; unfold U, Q, w_fail; destruct x as [? ? ? ? o ? ? ? ? ?]; destruct o; cbn; intros [HU1 [HU2 _]]; repeat split; auto; intros e0 E0; injection E0 as <-; exact NB).
  destruct (e_flushw env _) eqn:E1; [apply HF; [exact (@Hflush _ _ E1)|apply HS]|].
  match goal with |- context [e_syncw env ?k] => destruct (e_syncw env k) as [e2|] eqn:E2 end; [|destruct x4; exact H4].
  pose proof (@Hsync _ _ E2) as NB. destruct e2; cbn [ho]; try (apply HF; [exact NB|]); destruct x4; exact H4.
Qed.
Lemma x_writeLoop fuel : forall w buf, U w -> ho U U (writeLoop env fuel w buf).
Proof.
  induction fuel as [|f IH]; intros w buf H; cbn [writeLoop]; destruct buf as [|b buf]; try exact H; [exact I|].
  destruct (lz_write _ _) as [[l nn] full]. cbv zeta. eapply ho_bind; [apply x_compressImpl, x_lz; eauto|]. intros. apply IH; auto.
Qed.
Hypothesis Hclosed : G ErrClosed.
Definition U2 (r : res (writer * option goerr)) : Prop := match r with Ok (w, e) => U w /\ (forall x, e = Some x -> G x) | _ => True end.
Lemma x_err w : U w -> U2 (Ok (w, werr (w_out w))).
Proof. intros H. split; [exact H|apply H]. Qed.
Lemma x_step w op : U w -> U2 (w_step env w op).
Proof.
  intros H. destruct op as [p|ft|h]; cbn [w_step].
  - unfold w_Write. pose proof (x_writeLoop (2 * length p + 2) p H) as K.
    destruct (w_state w); cbn [rbind]; try (apply x_err; exact H); try (split; [exact H|intros e0 E0; injection E0 as <-; exact Hclosed]);
    destruct (writeLoop _ _ _ _) as [[x []]| |]; cbn [rbind ho] in *; try exact I; try (apply x_err; exact K); split; try exact K; discriminate.
  - unfold w_Flush. pose proof (x_flushImpl ft H) as K.
    destruct (w_state w); cbn [rbind]; try (apply x_err; exact H); try (split; [exact H|intros e0 E0; injection E0 as <-; exact Hclosed]);
    destruct (flushImpl _ _ _) as [[x []]| |]; cbn [rbind ho] in *; try exact I; try (apply x_err; exact K); split; try exact K; discriminate.
  - split; [|discriminate]. unfold w_SetHeader. destruct (Nat.eqb _ _); cbn [fst]; auto. destruct w; auto.
Qed.
Lemma x_run : forall ops w, U w -> U2 (w_run env w ops).
Proof.
  induction ops as [|op r IH]; intros w H; cbn [w_run]; [split; [exact H|discriminate]|]. pose proof (x_step op H) as K.
  destruct (w_step env w op) as [[x [e|]]| |]; cbn [rbind]; try exact I; try exact K. apply IH, K.
Qed.
Lemma x_close_err x : U x -> U2 (Ok (close_helper x)).
Proof.
  unfold U, Q, close_helper. destruct x as [o c l i u n h f s e]. destruct u as [a b ob sk k cr t st ws er]. cbn. intros [H1 [H2 H3]]. repeat split; auto; discriminate.
Qed.
Lemma x_Close w : U w -> U2 (w_Close env w).
Proof.
  intros H. unfold w_Close. pose proof (x_flushImpl FinishFlush H) as K.
  destruct (w_state w); try (apply x_close_err; exact H); try (split; [exact H|intros e0 E0; injection E0 as <-; exact Hclosed]);
  destruct (flushImpl _ _ _) as [[x []]| |]; cbn [rbind ho] in *; try exact I; try (apply x_close_err; exact K); (split; [apply x_setstate; exact K|discriminate]).
Qed.
Lemma x_session ops w : U w -> U2 (w_session env w ops).
Proof.
  intros H. unfold w_session. pose proof (x_run ops H) as K. destruct (w_run env w ops) as [[x [e|]]| |]; cbn [rbind]; try exact I; try exact K. apply x_Close, K.
Qed.
End Slice.
