(** Dividing the same data differently among Write calls: used for C71. *)
From Verif Require Import Base SpecHuffman MChecksum MToken MCommon MWriter SpecEvents SpecSession MSession PWFrame.

Section Divide.
Variable env : wenv.
Hypothesis Hbpb : bytesPerBlock env = 4 \/ bytesPerBlock env = 8.
Notation bw := (bw_writer env).

(** ** What writing blocks leaves alone: everything but the output and the events *)
Section Keep.
Variable P : writer -> Prop.
Hypothesis Hout : forall w o, P w -> P (set_out w o).
Hypothesis Hev : forall w e, P w -> P (add_event w e).
Lemma g_on f w : P w -> ho P P (on_out f w).
Proof. intros H. unfold on_out. destruct (f (w_out w)) as [[o []]| |]; cbn [ho rbind]; auto. Qed.
Lemma g_event w e : P w -> P (sendEvent w e).
Proof. intros H. unfold sendEvent. auto. Qed.
Lemma g_bits w n x : P w -> ho P P (w_bitsWrite env w n x). Proof. apply g_on. Qed.
Lemma g_flush w : P w -> ho P P (w_bitsFlush env w). Proof. apply g_on. Qed.
Lemma g_buf w p : P w -> ho P P (w_bufferWrite env w p). Proof. apply g_on. Qed.
Lemma g_stored w data fin : P w -> ho P P (writeStoredBlock bw w data fin).
Proof.
  intros H. unfold writeStoredBlock. apply ho_assert. cbv zeta. cbn [bw_writer bw_bitsWrite bw_bitsFlush bw_writeU16le bw_bufferWrite bw_event].
  eapply ho_bind; [apply g_bits, g_event; eauto|]. intros x1 H1. eapply ho_bind; [apply g_flush; eauto|]. intros x2 H2.
  eapply ho_bind; [apply g_buf; eauto|]. intros x3 H3. eapply ho_bind; [apply g_buf; eauto|]. intros x4 H4.
  eapply ho_bind; [apply g_buf; eauto|]. intros x5 H5. apply g_event; auto.
Qed.
Lemma g_opt (b : bool) w n x : P w -> ho P P (if b then Ok (w, true) else w_bitsWrite env w n x).
Proof. intros H. destruct b; [exact H|apply g_bits; auto]. Qed.
Lemma g_lld ll d t w : P w -> ho P P (encodeLLD bw ll d t w).
Proof.
  intros H. unfold encodeLLD, bw_writeHC. cbn [bw_writer bw_bitsWrite]. apply ho_let. intros [[sl nl] xl]. apply ho_let. intros [[sd nd] xd]. destruct sl as [sl|]; [|exact H].
  eapply ho_bind; [apply g_bits; eauto|]. intros x1 H1. eapply ho_bind; [apply g_opt; eauto|]. intros x2 H2. destruct sd as [sd|]; [|exact H2].
  eapply ho_bind; [apply g_bits; eauto|]. intros x3 H3. eapply ho_bind; [apply g_opt; eauto|]. intros x4 H4. exact H4.
Qed.
Lemma g_x hx t w : P w -> ho P P (encodeX bw hx t w).
Proof.
  intros H. unfold encodeX, bw_writeHC. cbn [bw_writer bw_bitsWrite]. destruct (symbolX t) as [[sx nx] xx]. destruct sx as [sx|]; [|exact H].
  eapply ho_bind; [apply g_bits; eauto|]. intros x1 H1. eapply ho_bind; [apply g_opt; eauto|]. intros x2 H2. exact H2.
Qed.
Lemma g_static w tokens fin : P w -> ho P P (writeStaticBlock bw w tokens fin).
Proof.
  intros H. unfold writeStaticBlock. apply ho_assert. cbv zeta. cbn [bw_writer bw_bitsWrite bw_event]. eapply ho_bind; [apply g_bits, g_event; eauto|]. intros x1 H1.
  eapply ho_bind; [apply ho_for; [intros; apply g_lld; eauto|apply g_event; eauto]|]. intros x2 H2. apply g_event; auto.
Qed.
Lemma g_dynamic w ll d tokens fin : P w -> ho P P (writeDynamicBlock env bw w ll d tokens fin).
Proof.
  intros H. unfold writeDynamicBlock. apply ho_assert. cbv zeta. cbn [bw_writer bw_bitsWrite bw_event]. eapply ho_bind; [apply g_bits, g_event; eauto|]. intros x1 H1.
  apply ho_let. intros [xt1 nll]. apply ho_let. intros [xt nd]. apply ho_let. intros fx.
  eapply ho_bind; [apply g_bits; eauto|]. intros x2 H2. eapply ho_bind; [apply g_bits; eauto|]. intros x3 H3.
  eapply ho_bind; [apply g_bits; eauto|]. intros x4 H4.
  eapply ho_bind; [apply ho_for; [intros; apply g_bits; eauto|eauto]|]. intros x5 H5.
  eapply ho_bind; [apply ho_for; [intros; apply g_x; eauto|eauto]|]. intros x6 H6.
  eapply ho_bind; [apply ho_for; [intros; apply g_lld; eauto|apply g_event; eauto]|]. intros x7 H7. apply g_event; auto.
Qed.
Lemma g_tokens w data tokens fin : P w -> ho P P (compressTokens env bw w data tokens fin).
Proof.
  intros H. unfold compressTokens. apply ho_let. intros [fll fd]. cbv zeta. apply ho_let. intros [dc b1]. apply ho_let. intros [sc b2].
  match goal with |- ho _ _ (if ?b then _ else _) => destruct b end; [apply g_stored; auto|].
  match goal with |- ho _ _ (if ?b then _ else _) => destruct b end; [apply g_static; auto|apply g_dynamic; auto].
Qed.
End Keep.

(** ** The pending data is consumed completely *)
Lemma q_storeLoop h fuel : forall w, w_hdr w = h ->
  ho (fun x => w_hdr x = h /\ lz_buf (w_lz x) = []) (fun _ => True) (compressStoreLoop env fuel w).
Proof.
  induction fuel as [|f IH]; intros w H; cbn [compressStoreLoop]; destruct (lz_buf (w_lz w)) eqn:E; try (cbn [ho]; auto; fail).
  unfold inputBufferRead, lz_take. set (w1 := set_in _ _). set (p := firstn _ _).
  assert (H1 : w_hdr w1 = h) by (unfold w1; destruct w; exact H). clearbody w1.
  eapply ho_bind with (P := fun x => w_hdr x = h).
  - eapply ho_impl; [apply g_stored with (P := fun x => w_hdr x = h); auto; intros x y; destruct x; auto| |]; auto.
  - intros x Hx. apply IH; auto.
Qed.
Lemma q_slowLoop fuel : forall w w1 d t, compressSlowLoop env fuel w = Ok (w1, d, t) -> w_hdr w1 = w_hdr w /\ lz_buf (w_lz w1) = [].
Proof.
  induction fuel as [|f IH]; intros w w1 d t; cbn [compressSlowLoop]; destruct (lz_buf (w_lz w)) eqn:E; try discriminate; try (intros EQ; inversion EQ; subst; auto; fail).
  unfold inputBufferAdvance, lz_take. cbv zeta.
  set (m := e_match env _ _ _ _). set (l' := LZ _ _ _ _). set (p := firstn _ _). set (w2 := set_in _ _).
  assert (H2 : w_hdr w2 = w_hdr w) by (unfold w2; destruct w; reflexivity). clearbody w2. rewrite <- H2. destruct m as [[dd len]|].
  - unfold assertb. destruct (3 <=? len)%N; [|discriminate]. destruct (1 <=? dd)%N; [|discriminate]. destruct (makeCopyToken _ _); cbn [rbind]; try discriminate.
    destruct (compressSlowLoop env f w2) as [[[w3 d3] t3]| |] eqn:E3; cbn [rbind]; try discriminate. intros EQ. inversion EQ; subst. eapply IH; eauto.
  - destruct p; [discriminate|]. destruct (compressSlowLoop env f w2) as [[[w3 d3] t3]| |] eqn:E3; cbn [rbind]; try discriminate. intros EQ. inversion EQ; subst. eapply IH; eauto.
Qed.
Definition comp (w : writer) (all : bool) : res (writer * bool) :=
  if isStoreConfig (w_cfg w) then compressStore env w all else compressSlow env w all.
Lemma q_comp w all : all = true \/ lz_isFull (w_lz w) = true ->
  ho (fun x => w_hdr x = w_hdr w /\ lz_buf (w_lz x) = []) (fun _ => True) (comp w all).
Proof.
  intros H. unfold comp. destruct (isStoreConfig _).
  - unfold compressStore. replace (_ && negb all && negb (lz_isFull (w_lz w)))%bool with false.
    + eapply ho_impl; [apply q_storeLoop; reflexivity| |]; auto.
    + destruct H as [->| ->]; cbn [negb]; rewrite ?andb_false_r; reflexivity.
  - unfold compressSlow. replace (_ && negb all && negb (lz_isFull (w_lz w)))%bool with false.
    + destruct (compressSlowLoop env _ w) as [[[w1 d] t]| |] eqn:E; cbn [rbind ho]; auto.
      pose proof (q_slowLoop E) as [A B]. eapply ho_impl; [eapply g_tokens with (P := fun x => w_hdr x = w_hdr w /\ lz_buf (w_lz x) = [])| |]; auto;
      intros x y; destruct x; auto.
    + destruct H as [->| ->]; cbn [negb]; rewrite ?andb_false_r; reflexivity.
Qed.
Lemma comp_full w : lz_isFull (w_lz w) = true -> comp w false = comp w true.
Proof. intros H. unfold comp, compressStore, compressSlow. rewrite H. cbn [negb]. rewrite !andb_false_r. reflexivity. Qed.

(** ** Replacing the pending data *)
Definition setbuf (B : list N) (w : writer) : writer :=
  set_lz w (LZ (lz_o (w_lz w)) (lz_hist (w_lz w)) B (lz_calls (w_lz w))).
Definition rm (B : list N) (m : res (writer * bool)) : res (writer * bool) := let* (w, ok) := m in Ok (setbuf B w, ok).
Lemma rm_bind B m k : (forall w, k (setbuf B w) = rm B (k w)) -> (let? x := rm B m in k x) = rm B (let? x := m in k x).
Proof. intros H. destruct m as [[w []]| |]; cbn [rm rbind]; auto. Qed.
Lemma rm_bind2 B m m' k k' : m' = rm B m -> (forall w, k' (setbuf B w) = rm B (k w)) -> (let? x := m' in k' x) = rm B (let? x := m in k x).
Proof. intros -> H. destruct m as [[w []]| |]; cbn [rm rbind]; auto. Qed.
Lemma rm_on B f w : on_out f (setbuf B w) = rm B (on_out f w).
Proof. destruct w. unfold on_out, rm. cbn. destruct (f _) as [[o ok]| |]; reflexivity. Qed.
Lemma rm_buf B w p : w_bufferWrite env (setbuf B w) p = rm B (w_bufferWrite env w p).
Proof. unfold w_bufferWrite. replace (w_opt (setbuf B w)) with (w_opt w) by (destruct w; reflexivity). apply rm_on. Qed.
Lemma rm_flush B w : w_bitsFlush env (setbuf B w) = rm B (w_bitsFlush env w).
Proof. unfold w_bitsFlush. replace (w_opt (setbuf B w)) with (w_opt w) by (destruct w; reflexivity). apply rm_on. Qed.
Lemma rm_event B w e : sendEvent (setbuf B w) e = setbuf B (sendEvent w e).
Proof. destruct w. reflexivity. Qed.
Lemma rm_stringZ B w p : writeStringZ env (setbuf B w) p = rm B (writeStringZ env w p).
Proof. unfold writeStringZ. destruct (indexByte p 0); [|apply rm_buf]. destruct (Nat.eqb _ _); [apply rm_buf|reflexivity]. Qed.
Lemma rm_gzip B w : writeHeaderGZIP env (setbuf B w) = rm B (writeHeaderGZIP env w).
Proof.
  unfold writeHeaderGZIP. cbv zeta. replace (set_out (setbuf B w) (set_outcrc (w_out (setbuf B w)) crc_reset)) with (setbuf B (set_out w (set_outcrc (w_out w) crc_reset))) by (destruct w; reflexivity).
  set (x := set_out w _). replace (w_hdr (setbuf B x)) with (w_hdr x) by (destruct x; reflexivity). replace (w_opt (setbuf B x)) with (w_opt x) by (destruct x; reflexivity).
  set (h := w_hdr x). clearbody h. rewrite rm_buf. apply rm_bind. intros w1.
  apply rm_bind2. { destruct (h_extra h); [reflexivity|]. cbv zeta. rewrite rm_buf. apply rm_bind. intros; apply rm_buf. }
  intros w2. apply rm_bind2. { destruct (h_name h); [reflexivity|]. apply rm_stringZ. }
  intros w3. apply rm_bind2. { destruct (h_comment h); [reflexivity|]. apply rm_stringZ. }
  intros w4. replace (w_out (setbuf B w4)) with (w_out w4) by (destruct w4; reflexivity). apply rm_buf.
Qed.
Definition known (w : writer) : Prop := h_datatype (w_hdr w) <> UnknownData.
Lemma rm_header B w : known w -> writeHeader env (setbuf B w) = rm B (writeHeader env w).
Proof.
  intros HK. unfold writeHeader. cbv zeta.
  match goal with |- ?L = rm B ?R => match L with context [match o_format (w_opt ?x) with _ => _ end] => match R with context [match o_format (w_opt ?y) with _ => _ end] =>
    set (x2 := x); set (x1 := y); assert (EX : x2 = setbuf B x1) end end end.
  { unfold x1, x2. clear x1 x2. unfold known in HK. destruct w as [o c [a b cc d] i u n hh f s e]. destruct hh. cbn in HK.
    destruct o; cbn. destruct o_dict; cbn; destruct h_datatype; try congruence; reflexivity. }
  rewrite EX. clearbody x1. clear EX x2. replace (w_opt (setbuf B x1)) with (w_opt x1) by (destruct x1; reflexivity).
  apply rm_bind2.
  { destruct (o_format (w_opt x1)); try reflexivity.
    - unfold writeHeaderZlib. replace (w_opt (setbuf B x1)) with (w_opt x1) by (destruct x1; reflexivity). apply rm_buf.
    - apply rm_gzip. }
  intros x. destruct x as [o c l i u n hh f s e]. reflexivity.
Qed.
Lemma rm_footer B w : writeFooter env (setbuf B w) = rm B (writeFooter env w).
Proof.
  unfold writeFooter. rewrite rm_flush. apply rm_bind. intros x. cbv zeta.
  replace (w_in (setbuf B x)) with (w_in x) by (destruct x; reflexivity). rewrite rm_event. set (y := sendEvent x _). clearbody y.
  replace (w_opt (setbuf B y)) with (w_opt y) by (destruct y; reflexivity).
  apply rm_bind2.
  { destruct (o_format (w_opt y)); try reflexivity.
      - apply rm_buf.
      - unfold writeFooterGZIP. rewrite rm_buf. destruct (w_bufferWrite env y _) as [[z ok]| |]; cbn [rm rbind]; auto.
        replace (w_in (setbuf B z)) with (w_in z) by (destruct z; reflexivity). rewrite rm_buf. destruct (w_bufferWrite env z _) as [[z' ok']| |]; reflexivity. }
  intros z. rewrite rm_event. reflexivity.
Qed.

(** ** Opening a stream, the first half of compressImpl *)
Definition opening (w : writer) : res (writer * bool) :=
  let? w := (match w_state w with
             | closingStream => let? w := writeFooter env w in Ok (w_setstate w closedStream, true)
             | _ => Ok (w, true) end) in
  match w_state w with
  | noStream | closedStream => let? w := writeHeader env w in Ok (w_setstate w openStream, true)
  | _ => Ok (w, true) end.
Lemma compress_opening w all : compressImpl env w all =
  match lz_buf (w_lz w) with [] => Ok (w, true) | _ => let? w := opening w in comp w all end.
Proof.
  unfold compressImpl, opening, comp. destruct (lz_buf (w_lz w)); [reflexivity|].
  destruct (w_state w); try reflexivity; try (destruct (writeFooter env w) as [[x []]| |]; cbn [rbind]; try reflexivity; destruct (w_state (w_setstate x closedStream)); try reflexivity; destruct (writeHeader env (w_setstate x closedStream)) as [[y []]| |]; reflexivity);
    destruct (writeHeader env w) as [[y []]| |]; reflexivity.
Qed.
Lemma rm_opening B w : known w -> opening (setbuf B w) = rm B (opening w).
Proof.
  intros HK. unfold opening. replace (w_state (setbuf B w)) with (w_state w) by (destruct w; reflexivity).
  assert (HH : forall x, known x -> (match w_state (setbuf B x) with
    | noStream | closedStream => let? w := writeHeader env (setbuf B x) in Ok (w_setstate w openStream, true) | _ => Ok (setbuf B x, true) end) =
    rm B (match w_state x with
    | noStream | closedStream => let? w := writeHeader env x in Ok (w_setstate w openStream, true) | _ => Ok (x, true) end)).
  { intros x Hx. replace (w_state (setbuf B x)) with (w_state x) by (destruct x; reflexivity).
    destruct (w_state x); try reflexivity; rewrite rm_header by auto; apply rm_bind; intros y; destruct y; reflexivity. }
  destruct (w_state w) eqn:E; cbn [rbind]; try (apply HH; auto).
  rewrite rm_footer. destruct (writeFooter env w) as [[x []]| |] eqn:EF; cbn [rm rbind]; auto.
  replace (w_setstate (setbuf B x) closedStream) with (setbuf B (w_setstate x closedStream)) by (destruct x; reflexivity).
  apply HH. unfold known.
  assert (KF : ho (fun y => w_hdr y = w_hdr w) (fun _ => True) (writeFooter env w)).
  { unfold writeFooter.
    assert (C1 : forall (y : writer) o, w_hdr y = w_hdr w -> w_hdr (set_out y o) = w_hdr w) by (intros y; destruct y; auto).
    assert (C2 : forall (y : writer) o, w_hdr y = w_hdr w -> w_hdr (add_event y o) = w_hdr w) by (intros y; destruct y; auto).
    eapply ho_bind with (P := fun y => w_hdr y = w_hdr w); [eapply ho_impl; [apply g_flush with (P := fun y => w_hdr y = w_hdr w)| |]; auto|].
    intros y Hy. cbv zeta. set (z := sendEvent y _). assert (Hz : w_hdr z = w_hdr w) by (apply g_event with (P := fun y => w_hdr y = w_hdr w); auto). clearbody z.
    eapply ho_bind with (P := fun y => w_hdr y = w_hdr w).
    - destruct (o_format (w_opt z)); try exact I; auto.
      + eapply ho_impl; [apply g_buf with (P := fun y => w_hdr y = w_hdr w)| |]; auto.
      + unfold writeFooterGZIP. assert (G1 := fun z Hz p => @g_buf (fun y => w_hdr y = w_hdr w) C1 z p Hz).
        pose proof (G1 z Hz (le32 (inCRC (w_in y)))) as G2. destruct (w_bufferWrite env z _) as [[a []]| |]; cbn [ho rbind] in *; auto.
        * pose proof (G1 a G2 (le32 (inStream (w_in a) mod two32))) as G3. destruct (w_bufferWrite env a _) as [[b []]| |]; cbn [ho rbind andb] in *; auto.
        * pose proof (G1 a G2 (le32 (inStream (w_in a) mod two32))) as G3. destruct (w_bufferWrite env a _) as [[b []]| |]; cbn [ho rbind andb] in *; auto.
    - intros a Ha. cbn [ho]. apply g_event with (P := fun y => w_hdr y = w_hdr w); auto. }
  rewrite EF in KF. cbn [ho] in KF. unfold known in HK. destruct x. cbn in *. rewrite KF. exact HK.
Qed.

(** ** One Write is as good as two *)
Variable op : options.
Notation AA := (A op false).
Definition cap : N := (2 ^ lz_bufbits (hybridOptions op))%N.
Definition thr : N := if isStoreConfig (compressConfig op) then storedBlockSize else compressedBlockSize.
Lemma cap_pos : (0 < cap)%N.
Proof. apply N.neq_0_lt_0, N.pow_nonzero. discriminate. Qed.
Lemma A_fr w : AA w -> Fr op w.
Proof. intros [v [_ [H _]]]. exact H. Qed.
Lemma cap_eq w : Fr op w -> lz_cap (w_lz w) = cap.
Proof. intros [_ [_ H]]. unfold lz_cap. rewrite H. reflexivity. Qed.
Lemma setbuf_same w : setbuf (lz_buf (w_lz w)) w = w.
Proof. destruct w as [o c [a b cc d] i u n hh f s e]. reflexivity. Qed.
Lemma setbuf_twice B C w : setbuf B (setbuf C w) = setbuf B w.
Proof. destruct w as [o c [a b cc d] i u n hh f s e]. reflexivity. Qed.
Lemma buf_setbuf B w : lz_buf (w_lz (setbuf B w)) = B.
Proof. destruct w; reflexivity. Qed.
Lemma A_setbuf B w : AA w -> AA (setbuf B w).
Proof. intros H. apply A_lz; auto. Qed.
Lemma known_setbuf B w : known w -> known (setbuf B w).
Proof. destruct w; auto. Qed.

Lemma h_keep w h : (forall e, w_hdr (add_event w e) = h) -> w_hdr w = h.
Proof. intros H. rewrite <- (H (Event StreamBeginEvent 0 0 0 0 0 RawFormat None None None None)). destruct w; reflexivity. Qed.
Lemma hd_buf h w p : w_hdr w = h -> ho (fun x => w_hdr x = h) (fun x => w_hdr x = h) (w_bufferWrite env w p).
Proof. intros H. apply g_buf with (P := fun x => w_hdr x = h); auto. intros x; destruct x; auto. Qed.
Lemma hd_stringZ h w p : w_hdr w = h -> ho (fun x => w_hdr x = h) (fun x => w_hdr x = h) (writeStringZ env w p).
Proof. intros H. unfold writeStringZ. destruct (indexByte p 0); [|apply hd_buf; auto]. destruct (Nat.eqb _ _); [apply hd_buf; auto|exact I]. Qed.
Lemma known_header w : known w -> ho known (fun _ => True) (writeHeader env w).
Proof.
  intros HK. unfold writeHeader. cbv zeta. set (h := set_levels _ _ _). set (w1 := set_hdr _ _).
  assert (H1 : w_hdr w1 = h) by (unfold w1; match goal with |- w_hdr (set_hdr ?x _) = _ => destruct x; reflexivity end).
  assert (Hh : h_datatype h <> UnknownData).
  { unfold h. unfold known in HK. clear w1 H1 h. destruct w as [o c [a b cc d] i u n hh f s e]. destruct hh. cbn in HK.
    destruct o; cbn. destruct o_dict; cbn; destruct h_datatype; try congruence; cbn; destruct (_ =? _)%N; cbn; congruence. }
  clearbody w1 h. eapply ho_bind with (P := fun x => w_hdr x = h).
  2:{ intros x Hx. unfold known. cbn [ho]. destruct x. cbn in *. rewrite Hx. exact Hh. }
  destruct (o_format (w_opt w1)); [exact I|exact H1|eapply ho_impl; [apply hd_buf; eauto| |]; auto|].
  unfold writeHeaderGZIP. cbv zeta. set (x := set_out w1 _). assert (H2 : w_hdr x = h) by (unfold x; destruct w1; exact H1). clearbody x.
  set (g := w_hdr x). clearbody g.
  eapply ho_bind with (P := fun x => w_hdr x = h); [eapply ho_impl; [apply hd_buf; eauto| |]; auto|]. intros x2 H3.
  eapply ho_bind with (P := fun x => w_hdr x = h).
  { destruct (h_extra g); [exact H3|]. cbv zeta. eapply ho_bind with (P := fun x => w_hdr x = h); [eapply ho_impl; [apply hd_buf; eauto| |]; auto|].
    intros x4 H4. eapply ho_impl; [apply hd_buf; eauto| |]; auto. }
  intros x5 H5. eapply ho_bind with (P := fun x => w_hdr x = h).
  { destruct (h_name g); [exact H5|]. eapply ho_impl; [apply hd_stringZ; eauto| |]; auto. }
  intros x6 H6. eapply ho_bind with (P := fun x => w_hdr x = h).
  { destruct (h_comment g); [exact H6|]. eapply ho_impl; [apply hd_stringZ; eauto| |]; auto. }
  intros x7 H7. eapply ho_impl; [apply hd_buf; eauto| |]; auto.
Qed.
Lemma opening_ok w : AA w -> known w -> ho (fun x => U op false false openStream x /\ known x /\ lz_buf (w_lz x) = lz_buf (w_lz w)) (fun _ => True) (opening w).
Proof.
  intros HA HK. pose proof (rm_opening (lz_buf (w_lz w)) HK) as E. rewrite setbuf_same in E.
  assert (HU : ho (fun x => U op false false openStream x /\ known x) (fun _ => True) (opening w)).
  { destruct HA as [v [L HU]]. pose proof (v_state HU) as EV. unfold opening. rewrite EV.
    destruct L as [->|[->| ->]]; cbn [rbind]; rewrite EV.
    - pose proof (known_header HK) as K2. pose proof (@v_header env Hbpb op false (kst false noStream) noStream w HU) as K1.
      destruct (writeHeader env w) as [[x []]| |]; cbn [ho rbind] in *; auto. split; [apply v_setstate with (1 := K1); discriminate|destruct x; exact K2].
    - cbn [ho]. split; auto.
    - pose proof (known_header HK) as K2. pose proof (@v_header env Hbpb op false (kst false closedStream) closedStream w HU) as K1.
      destruct (writeHeader env w) as [[x []]| |]; cbn [ho rbind] in *; auto. split; [apply v_setstate with (1 := K1); discriminate|destruct x; exact K2]. }
  destruct (opening w) as [[x []]| |]; cbn [ho] in *; auto. destruct HU as [H1 H2]. split; auto. split; auto.
  cbn [rm rbind] in E. inversion E as [E2]. rewrite E2 at 1. apply buf_setbuf.
Qed.
Lemma opening_open w : w_state w = openStream -> opening w = Ok (w, true).
Proof. intros H. unfold opening. rewrite H. cbn [rbind]. rewrite H. reflexivity. Qed.

Definition fullstep (w : writer) : res (writer * bool) := let? x := opening w in comp x true.
Lemma full_ok w : AA w -> known w -> ho (fun x => AA x /\ known x /\ lz_buf (w_lz x) = []) (fun _ => True) (fullstep w).
Proof.
  intros HA HK. unfold fullstep. eapply ho_bind; [apply opening_ok; eauto|]. intros x [HU [HK' _]].
  pose proof (@q_comp x true (or_introl eq_refl)) as Q. pose proof (@x_compress env Hbpb op false openStream x true HU) as X. fold (comp x true) in X.
  destruct (comp x true) as [[y []]| |]; cbn [ho] in *; auto. destruct Q as [Q1 Q2]. split; [apply open_A; auto|]. split; auto. unfold known. rewrite Q1. exact HK'.
Qed.
Lemma comp_idle w : Fr op w -> (lenN (lz_buf (w_lz w)) < cap)%N -> (lenN (lz_buf (w_lz w)) < thr)%N -> comp w false = Ok (w, true).
Proof.
  intros HF H1 H2. pose proof (cap_eq HF) as EC. destruct HF as [_ [EF _]]. unfold comp, thr in *. rewrite EF. unfold compressStore, compressSlow, lz_isFull. rewrite EC.
  replace (cap <=? lenN (lz_buf (w_lz w)))%N with false by (symmetry; apply N.leb_gt; exact H1).
  destruct (isStoreConfig _).
  - replace (_ <? storedBlockSize)%N with true by (symmetry; apply N.ltb_lt; exact H2). reflexivity.
  - replace (_ <? compressedBlockSize)%N with true by (symmetry; apply N.ltb_lt; exact H2). reflexivity.
Qed.
Lemma step_full f w buf : AA w -> known w -> (lenN (lz_buf (w_lz w)) < cap)%N -> (cap <= lenN (lz_buf (w_lz w)) + lenN buf)%N ->
  let nn := N.to_nat (cap - lenN (lz_buf (w_lz w))) in
  writeLoop env (S f) w buf = let? x := fullstep (setbuf (lz_buf (w_lz w) ++ firstn nn buf) w) in writeLoop env f x (skipn nn buf).
Proof.
  intros HA HK H1 H2. cbv zeta. pose proof (A_fr HA) as HF. pose proof (cap_eq HF) as EC.
  destruct buf as [|b buf]; [exfalso; unfold lenN in *; cbn [length] in *; lia|]. set (bf := b :: buf) in *.
  assert (EB : writeLoop env (S f) w bf = let '(l, nn, full) := lz_write (w_lz w) bf in let? w := compressImpl env (set_lz w l) (Nat.eqb nn 0 || full) in writeLoop env f w (skipn nn bf)) by reflexivity.
  rewrite EB. unfold lz_write. rewrite EC. replace (N.min (lenN bf) (cap - lenN (lz_buf (w_lz w)))) with (cap - lenN (lz_buf (w_lz w)))%N by (clear - H1 H2; lia).
  set (nn := N.to_nat _). change (set_lz w _) with (setbuf (lz_buf (w_lz w) ++ firstn nn bf) w).
  set (w1 := setbuf _ w). set (al := (Nat.eqb nn 0 || (nn <? length bf))%bool).
  replace (compressImpl env w1 al) with (fullstep w1); [reflexivity|].
  assert (LB : lenN (lz_buf (w_lz w1)) = cap).
  { unfold w1. rewrite buf_setbuf. unfold lenN in *. rewrite app_length, firstn_length. unfold nn. clear - H1 H2. lia. }
  rewrite compress_opening. destruct (lz_buf (w_lz w1)) eqn:EL; [exfalso; pose proof cap_pos; unfold lenN in LB; cbn in LB; lia|]. rewrite <- EL in LB.
  unfold fullstep. destruct al; [reflexivity|].
  pose proof (@opening_ok w1 (@A_setbuf _ _ HA) (@known_setbuf _ _ HK)) as OK1.
  destruct (opening w1) as [[x []]| |]; cbn [ho rbind] in *; auto. symmetry. apply comp_full. destruct OK1 as [[O1 _] [_ O3]].
  unfold lz_isFull. rewrite (cap_eq O1), O3, LB. apply N.leb_refl.
Qed.
Lemma step_small f w buf : AA w -> known w -> buf <> [] -> (lenN (lz_buf (w_lz w)) + lenN buf < cap)%N -> (lenN (lz_buf (w_lz w)) + lenN buf < thr)%N ->
  writeLoop env (S f) w buf = opening (setbuf (lz_buf (w_lz w) ++ buf) w).
Proof.
  intros HA HK HN H1 H2. pose proof (A_fr HA) as HF. pose proof (cap_eq HF) as EC.
  assert (EB : writeLoop env (S f) w buf = let '(l, nn, full) := lz_write (w_lz w) buf in let? w := compressImpl env (set_lz w l) (Nat.eqb nn 0 || full) in writeLoop env f w (skipn nn buf))
    by (destruct buf; [congruence|reflexivity]).
  rewrite EB. unfold lz_write. rewrite EC. replace (N.min (lenN buf) (cap - lenN (lz_buf (w_lz w)))) with (lenN buf)%N by (clear - H1 H2; lia).
  replace (N.to_nat (lenN buf)) with (length buf) by (unfold lenN; rewrite Nat2N.id; reflexivity). rewrite Nat.ltb_irrefl, orb_false_r, firstn_all, skipn_all.
  assert (LN : length buf <> 0) by (destruct buf; [congruence|cbn; discriminate]). apply Nat.eqb_neq in LN. rewrite LN.
  change (set_lz w _) with (setbuf (lz_buf (w_lz w) ++ buf) w). set (w1 := setbuf _ w).
  rewrite compress_opening. assert (EL : lz_buf (w_lz w1) = lz_buf (w_lz w) ++ buf) by apply buf_setbuf.
  pose proof (@opening_ok w1 (@A_setbuf _ _ HA) (@known_setbuf _ _ HK)) as OK1.
  assert (NE : lz_buf (w_lz w1) <> []) by (rewrite EL; intros E; apply app_eq_nil in E; tauto).
  assert (EM : match lz_buf (w_lz w1) with [] => Ok (w1, true) | _ => let? w := opening w1 in comp w false end = let? w := opening w1 in comp w false) by (destruct (lz_buf (w_lz w1)); congruence).
  rewrite EM. destruct (opening w1) as [[x []]| |]; cbn [ho rbind] in *; auto. destruct OK1 as [[O1 _] [_ O3]].
  rewrite comp_idle; [|auto| |]; try (rewrite O3, EL; unfold lenN in *; rewrite app_length; clear - H1 H2; lia).
  cbn [rbind]. destruct f; reflexivity.
Qed.
(** the writer can take [n] more bytes without cutting a block, or cuts blocks only when its buffer is full *)
Definition room (w : writer) (n : N) : Prop := (cap <= thr)%N \/ (lenN (lz_buf (w_lz w)) + n < thr)%N.
Definition ready (w : writer) : Prop := AA w /\ known w /\ (lenN (lz_buf (w_lz w)) < cap)%N.
Lemma room_le w n m : room w n -> (m <= n)%N -> room w m.
Proof. unfold room. intros [H|H] L; [left|right]; lia. Qed.
Lemma skipn_lt {X} n (l : list X) : 0 < n -> n <= length l -> length (skipn n l) < length l.
Proof. intros. rewrite skipn_length. lia. Qed.

Lemma loop_fuel n : forall buf w f1 f2, length buf <= n -> ready w -> room w (lenN buf) -> length buf <= f1 -> length buf <= f2 -> writeLoop env f1 w buf = writeLoop env f2 w buf.
Proof.
  induction n as [|n IH]; intros buf w f1 f2 Hn HR HM H1 H2.
  - destruct buf; [destruct f1, f2; reflexivity|cbn in Hn; lia].
  - destruct buf as [|b r] eqn:EB; [destruct f1, f2; reflexivity|]. rewrite <- EB in *.
    assert (LB : 0 < length buf) by (rewrite EB; cbn; lia). destruct f1 as [|f1]; [lia|]. destruct f2 as [|f2]; [lia|].
    destruct HR as [HA [HK HL]]. destruct (N.le_gt_cases cap (lenN (lz_buf (w_lz w)) + lenN buf)) as [C|C].
    + rewrite !step_full by auto. set (nn := N.to_nat _). set (w1 := setbuf _ w).
      pose proof (@full_ok w1 (@A_setbuf _ _ HA) (@known_setbuf _ _ HK)) as K. destruct (fullstep w1) as [[x []]| |]; cbn [ho rbind] in *; auto.
      destruct K as [K1 [K2 K3]]. assert (S1 : length (skipn nn buf) < length buf) by (apply skipn_lt; unfold nn; unfold lenN in *; lia).
      apply IH; try lia.
      * split; auto. split; auto. rewrite K3. apply cap_pos.
      * destruct HM as [M|M]; [left; exact M|right]. rewrite K3. unfold lenN in *. cbn [length]. lia.
    + assert (T : (lenN (lz_buf (w_lz w)) + lenN buf < thr)%N) by (destruct HM as [M|M]; lia).
      rewrite !step_small by (auto; rewrite EB; discriminate). reflexivity.
Qed.

Inductive eqv : res (writer * bool) -> res (writer * bool) -> Prop :=
| eqv_same m : eqv m m
| eqv_fail w B C : eqv (Ok (setbuf B w, false)) (Ok (setbuf C w, false)).

Lemma loop_split n : forall p q w f1 f2 f, length p <= n -> ready w -> room w (lenN p + lenN q) -> length p <= f1 -> length q <= f2 -> length p + length q <= f ->
  eqv (let? x := writeLoop env f1 w p in writeLoop env f2 x q) (writeLoop env f w (p ++ q)).
Proof.
  assert (BASE : forall q w f2 f, ready w -> room w (lenN q) -> length q <= f2 -> length q <= f -> eqv (writeLoop env f2 w q) (writeLoop env f w q)).
  { intros q w f2 f HR HM H1 H2. rewrite (@loop_fuel (length q) q w f2 f) by auto. constructor. }
  induction n as [|n IH]; intros p q w f1 f2 f Hn HR HM H1 H2 H3.
  - destruct p; [|cbn in Hn; lia]. destruct f1; cbn [writeLoop rbind app]; (apply BASE; [exact HR|eapply room_le; [exact HM|lia]|exact H2|cbn [length] in *; lia]).
  - destruct p as [|b r] eqn:EP; [destruct f1; cbn [writeLoop rbind app]; (apply BASE; [exact HR|eapply room_le; [exact HM|lia]|exact H2|cbn [length] in *; lia])|]. rewrite <- EP in *.
    assert (LP : 0 < length p) by (rewrite EP; cbn; lia). destruct f1 as [|f1]; [lia|]. destruct f as [|f]; [lia|].
    pose proof HR as [HA [HK HL]]. destruct (N.le_gt_cases cap (lenN (lz_buf (w_lz w)) + lenN p)) as [C|C].
    + rewrite (@step_full f1 w p) by auto.
      rewrite (@step_full f w (p ++ q)) by (auto; unfold lenN in *; rewrite app_length; lia). set (nn := N.to_nat _).
      assert (LN : nn <= length p) by (unfold nn, lenN in *; lia).
      rewrite firstn_app, skipn_app. replace (nn - length p) with 0 by lia. cbn [firstn skipn]. rewrite app_nil_r. set (w1 := setbuf _ w).
      pose proof (@full_ok w1 (@A_setbuf _ _ HA) (@known_setbuf _ _ HK)) as K. destruct (fullstep w1) as [[x []]| |]; cbn [ho rbind] in *; try constructor.
      destruct K as [K1 [K2 K3]]. assert (S1 : length (skipn nn p) < length p) by (apply skipn_lt; unfold nn; unfold lenN in *; lia).
      apply IH; try lia.
      * split; auto. split; auto. rewrite K3. apply cap_pos.
      * destruct HM as [M|M]; [left; exact M|right]. rewrite K3. unfold lenN in *. cbn [length]. lia.
    + assert (T : (lenN (lz_buf (w_lz w)) + lenN p < thr)%N) by (destruct HM as [M|M]; lia).
      rewrite (@step_small f1 w p) by (auto; rewrite EP; discriminate).
      destruct q as [|c q'] eqn:EQ.
      { rewrite app_nil_r. rewrite (@step_small f w p) by (auto; rewrite EP; discriminate). destruct (opening _) as [[x []]| |]; cbn [rbind]; try constructor. destruct f2; cbn [writeLoop]; constructor. }
      rewrite <- EQ in *. assert (LQ : 0 < length q) by (rewrite EQ; cbn; lia). destruct f2 as [|f2]; [lia|].
      set (L := lz_buf (w_lz w)) in *. rewrite rm_opening by auto. pose proof (opening_ok HA HK) as OK1.
      destruct (N.le_gt_cases cap (lenN L + (lenN p + lenN q))) as [D|D].
      * rewrite (@step_full f w (p ++ q)) by (auto; unfold lenN in *; rewrite app_length; fold L; lia). fold L. set (nn := N.to_nat (cap - lenN L)).
        unfold fullstep. rewrite rm_opening by auto. destruct (opening w) as [[y []]| |]; cbn [rm rbind ho] in *; try constructor.
        destruct OK1 as [O1 [O2 O3]]. set (x := setbuf (L ++ p) y). assert (XA : AA x) by (apply A_setbuf, open_A; auto). assert (XK : known x) by (apply known_setbuf; auto).
        assert (XB : lz_buf (w_lz x) = L ++ p) by apply buf_setbuf.
        rewrite (@step_full f2 x q); auto; try (rewrite XB; unfold lenN in *; rewrite app_length; lia).
        cbv zeta. rewrite XB. set (n2 := N.to_nat _). unfold fullstep. rewrite opening_open.
        2:{ unfold x. pose proof (v_state O1) as V. destruct y; exact V. }
        cbn [rbind]. unfold x. rewrite !setbuf_twice.
        assert (EN : nn = length p + n2) by (unfold nn, n2, lenN in *; rewrite app_length; lia).
        rewrite firstn_app, skipn_app. rewrite (@firstn_all2 _ nn p), (@skipn_all2 _ nn p) by lia. replace (nn - length p) with n2 by lia. cbn [app]. rewrite <- app_assoc.
        set (z := setbuf _ y). pose proof (@q_comp z true (or_introl eq_refl)) as Q.
        pose proof (@x_compress env Hbpb op false openStream z true) as X. fold (comp z true) in X.
        assert (ZU : U op false false openStream z) by (apply v_lz; auto). specialize (X ZU).
        destruct (comp z true) as [[t []]| |]; cbn [rbind ho] in *; try constructor. destruct Q as [Q1 Q2].
        assert (S1 : length (skipn n2 q) <= length q) by (rewrite skipn_length; lia).
        apply BASE; try (lia).
        -- split; [apply open_A; auto|]. split; [unfold known; rewrite Q1; unfold z; destruct y; exact O2|]. rewrite Q2. apply cap_pos.
        -- destruct HM as [M|M]; [left; exact M|right]. rewrite Q2. unfold lenN in *. cbn [length]. lia.
        -- assert (0 < n2) by (unfold n2, lenN in *; rewrite app_length; lia). assert (length (skipn n2 q) < length q) by (apply skipn_lt; [lia|unfold n2, lenN in *; rewrite app_length; lia]). lia.
      * assert (T2 : (lenN L + (lenN p + lenN q) < thr)%N) by (unfold room in HM; fold L in HM; destruct HM as [M|M]; lia).
        rewrite (@step_small f w (p ++ q)); auto; try (fold L; unfold lenN in *; rewrite app_length; lia).
        2:{ rewrite EP. discriminate. }
        fold L. rewrite rm_opening by auto. destruct (opening w) as [[y []]| |]; cbn [rm rbind ho] in *; try constructor.
        destruct OK1 as [O1 [O2 O3]]. set (x := setbuf (L ++ p) y). assert (XA : AA x) by (apply A_setbuf, open_A; auto). assert (XK : known x) by (apply known_setbuf; auto).
        assert (XB : lz_buf (w_lz x) = L ++ p) by apply buf_setbuf.
        rewrite (@step_small f2 x q); auto; try (rewrite XB; unfold lenN in *; rewrite app_length; lia).
        2:{ rewrite EQ. discriminate. }
        rewrite opening_open. { unfold x. rewrite buf_setbuf, setbuf_twice, app_assoc. constructor. }
        unfold x. pose proof (v_state O1) as V. destruct y; exact V.
Qed.

(** ** Between the calls *)
Lemma loop_ready n : forall buf w f, length buf <= n -> ready w -> room w (lenN buf) -> length buf <= f ->
  ho (fun x => ready x /\ (lenN (lz_buf (w_lz x)) <= lenN (lz_buf (w_lz w)) + lenN buf)%N) (fun _ => True) (writeLoop env f w buf).
Proof.
  induction n as [|n IH]; intros buf w f Hn HR HM H1.
  - destruct buf; [|cbn in Hn; lia]. destruct f; cbn [writeLoop ho]; split; auto; lia.
  - destruct buf as [|b r] eqn:EB; [destruct f; cbn [writeLoop ho]; split; auto; lia|]. rewrite <- EB in *.
    assert (LB : 0 < length buf) by (rewrite EB; cbn; lia). destruct f as [|f]; [lia|].
    pose proof HR as [HA [HK HL]]. destruct (N.le_gt_cases cap (lenN (lz_buf (w_lz w)) + lenN buf)) as [C|C].
    + rewrite step_full by auto. set (nn := N.to_nat _). set (w1 := setbuf _ w).
      pose proof (@full_ok w1 (@A_setbuf _ _ HA) (@known_setbuf _ _ HK)) as K. destruct (fullstep w1) as [[x []]| |]; cbn [ho rbind] in *; auto.
      destruct K as [K1 [K2 K3]]. assert (S1 : length (skipn nn buf) < length buf) by (apply skipn_lt; unfold nn; unfold lenN in *; lia).
      assert (RX : ready x) by (split; auto; split; auto; rewrite K3; apply cap_pos).
      eapply ho_impl; [apply IH; auto; try lia| |auto].
      * destruct HM as [M|M]; [left; exact M|right]. rewrite K3. unfold lenN in *. cbn [length]. lia.
      * intros y [Y1 Y2]. split; auto. rewrite K3 in Y2. unfold lenN in *. cbn [length] in Y2. lia.
    + assert (T : (lenN (lz_buf (w_lz w)) + lenN buf < thr)%N) by (destruct HM as [M|M]; lia).
      rewrite !step_small by (auto; rewrite EB; discriminate). eapply ho_impl; [apply opening_ok; [apply A_setbuf; auto|apply known_setbuf; auto]| |auto].
      intros x [X1 [X2 X3]]. rewrite buf_setbuf in X3. assert (LX : lenN (lz_buf (w_lz x)) = (lenN (lz_buf (w_lz w)) + lenN buf)%N) by (rewrite X3; unfold lenN; rewrite app_length; lia).
      split; [|lia]. split; [apply open_A; auto|]. split; auto. lia.
Qed.

Definition KB (w : writer) : Prop := known w /\ lz_buf (w_lz w) = [].
Lemma KB_out w o : KB w -> KB (set_out w o). Proof. destruct w; auto. Qed.
Lemma KB_ev w e : KB w -> KB (add_event w e). Proof. destruct w; auto. Qed.
Lemma KB_state w s : KB w -> KB (w_setstate w s). Proof. destruct w; auto. Qed.
Lemma KB_clear w : KB w -> KB (set_lz w (lz_windowClear (w_lz w))). Proof. destruct w; auto. Qed.
Lemma KB_footer w : KB w -> ho KB KB (writeFooter env w).
Proof.
  intros H. unfold writeFooter. eapply ho_bind; [apply g_flush; auto using KB_out|]. intros y Hy. cbv zeta. set (z := sendEvent y _). assert (Hz : KB z) by (apply g_event; auto using KB_ev). clearbody z.
  eapply ho_bind with (P := KB).
  - destruct (o_format (w_opt z)); try exact I; auto.
    + apply g_buf; auto using KB_out.
    + unfold writeFooterGZIP. assert (G1 := fun z Hz p => @g_buf KB KB_out z p Hz).
      pose proof (G1 z Hz (le32 (inCRC (w_in y)))) as G2. destruct (w_bufferWrite env z _) as [[a []]| |]; cbn [ho rbind] in *; auto.
      * pose proof (G1 a G2 (le32 (inStream (w_in a) mod two32))) as G3. destruct (w_bufferWrite env a _) as [[b []]| |]; cbn [ho rbind andb] in *; auto.
      * pose proof (G1 a G2 (le32 (inStream (w_in a) mod two32))) as G3. destruct (w_bufferWrite env a _) as [[b []]| |]; cbn [ho rbind andb] in *; auto.
  - intros a Ha. cbn [ho]. apply g_event; auto using KB_ev.
Qed.
Lemma KB_header w : KB w -> ho KB (fun _ => True) (writeHeader env w).
Proof.
  intros [HK HB]. pose proof (known_header HK) as K. pose proof (rm_header [] HK) as E. rewrite <- HB, setbuf_same in E.
  destruct (writeHeader env w) as [[x []]| |]; cbn [ho rm rbind] in *; auto. split; auto. inversion E as [E2]. rewrite E2, HB. apply buf_setbuf.
Qed.
Lemma flush_KB w ft : AA w -> known w -> ho KB (fun _ => True) (flushImpl env w ft).
Proof.
  intros HA HK. unfold flushImpl. eapply ho_bind with (P := KB).
  { rewrite compress_opening. destruct (lz_buf (w_lz w)) eqn:E; [split; auto|]. fold (fullstep w). eapply ho_impl; [apply full_ok; auto| |auto]. intros x [_ H]. exact H. }
  intros x1 H1. eapply ho_bind with (P := KB).
  { destruct (is_finish ft); [|exact H1]. destruct (w_state x1); try exact H1. eapply ho_bind; [apply KB_header; auto|]. intros y Hy. apply KB_state; auto. }
  intros x2 H2. eapply ho_bind with (P := KB).
  { destruct (w_state x2); try exact H2. unfold flushGuts. destruct ft; try exact H2.
    - eapply ho_impl; [apply g_static with (P := KB); auto using KB_out, KB_ev| |]; auto.
    - eapply ho_impl; [apply g_stored with (P := KB); auto using KB_out, KB_ev| |]; auto.
    - eapply ho_bind; [eapply ho_impl with (P := KB) (P0 := KB); [apply g_stored; auto using KB_out, KB_ev|intros ? HH; exact HH|auto]|]. intros y Hy. apply KB_clear; auto.
    - eapply ho_bind; [eapply ho_impl with (P := KB) (P0 := KB); [apply g_stored; auto using KB_out, KB_ev|intros ? HH; exact HH|auto]|]. intros y Hy. apply KB_state, KB_clear; auto. }
  intros x3 H3. eapply ho_bind with (P := KB).
  { destruct (w_state x3); try exact H3. eapply ho_bind; [eapply ho_impl with (P := KB) (P0 := KB); [apply KB_footer; auto|intros ? HH; exact HH|auto]|]. intros y Hy. apply KB_state; auto. }
  intros x4 H4. cbv zeta. assert (H5 : forall a b, KB (set_calls x4 a b)) by (intros; destruct x4; exact H4).
  destruct (e_flushw env _); [exact I|]. destruct (e_syncw env _) as [[]|]; cbn [ho]; auto; destruct x4; exact H4.
Qed.
End Divide.
