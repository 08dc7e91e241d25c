(** A stream begun after another one has been finished: used for C81. *)
From Verif Require Import Base SpecHuffman MChecksum MToken MCommon MWriter SpecEvents SpecSession MSession MCalls PWSim PWFrame PDivide.

Section Streams.
Variable env : wenv.
Hypothesis Hbpb : bytesPerBlock env = 4 \/ bytesPerBlock env = 8.

(** ** A flush that succeeds leaves no data behind *)
Definition B (w : writer) : Prop := lz_buf (w_lz w) = [].
Lemma B_out w o : B w -> B (set_out w o). Proof. destruct w; auto. Qed.
Lemma B_ev w e : B w -> B (add_event w e). Proof. destruct w; auto. Qed.
Lemma B_state w s : B w -> B (w_setstate w s). Proof. destruct w; auto. Qed.
Lemma B_clear w : B w -> B (set_lz w (lz_windowClear (w_lz w))). Proof. destruct w; auto. Qed.
Lemma B_footer w : B w -> ho B B (writeFooter env w).
Proof.
  intros H. unfold writeFooter. eapply ho_bind; [apply g_flush; auto using B_out|]. intros y Hy. cbv zeta. set (z := sendEvent y _). assert (Hz : B z) by (apply g_event; auto using B_ev). clearbody z.
  eapply ho_bind with (P := B).
  - destruct (o_format (w_opt z)); try exact I; auto.
    + apply g_buf; auto using B_out.
    + unfold writeFooterGZIP. assert (G1 := fun z Hz p => @g_buf env B B_out z p Hz).
      pose proof (G1 z Hz (le32 (inCRC (w_in y)))) as G2. destruct (w_bufferWrite env z _) as [[a []]| |]; cbn [ho rbind] in *; auto;
        (pose proof (G1 a G2 (le32 (inStream (w_in a) mod two32))) as G3; destruct (w_bufferWrite env a _) as [[b []]| |]; cbn [ho rbind andb] in *; auto).
  - intros a Ha. cbn [ho]. apply g_event; auto using B_ev.
Qed.
Lemma B_strz w p : B w -> ho B B (writeStringZ env w p).
Proof. intros H. unfold writeStringZ. destruct (indexByte p 0); [|apply g_buf; auto using B_out]. destruct (Nat.eqb _ _); [apply g_buf; auto using B_out|exact I]. Qed.
Lemma B_gzip w : B w -> ho B B (writeHeaderGZIP env w).
Proof.
  intros H. unfold writeHeaderGZIP. cbv zeta. set (x := set_out w _). assert (Hx : B x) by (apply B_out; auto). clearbody x. set (h := w_hdr x). clearbody h.
  assert (G := fun z p Hz => @g_buf env B B_out z p Hz).
  eapply ho_bind; [apply G; auto|]. intros x2 H2. eapply ho_bind with (P := B).
  { destruct (h_extra h); [exact H2|]. cbv zeta. eapply ho_bind; [apply G; eauto|]. intros a Ha. apply G; auto. }
  intros x3 H3. eapply ho_bind with (P := B); [destruct (h_name h); [exact H3|apply B_strz; auto]|]. intros x4 H4.
  eapply ho_bind with (P := B); [destruct (h_comment h); [exact H4|apply B_strz; auto]|]. intros x5 H5. apply G; auto.
Qed.
Lemma prep_buf w : lz_buf (w_lz (h_prep env w)) = lz_buf (w_lz w).
Proof. unfold h_prep. destruct w as [o c [lo lh lb lc] i u n h f s e]. cbn. destruct (o_dict o); reflexivity. Qed.
Lemma B_header w : B w -> ho B B (writeHeader env w).
Proof.
  intros H. rewrite header_eq. assert (H1 : B (h_prep env w)) by (unfold B; rewrite prep_buf; auto). set (x := h_prep env w) in *. clearbody x.
  eapply ho_bind with (P := B).
  - destruct (o_format (w_opt x)); [exact I|exact H1|unfold writeHeaderZlib; apply g_buf; auto using B_out|apply B_gzip; auto].
  - intros y Hy. cbn [ho]. unfold h_done. assert (B (sendEvent y (ev_header (w_hdr y)))) by (apply g_event; auto using B_ev). destruct (sendEvent y _); auto.
Qed.
Lemma B_compress w : ho B (fun _ => True) (compressImpl env w true).
Proof.
  unfold compressImpl. destruct (lz_buf (w_lz w)) eqn:E; [exact E|].
  eapply ho_bind with (P := fun _ => True); [|intros x _; eapply ho_bind with (P := fun _ => True)].
  - match goal with |- ho _ _ ?m => destruct m as [[? []]| |]; exact I end.
  - match goal with |- ho _ _ ?m => destruct m as [[? []]| |]; exact I end.
  - intros y _. eapply ho_impl; [apply (@q_comp env y true (or_introl eq_refl))|intros z [_ Hz]; exact Hz|auto].
Qed.
Lemma B_flushImpl w ft : ho B (fun _ => True) (flushImpl env w ft).
Proof.
  unfold flushImpl. eapply ho_bind; [apply B_compress|]. intros x1 H1. eapply ho_bind with (P := B).
  { destruct (is_finish ft); [|exact H1]. destruct (w_state x1); try exact H1. eapply ho_bind; [eapply ho_impl; [apply B_header; auto|intros ? HH; exact HH|auto]|]. intros y Hy. apply B_state; auto. }
  intros x2 H2. eapply ho_bind with (P := B).
  { destruct (w_state x2); try exact H2. unfold flushGuts. destruct ft; try exact H2.
    - eapply ho_impl; [apply g_static with (P := B); auto using B_out, B_ev| |]; auto.
    - eapply ho_impl; [apply g_stored with (P := B); auto using B_out, B_ev| |]; auto.
    - eapply ho_bind; [eapply ho_impl with (P := B) (P0 := B); [apply g_stored; auto using B_out, B_ev|intros ? HH; exact HH|auto]|]. intros y Hy. apply B_clear; auto.
    - eapply ho_bind; [eapply ho_impl with (P := B) (P0 := B); [apply g_stored; auto using B_out, B_ev|intros ? HH; exact HH|auto]|]. intros y Hy. apply B_state, B_clear; auto. }
  intros x3 H3. eapply ho_bind with (P := B).
  { destruct (w_state x3); try exact H3. eapply ho_bind; [eapply ho_impl with (P := B) (P0 := B); [apply B_footer; auto|intros ? HH; exact HH|auto]|]. intros y Hy. apply B_state; auto. }
  intros x4 H4. cbv zeta. assert (H5 : forall a b, B (set_calls x4 a b)) by (intros; destruct x4; exact H4).
  destruct (e_flushw env _); [exact I|]. destruct (e_syncw env _) as [[]|]; cbn [ho]; auto; destruct x4; exact H4.
Qed.

(** ** Between two streams *)
Record idle (op : options) (w : writer) : Prop := Idle {
  i_fr : Fr op w; i_state : w_state w = closedStream; i_buf : lz_buf (w_lz w) = [];
  i_len : obLen (w_out w) = 0; i_block : obBlock (w_out w) = 0%N; i_out : outBuf (w_out w) = []; i_err : werr (w_out w) = None }.
Lemma finish_idle op w w' : J env op true w -> w_Flush env w FinishFlush = Ok (w', None) -> idle op w'.
Proof.
  intros H E. unfold w_Flush in E. destruct (J_dead H) as [X|[X|HA]].
  - rewrite X in E. discriminate.
  - destruct H as [_ [_ H]]. rewrite X in *. destruct H as [H _]. inversion E; congruence.
  - pose proof (a_flushImpl Hbpb FinishFlush HA) as K. pose proof (B_flushImpl w FinishFlush) as KB. destruct HA as [v [L HU]].
    rewrite (v_state HU) in *. destruct L as [->|[->| ->]];
      (destruct (flushImpl env w FinishFlush) as [[w1 []]| |] eqn:EF; cbn [rbind ho] in *; try discriminate;
       [inversion E; subst w1; clear E; destruct K as [_ K]; destruct (K eq_refl) as [K1 [K2 [K3 [K4 K5]]]]; destruct (K5 eq_refl ltac:(discriminate)) as [K6 K7];
        constructor; auto; apply K2; auto
       |destruct K as [_ [_ [K _]]]; congruence]).
Qed.

(** A Writer between two streams and one that is new *)
Notation env2 ka kb kc kd := (shift_env env ka kb kc kd).
Lemma header_clear e0 w : writeHeader e0 w = writeHeader e0 (set_lz w (lz_windowClear (w_lz w))).
Proof. rewrite !header_eq. replace (h_prep e0 (set_lz w (lz_windowClear (w_lz w)))) with (h_prep e0 w); [reflexivity|]. destruct w as [o c l i u n h f s e]. reflexivity. Qed.
(** the beginning of a stream *)
Lemma begin_stream ka kb kc kd ev0 sk0 op x y p f : p <> [] -> w_state x = closedStream -> w_state y = noStream ->
  lz_o (w_lz x) = hybridOptions op -> lz_o (w_lz y) = hybridOptions op -> lz_buf (w_lz x) = [] -> lz_buf (w_lz y) = [] ->
  w0rel ka kb kc kd ev0 sk0 (set_lz x (lz_windowClear (w_lz x))) (set_lz y (lz_windowClear (w_lz y))) ->
  rel (WR ka kb kc kd ev0 sk0) (erel ka kb kc kd ev0 sk0) (writeLoop env (S f) x p) (writeLoop (env2 ka kb kc kd) (S f) y p).
Proof.
  intros NE SX SY OX OY BX BY H. cbn [writeLoop]. destruct p as [|b l]; [contradiction|].
  unfold lz_write, lz_cap. rewrite OX, OY, BX, BY. cbn zeta. set (cap := (2 ^ lz_bufbits (hybridOptions op))%N). assert (HC : (0 < cap)%N).
  { unfold cap. pose proof (N.pow_nonzero 2 (lz_bufbits (hybridOptions op)) ltac:(discriminate)). lia. }
  clearbody cap. set (nn := N.to_nat _).
  assert (HN : exists a r, firstn nn (b :: l) = a :: r).
  { assert (N1 : nn <> 0). { unfold nn, lenN. cbn [length]. lia. } destruct nn; [contradiction|]. cbn. eauto. }
  eapply rel_bind with (R := WR ka kb kc kd ev0 sk0); [|intros a c Hac; apply s_writeLoop; auto].
  destruct HN as [a [r HN]]. cbn [app]. rewrite HN.
  set (x1 := set_lz x _). set (y1 := set_lz y _). unfold compressImpl.
  replace (lz_buf (w_lz x1)) with (a :: r) by (destruct x; reflexivity). replace (lz_buf (w_lz y1)) with (a :: r) by (destruct y; reflexivity).
  replace (w_state x1) with closedStream by (destruct x; auto). replace (w_state y1) with noStream by (destruct y; auto). cbn [rbind].
  replace (w_state x1) with closedStream by (destruct x; auto). replace (w_state y1) with noStream by (destruct y; auto).
  assert (H1 : w0rel ka kb kc kd ev0 sk0 (set_lz x1 (lz_windowClear (w_lz x1))) (set_lz y1 (lz_windowClear (w_lz y1)))).
  { assert (C : lz_calls (w_lz x) = lz_calls (w_lz y) + ka) by (pose proof (wr_lz H) as C; destruct x, y; apply C).
    pose proof (@s_lz ka kb kc kd ev0 sk0 _ _ _ _ _ (lz_windowClear (w_lz x1)) (lz_windowClear (w_lz y1)) H) as Q.
    replace (set_lz x1 (lz_windowClear (w_lz x1))) with (set_lz (set_lz x (lz_windowClear (w_lz x))) (lz_windowClear (w_lz x1))) by (destruct x; reflexivity).
    replace (set_lz y1 (lz_windowClear (w_lz y1))) with (set_lz (set_lz y (lz_windowClear (w_lz y))) (lz_windowClear (w_lz y1))) by (destruct y; reflexivity).
    apply Q. unfold lrel. destruct x, y; cbn. auto. }
  rewrite (header_clear env x1), (header_clear (shift_env env ka kb kc kd) y1).
  eapply rel_bind; [apply s_openHeader; exact H1|]. intros x2 y2 H2. eapply rel_WR; [apply s_compress; exact H2|]. auto.
Qed.
(** ** The second stream *)
Lemma next_write ka kb kc kd ev0 sk0 op x y p : p <> [] -> w_state x = closedStream -> w_state y = noStream ->
  lz_o (w_lz x) = hybridOptions op -> lz_o (w_lz y) = hybridOptions op -> lz_buf (w_lz x) = [] -> lz_buf (w_lz y) = [] ->
  w0rel ka kb kc kd ev0 sk0 (set_lz x (lz_windowClear (w_lz x))) (set_lz y (lz_windowClear (w_lz y))) ->
  arel ka kb kc kd ev0 sk0 (w_Write env x p) (w_Write (env2 ka kb kc kd) y p).
Proof.
  intros NE SX SY OX OY BX BY H. unfold w_Write. rewrite SX, SY.
  apply (@arel_ok ka kb kc kd ev0 sk0 _ _ _ (fun w => (w, (lenN p, None))) (fun w => (w, (0%N, werr (w_out w))))).
  - replace (2 * length p + 2) with (S (2 * length p + 1)) by lia. eapply begin_stream; eauto.
  - cbn [fst snd]. auto.
  - cbn [fst snd]. intros a b Hab. rewrite (WR_err Hab). auto.
Qed.
End Streams.
