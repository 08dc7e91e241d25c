(** C92: a flush with nothing to flush. *)
From Verif Require Import Base SpecHuffman MChecksum MToken MCommon MWriter SpecEvents SpecLib SpecSession MSession PropWriter PWFrame PMark PropFraming Demo PDemo.
From Verif Require PPrefix PropDurable PDivide.

(** Calls that bring no data: flushes of any kind, SetHeader, an empty Write. *)
Definition idle_call (o : wop) : Prop := match o with OWrite p => p = [] | OFlush _ | OSetHeader _ => True end.
(** The same without FinishFlush. *)
Definition idle_no_finish (o : wop) : Prop := idle_call o /\ o <> OFlush FinishFlush.

Section Idle.
Variable env : wenv.
Hypothesis HL : lib_ok env.
Notation Hbpb := (lib_bpb HL).
Notation eff o := (populateWriterDefaults (opt_apply options_reset o)).

(** no input pending *)
Definition Z (w : writer) : Prop := lz_buf (w_lz w) = [].
Definition T {A} : A -> Prop := fun _ => True.
Lemma z_out w o : Z w -> Z (set_out w o). Proof. destruct w; auto. Qed.
Lemma z_ev w e : Z w -> Z (add_event w e). Proof. destruct w; auto. Qed.
Lemma ho_T {A} (P P0 : A -> Prop) m : ho P P0 m -> ho P T m.
Proof. destruct m as [[x []]| |]; cbn; auto. intros; exact I. Qed.
Lemma z_buf w p : Z w -> ho Z T (w_bufferWrite env w p).
Proof. intros H. eapply ho_T, PDivide.g_buf; auto using z_out. Qed.
Lemma z_stringZ w p : Z w -> ho Z T (writeStringZ env w p).
Proof. intros H. unfold writeStringZ. destruct (indexByte p 0); [|apply z_buf; auto]. destruct (Nat.eqb _ _); [apply z_buf; auto|exact I]. Qed.
Lemma z_header w : Z w -> ho Z T (writeHeader env w).
Proof.
  intros H. unfold writeHeader. cbv zeta. set (h := set_levels _ _ _). set (w1 := set_hdr _ _).
  assert (H1 : Z w1).
  { unfold w1. generalize h. clear w1 h. intros h. unfold Z in *. unfold sendEvent. destruct w as [o c l i u n hh f s e]. cbn in *. destruct (o_dict o); cbn; auto. }
  clearbody w1 h. eapply ho_bind with (P := Z).
  2:{ intros x Hx. unfold Z in *. cbn [ho]. destruct x. exact Hx. }
  destruct (o_format (w_opt w1)); [exact I|exact H1|apply z_buf; auto|].
  unfold writeHeaderGZIP. cbv zeta. set (x := set_out w1 _). assert (H2 : Z x) by (unfold x; destruct w1; exact H1). clearbody x.
  set (g := w_hdr x). clearbody g.
  eapply ho_bind; [apply z_buf; eauto|]. intros x2 H3.
  eapply ho_bind with (P := Z); [destruct (h_extra g); [exact H3|]; cbv zeta; eapply ho_bind; [apply z_buf; eauto|]; intros x4 H4; apply z_buf; auto|]. intros x5 H5.
  eapply ho_bind with (P := Z); [destruct (h_name g); [exact H5|]; apply z_stringZ; auto|]. intros x6 H6.
  eapply ho_bind with (P := Z); [destruct (h_comment g); [exact H6|]; apply z_stringZ; auto|]. intros x7 H7. apply z_buf; auto.
Qed.
Lemma z_footer w : Z w -> ho Z T (writeFooter env w).
Proof.
  intros H. assert (E : PDivide.setbuf [] w = w) by (unfold Z in H; rewrite <- H at 1; apply PDivide.setbuf_same).
  rewrite <- E, PDivide.rm_footer. destruct (writeFooter env w) as [[x []]| |]; try exact I. apply PDivide.buf_setbuf.
Qed.
Lemma z_compress w : ho Z T (compressImpl env w true).
Proof.
  rewrite PDivide.compress_opening. destruct (lz_buf (w_lz w)) eqn:E; [exact E|]. apply ho_bind with (P := T).
  - destruct (PDivide.opening env w) as [[x []]| |]; cbn; unfold T; auto.
  - intros x _. pose proof (@PDivide.q_comp env x true (or_introl eq_refl)) as K. destruct (PDivide.comp env x true) as [[y []]| |]; cbn [ho] in *; unfold T; auto. apply K.
Qed.
Lemma z_guts ft w : Z w -> ho Z T (flushGuts env w ft).
Proof.
  intros H. destruct ft; cbn [flushGuts]; [exact H|eapply ho_T, PDivide.g_static; auto using z_out, z_ev|eapply ho_T, PDivide.g_stored; auto using z_out, z_ev| |];
  (eapply ho_bind; [eapply ho_T, PDivide.g_stored with (P := Z); auto using z_out, z_ev|]; intros x Hx; destruct x; exact Hx).
Qed.
Lemma z_flush ft w : ho Z T (flushImpl env w ft).
Proof.
  rewrite flush_eq. eapply ho_bind; [apply z_compress|]. intros x1 H1. eapply ho_bind with (P := Z).
  { destruct (is_finish ft); [|exact H1]. destruct (w_state x1); try exact H1. eapply ho_bind; [apply z_header; auto|]. intros y Hy. destruct y; exact Hy. }
  intros x2 H2. eapply ho_bind with (P := Z); [destruct (w_state x2); try exact H2; apply z_guts; auto|].
  intros x3 H3. eapply ho_bind with (P := Z).
  { destruct (w_state x3); try exact H3. eapply ho_bind; [apply z_footer; auto|]. intros y Hy. destruct y; exact Hy. }
  intros x4 H4. unfold fl_tail. cbv zeta. destruct (e_flushw _ _); [exact I|]. destruct (e_syncw _ _) as [[]|]; try exact I; destruct x4; exact H4.
Qed.

(** ** No stream open *)
Definition I0 (s : list N) (v : writerstate) (w : writer) : Prop := Z w /\ w_state w = v /\ sink (w_out w) = s.
Definition F0 (s : list N) (w : writer) : Prop := sink (w_out w) = s /\ werr (w_out w) <> None.
Lemma tail_sink w : Z w -> ho (I0 (sink (w_out w)) (w_state w)) (F0 (sink (w_out w))) (fl_tail env w).
Proof.
  unfold Z. intros E. unfold fl_tail. cbv zeta. destruct w as [o c l i u n h f s e]. destruct u. cbn in *.
  destruct (e_flushw _ _); [split; [reflexivity|discriminate]|]. destruct (e_syncw _ _) as [[]|]; try (split; [reflexivity|discriminate]); repeat split; auto.
Qed.
Lemma idle_flush s v ft w : I0 s v w -> v = closedStream \/ (v = noStream /\ ft <> FinishFlush) -> ho (I0 s v) (F0 s) (flushImpl env w ft).
Proof.
  intros [HZ [HS <-]] HV. rewrite flush_eq. pose proof (tail_sink HZ) as T0. unfold compressImpl. unfold Z in HZ. rewrite HZ. cbn [rbind]. rewrite HS in *.
  destruct HV as [->|[-> NF]].
  - destruct (is_finish ft); cbn [rbind]; rewrite ?HS; cbn [rbind]; rewrite ?HS; cbn [rbind]; rewrite ?HS; exact T0.
  - replace (is_finish ft) with false by (destruct ft; auto; contradiction NF; reflexivity). cbn [rbind]. rewrite HS. cbn [rbind]. rewrite HS. exact T0.
Qed.
Lemma idle_step s v o w : I0 s v w -> (v = closedStream /\ idle_call o) \/ (v = noStream /\ idle_no_finish o) ->
  match w_step env w o with Ok (x, None) => I0 s v x | Ok (x, _) => sink (w_out x) = s | _ => True end.
Proof.
  intros H HV. destruct o as [p|ft|h]; cbn [w_step].
  - assert (p = []) as -> by (destruct HV as [[_ HV]|[_ [HV _]]]; exact HV). unfold w_Write. pose proof H as [H1 [H2 H3]].
    assert (E : writeLoop env (2 * length (@nil N) + 2) w [] = Ok (w, true)) by reflexivity. rewrite E, H2. destruct HV as [[-> _]|[-> _]]; exact H.
  - assert (HV' : v = closedStream \/ (v = noStream /\ ft <> FinishFlush)) by (destruct HV as [[-> _]|[-> [_ N]]]; auto; right; split; auto; intros ->; contradiction N; reflexivity).
    pose proof (@idle_flush s v ft w H HV') as K. unfold w_Flush. pose proof H as [H1 [H2 H3]]. rewrite H2.
    assert (G : match (let* (w, ok) := flushImpl env w ft in if ok then Ok (w, None) else Ok (w, werr (w_out w))) with Ok (x, None) => I0 s v x | Ok (x, _) => sink (w_out x) = s | _ => True end).
    { destruct (flushImpl env w ft) as [[x []]| |]; cbn [rbind ho] in *; auto. destruct K as [K1 K2]. destruct (werr (w_out x)); auto. contradiction K2; reflexivity. }
    destruct HV' as [->|[-> _]]; exact G.
  - unfold w_SetHeader. cbv zeta. destruct (Nat.eqb _ _); cbn [fst]; auto. destruct w; exact H.
Qed.
Lemma idle_run s v ops : forall w, I0 s v w -> (v = closedStream /\ Forall idle_call ops) \/ (v = noStream /\ Forall idle_no_finish ops) ->
  match w_run env w ops with Ok (x, None) => I0 s v x | Ok (x, _) => sink (w_out x) = s | _ => True end.
Proof.
  induction ops as [|o r IH]; intros w H HV; cbn [w_run]; [exact H|].
  assert (H1 : (v = closedStream /\ idle_call o) \/ (v = noStream /\ idle_no_finish o)) by (destruct HV as [[E F]|[E F]]; inversion_clear F; auto).
  assert (H2 : (v = closedStream /\ Forall idle_call r) \/ (v = noStream /\ Forall idle_no_finish r)) by (destruct HV as [[E F]|[E F]]; inversion_clear F; auto).
  pose proof (idle_step H H1) as K. destruct (w_step env w o) as [[x [e|]]| |]; cbn [rbind]; try exact K; try exact I. exact (IH x K H2).
Qed.
Lemma close_idle s w : I0 s closedStream w -> match w_Close env w with Ok (x, _) => sink (w_out x) = s | _ => True end.
Proof.
  intros H. pose proof (@idle_flush s closedStream FinishFlush w H (or_introl eq_refl)) as K. pose proof H as [H1 [H2 H3]]. unfold w_Close. rewrite H2.
  destruct (flushImpl env w FinishFlush) as [[x []]| |]; cbn [rbind ho] in *; auto; [destruct K as [_ [_ K]]|destruct K as [K _]]; unfold close_helper, w_setstate; destruct x as [o c l i u n h f ss e]; destruct u; exact K.
Qed.

(** Flushing a Writer that was given no data writes nothing. *)
Theorem C92_nothing_written :
  forall opts ops w e, Forall idle_no_finish ops -> w_run env (newWriter opts) ops = Ok (w, e) -> sink (w_out w) = [].
Proof.
  intros opts ops w e HF E. assert (H : I0 [] noStream (newWriter opts)) by (repeat split; reflexivity).
  pose proof (@idle_run [] noStream ops _ H (or_intror (conj eq_refl HF))) as K. rewrite E in K. destruct e; [exact K|apply K].
Qed.

(** After FinishFlush, flushing again - also with FinishFlush - and Close write
    nothing: there is no second, empty stream. *)
Lemma finished opts ops0 w0 : w_run env (newWriter opts) (ops0 ++ [OFlush FinishFlush]) = Ok (w0, None) -> I0 (sink (w_out w0)) closedStream w0.
Proof.
  intros E. destruct (@run_split env opts _ _ _ E) as [w1 [E1 E2]]. pose proof (@run_J env HL opts _ _ E1) as J1. pose proof (@run_J env HL opts _ _ E) as J0. cbn [w_run] in E2.
  destruct (w_step env w1 (OFlush FinishFlush)) as [[x [e|]]| |] eqn:ES; cbn [rbind] in E2; try discriminate E2. injection E2 as ->. cbn [w_step] in ES.
  pose proof (z_flush FinishFlush w1) as K. unfold w_Flush in ES. destruct (J_dead J1) as [D|[D|HA]].
  - rewrite D in ES. discriminate ES.
  - rewrite D in ES. injection ES as -> W. destruct J1 as [_ [_ J1]]. rewrite D in J1. destruct J1 as [J1 _]. contradiction.
  - pose proof (a_flushImpl Hbpb FinishFlush HA) as R.
    assert (G : (let* (w, ok) := flushImpl env w1 FinishFlush in if ok then Ok (w, None) else Ok (w, werr (w_out w))) = Ok (w0, None)).
    { destruct HA as [v [L HA]]. rewrite (v_state HA) in ES. destruct L as [->|[->| ->]]; exact ES. }
    destruct (flushImpl env w1 FinishFlush) as [[y []]| |]; cbn [rbind ho] in *; try discriminate G.
    + injection G as ->. destruct R as [_ R]. specialize (R eq_refl). split; [exact K|]. split; [exact (v_state R)|reflexivity].
    + injection G as -> W. destruct R as [_ [_ [R _]]]. contradiction.
Qed.
Theorem C92_nothing_after_finish :
  forall opts ops0 ops w0 w e, Forall idle_call ops ->
    w_run env (newWriter opts) (ops0 ++ [OFlush FinishFlush]) = Ok (w0, None) -> w_run env w0 ops = Ok (w, e) ->
    sink (w_out w) = sink (w_out w0) /\
    (e = None -> forall w' e', w_Close env w = Ok (w', e') -> sink (w_out w') = sink (w_out w0)).
Proof.
  intros opts ops0 ops w0 w e HF E0 E. pose proof (@finished opts ops0 w0 E0) as H.
  pose proof (@idle_run _ _ ops w0 H (or_introl (conj eq_refl HF))) as K. rewrite E in K. split; [destruct e; [exact K|apply K]|].
  intros -> w' e' EC. pose proof (close_idle K) as C. rewrite EC in C. exact C.
Qed.

(** ** A stream open, everything flushed *)
Notation V op := (PWFrame.U op true true openStream).
Definition again : list N := [0; 0; 0; 255; 255]%N.
Lemma bits_exact op w : V op w -> match w_bitsWrite env w 3 0 with
  | Ok (x, true) => V op (set_out x (set_ob (w_out x) 0 0)) /\ obLen (w_out x) = 3 /\ obBlock (w_out x) = 0%N /\ sink (w_out x) = sink (w_out w) /\ outBuf (w_out x) = []
  | _ => True end.
Proof.
  intros H. destruct (V_buf H) as [B1 B2]. assert (B3 : obBlock (w_out w) = 0%N) by (destruct H as [_ [H _]]; apply H; exact B2).
  unfold w_bitsWrite, on_out, o_bitsWrite. rewrite B2. destruct Hbpb as [HB|HB].
  all: assert (E : bitsPerBlock env = 32 \/ bitsPerBlock env = 64) by (unfold bitsPerBlock; rewrite HB; auto).
  all: destruct w as [o c l i u n h f s e]; destruct u as [a b ob sk k cr t st ws er]; cbn [w_out obLen obBlock outBuf] in *; subst.
  all: destruct E as [E|E]; cbn [o_bitsLoop obLen obBlock]; rewrite E.
  all: cbn; destruct H as [HF [G1 [G2 [G3 G4]]]]; cbn in *.
  all: repeat split; auto; try apply HF; intros; apply G4; auto.
Qed.
Lemma flush_exact w : obLen (w_out w) = 3 -> obBlock (w_out w) = 0%N -> outBuf (w_out w) = [] ->
  match w_bitsFlush env w with Ok (x, true) => sink (w_out x) = sink (w_out w) ++ [0]%N | _ => True end.
Proof.
  intros H1 H2 H3. unfold w_bitsFlush, on_out, o_bitsFlush. rewrite H1, H2. cbn [Nat.eqb].
  assert (E : firstn ((3 + 7) / 8) (le_bytes (bytesPerBlock env) 0) = [0]%N) by (destruct Hbpb as [->| ->]; reflexivity). rewrite E.
  set (o := set_ob (w_out w) 0 0). assert (HO : outBuf o = [] /\ sink o = sink (w_out w)) by (unfold o; destruct (w_out w); auto). destruct HO as [HO1 HO2].
  pose proof (@PPrefix.loop_appends env (out_cap (w_opt w)) (out_fuel [0]%N) (PBody.cap_pos (w_opt w)) o [0]%N HO1) as L.
  destruct (outputBufferLoop _ _ _ _ _) as [[q []]| |]; cbn [rbind]; auto. destruct w. cbn in *. rewrite <- HO2. apply L.
Qed.
Lemma stored_exact op w : V op w -> match writeStoredBlock (bw_writer env) w [] false with Ok (x, true) => V op x /\ sink (w_out x) = sink (w_out w) ++ again | _ => True end.
Proof.
  intros H. pose proof (@x_stored env Hbpb op true openStream w [] false) as _.
  unfold writeStoredBlock. change (assertb (lenN (@nil N) <=? 65535)%N) with (fun m : res (writer * bool) => m). cbv beta zeta. cbn [bw_event bw_bitsWrite bw_bitsFlush bw_writeU16le bw_bufferWrite bw_writer].
  pose proof (v_event (ev_block BlockBeginEvent StoredBlock false) H) as H1. assert (S1 : sink (w_out (sendEvent w (ev_block BlockBeginEvent StoredBlock false))) = sink (w_out w)) by (destruct w; reflexivity).
  set (a := sendEvent w _) in *. clearbody a.
  pose proof (v_bitsWrite Hbpb 3 0%N H1) as K. pose proof (bits_exact H1) as X. destruct (w_bitsWrite env a _ _) as [[x1 []]| |]; cbn [rbind ho] in *; auto.
  destruct X as [_ [X1 [X2 [X3 X4]]]].
  pose proof (v_bitsFlush Hbpb K) as K2. pose proof (flush_exact X1 X2 X4) as Y. destruct (w_bitsFlush env x1) as [[x2 []]| |]; cbn [rbind ho] in *; auto.
  pose proof (@buf_appends env Hbpb op x2 (le16 (0 mod two16)) K2) as K3. destruct (w_bufferWrite env x2 _) as [[x3 []]| |]; cbn [rbind] in *; auto. destruct K3 as [K3 S3].
  pose proof (@buf_appends env Hbpb op x3 (le16 (65535 - 0 mod two16)) K3) as K4. destruct (w_bufferWrite env x3 _) as [[x4 []]| |]; cbn [rbind] in *; auto. destruct K4 as [K4 S4].
  pose proof (@buf_appends env Hbpb op x4 [] K4) as K5. destruct (w_bufferWrite env x4 _) as [[x5 []]| |]; cbn [rbind] in *; auto. destruct K5 as [K5 S5].
  split; [apply v_event; auto|]. replace (sink (w_out (sendEvent x5 _))) with (sink (w_out x5)) by (destruct x5; reflexivity).
  rewrite S5, S4, S3, Y, X3, S1, app_nil_r, <- !app_assoc. reflexivity.
Qed.
(** a stream is open, nothing is pending *)
Definition I1 op (s : list N) (w : writer) : Prop := Z w /\ V op w /\ sink (w_out w) = s.
Definition costs (ft : flushtype) : list N := match ft with SyncFlush | FullFlush => again | _ => [] end.
Lemma tail_open op s w : I1 op s w -> ho (I1 op s) (F0 s) (fl_tail env w).
Proof.
  intros [H1 [H2 <-]]. pose proof (tail_sink H1) as T0. unfold fl_tail in *. cbv zeta in *. destruct (e_flushw _ _); [exact T0|].
  destruct (e_syncw _ _) as [[]|]; try exact T0; destruct T0 as [T1 [_ T3]]; (split; [exact T1|]; split; [apply v_calls, v_calls; exact H2|exact T3]).
Qed.
Lemma open_flush op s ft w : I1 op s w -> ft = BlockFlush \/ marks ft -> ho (I1 op (s ++ costs ft)) (fun x => F0 s x \/ werr (w_out x) <> None) (flushImpl env w ft).
Proof.
  intros [HZ [HV HS]] HF. assert (NF : is_finish ft = false) by (destruct HF as [->|[->| ->]]; reflexivity). rewrite flush_eq. unfold compressImpl. pose proof HZ as HZ'. unfold Z in HZ'. rewrite HZ'. cbn [rbind]. rewrite NF. cbn [rbind].
  rewrite (v_state HV). apply ho_bind with (P := I1 op (s ++ costs ft)).
  - pose proof (z_guts ft HZ) as K0. pose proof (a_guts Hbpb ft (U_weak Hbpb HV)) as KF. rewrite NF in KF. destruct HF as [->|HF].
    + cbn [flushGuts ho costs]. rewrite app_nil_r. split; auto.
    + pose proof (stored_exact HV) as K. destruct HF as [->| ->]; cbn [flushGuts costs] in *.
      * destruct (writeStoredBlock _ _ _ _) as [[x []]| |]; cbn [ho] in *; auto. { destruct K as [K1 K2]. split; [exact K0|]. split; [exact K1|]. rewrite K2, HS. reflexivity. } right. destruct KF as [_ [_ [_ [_ KF]]]]. exact KF.
      * destruct (writeStoredBlock _ _ _ _) as [[x []]| |]; cbn [ho rbind] in *; auto. { destruct K as [K1 K2]. split; [exact K0|]. split; [apply v_lz; auto|]. destruct x; cbn in *. rewrite K2, HS. reflexivity. } right. destruct KF as [_ [_ [_ [_ KF]]]]. exact KF.
  - intros x HX. pose proof HX as [_ [HX2 _]]. rewrite (v_state HX2). cbn [rbind]. eapply ho_impl; [apply tail_open; exact HX|auto|]. intros y [_ HY]. right. exact HY.
Qed.
Lemma open_flushes op : forall fts s w x, I1 op s w -> Forall (fun ft => ft = BlockFlush \/ marks ft) fts ->
  w_run env w (map OFlush fts) = Ok (x, None) -> sink (w_out x) = s ++ flat_map costs fts.
Proof.
  induction fts as [|ft r IH]; intros s w x H F E; cbn [map w_run flat_map] in *.
  - injection E as <-. rewrite app_nil_r. apply H.
  - inversion_clear F. pose proof (open_flush H H0) as K. cbn [w_step] in E. unfold w_Flush in E. pose proof H as [_ [HV _]]. rewrite (v_state HV) in E.
    destruct (flushImpl env w ft) as [[y []]| |]; cbn [rbind ho] in *; try discriminate E.
    + rewrite app_assoc. exact (IH _ _ _ K H1 E).
    + assert (W : werr (w_out y) <> None) by (destruct K as [[_ K]|K]; exact K). destruct (werr (w_out y)); [discriminate E|contradiction].
Qed.
(** With a stream open and everything flushed, flushing again costs five bytes
    (the empty stored block), BlockFlush nothing at all. *)
Theorem C92_flushing_again :
  forall opts ops0 p ops1 ft fts w0 w, p <> [] -> ~ In (OFlush FinishFlush) ops1 -> ft = SyncFlush \/ ft = FullFlush ->
    Forall (fun ft => ft = BlockFlush \/ ft = SyncFlush \/ ft = FullFlush) fts ->
    w_run env (newWriter opts) (ops0 ++ OWrite p :: ops1 ++ [OFlush ft]) = Ok (w0, None) ->
    w_run env w0 (map OFlush fts) = Ok (w, None) ->
    sink (w_out w) = sink (w_out w0) ++ flat_map (fun ft => match ft with BlockFlush => [] | _ => [0; 0; 0; 255; 255]%N end) fts.
Proof.
  intros opts ops0 p ops1 ft fts w0 w HP HN HF HFS E0 E. assert (HS : Forall stays ops1) by (apply Forall_forall; intros o HI ->; apply HN, HI).
  replace (flat_map _ fts) with (flat_map costs fts).
  2:{ clear - HFS. induction HFS as [|x l H _ IH]; [reflexivity|]. cbn [flat_map]. rewrite IH. destruct H as [->|[->| ->]]; reflexivity. }
  apply (@open_flushes (eff opts) fts _ w0); auto. clear E.
  replace (ops0 ++ OWrite p :: ops1 ++ [OFlush ft]) with ((ops0 ++ OWrite p :: ops1) ++ [OFlush ft]) in E0 by (rewrite <- app_assoc; reflexivity).
  destruct (@run_split env opts _ _ _ E0) as [w3 [E1 E2]]. pose proof (@run_J env HL opts _ _ E1) as J3. destruct (@run_split env opts _ _ _ E1) as [w1 [E3 E4]]. pose proof (@run_J env HL opts _ _ E3) as J1.
  cbn [w_run] in E4. pose proof (@step_write env Hbpb (eff opts) w1 p J1 HP) as O2. pose proof (@step_J env Hbpb (eff opts) w1 (OWrite p) J1) as J2.
  destruct (w_step env w1 (OWrite p)) as [[w2 [e|]]| |]; cbn [rbind] in E4; try discriminate E4.
  pose proof (@run_open env Hbpb (eff opts) ops1 w2 J2 O2 HS) as O3. rewrite E4 in O3.
  cbn [w_run w_step] in E2. unfold w_Flush in E2. rewrite O3 in E2. pose proof (z_flush ft w3) as KZ. pose proof (open_V J3 O3) as V3.
  pose proof (@flush_V env Hbpb (eff opts) false ft w3 V3 HF) as KV. pose proof (a_flushImpl Hbpb ft (@J_A env (eff opts) true w3 J3 (or_intror (or_introl O3)))) as R.
  destruct (flushImpl env w3 ft) as [[y []]| |]; cbn [rbind ho] in *; try discriminate E2.
  - injection E2 as ->. split; [exact KZ|]. split; [exact KV|reflexivity].
  - destruct R as [_ [_ [R _]]]. destruct (werr (w_out y)); [discriminate E2|contradiction].
Qed.
End Idle.

(** ** The hypotheses are met *)
Definition io : list opt := [WithFormat RawFormat; WithMemoryLevel 7].
Definition after (ops : list wop) : list N := match w_run demo_wenv (newWriter io) ops with Ok (w, None) => sink (w_out w) | _ => [] end.
Example C92_met_nothing : after [OFlush SyncFlush; OWrite []; OFlush PartialFlush; OFlush FullFlush] = [] /\
  exists w, w_run demo_wenv (newWriter io) [OFlush SyncFlush; OWrite []; OFlush PartialFlush; OFlush FullFlush] = Ok (w, None).
Proof. split; [vm_compute; reflexivity|]. eexists. vm_compute. reflexivity. Qed.
Example C92_met_finish : after [OWrite [7%N]; OFlush FinishFlush] <> [] /\
  after [OWrite [7%N]; OFlush FinishFlush; OFlush SyncFlush; OFlush FinishFlush] = after [OWrite [7%N]; OFlush FinishFlush].
Proof. split; [vm_compute; discriminate|vm_compute; reflexivity]. Qed.
Example C92_met_again : after [OWrite [7%N]; OFlush SyncFlush; OFlush SyncFlush; OFlush BlockFlush; OFlush FullFlush] =
  after [OWrite [7%N]; OFlush SyncFlush] ++ [0; 0; 0; 255; 255; 0; 0; 0; 255; 255]%N.
Proof. vm_compute. reflexivity. Qed.
(** FinishFlush without any data does write a stream - an empty one. *)
Example C92_met_empty_stream : after [OFlush FinishFlush] <> [].
Proof. vm_compute. discriminate. Qed.
Print Assumptions C92_nothing_written.
Print Assumptions C92_nothing_after_finish.
Print Assumptions C92_flushing_again.
