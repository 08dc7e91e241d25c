(** Sessions of a client with a Writer: from the invariant to the specification. *)
From Verif Require Import Base SpecChecksum SpecEvents SpecHuffman SpecDeflate SpecFormats SpecSession MChecksum PChecksum MToken MCommon MWriter MReader SpecLib MSession
  PToken PHuffman PTree PBits PActs PBlocks PCompress PWriter PSession PInv PFormat PApi PInst.

Lemma hdr_bytes_header opt h h' : wopt_ok opt -> header_ok h' -> hnorm opt h h' -> StreamHeader opt h (hdr_bytes opt h').
Proof.
  intros Hopt Hh Hn. unfold StreamHeader, hdr_bytes. destruct (o_format opt) eqn:EF; auto.
  - exact (wo_format Hopt EF).
  - destruct (zlib_header_facts (wo_wbits Hopt)) as [cmf [flg [Z1 [Z2 [Z3 [Z4 [Z5 [Z6 Z7]]]]]]]].
    exists cmf, flg. rewrite Z1. split.
    { f_equal. pose proof (wo_dict Hopt) as HD. destruct (o_dict opt); auto. rewrite adler_checksum_spec; tauto. }
    split; [lia|]. auto.
  - exists (fields_of opt h'). split; [eapply fields_of_for; eauto|]. split; [apply fields_of_ok; auto|].
    unfold gzip_header. cbn [gz_hcrc fields_of]. rewrite (gzip_body_fields opt Hh).
    pose proof (@gzip_body_ok opt h' (proj1 Hh)) as HB. rewrite (gzip_body_fields opt Hh) in HB.
    assert (EC := @crc_chunks [gzip_header_nocrc (fields_of opt h')] (Forall_cons _ HB (Forall_nil _))).
    cbn [fold_left concat] in EC. rewrite app_nil_r in EC. rewrite EC. reflexivity.
Qed.
Lemma ftr_bytes_footer opt d : o_format opt <> DefaultFormat -> ftr_bytes opt d = stream_footer opt d.
Proof. intros H. unfold ftr_bytes, stream_footer. destruct (o_format opt); auto. Qed.

Section Client.
Variable env : wenv.
Hypothesis Hlib : lib_ok env.
Variable opt : options.
Hypothesis Hopt : wopt_ok opt.
Variable i0 t0 : N.
Variable ev0 : list event.
Variable B : blockpred.
Variable lk : list N -> N -> option N.
Hypothesis HI : inst env opt True B lk.
Notation sess := (sess env opt B i0 t0 ev0).
Notation apost := (apost env (may_panic opt)).
Notation openT := (openT env opt B i0 t0 ev0).
Notation done_ok := (done_ok opt B).
Let Hbpb := lib_bpb Hlib.
Let Hhuff := lib_huff Hlib.

Lemma open_guard0 hd mark base d0 cur ds w : openT hd mark base d0 cur ds w -> big opt (lenN (lz_buf (w_lz w))) -> may_panic opt.
Proof. intros [c [H _]]. apply big_may_panic. rewrite <- (cap_eq (q_ok H)). apply (k_cap (q_ok H)). Qed.
Lemma c_Write a w p : sess a w -> bytes_ok p ->
  match w_Write env w p with
  | Ok (w', (n, None)) => n = lenN p /\ sess (a_write a p) w'
  | Ok (w', (n, Some e)) => n = 0%N /\ wfailed env w' /\ werr (w_out w') = Some e
  | Panic q => q = PAssert /\ may_panic opt
  | NoFuel => False
  end.
Proof.
  intros H Hp. pose proof (@Write_ok env Hbpb Hhuff opt Hopt B lk i0 t0 ev0 (may_panic opt) (in_stored HI) True (in_empty HI) (in_tok HI) (in_mono HI) (in_match HI)
    a w p H Hp (or_introl (fun H => H))) as P.
  destruct (w_Write env w p) as [[w' [n [e|]]]| |]; auto. tauto.
Qed.
Lemma c_run ops a w : sess a w -> Forall op_ok ops ->
  apost (fun w' => exists a', asteps a ops a' /\ sess a' w') (w_run env w ops).
Proof.
  intros H Ho.
  assert (Hp : Forall (pf_ok True) ops) by (apply Forall_forall; intros op _ _; exact I).
  pose proof (@run_ok env Hbpb Hhuff opt Hopt B lk i0 t0 ev0 (may_panic opt) (in_stored HI) True (in_empty HI) (in_tok HI) (in_mono HI) (in_match HI) (in_pos HI)
    ops a w H Ho Hp (or_introl (fun H => H))) as P.
  destruct (w_run env w ops) as [[w' [e|]]| |]; cbn [PApi.apost] in *; auto. destruct P as [a' P]. exists a'. tauto.
Qed.
Lemma c_Close a w : sess a w ->
  match w_Close env w with
  | Ok (w', None) => closed_ok opt B i0 t0 ev0 (a_finish a) w'
  | Ok (w', Some e) => w_state w' = closedState /\ from_env env e
  | Panic p => p = PAssert /\ may_panic opt
  | NoFuel => False
  end.
Proof. intros H. eapply (@Close_ok env Hbpb Hhuff opt Hopt B lk i0 t0 ev0 (may_panic opt)); try apply HI; auto. left. auto. Qed.

Lemma c_session ops a w : sess a w -> Forall op_ok ops ->
  match w_session env w ops with
  | Ok (w', None) => exists a', asteps a ops a' /\ closed_ok opt B i0 t0 ev0 (a_finish a') w'
  | Ok (w', Some e) => from_env env e /\ (w_state w' = errorState \/ w_state w' = closedState)
  | Panic p => p = PAssert /\ may_panic opt
  | NoFuel => False
  end.
Proof.
  intros H Ho. unfold w_session. pose proof (c_run H Ho) as P.
  destruct (w_run env w ops) as [[w' [e|]]| |]; cbn [rbind PApi.apost] in *; auto.
  - destruct P as [[P1 [e' [P2 P3]]] P4]. split; auto. congruence.
  - destruct P as [a' [P1 P2]]. pose proof (c_Close P2) as Q.
    destruct (w_Close env w') as [[w2 [e|]]| |]; cbn [rbind] in *; auto.
    + tauto.
    + exists a'. auto.
Qed.

(** ** The open stream after a flush *)
Lemma bits_split_bytes s w : bytes_ok s -> (length w mod 8 = 0) -> exists b, bytes_ok b /\ w = bits_of_bytes b.
Proof.
  intros _ H. exists (le_bytes (length w / 8) (N_of_bits w)). split; [apply le_bytes_ok|].
  rewrite bits_le_bytes. replace (8 * (length w / 8)) with (length w) by lia. now rewrite bits_of_N_of_bits.
Qed.

(** bits written so far in an open stream *)
Lemma open_bits hd s hc cur ds w : openT hd (smark opt s hc) (rev (dictb opt)) [] cur ds w -> lz_buf (w_lz w) = [] ->
  bytes_ok s -> header_typed hc ->
  exists bits, bits_of_bytes (sink (w_out w)) ++ bits_of_N (obLen (w_out w)) (obBlock (w_out w))
      = bits_of_bytes (s ++ hdr_bytes opt hc) ++ bits /\ OpenData B opt bits cur.
Proof.
  intros [c [H EC]] Hb Hs Hh. rewrite Hb, app_nil_r in EC. subst cur.
  destruct (q_bits H) as [w2 [d2 [h [r [Q1 [Q2 [Q3 [Q4 Q5]]]]]]]]. cbn [app] in Q5. rewrite app_nil_r in Q5. subst d2.
  exists w2. split.
  - fold (smark opt s hc). rewrite <- Q1. unfold obits. destruct (k_out (q_ok H)) as [O1 _]. rewrite O1, app_nil_r. reflexivity.
  - unfold OpenData. unfold smark in Q2. rewrite length_bits_of_bytes in Q2.
    replace (8 * length (s ++ hdr_bytes opt hc)) with (8 * length (s ++ hdr_bytes opt hc) + 0) in Q2 by lia.
    apply (Blocks_pos (in_pos HI)) in Q2. exact Q2.
Qed.

Lemma c_flush a w ft w' : sess a w -> w_Flush env w ft = Ok (w', None) -> sess (a_flush a ft) w' /\
  (a_cur a <> [] -> is_finish ft = false ->
   exists bs hc bits, Forall2 done_ok (a_done a) bs /\ header_ok hc /\ hnorm opt (a_curh a) hc /\
     bits_of_bytes (sink (w_out w')) ++ bits_of_N (obLen (w_out w')) (obBlock (w_out w'))
       = bits_of_bytes (concat bs ++ hdr_bytes opt hc) ++ bits /\ OpenData B opt bits (a_cur a) /\
     obLen (w_out w') < 8 * bytesPerBlock env /\
     (sync_like ft = true -> obLen (w_out w') = 0) /\
     exists hd, openT hd (smark opt (concat bs) hc) (rev (dictb opt)) [] (a_cur a) (map snd (a_done a)) w' /\
       lz_buf (w_lz w') = [] /\ (ft = FullFlush -> lz_hist (w_lz w') = [])).
Proof.
  intros H E. assert (HS := sess_state H). destruct HS as [HS HE].
  assert (EW : w_Flush env w ft = let* (w', ok) := flushImpl env w ft in
     if ok : bool then Ok (w', None) else Ok (w', werr (w_out w'))).
  { unfold w_Flush. destruct (w_state w); auto; contradiction. }
  pose proof (@Flush_ok env Hbpb Hhuff opt Hopt B lk i0 t0 ev0 (may_panic opt) (in_stored HI) True (in_empty HI) (in_tok HI) (in_mono HI) (in_match HI) (in_pos HI) a w ft H (fun _ => I) (or_introl (fun H => H))) as P.
  rewrite E in P. cbn [PApi.apost] in P. destruct P as [P _]. split; auto. intros Hc Hf.
  destruct H as [bs [HF [[H1 _]|[H1 [hd [hc [H2 [H3 [H4 H5]]]]]]]]]; [congruence|].
  pose proof (@flushImpl_open env Hbpb Hhuff opt Hopt B lk i0 t0 ev0 (may_panic opt) (in_stored HI) True (in_empty HI) (in_tok HI) (in_mono HI) (in_match HI) _ _ _ _ _ _ w ft H5 (fun _ => I) (open_guard0 H5)) as Q.
  rewrite Hf in Q. rewrite EW in E. destruct (flushImpl env w ft) as [[w1 ok]| |]; cbn [rbind] in E; try discriminate.
  assert (ok = true /\ w1 = w').
  { destruct ok; [inversion E; auto|]. cbn [post] in Q. destruct Q as [_ [e [Q _]]]. rewrite Q in E. discriminate. }
  destruct H as [-> ->]. cbn [post] in Q. destruct Q as [Q1 [Q2 [Q3 Q4]]].
  destruct (open_bits Q1 Q2 (done_bytes HF) (proj1 H4)) as [bits [B1 B2]].
  exists bs, hc, bits. split; auto. split; auto. split; auto. split; auto. split; auto.
  split; [destruct Q1 as [c [Q1 _]]; destruct (k_out (q_ok Q1)) as [_ [_ [O3 _]]]; unfold bitsPerBlock in O3; lia|].
  split; auto. exists hd. auto.
Qed.

(** ** After FullFlush: the rest of the stream, from an empty history *)
Definition no_finish (op : wop) : Prop := match op with OFlush FinishFlush => False | _ => True end.

Lemma openT_sethdr hd mark base d0 cur ds w h : openT hd mark base d0 cur ds w -> header_ok h ->
  openT h mark base d0 cur ds (set_hdr w h).
Proof.
  intros [c [H5 EC]] HK. destruct (sethdr_fields w h) as [g1 [g2 [g3 [g4 [g5 [g6 g7]]]]]].
  exists c. rewrite g3. split; auto.
  destruct (q_ok H5) as [k1 k2 k3 k4 k5 k6 k7 k8 k9]. constructor.
  * constructor; rewrite ?g1, ?g2, ?g3, ?g5, ?g7; auto.
  * auto.
  * unfold w_state. rewrite g7. apply (q_state H5).
  * rewrite g4. apply H5.
  * apply H5.
  * rewrite g7, g3. apply H5.
  * destruct (q_ev H5) as [evs G]. exists evs. rewrite g6, g7, g4. auto.
Qed.

Lemma open_step hd mark base d0 cur ds w op w' : openT hd mark base d0 cur ds w -> op_ok op -> no_finish op ->
  w_step env w op = Ok (w', None) -> exists hd', openT hd' mark base d0 (cur ++ op_data op) ds w'.
Proof.
  intros H Ho Hf E.
  assert (HS : w_state w = openStream) by (destruct H as [c [H _]]; apply (q_state H)).
  destruct op as [p|ft|h]; cbn [w_step op_ok op_data no_finish] in *.
  - unfold w_Write in E. rewrite HS in E.
    pose proof (@writeLoop_open env Hbpb Hhuff opt B lk i0 t0 ev0 (may_panic opt) (in_stored HI) True (in_empty HI) (in_tok HI) (in_mono HI) (in_match HI)
       (2 * length p + 2) w _ _ _ _ _ _ p H Ho) as P.
    assert (2 * length p + (if lz_isFull (w_lz w) then 1 else 0) < 2 * length p + 2) by (destruct (lz_isFull (w_lz w)); lia).
    specialize (P H0). assert (H1 : big opt (N.min (lz_cap (w_lz w)) (lenN (lz_buf (w_lz w)) + lenN p)) -> may_panic opt).
    { apply big_may_panic. destruct H as [c [H _]]. rewrite (cap_eq (q_ok H)). lia. }
    specialize (P H1). destruct (writeLoop env (2 * length p + 2) w p) as [[w1 []]| |]; cbn [rbind post] in *; try discriminate.
    + inversion E; subst. exists hd. apply P.
    + destruct P as [_ [e [P _]]]. rewrite P in E. discriminate.
  - rewrite app_nil_r. unfold w_Flush in E. rewrite HS in E.
    pose proof (@flushImpl_open env Hbpb Hhuff opt Hopt B lk i0 t0 ev0 (may_panic opt) (in_stored HI) True (in_empty HI) (in_tok HI) (in_mono HI) (in_match HI) _ _ _ _ _ _ w ft H (fun _ => I) (open_guard0 H)) as Q.
    assert (Hf' : is_finish ft = false) by (destruct ft; auto; contradiction). rewrite Hf' in Q.
    destruct (flushImpl env w ft) as [[w1 []]| |]; cbn [rbind post] in *; try discriminate.
    + inversion E; subst. exists hd. apply Q.
    + destruct Q as [_ [e [Q _]]]. rewrite Q in E. discriminate.
  - rewrite app_nil_r. inversion E; subst. unfold w_SetHeader.
    destruct (Nat.eqb_spec (checkHeaderFileName h + checkHeaderComment h + checkHeaderLastModified h
           + checkHeaderOSType h + checkHeaderExtraData h) 0) as [E1|E1]; cbn [fst].
    + exists h. eapply openT_sethdr; eauto. split; auto.
    + exists hd. auto.
Qed.
Lemma open_run : forall ops hd mark base d0 cur ds w w', openT hd mark base d0 cur ds w -> Forall op_ok ops -> Forall no_finish ops ->
  w_run env w ops = Ok (w', None) -> exists hd', openT hd' mark base d0 (cur ++ ops_data ops) ds w'.
Proof.
  induction ops as [|op ops IH]; intros hd mark base d0 cur ds w w' H Ho Hf E; cbn [w_run] in E.
  - inversion E; subst. cbn. rewrite app_nil_r. eauto.
  - inversion Ho; inversion Hf; subst. destruct (w_step env w op) as [[w1 [e|]]| |] eqn:E1; cbn [rbind] in E; try discriminate.
    destruct (open_step H H2 H6 E1) as [hd1 P]. destruct (IH _ _ _ _ _ _ _ _ P H3 H7 E) as [hd2 P2].
    exists hd2. unfold ops_data. cbn [flat_map]. rewrite app_assoc. exact P2.
Qed.

Lemma full_flush a w w1 ops w2 w3 : sess a w -> a_cur a <> [] -> w_Flush env w FullFlush = Ok (w1, None) ->
  Forall op_ok ops -> Forall no_finish ops -> w_run env w1 ops = Ok (w2, None) -> w_Close env w2 = Ok (w3, None) ->
  exists body, sink (w_out w3) = sink (w_out w1) ++ body ++ stream_footer opt (a_cur a ++ ops_data ops) /\
    RawStream B [] body (ops_data ops).
Proof.
  intros H Hc E1 Ho Hf E2 E3.
  destruct (c_flush H E1) as [_ P]. destruct (P Hc eq_refl) as [bs [hc [bits [P1 [P2 [P3 [P4 [P5 [P6 [P7 [hd [P8 [P9 P10]]]]]]]]]]]]].
  pose proof (openT_mark P8 P9 (P10 eq_refl)) as O1.
  destruct (open_run O1 Ho Hf E2) as [hd2 O2].
  assert (HS : w_state w2 = openStream) by (destruct O2 as [c [O2 _]]; apply (q_state O2)).
  unfold w_Close in E3. rewrite HS in E3.
  pose proof (@flushImpl_open env Hbpb Hhuff opt Hopt B lk i0 t0 ev0 (may_panic opt) (in_stored HI) True (in_empty HI) (in_tok HI) (in_mono HI) (in_match HI) _ _ _ _ _ _ w2 FinishFlush O2 (fun _ => I) (open_guard0 O2)) as Q.
  cbn [is_finish] in Q. destruct (flushImpl env w2 FinishFlush) as [[w4 []]| |]; cbn [rbind post] in *; try discriminate.
  2:{ destruct Q as [_ [e [Q _]]]. unfold close_helper in E3. rewrite Q in E3. discriminate. }
  inversion E3; subst w3. destruct Q as [Q1 [Q2 Q3]].
  assert (ES : sink (w_out (w_setstate w4 closedState)) = sink (w_out w4)).
  { unfold w_setstate. rewrite w_out_set. destruct (w_out w4); reflexivity. }
  rewrite ES. destruct Q2 as [x2 [h [x3 [pad [d2 [R1 [R2 [R3 [R4 R5]]]]]]]]].
  apply app_inv_head in R5. subst d2.
  assert (EO : obits (w_out w1) = bits_of_bytes (sink (w_out w1))).
  { unfold obits. destruct P8 as [c [P8 _]]. destruct (k_out (q_ok P8)) as [U1 _]. rewrite U1, (P7 eq_refl), app_nil_r. cbn. now rewrite app_nil_r. }
  rewrite EO in *.
  assert (B1 : bytes_ok (sink (w_out w1))) by apply (openT_bytes P8).
  assert (B4 : bytes_ok (sink (w_out w4))) by apply (widle_bytes Q1).
  destruct (@bits_prefix _ _ _ B1 B4 R2) as [t [T1 T2]].
  assert (Ht : bytes_ok t) by (rewrite T1 in B4; apply bytes_ok_app in B4; tauto).
  rewrite !app_assoc in T2. destruct (@bits_suffix _ _ _ (ftr_bytes_ok opt _) Ht T2) as [body [Y1 Y2]].
  exists body. split; [rewrite T1, Y1, (ftr_bytes_footer _ (wo_format Hopt)); reflexivity|].
  split; [rewrite Y1 in Ht; apply bytes_ok_app in Ht; tauto|].
  exists (x2 ++ x3), pad. split; auto. split; [rewrite Y2; reflexivity|].
  rewrite length_bits_of_bytes in *. exists x2, h, x3.
  split; [|split; auto].
  - apply (Blocks_pos (in_pos HI) (length (sink (w_out w1))) 0). rewrite Nat.add_0_r. auto.
  - apply (in_pos HI (length (sink (w_out w1)))). exact R4.
Qed.
End Client.

(** Whole sessions when PartialFlush is called only if [pf] holds. *)
Lemma pf_session env opt i0 t0 ev0 pf B lk ops a w : lib_ok env -> wopt_ok opt -> inst env opt pf B lk ->
  sess env opt B i0 t0 ev0 a w -> Forall op_ok ops -> (In (OFlush PartialFlush) ops -> pf) ->
  forall w', w_session env w ops = Ok (w', None) -> exists a', asteps a ops a' /\ closed_ok opt B i0 t0 ev0 (a_finish a') w'.
Proof.
  intros HL Hopt HI H Ho Hpf w' E. unfold w_session in E.
  assert (Hp : Forall (pf_ok pf) ops) by (apply Forall_forall; intros op Hin ->; auto).
  pose proof (@run_ok env (lib_bpb HL) (lib_huff HL) opt Hopt B lk i0 t0 ev0 (may_panic opt) (in_stored HI) pf (in_empty HI) (in_tok HI)
    (in_mono HI) (in_match HI) (in_pos HI) ops a w H Ho Hp (or_introl (fun H => H))) as P.
  destruct (w_run env w ops) as [[w1 [e|]]| |]; cbn [rbind PApi.apost] in *; try discriminate.
  destruct P as [a' [P1 [P2 _]]].
  pose proof (@Close_ok env (lib_bpb HL) (lib_huff HL) opt Hopt B lk i0 t0 ev0 (may_panic opt) (in_stored HI) pf (in_empty HI) (in_tok HI)
    (in_mono HI) (in_match HI) (in_pos HI) a' w1 P2 (or_introl (fun H => H))) as Q.
  rewrite E in Q. exists a'. auto.
Qed.

(** Sessions of small writes never fail the assertion. *)
Lemma short_session env opt i0 t0 ev0 B lk ops a w : lib_ok env -> wopt_ok opt -> inst env opt True B lk ->
  sess env opt B i0 t0 ev0 a w -> short opt w -> Forall op_ok ops -> Forall small_op ops ->
  match w_session env w ops with
  | Ok (w', None) => True
  | Ok (w', Some e) => from_env env e
  | _ => False
  end.
Proof.
  intros HL Hopt HI H Hs Ho Hsm. unfold w_session.
  assert (Hp : Forall (pf_ok True) ops) by (apply Forall_forall; intros op _ _; exact I).
  pose proof (@run_ok env (lib_bpb HL) (lib_huff HL) opt Hopt B lk i0 t0 ev0 False (in_stored HI) True (in_empty HI) (in_tok HI)
    (in_mono HI) (in_match HI) (in_pos HI) ops a w H Ho Hp (or_intror (conj Hs Hsm))) as P.
  destruct (w_run env w ops) as [[w1 [e|]]| |]; cbn [rbind PApi.apost] in *; [| |tauto|auto].
  - destruct P as [[P1 [e' [P2 P3]]] P4]. congruence.
  - destruct P as [a' [P1 [P2 P3]]].
    assert (HG : guard opt False w1 0) by (right; split; [auto|lia]).
    pose proof (@Close_ok env (lib_bpb HL) (lib_huff HL) opt Hopt B lk i0 t0 ev0 False (in_stored HI) True (in_empty HI) (in_tok HI)
      (in_mono HI) (in_match HI) (in_pos HI) a' w1 P2 HG) as Q.
    destruct (w_Close env w1) as [[w2 [e|]]| |]; cbn [rbind] in *; tauto.
Qed.
