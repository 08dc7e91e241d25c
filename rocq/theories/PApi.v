(** The Writer's methods against the session specification. *)
From Verif Require Import Base SpecChecksum SpecEvents SpecHuffman SpecDeflate SpecFormats SpecSession MChecksum PChecksum MToken MCommon MWriter MReader SpecLib MSession
  PToken PHuffman PTree PBits PActs PBlocks PCompress PWriter PSession PInv PFormat.

Section Api.
Variable env : wenv.
Hypothesis Hbpb : bytesPerBlock env = 4 \/ bytesPerBlock env = 8.
Hypothesis Hhuff : huff_ok env.
Variable opt : options.
Hypothesis Hopt : wopt_ok opt.
Variable B : blockpred.
Variable lk : list N -> N -> option N.
Variable i0 t0 : N.
Variable ev0 : list event.
Variable MP : Prop.
Notation store := (isStoreConfig (compressConfig opt)).
Hypothesis HBstored : forall pos hist fin data, (lenN data <= 65535)%N -> bytes_ok data ->
  B pos hist fin (acts_bits pos (stored_acts data fin)) (rev data ++ hist).
Variable pf : Prop.
Hypothesis HBempty : pf -> forall pos hist, B pos hist false (acts_bits pos (static_acts [makeStopToken] false)) hist.
Hypothesis HBtok : store = false -> forall pos hist fin w hist',
  Block proper_code lk pos hist fin w hist' -> zero_padded pos w -> B pos hist fin w hist'.
Hypothesis HBmono : forall pos h fin w h' r, B pos h fin w h' -> B pos (h ++ r) fin w (h' ++ r).
Hypothesis Hmatch : store = false -> match_ok env (hybridOptions opt) lk.
Hypothesis HBpos : forall k pos h f w h', B (8 * k + pos) h f w h' <-> B pos h f w h'.

Notation openT := (openT env opt B i0 t0 ev0).
Notation widle := (widle env opt i0 t0 ev0).
Notation post := (post env MP).
Notation short := (short opt).
Notation big := (big opt).
Notation StreamB := (StreamB opt B).
Notation Closed := (Closed opt B).
Notation smark := (smark opt).
Notation dictb := (dictb opt).

Definition hrel (h hd : header) : Prop := hd = h \/ hnorm opt h hd.
Lemma hrel_norm h hd h' : hrel h hd -> hnorm opt hd h' -> hnorm opt h h'.
Proof. intros [-> | H] H1; auto. eapply hnorm_trans; eauto. Qed.

Definition done_ok (hd : header * list N) (b : list N) : Prop :=
  exists h', header_ok h' /\ hnorm opt (fst hd) h' /\ StreamB h' b (snd hd).

Definition sess (a : asession) (w : writer) : Prop :=
  exists bs, Forall2 done_ok (a_done a) bs /\
  ((a_cur a = [] /\ lz_buf (w_lz w) = [] /\ sink (w_out w) = concat bs /\
      exists hd, hrel (a_hdr a) hd /\ widle hd (map snd (a_done a)) w) \/
   (a_cur a <> [] /\ exists hd hc, hrel (a_hdr a) hd /\ hnorm opt (a_curh a) hc /\ header_ok hc /\
      openT hd (smark (concat bs) hc) (rev dictb) [] (a_cur a) (map snd (a_done a)) w)).

(** outcome of a call *)
Definition apost (P : writer -> Prop) (r : res (writer * option goerr)) : Prop :=
  match r with
  | Ok (w, None) => P w
  | Ok (w, Some e) => wfailed env w /\ werr (w_out w) = Some e
  | Panic p => p = PAssert /\ MP
  | NoFuel => False
  end.

Lemma post_apost (P : writer -> Prop) x : post P x ->
  apost P (let* (w, ok) := x in if ok : bool then Ok (w, None) else Ok (w, werr (w_out w))).
Proof.
  destruct x as [[w []]| |]; cbn [PInv.post rbind apost]; auto.
  intros H. assert (H2 := H). destruct H2 as [_ [e [He _]]]. rewrite He. auto.
Qed.

Lemma sess_state a w : sess a w ->
  match w_state w with noStream | openStream | closedStream => True | _ => False end /\ werr (w_out w) = None.
Proof.
  intros [bs [_ [[_ [_ [_ [hd [_ H]]]]]|[_ [hd [hc [_ [_ [_ [c [H _]]]]]]]]]]].
  - rewrite (i_state H). split; [destruct (map snd (a_done a)); auto|]. apply (k_err (i_ok H)).
  - rewrite (q_state H). split; auto. apply (k_err (q_ok H)).
Qed.

Lemma widle_bytes hd ds w : widle hd ds w -> bytes_ok (sink (w_out w)).
Proof. intros H. apply (k_out (i_ok H)). Qed.
Lemma openT_bytes hd m b d c ds w : openT hd m b d c ds w -> bytes_ok (sink (w_out w)).
Proof. intros [c' [H _]]. apply (k_out (q_ok H)). Qed.

Lemma concat_snoc {A} (l : list (list A)) x : concat (l ++ [x]) = concat l ++ x.
Proof. rewrite concat_app. cbn. now rewrite app_nil_r. Qed.

(** mark of an open stream starts with the bytes of the finished ones *)
Lemma mark_bytes hd s hc base d c ds w : openT hd (smark s hc) base d c ds w -> header_typed hc -> bytes_ok s.
Proof.
  intros [c' [H _]] Hh. destruct (q_bits H) as [w2 [d2 [h [r [Q1 _]]]]]. unfold PInv.smark in Q1.
  assert (Ho := k_out (q_ok H)). destruct Ho as [O1 [O2 [O3 [O4 O5]]]].
Abort.

Lemma finished_sess hd hc s cur dn w' bs h : bytes_ok s -> header_ok hc -> hnorm opt h hc -> s = concat bs -> Forall2 done_ok dn bs ->
  finished env opt B i0 t0 ev0 hd (smark s hc) (rev dictb) [] cur (map snd dn) w' ->
  exists b, Forall2 done_ok (dn ++ [(h, cur)]) (bs ++ [b]) /\ sink (w_out w') = concat (bs ++ [b]) /\
    lz_buf (w_lz w') = [] /\ widle hd (map snd (dn ++ [(h, cur)])) w'.
Proof.
  intros Hs Hh Hn Es HF [H1 [H2 H3]]. 
  destruct (closed_stream HBpos (proj1 Hh) Hs (widle_bytes H1) H2) as [b [Eb HB]].
  exists b. split; [apply Forall2_app; auto; constructor; auto; exists hc; auto|].
  rewrite concat_snoc, Eb, Es. split; auto. split; auto. rewrite map_app. exact H1.
Qed.

Lemma done_bytes dn bs : Forall2 done_ok dn bs -> bytes_ok (concat bs).
Proof.
  induction 1 as [|x b dn bs [h' [H1 [H2 [body [Eb [HR _]]]]]] HF IH]; cbn [concat]; [constructor|].
  apply bytes_ok_app. split; auto. subst b. apply bytes_ok_app. split; [apply hdr_bytes_ok; apply H1|].
  apply bytes_ok_app. split; auto. apply ftr_bytes_ok.
Qed.

Lemma hdr_of_idle hd ds w : widle hd ds w -> header_ok hd.
Proof. intros H. rewrite <- (i_hdr H). apply (k_hdr (i_ok H)). Qed.
Lemma hdr_of_open hd m b d c ds w : openT hd m b d c ds w -> header_ok hd.
Proof. intros [c' [H _]]. rewrite <- (q_hdr H). apply (k_hdr (q_ok H)). Qed.

(** When the assertion can fail: never after small writes. *)
Definition guard (w : writer) (n : N) : Prop := (may_panic opt -> MP) \/ (short w /\ (n <= 61440)%N).
Lemma sess_wok a w : sess a w -> wok env opt w.
Proof.
  intros [bs [_ [[_ [_ [_ [hd [_ H]]]]]|[_ [hd [hc [_ [_ [_ [c [H _]]]]]]]]]]]; [apply (i_ok H)|apply (q_ok H)].
Qed.
Lemma guard_big a w n : sess a w -> guard w n -> big (N.min (lz_cap (w_lz w)) (lenN (lz_buf (w_lz w)) + n)) -> MP.
Proof.
  intros H [HG|[HG Hn]] HB.
  - apply HG. eapply big_may_panic; [|exact HB]. rewrite (cap_eq (sess_wok H)). lia.
  - exfalso. destruct HB as [Q1 Q2]. pose proof (short_small HG Q1) as HG2. unfold compressedBlockSize in HG2. lia.
Qed.
Lemma guard_big0 a w : sess a w -> guard w 0 -> big (lenN (lz_buf (w_lz w))) -> MP.
Proof.
  intros H HG [Q1 Q2]. apply (guard_big H HG). split; auto. pose proof (k_cap (sess_wok H)). lia.
Qed.

(** ** Write *)
Lemma Write_ok a w p : sess a w -> bytes_ok p -> guard w (lenN p) ->
  match w_Write env w p with
  | Ok (w', (n, None)) => n = lenN p /\ sess (a_write a p) w' /\ (short w -> short w')
  | Ok (w', (n, Some e)) => n = 0%N /\ wfailed env w' /\ werr (w_out w') = Some e
  | Panic q => q = PAssert /\ MP
  | NoFuel => False
  end.
Proof.
  intros H Hp HG. assert (HM := guard_big H HG). assert (HS := sess_state H). destruct HS as [HS HE].
  assert (EW : w_Write env w p = let* (w', ok) := writeLoop env (2 * length p + 2) w p in
     if ok : bool then Ok (w', (lenN p, None)) else Ok (w', (0%N, werr (w_out w')))).
  { unfold w_Write. destruct (w_state w); auto; contradiction. }
  rewrite EW. clear EW.
  assert (G : post (fun w' => sess (a_write a p) w' /\ (short w -> short w')) (writeLoop env (2 * length p + 2) w p)).
  { destruct p as [|x l] eqn:EP; [replace (2 * length (@nil N) + 2) with 2 by reflexivity; split; [exact H|auto]|]. rewrite <- EP in *.
    assert (Hne : p <> []) by (subst p; discriminate).
    destruct H as [bs [HF [[H1 [H2 [H3 [hd [H4 H5]]]]]|[H1 [hd [hc [H2 [H3 [H4 H5]]]]]]]]].
    - eapply post_impl; [eapply writeLoop_idle; eauto; intros Q; apply HM; rewrite H2, lenN_nil, N.add_0_l; exact Q|].
      intros w' [hd' [A1 [A2 A3]]]. split; [|auto]. exists bs. unfold a_write. rewrite EP, H1, <- EP. cbn [a_done a_cur a_hdr a_curh]. split; auto. right.
      split; auto. exists hd', hd'. rewrite <- H3. split; [right; eapply hrel_norm; eauto|]. split; [eapply hrel_norm; eauto|].
      split; auto. eapply hnorm_ok; eauto. eapply hdr_of_idle; eauto.
    - eapply post_impl; [eapply writeLoop_open; eauto; destruct (lz_isFull (w_lz w)); lia|].
      intros w' [A2 A3]. split; [|auto]. exists bs. unfold a_write. rewrite EP. destruct (a_cur a) as [|y c] eqn:EC; [congruence|]. rewrite <- EP, <- EC in *.
      cbn [a_done a_cur a_hdr a_curh]. split; auto. right. split; [rewrite EC; discriminate|]. exists hd, hc. auto. }
  destruct (writeLoop env (2 * length p + 2) w p) as [[w' []]| |]; cbn [PInv.post rbind] in *; auto.
  assert (G2 := G). destruct G2 as [_ [e [He _]]]. rewrite He. auto.
Qed.

(** ** Flush *)
Lemma flushImpl_sess a w ft : sess a w -> (ft = PartialFlush -> pf) -> guard w 0 ->
  post (fun w' => sess (a_flush a ft) w' /\ short w') (flushImpl env w ft).
Proof.
  intros HH Hpf HG. assert (HM := guard_big0 HH HG). clear HG. revert HH.
  intros [bs [HF [[H1 [H2 [H3 [hd [H4 H5]]]]]|[H1 [hd [hc [H2 [H3 [H4 H5]]]]]]]]].
  - destruct (is_finish ft) eqn:Ef.
    + assert (ft = FinishFlush) by (destruct ft; auto; discriminate). subst ft. unfold a_flush, a_finish. rewrite H1.
      destruct (a_done a) as [|x l] eqn:ED.
      * assert (bs = []) by (inversion HF; auto). subst bs. cbn [concat] in H3. cbn [map] in H5.
        eapply post_impl; [eapply flushImpl_first; eauto|].
        intros w' [hd' [A1 A2]]. rewrite H3 in A2.
        assert (Hok : header_ok hd') by (eapply hnorm_ok; eauto; eapply hdr_of_idle; eauto).
        assert (Hn : hnorm opt (a_hdr a) hd') by (eapply hrel_norm; eauto).
        destruct (@finished_sess hd' hd' [] [] [] w' [] (a_hdr a) (Forall_nil _) Hok Hn eq_refl (Forall2_nil _) A2) as [b [B1 [B2 [B3 B4]]]].
        split; [|apply short_nil; apply A2]. exists ([] ++ [b]). split; [exact B1|]. left. cbn [a_cur a_done a_hdr]. split; auto. split; auto. split; auto.
        exists hd'. split; [right; auto|exact B4].
      * eapply post_impl; [eapply flushImpl_idle; eauto; right; discriminate|].
        intros w' [A1 [A2 A3]]. split; [|apply short_nil; auto]. exists bs. rewrite ED. split; auto. left. split; auto. split; auto. split; [congruence|]. exists hd. auto.
    + assert (EA : a_flush a ft = a) by (destruct ft; auto; discriminate). rewrite EA.
      eapply post_impl; [eapply flushImpl_idle; eauto|].
      intros w' [A1 [A2 A3]]. split; [|apply short_nil; auto]. exists bs. split; auto. left. split; auto. split; auto. split; [congruence|]. exists hd. auto.
  - pose proof (@flushImpl_open env Hbpb Hhuff opt Hopt B lk i0 t0 ev0 MP HBstored pf HBempty HBtok HBmono Hmatch _ _ _ _ _ _ w ft H5 Hpf HM) as P.
    destruct (is_finish ft) eqn:Ef.
    + assert (ft = FinishFlush) by (destruct ft; auto; discriminate). subst ft. unfold a_flush, a_finish.
      destruct (a_cur a) as [|y c] eqn:EC; [congruence|]. rewrite <- EC in *.
      eapply post_impl; [exact P|]. intros w' A2.
      destruct (finished_sess (done_bytes HF) H4 H3 eq_refl HF A2) as [b [B1 [B2 [B3 B4]]]].
      split; [|apply short_nil; apply A2]. exists (bs ++ [b]). cbn [a_done a_cur a_hdr]. split; auto. left. split; auto. split; auto. split; auto. exists hd. auto.
    + assert (EA : a_flush a ft = a) by (destruct ft; auto; discriminate). rewrite EA.
      eapply post_impl; [exact P|]. intros w' [A1 [A2 _]]. split; [|apply short_nil; auto]. exists bs. split; auto. right. split; auto. exists hd, hc. auto.
Qed.

Lemma Flush_ok a w ft : sess a w -> (ft = PartialFlush -> pf) -> guard w 0 ->
  apost (fun w' => sess (a_flush a ft) w' /\ short w') (w_Flush env w ft).
Proof.
  intros H Hpf HG. assert (HS := sess_state H). destruct HS as [HS HE].
  assert (EW : w_Flush env w ft = let* (w', ok) := flushImpl env w ft in
     if ok : bool then Ok (w', None) else Ok (w', werr (w_out w'))).
  { unfold w_Flush. destruct (w_state w); auto; contradiction. }
  rewrite EW. apply post_apost. apply flushImpl_sess; auto.
Qed.

(** ** SetHeader *)
Lemma sethdr_fields w h : w_opt (set_hdr w h) = w_opt w /\ w_cfg (set_hdr w h) = w_cfg w /\ w_lz (set_hdr w h) = w_lz w /\
  w_in (set_hdr w h) = w_in w /\ w_hdr (set_hdr w h) = h /\ w_events (set_hdr w h) = w_events w /\ w_out (set_hdr w h) = w_out w.
Proof. destruct w; cbn. repeat split. Qed.

Lemma SetHeader_ok a w h : sess a w -> header_bytes h ->
  exists a', astep a (OSetHeader h) a' /\ sess a' (fst (w_SetHeader w h)).
Proof.
  intros H Hb. unfold w_SetHeader.
  destruct (Nat.eqb_spec (checkHeaderFileName h + checkHeaderComment h + checkHeaderLastModified h
           + checkHeaderOSType h + checkHeaderExtraData h) 0) as [E|E]; cbn [fst].
  - assert (HR : Representable h) by (apply checked_iff; exact E).
    assert (HK : header_ok h) by (split; auto).
    exists (a_set a h). split; [constructor; auto|].
    destruct (sethdr_fields w h) as [g1 [g2 [g3 [g4 [g5 [g6 g7]]]]]].
    destruct H as [bs [HF [[H1 [H2 [H3 [hd [H4 H5]]]]]|[H1 [hd [hc [H2 [H3 [H4 [c [H5 EC]]]]]]]]]]];
      exists bs; cbn [a_set a_done a_cur a_hdr a_curh]; (split; [auto|]).
    + left. rewrite g3, g7. split; auto. split; auto. split; auto. exists h. split; [left; auto|].
      destruct (i_ok H5) as [k1 k2 k3 k4 k5 k6 k7 k8 k9]. constructor.
      * constructor; rewrite ?g1, ?g2, ?g3, ?g5, ?g7; auto.
      * auto.
      * unfold w_state. rewrite g7. apply (i_state H5).
      * rewrite g7. apply H5.
      * destruct (i_ev H5) as [evs G]. exists evs. rewrite g6, g7, g4. auto.
      * unfold LastClose. rewrite g6, g7, g4. apply (i_last H5).
    + right. split; auto. exists h, hc. split; [left; auto|]. split; auto. split; auto. exists c. rewrite g3. split; auto.
      destruct (q_ok H5) as [k1 k2 k3 k4 k5 k6 k7 k8 k9]. constructor.
      * constructor; rewrite ?g1, ?g2, ?g3, ?g5, ?g7; auto.
      * auto.
      * unfold w_state. rewrite g7. apply (q_state H5).
      * rewrite g4. apply H5.
      * apply H5.
      * rewrite g7, g3. apply H5.
      * destruct (q_ev H5) as [evs G]. exists evs. rewrite g6, g7, g4. auto.
  - exists a. split; auto. apply as_set_bad. intros HR. apply checked_iff in HR. contradiction.
Qed.

(** ** Any call *)
Definition pf_ok (op : wop) : Prop := op = OFlush PartialFlush -> pf.
(** a call that passes at most 61440 bytes *)
Definition small_op (op : wop) : Prop := match op with OWrite p => (lenN p <= 61440)%N | _ => True end.
Lemma step_ok a w op : sess a w -> op_ok op -> pf_ok op -> (may_panic opt -> MP) \/ (short w /\ small_op op) ->
  apost (fun w' => exists a', astep a op a' /\ sess a' w' /\ (short w -> short w')) (w_step env w op).
Proof.
  intros H Ho Hpf HG. destruct op as [p|ft|h]; cbn [w_step op_ok] in *.
  - pose proof (Write_ok H Ho HG) as P. destruct (w_Write env w p) as [[w' [n [e|]]]| |]; cbn [rbind apost] in *; auto.
    + tauto.
    + destruct P as [_ P]. exists (a_write a p). split; auto. constructor.
  - pose proof (@Flush_ok a w ft H ltac:(intros ->; apply Hpf; reflexivity)) as P.
    assert (HG0 : guard w 0) by (destruct HG as [HG|[HG _]]; [left; auto|right; split; [auto|lia]]). specialize (P HG0).
    destruct (w_Flush env w ft) as [[w' [e|]]| |]; cbn [apost] in *; auto.
    destruct P as [P1 P2]. exists (a_flush a ft). split; [constructor|]. split; auto.
  - cbn [apost]. destruct (SetHeader_ok H Ho) as [a' [P1 P2]]. exists a'. split; auto. split; auto.
    unfold w_SetHeader. match goal with |- context [if ?x then _ else _] => destruct x end; cbn [fst]; auto.
    unfold PInv.short. destruct (sethdr_fields w h) as [_ [_ [g3 _]]]. rewrite g3. auto.
Qed.

Lemma run_ok : forall ops a w, sess a w -> Forall op_ok ops -> Forall pf_ok ops ->
  (may_panic opt -> MP) \/ (short w /\ Forall small_op ops) ->
  apost (fun w' => exists a', asteps a ops a' /\ sess a' w' /\ (short w -> short w')) (w_run env w ops).
Proof.
  induction ops as [|op ops IH]; intros a w H Ho Hpf HG; cbn [w_run].
  - cbn [apost]. exists a. split; auto. constructor.
  - inversion Ho; inversion Hpf; subst.
    assert (HG1 : (may_panic opt -> MP) \/ (short w /\ small_op op)).
    { destruct HG as [HG|[HG1 HG2]]; auto. inversion HG2; auto. }
    pose proof (step_ok H H2 H6 HG1) as P.
    destruct (w_step env w op) as [[w1 [e|]]| |]; cbn [rbind apost] in *; auto.
    destruct P as [a1 [P1 [P2 P3]]].
    assert (HG2 : (may_panic opt -> MP) \/ (short w1 /\ Forall small_op ops)).
    { destruct HG as [HG|[HG2 HG3]]; auto. inversion HG3; auto. }
    pose proof (IH a1 w1 P2 H3 H7 HG2) as Q.
    destruct (w_run env w1 ops) as [[w2 [e|]]| |]; cbn [apost] in *; auto.
    destruct Q as [a2 [Q1 [Q2 Q3]]]. exists a2. split; auto. econstructor; eauto.
Qed.

(** ** Close *)
(** The last event closed a stream; its totals are those of the session. *)
Definition close_totals (a : asession) (w : writer) : Prop :=
  a_done a <> [] -> exists evs e, w_events w = evs ++ [e] /\ e_type e = StreamCloseEvent /\
    e_inTotal e = ((i0 + tlen (map snd (a_done a))) mod two64)%N /\ e_outTotal e = ((t0 + lenN (sink (w_out w))) mod two64)%N.
Lemma idle_totals hd a w : widle hd (map snd (a_done a)) w -> close_totals a w.
Proof.
  intros H ND. destruct (i_last H) as [evs [e [L1 [L2 [L3 L4]]]]]; [destruct (a_done a); [congruence|discriminate]|].
  destruct (i_ev H) as [evs' [_ [_ [_ [G4 [G5 _]]]]]]. rewrite lenN_nil, N.add_0_r in G4. exists evs, e. rewrite L3, L4. auto.
Qed.
Definition closed_ok (a : asession) (w : writer) : Prop :=
  exists bs, Forall2 done_ok (a_done a) bs /\ sink (w_out w) = concat bs /\ w_state w = closedState /\
    werr (w_out w) = None /\ obLen (w_out w) = 0 /\
    (exists evs, w_events w = ev0 ++ evs /\ SEvs (map snd (a_done a)) EvIdle (map pre_of evs) /\
      EvCnt evs (i0 + tlen (map snd (a_done a))) (t0 + lenN (sink (w_out w))) /\
      ELog opt (map snd (a_done a)) EvIdle (bits_of_bytes (sink (w_out w))) (map pre_of evs)) /\
    close_totals a w.

Lemma Close_ok a w : sess a w -> guard w 0 ->
  match w_Close env w with
  | Ok (w', None) => closed_ok (a_finish a) w'
  | Ok (w', Some e) => w_state w' = closedState /\ from_env env e
  | Panic p => p = PAssert /\ MP
  | NoFuel => False
  end.
Proof.
  intros H HG. assert (HS := sess_state H). destruct HS as [HS HE].
  assert (EW : w_Close env w = let* (w', ok) := flushImpl env w FinishFlush in
     if ok : bool then Ok (w_setstate w' closedState, None) else Ok (close_helper w')).
  { unfold w_Close. destruct (w_state w); auto; contradiction. }
  rewrite EW. pose proof (@flushImpl_sess a w FinishFlush H ltac:(discriminate) HG) as P. cbn [a_flush] in P.
  destruct (flushImpl env w FinishFlush) as [[w' []]| |]; cbn [PInv.post rbind] in *; auto.
  - destruct P as [[bs [HF [[H1 [H2 [H3 [hd [H4 H5]]]]]|[H1 _]]]] _].
    + destruct (setstate_fields w' closedState) as [s1 [s2 [s3 [s4 [s5 [s6 s7]]]]]].
      destruct (@setstate_out env (w_out w') closedState (werr (w_out w'))) as [u1 [u2 [u3 [u4 [u5 [u6 [u7 [u8 u9]]]]]]]].
      exists bs. rewrite s7, u1, u3, u5. unfold w_state. rewrite s7, u6. split; auto. split; auto. split; auto.
      split; [apply (k_err (i_ok H5))|]. split; [apply (i_len H5)|].
      split.
      * destruct (i_ev H5) as [evs [G1 [G2 [G3 [_ [_ G6]]]]]]. exists evs. rewrite s6. split; auto. split; auto.
        rewrite lenN_nil, N.add_0_r in G3. split; auto. rewrite (aligned_bits0 (proj1 (k_out (i_ok H5))) (i_len H5)) in G6. exact G6.
      * pose proof (@idle_totals _ (a_finish a) _ H5) as G. unfold close_totals in *. rewrite s6, s7, u1. auto.
    + exfalso. apply H1. unfold a_finish. destruct (a_cur a) eqn:E1; [|reflexivity]. destruct (a_done a) eqn:E2; auto.
  - destruct P as [P1 [e [P2 P3]]]. unfold close_helper. rewrite P2. split; auto.
    unfold w_state. rewrite w_out_set. destruct (w_out w'); reflexivity.
Qed.
End Api.
