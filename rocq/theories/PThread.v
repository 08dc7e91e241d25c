(** One whole stream, and the decompression thread of the Reader. *)
From Verif Require Import Base SpecChecksum SpecHuffman SpecDeflate SpecFormats SpecEvents SpecBlocks MChecksum PChecksum MToken MCommon MWriter MReader SpecLib PToken PHuffman PBits PActs PGram PInput POutput PDecode PDynamic PBlockDec PHeader PStream PFooter.

Lemma ev_set_rout r o : r_events (set_rout r o) = r_events r. Proof. destruct r as [? [? ?] ? ? ? ?]; auto. Qed.
Lemma in_set_rout r o : r_in (set_rout r o) = r_in r. Proof. destruct r as [? [? ?] ? ? ? ?]; auto. Qed.
Lemma out_set_rout r o : r_out (set_rout r o) = o. Proof. destruct r as [? [? ?] ? ? ? ?]; auto. Qed.
Lemma fmt_set_rout r o : r_fmt (set_rout r o) = r_fmt r. Proof. destruct r as [? [? ?] ? ? ? ?]; auto. Qed.
Lemma opt_set_rout r o : r_opt (set_rout r o) = r_opt r. Proof. destruct r as [? [? ?] ? ? ? ?]; auto. Qed.
Definition first_err (a : option goerr) (e : goerr) : option goerr := match a with Some x => Some x | None => Some e end.
Lemma err_close o e : o_err (closeWithError o e) = first_err (o_err o) e. Proof. destruct o as [? ? ? [] ? ? ? ?]; auto. Qed.
Lemma dbuf_close o e : o_dbuf (closeWithError o e) = o_dbuf o. Proof. destruct o as [? ? ? [] ? ? ? ?]; auto. Qed.
Lemma log_close o e : exists s, o_log (closeWithError o e) = o_log o ++ s /\ log_data s = [].
Proof. destruct o as [? ? ? [] ? ? ? ?]; cbn; [exists []|exists [OErr e]]; rewrite ?app_nil_r; auto. Qed.
Lemma first_close o e e' : o_err o = Some e -> closeWithError o e' = o.
Proof. destruct o as [? ? ? [] ? ? ? ?]; cbn; auto. discriminate. Qed.
Lemma iw_iext i i' w : iext i i' w -> iw i i'. Proof. intros X. exists w. split; apply X. Qed.
Lemma crc_reset_spec d : bytes_ok d -> crc_update crc_reset d = spec_crc32 d.
Proof. apply crc_update_spec. Qed.

Section Thr.
Variable env : renv.
Hypothesis Hlib : rlib_ok env.
Variable opt : options.
Hypothesis Hdict : bytes_ok (opt_dict opt).
Notation cap := (dec_cap opt).
Notation win := (win_size opt).
Notation ook := (ook cap).
Notation oext := (oext cap).
Notation ow := (ow cap).
Notation RB := (RB env opt).
Notation RSt := (RSt env opt).
Notation inv := (inv opt).
Notation raw b d := (RawStream RB (opt_dict opt) b d).
Notation rawE b d es := (RawStreamE (racc env) (wlk env win) (opt_dict opt) b d es).
Let Hcap := cap_pos Hlib opt.

(** reader.go:338-346: the part of a stream after its header. *)
Definition streamBody (r : reader) : res (reader * bool) :=
  let r := set_rout r (o_sumreset (r_out r)) in
  let* r := blocksLoop env (S (bits_left (r_in r))) r in
  let r := set_rout r (mustFlush (r_out r)) in
  readFooter r.
Definition streamStep (r : reader) : res (reader * bool) :=
  let* (r, ok) := readHeader env r in if ok then streamBody r else Ok (r, false).

Definition zombie (e : goerr) : Prop := exists a b c, e = CorruptInputError a b c /\ (c = CHlit \/ c = CHdist).
Definition FailB (f : sformat) (all : list N) (i' : ist) (iend : goerr) (p : list N) (e : goerr) : Prop :=
  forall x b d s, raw b d -> all ++ x = (b ++ ftr f d) ++ s ->
    length all < length (b ++ ftr f d) /\ i_all i' = [] /\ trunc_err iend e /\ exists q, d = p ++ q.
Definition fin (r r' : reader) : Prop :=
  r_opt r' = opt /\ iok (r_in r') /\ bok (r_in r') /\ ibl (r_in r') = 0 /\ ook (r_out r') /\ o_dbuf (r_out r') = [] /\
  (forall n, RC n r -> RC n r') /\ exists w, ink (r_in r) (r_in r') w.
Definition good_body (f : sformat) (r r' : reader) : Prop :=
  exists b d s, raw b d /\ ink (r_in r) (r_in r') (b ++ ftr f d) /\
    o_log (r_out r') = o_log (r_out r) ++ s /\ log_data s = d /\ Forall is_data s /\ o_err (r_out r') = o_err (r_out r) /\
    exists evs, r_events r' = r_events r ++ evs /\ (forall ds es, SEvs ds EvOpen es -> SEvs (ds ++ [d]) EvIdle (es ++ map pre_of evs)) /\
      exists bes, map pre_of evs = bes ++ [ev_footer (spec_adler32 d) (spec_crc32 d); ev_simple StreamCloseEvent] /\ rawE b d bes.
Definition bad_body (f : sformat) (r r' : reader) (ok : bool) : Prop :=
  exists e s p (z : bool), o_log (r_out r') = o_log (r_out r) ++ s /\ (if z then zombie e else log_data s = p) /\
    o_err (r_out r') = first_err (o_err (r_out r)) e /\ fail_err (i_end (r_in r)) e /\
    FailB f (i_all (r_in r)) (r_in r') (i_end (r_in r)) p e.

Lemma body_bytes i i2 w : ibl i = 0 -> iok i -> irel i i2 -> av i = w ++ av i2 -> exists b, iext i i2 b /\ bytes_ok b /\ bits_of_bytes b = w ++ bits_of_N (ibl i2) (ib i2).
Proof.
  intros L0 H [b X] A. exists b. split; auto. split; [apply (iext_iok H X)|]. unfold av in A. rewrite L0 in A. cbn [bits_of_N app] in A.
  rewrite (ix_all X), bits_of_bytes_app, app_assoc in A. apply app_inv_tail in A. auto.
Qed.

Lemma streamBody_spec f r : r_opt r = opt -> iok (r_in r) -> bok (r_in r) -> ibl (r_in r) = 0 -> ook (r_out r) -> o_dbuf (r_out r) = [] ->
  o_hist (r_out r) = rev (opt_dict opt) -> o_stream (r_out r) = 0%N -> r_fmt r = fmt_of f ->
  exists r' ok, streamBody r = Ok (r', ok) /\ fin r r' /\ (i_all (r_in r) <> [] -> length (i_all (r_in r')) < length (i_all (r_in r))) /\
    ((ok = true /\ good_body f r r') \/ bad_body f r r' ok).
Proof.
  intros EO H HB L0 HO HD HH HS HF. unfold streamBody.
  set (o0 := o_sumreset (r_out r)). set (r0 := set_rout r o0).
  assert (I0 : r_in r0 = r_in r) by apply in_set_rout. assert (U0 : r_out r0 = o0) by apply out_set_rout.
  assert (HO0 : ook o0). { unfold o0. destruct HO as [H1 H2 H3 H4 H5 H6 H7]. destruct (r_out r). constructor; auto; cbn; [unfold adler_ok, adler_reset; cbn; lia|reflexivity]. }
  assert (F0 : o_log o0 = o_log (r_out r) /\ o_err o0 = o_err (r_out r) /\ o_hist o0 = o_hist (r_out r) /\ o_dbuf o0 = [] /\ o_stream o0 = 0%N /\ o_adler o0 = adler_reset /\ o_crc o0 = crc_reset /\ o_total o0 = o_total (r_out r)).
  { unfold o0. clear - HD HS. destruct (r_out r). cbn in *. auto 10. }
  destruct F0 as [Z1 [Z2 [Z3 [Z4 [Z5 [Z6 [Z7 Z8]]]]]]].
  assert (C0 : forall n, RC n r -> RC n r0).
  { intros n C. eapply RC_keep; [exact C|apply ev_set_rout|rewrite I0; exists []; split; auto; symmetry; apply add64_0; apply H|].
    rewrite U0. exists []. rewrite app_nil_r. split; auto. rewrite Z8. symmetry. apply add64_0. apply HO. }
  assert (EV0 : r_events r0 = r_events r) by apply ev_set_rout.
  assert (EO0 : r_opt r0 = opt) by (unfold r0; rewrite opt_set_rout; auto). assert (EF0 : r_fmt r0 = fmt_of f) by (unfold r0; rewrite fmt_set_rout; auto).
  clearbody r0 o0. rewrite I0.
  assert (PRE : exists r1, blocksLoop env (S (bits_left (r_in r))) r0 = Ok r1 /\ rsame r0 r1 /\ (forall n, RC n r0 -> RC n r1) /\ progress r0 r1 /\
    ((Good cap (r_d r0) (r_d r1) (DefR RB 0 (rev (opt_dict opt))) /\
      exists evs, r_events r1 = r_events r0 ++ evs /\ (forall ds es, SEvs ds EvOpen es -> SEvs ds EvLast (es ++ map pre_of evs)) /\
        exists w, av (r_in r0) = w ++ av (r_in r1) /\ DeflateE (racc env) (wlk env win) 0 (rev (opt_dict opt)) w (o_hist (r_out r1)) (map pre_of evs)) \/
     exists p e z, bad cap (r_d r0) (r_d r1) p e z /\ FailD (r_d r0) (r_d r1) (DefR RB 0 (rev (opt_dict opt))) p e)).
  { assert (HH0 : o_hist (r_out r0) = rev (opt_dict opt)) by (rewrite U0, Z3; exact HH).
    destruct (@blocksLoop_spec env Hlib opt (S (bits_left (r_in r))) 0 r0) as [r1 P]; rewrite ?I0, ?U0; auto; [rewrite L0; lia|unfold aligned; rewrite L0; reflexivity|pose proof (av_le_left (r_in r)); lia|].
    exists r1. rewrite <- HH0. rewrite I0 in P. exact P. }
  destruct PRE as [r1 [E1 [[S1 [S2 [S3 S4]]] [C1 [PG R1]]]]]. rewrite E1. cbn [rbind]. clear E1.
  assert (X1 : irel (r_in r0) (r_in r1)) by (destruct R1 as [[G _]|[p [e [z [B _]]]]]; [apply G|apply B]).
  assert (K1 : iok (r_in r1)) by (apply (irel_iok (i := r_in r0)); auto; rewrite I0; auto).
  assert (HO1 : ook (r_out r1)).
  { assert (W : ow (r_out r0) (r_out r1)); [|exact (ow_ook W)]. change (ow (d_out (r_d r0)) (d_out (r_d r1))). destruct R1 as [[G _]|[p [e [z [B _]]]]].
    - eapply good_ow; eauto. change (ook (r_out r0)). rewrite U0; auto.
    - eapply bad_ow; eauto. change (ook (r_out r0)). rewrite U0; auto. }
  destruct (mustFlush_spec Hcap HO1) as [M1 M2]. pose proof (oext_ook HO1 (Forall_nil _) M1) as HO2.
  set (o2 := mustFlush (r_out r1)) in *. clearbody o2. set (r2 := set_rout r1 o2).
  assert (I2 : r_in r2 = r_in r1) by apply in_set_rout. assert (U2 : r_out r2 = o2) by apply out_set_rout.
  assert (EO2 : r_opt r2 = opt) by (unfold r2; rewrite opt_set_rout; congruence). assert (EF2 : r_fmt r2 = fmt_of f) by (unfold r2; rewrite fmt_set_rout; congruence).
  assert (EV2 : r_events r2 = r_events r1) by apply ev_set_rout.
  assert (C2 : forall n, RC n r -> RC n r2).
  { intros n C. eapply RC_keep; [apply C1, C0, C|auto|rewrite I2; exists []; split; auto; symmetry; apply add64_0; apply K1|].
    rewrite U2. destruct M1 as [s M]. exists s. split; apply M. }
  clearbody r2. destruct (@readFooter_spec f r2 EF2) as [r' [ok [w [E3 [T1 [T2 [T3 [T4 [T5 [T6 T7]]]]]]]]]]; try (rewrite ?I2, ?U2; first [exact K1|apply HO2]).
  { rewrite U2. pose proof (ok_adler HO2) as A. unfold adler_ok in A. unfold two32. pose proof (N.div_mod (o_adler o2) 65536 ltac:(discriminate)). lia. }
  rewrite I2 in T6, T7. rewrite U2 in T7.
  exists r', ok. split; auto.
  assert (XX : exists w', iext (r_in r) (r_in r') w').
  { destruct X1 as [q X1]. rewrite I0 in X1. exists (q ++ w). eapply iext_trans; eauto. }
  assert (W3 : exists s, o_log (r_out r') = o_log o2 ++ s /\ log_data s = [] /\ (ok = true -> s = []) /\ ook (r_out r') /\ o_dbuf (r_out r') = []).
  { destruct ok.
    - destruct T7 as [_ [-> _]]. exists []. rewrite app_nil_r. auto.
    - destruct T7 as [e [-> _]]. destruct (log_close o2 e) as [s [L1 L2]]. exists s. split; auto. split; auto. split; [discriminate|]. split; [apply ook_close; auto|rewrite dbuf_close; auto]. }
  destruct W3 as [s3 [W1 [W2 [W4 [W5 W6]]]]].
  split. { split; [congruence|]. split; auto. split; auto. split; auto. split; auto. split; auto. split; [auto|]. destruct XX as [w' XX]. exists w'. apply ink_iext; auto. }
  split. { intros NE. red in PG. rewrite I0 in PG. specialize (PG L0 NE). rewrite (ix_all T6), app_length in PG. lia. }
  destruct M1 as [s2 M1].
  destruct R1 as [[[_ [B1 [L1 [w1 [p [P1 [A1 [O1 BP]]]]]]]] [evs [V1 [V2 [wE [VA VE]]]]]]|[p [e [z [[_ [BP [FE [o1 [O1 [W WZ]]]]]] FD]]]]].
  - (* the blocks are good *)
    change (d_in (r_d r0)) with (r_in r0) in *. change (d_in (r_d r1)) with (r_in r1) in *. change (d_out (r_d r0)) with (r_out r0) in *. change (d_out (r_d r1)) with (r_out r1) in *.
    rewrite I0 in *. rewrite U0 in *. destruct (body_bytes L0 H X1 A1) as [b [XB [Bb EB]]].
    destruct O1 as [s1 O1]. pose proof (oext_trans' HO0 BP (Forall_nil _) O1 M1) as O2. rewrite app_nil_r in O2.
    assert (DS : log_data (s1 ++ s2) = p). { pose proof (ox_data O2) as D. rewrite M2, Z4, app_nil_r in D. auto. }
    rewrite Z3, HH in P1.
    assert (RW : raw b p). { split; auto. exists w1, (bits_of_N (ibl (r_in r1)) (ib (r_in r1))). split; [rewrite length_bits_of_N; auto|]. split; auto. apply Deflate_DefR. auto. }
    assert (EA : o_adler o2 = spec_adler32 p). { rewrite (ox_adler O2), DS, Z6. apply adler_checksum_spec. auto. }
    assert (EC : o_crc o2 = spec_crc32 p). { rewrite (ox_crc O2), DS, Z7. apply crc_reset_spec. auto. }
    assert (ES : (o_stream o2 mod two32 = lenN p mod two32)%N).
    { rewrite (ox_stream O2), DS, Z5. unfold add64. cbn [N.add]. change two64 with (two32 * two32)%N. rewrite N.mod_mul_r by discriminate. rewrite (N.mul_comm two32), N.mod_add, N.mod_mod by discriminate. auto. }
    assert (EQ : FQ f (o_adler o2) (o_crc o2) (o_stream o2) = ftr f p) by (unfold FQ, ftr; rewrite EA, EC, ES; auto). rewrite EQ in T7.
    destruct ok.
    + left. split; auto. destruct T7 as [-> [EO3 [ev1 [ev2 [V3 [V4 V5]]]]]]. specialize (W4 eq_refl). subst s3.
      exists b, p, (s1 ++ s2). split; auto. split; [apply ink_iext; eapply iext_trans; eauto|]. split; [rewrite W1, app_nil_r, (ox_log O2), Z1; auto|]. split; auto.
      split; [apply O2|]. split; [rewrite EO3, (ox_err O2), Z2; auto|]. exists (evs ++ [ev1; ev2]). rewrite V3, EV2, V1, EV0, <- app_assoc. split; auto.
      split. { intros ds es HE. rewrite map_app, app_assoc. cbn [map]. rewrite V4, V5, EA, EC. apply se_end. apply V2. auto. }
      exists (map pre_of evs). split; [rewrite map_app; cbn [map]; rewrite V4, V5, EA, EC; auto|].
      assert (EW : wE = w1) by (rewrite A1 in VA; apply app_inv_tail in VA; auto). subst wE. rewrite (ox_hist O1), Z3, HH in VE.
      split; auto. exists w1, (bits_of_N (ibl (r_in r1)) (ib (r_in r1))). split; [rewrite length_bits_of_N; auto|]. split; auto.
    + right. destruct T7 as [e [EO3 [FE FH]]]. exists e, (s1 ++ s2 ++ s3), p, false. split; [rewrite W1, (ox_log O2), Z1, <- !app_assoc; auto|].
      split; [rewrite app_assoc, log_data_app, DS, W2, app_nil_r; auto|]. split; [rewrite EO3, err_close, (ox_err O2), Z2; auto|]. rewrite (ix_end XB) in *. split; auto.
      intros x b' d' s RW' EAll. rewrite (ix_all XB), <- !app_assoc in EAll. destruct (raw_inj Hlib RW RW' EAll) as [<- <-]. apply app_inv_head in EAll.
      destruct (FH x (ftr f p) s tt eq_refl EAll) as [T8 [T9 [T10 T11]]].
      split; [rewrite (ix_all XB), !app_length; lia|]. split; auto. split; [left; auto|]. exists []. rewrite app_nil_r. auto.
  - (* the blocks are bad *)
    change (d_in (r_d r0)) with (r_in r0) in *. change (d_in (r_d r1)) with (r_in r1) in *. change (d_out (r_d r0)) with (r_out r0) in *. change (d_out (r_d r1)) with (r_out r1) in *.
    rewrite I0 in *. rewrite U0 in *. right. destruct O1 as [s1 O1].
    assert (ER1 : o_err (r_out r1) = first_err (o_err (r_out r)) e).
    { pose proof (ow_err W) as WE. rewrite err_close, (ox_err O1), Z2 in WE. destruct (o_err (r_out r)); apply WE; auto. }
    assert (ERR : o_err (r_out r') = first_err (o_err (r_out r)) e).
    { assert (ER2 : o_err o2 = first_err (o_err (r_out r)) e) by (rewrite (ox_err M1); auto). destruct ok; [destruct T7 as [_ [-> _]]; auto|].
      destruct T7 as [e' [-> _]]. rewrite err_close, ER2. destruct (o_err (r_out r)); auto. }
    assert (LG : exists s, o_log (r_out r') = o_log (r_out r) ++ s /\ (if z then zombie e else log_data s = p)).
    { destruct (log_close o1 e) as [sc [L1 L2]]. destruct W as [_ [sw [W7 _]] _]. exists (s1 ++ sc ++ sw ++ s2 ++ s3). split.
      - rewrite W1, (ox_log M1), W7, L1, (ox_log O1), Z1, <- !app_assoc. auto.
      - destruct z; [exact WZ|]. assert (sw = []). { rewrite WZ in W7. rewrite <- (app_nil_r (o_log (closeWithError o1 e))) in W7 at 1. apply app_inv_head in W7. auto. } subst sw.
        rewrite !log_data_app, L2, W2, app_nil_r. cbn [log_data flat_map app]. pose proof (ox_data M1) as D1. rewrite M2, WZ, dbuf_close, !app_nil_r in D1.
        rewrite D1. pose proof (ox_data O1) as D2. rewrite Z4 in D2. auto. }
    destruct LG as [s [LG1 LG2]]. exists e, s, p, z. split; auto. split; auto. split; auto. split; auto.
    intros x b d s0 [OB [w' [pad [LP [EB D]]]]] EA. apply Deflate_DefR in D. unfold FailD in FD. change (d_in (r_d r0)) with (r_in r0) in FD. change (d_in (r_d r1)) with (r_in r1) in FD. change (d_out (r_d r0)) with (r_out r0) in FD. rewrite I0, U0, Z3, HH in FD.
    assert (EBITS : av (r_in r) ++ bits_of_bytes x = w' ++ (pad ++ bits_of_bytes (ftr f d ++ s0))).
    { unfold av. rewrite L0. cbn [bits_of_N app]. rewrite <- bits_of_bytes_app, EA, <- app_assoc, bits_of_bytes_app, EB, <- app_assoc. auto. }
    destruct (FD _ _ _ _ D EBITS) as [T8 [[T9 [T10 T11]] [q T12]]].
    assert (LB : length (av (r_in r)) < length (bits_of_bytes b)) by (rewrite EB, app_length; lia).
    rewrite av_length, L0, length_bits_of_bytes in LB.
    split; [rewrite app_length; lia|]. split; [pose proof (ix_all T6) as A6; rewrite T9 in A6; symmetry in A6; apply app_eq_nil in A6; tauto|]. split; auto.
    exists q. rewrite app_assoc in T12. apply app_inv_tail in T12. rewrite <- rev_app_distr in T12. apply rev_inv in T12. auto.
Qed.

(** ** One stream *)
Definition FailS (f : sformat) (all : list N) (i' : ist) (iend : goerr) (p : list N) (e : goerr) : Prop :=
  forall x b d h s, RSt f b d h -> all ++ x = b ++ s ->
    length all < length b /\ i_all i' = [] /\ trunc_err iend e /\ exists q, d = p ++ q.
(** The events of one whole stream. *)
Definition StE (f : sformat) (b d : list N) (h : header) (es : list pre_event) : Prop :=
  exists hb body bes, Hd env opt f hb h /\ rawE body d bes /\ b = hb ++ body ++ ftr f d /\
    es = ev_simple StreamBeginEvent :: ev_header h :: bes ++ [ev_footer (spec_adler32 d) (spec_crc32 d); ev_simple StreamCloseEvent].
Definition at_end (r r' : reader) : Prop :=
  i_all (r_in r) = [] /\ i_all (r_in r') = [] /\ i_err (r_in r') = Some (i_end (r_in r)) /\ r_out r' = closeWithError (o_streamreset (r_out r)) (i_end (r_in r)) /\ r_events r' = r_events r.
Definition good_stream (r r' : reader) : Prop :=
  exists b d h s, RSt (selfmt env opt (in_head r)) b d h /\ ink (r_in r) (r_in r') b /\
    o_log (r_out r') = o_log (r_out r) ++ s /\ log_data s = d /\ Forall is_data s /\ o_err (r_out r') = o_err (r_out r) /\
    exists ev1 ev2 evs, r_events r' = r_events r ++ ev1 :: ev2 :: evs /\ pre_of ev2 = ev_header h /\
      (forall ds es, SEvs ds EvIdle es -> SEvs (ds ++ [d]) EvIdle (es ++ map pre_of (ev1 :: ev2 :: evs))) /\
      StE (selfmt env opt (in_head r)) b d h (map pre_of (ev1 :: ev2 :: evs)).
Definition bad_stream (r r' : reader) (ok : bool) : Prop :=
  exists e s p (z : bool), o_log (r_out r') = o_log (r_out r) ++ s /\ (if z then zombie e else log_data s = p) /\
    o_err (r_out r') = first_err (o_err (r_out r)) e /\ fail_err (i_end (r_in r)) e /\
    FailS (selfmt env opt (in_head r)) (i_all (r_in r)) (r_in r') (i_end (r_in r)) p e /\
    (ok = true -> length (i_all (r_in r')) < length (i_all (r_in r))).
Definition step_post (r : reader) (r' : reader) (ok : bool) : Prop :=
  inv r' /\ (forall n, RC n r -> RC n r') /\ (exists w, ink (r_in r) (r_in r') w) /\
  ((ok = false /\ at_end r r') \/ (i_all (r_in r) <> [] /\ ((ok = true /\ good_stream r r') \/ bad_stream r r' ok))).

Lemma streamStep_spec r : inv r ->
  match streamStep r with Ok (r', ok) => step_post r r' ok | Panic c => gz_panic (i_all (r_in r)) c /\ selfmt env opt (in_head r) = SGzip | NoFuel => False end.
Proof.
  intros V. pose proof V as [VO VI VB V0 VK VD]. pose proof (readHeader_spec env Hdict V) as HS. unfold streamStep.
  destruct (readHeader env r) as [[r1 ok1]|c|]; cbn [rbind]; auto. destruct HS as [EO1 [K1 [B1 [L1 HS]]]].
  destruct HS as [[EA [-> [KP [NK [EE EU]]]]]|[NE HS]].
  - assert (UO : ook (r_out r1)).
    { rewrite EU. apply ook_close. clear - VK. destruct VK as [H1 H2 H3 H4 H5 H6 H7]. destruct (r_out r). constructor; auto. reflexivity. }
    assert (UD : o_dbuf (r_out r1) = []) by (rewrite EU, dbuf_close; clear - VD; destruct (r_out r); auto).
    split; [constructor; auto|]. split.
    { intros n C. eapply RC_keep; [exact C|apply KP|eapply ink_iw; eauto|]. rewrite EU. destruct (@owl_close (o_streamreset (r_out r)) (i_end (r_in r))) as [s [S1 S2]].
      - pose proof (ok_total VK). destruct (r_out r); auto.
      - exists s. rewrite S1, S2. clear. destruct (r_out r); auto. }
    split; [eauto|]. left. split; auto. split; auto. split; [|split; auto; split; auto; apply KP]. pose proof (nk_all NK) as A. rewrite EA in A. cbn in A. auto.
  - cbv zeta in HS. set (f := selfmt env opt (in_head r)) in *.
    assert (OHK : ook (out_head opt r)). { apply ook_head; auto. apply Forall_rev. auto. }
    assert (OHF : o_log (out_head opt r) = o_log (r_out r) /\ o_err (out_head opt r) = o_err (r_out r) /\ o_dbuf (out_head opt r) = [] /\ o_stream (out_head opt r) = 0%N /\ o_hist (out_head opt r) = rev (opt_dict opt)).
    { unfold out_head. clear - VD. destruct (r_out r). cbn in *. auto. }
    destruct OHF as [F1 [F2 [F3 [F4 F5]]]]. destruct ok1.
    + destruct HS as [w [h [ev1 [ev2 [H1 [NK [EU [EF [V1 [V2 [V3 C1]]]]]]]]]]].
      destruct (@streamBody_spec f r1) as [r2 [ok [E2 [FI [PG R2]]]]]; rewrite ?EU; auto. rewrite E2.
      destruct FI as [G1 [G2 [G3 [G4 [G5 [G6 [G7 [w2 G8]]]]]]]].
      split; [constructor; auto|]. split; auto. split; [exists (w ++ w2); eapply ink_trans; eauto|]. right. split; auto.
      destruct R2 as [[-> [b [d [s [R1 [NK2 [L2 [D2 [D3 [E3 [evs [V4 [V5 [bes [V6 V7]]]]]]]]]]]]]]]|[e [s [p [z [L2 [Z2 [E3 [FE FB]]]]]]]]].
      * left. split; auto. rewrite EU, F1 in L2. rewrite EU, F2 in E3. exists (w ++ b ++ ftr f d), d, h, s. split; [exists w, b; auto|]. split; [eapply ink_trans; eauto|].
        split; auto. split; auto. split; auto. split; auto. exists ev1, ev2, evs. split; [rewrite V4, V1, <- app_assoc; auto|]. split; auto.
        split. 2:{ exists w, b, bes. split; auto. split; auto. split; auto. cbn [map]. rewrite V2, V3, V6. auto. }
        intros ds es HE. cbn [map]. rewrite V2, V3. change (?a :: ?b :: ?c) with ([a; b] ++ c). rewrite app_assoc. apply V5. apply se_begin. auto.
      * right. rewrite EU, F1 in L2. rewrite EU, F2 in E3. rewrite (nk_end NK) in *. exists e, s, p, z. split; auto. split; auto. split; auto. split; auto. split.
        -- intros x b d h' s0 [w' [y [H1' [RW ->]]]] EA. rewrite (nk_all NK), <- !app_assoc in EA. destruct (Hd_inj H1 H1' EA) as [<- <-]. apply app_inv_head in EA.
           rewrite app_assoc in EA. destruct (FB x y d s0 RW EA) as [T1 T2]. split; auto. pose proof (f_equal (@length _) (nk_all NK)) as AL. rewrite app_length in AL. rewrite (app_length w). unfold f in T1. lia.
        -- intros _. pose proof (nk_all NK) as A. apply (f_equal (@length _)) in A. rewrite app_length in A.
           destruct (list_eq_dec N.eq_dec (i_all (r_in r1)) []) as [E|E]; [|specialize (PG E); lia].
           pose proof (nk_all G8) as A2. rewrite E in A2. symmetry in A2. apply app_eq_nil in A2. destruct A2 as [_ A2]. rewrite A2. cbn. destruct (i_all (r_in r)); [congruence|cbn; lia].
    + destruct HS as [e [w [NK [EU [FE [FH C1]]]]]].
      split; [constructor; auto; rewrite EU; [apply ook_close; auto|rewrite dbuf_close; auto]|]. split; auto. split; [eauto|]. right. split; auto. right.
      destruct (log_close (out_head opt r) e) as [s [L1' L2]]. exists e, s, [], false. split; [rewrite EU, L1', F1; auto|]. split; auto. split; [rewrite EU, err_close, F2; auto|]. split; auto.
      split; [|discriminate]. intros x b d h s0 [w' [y [H1' [RW ->]]]] EA. rewrite <- !app_assoc in EA. destruct (FH x w' (y ++ ftr f d ++ s0) h H1' EA) as [T1 [T2 [T3 T4]]].
      rewrite app_length. split; [lia|]. split; auto. split; [left; auto|]. exists d. auto.
Qed.
End Thr.
