(** One stream, and the whole decompression thread of the Reader. *)
From Verif Require Import Base SpecChecksum SpecHuffman SpecDeflate SpecFormats SpecEvents MChecksum PChecksum MToken MCommon MWriter MReader SpecLib PToken PHuffman PBits PActs PGram PInput POutput PDecode PDynamic PBlockDec PHeader.

Lemma rev_inv {A} (a b : list A) : rev a = rev b -> a = b.
Proof. intros E. apply (f_equal (@rev A)) in E. rewrite !rev_involutive in E. auto. Qed.
Lemma RC_keep n r r' : RC n r -> r_events r' = r_events r -> iw (r_in r) (r_in r') -> owl (r_out r) (r_out r') -> RC n r'.
Proof.
  intros C E I O. pose proof (RC_d C I O) as D. destruct D as [D1 D2 D3 D4]. unfold r_in, r_out in *. rewrite d_set_d in *. cbn [d_in d_out] in *. rewrite ev_set_d in D4.
  constructor; unfold r_in, r_out; auto. rewrite E. auto.
Qed.
Lemma owl_close o e : (o_total o < two64)%N -> owl o (closeWithError o e).
Proof.
  intros T. destruct o as [db h log err t s a c]. cbn in *. destruct err; [exists []; rewrite app_nil_r|exists [OErr e]]; split; auto; cbn; symmetry; apply add64_0; auto.
Qed.
Lemma owl_refl o : (o_total o < two64)%N -> owl o o.
Proof. intros T. exists []. rewrite app_nil_r. split; auto. symmetry. apply add64_0; auto. Qed.
Lemma owl_trans a b c : owl a b -> owl b c -> owl a c.
Proof.
  intros [s [A2 A4]] [t [B2 B4]]. exists (s ++ t). rewrite B2, A2, app_assoc. split; auto.
  rewrite B4, A4, add64_assoc, log_data_app, lenN_app. auto.
Qed.
Lemma iw_trans a b c : iw a b -> iw b c -> iw a c.
Proof. intros [p [A1 A2]] [q [B1 B2]]. exists (p ++ q). rewrite A1, B1, app_assoc. split; auto. rewrite B2, A2, add64_assoc, lenN_app. auto. Qed.

Section Str.
Variable env : renv.
Hypothesis Hlib : rlib_ok env.
Variable opt : options.
Hypothesis Hdict : bytes_ok (opt_dict opt).
Notation cap := (dec_cap opt).
Notation win := (win_size opt).
Notation ook := (ook cap).
Notation oext := (oext cap).
Notation ow := (ow cap).
Definition RB : blockpred := Block (racc env) (wlk env win).
Let Hcap := cap_pos Hlib opt.

(** ** What the Reader accepts *)
Definition Hd (f : sformat) : list N -> header -> Prop :=
  match f with SRaw => HR header0 | SZlib => HZ env opt header0 | SGzip => HG header0 end.
Definition ftr (f : sformat) (d : list N) : list N :=
  match f with SRaw => [] | SZlib => be32 (spec_adler32 d) | SGzip => le32 (spec_crc32 d) ++ le32 (lenN d mod two32)%N end.
Definition RSt (f : sformat) (b d : list N) (h : header) : Prop :=
  exists w body, Hd f w h /\ RawStream RB (opt_dict opt) body d /\ b = w ++ body ++ ftr f d.
Lemma Hd_inj f : hdet (Hd f).
Proof.
  destruct f; [|apply HZ_inj|apply HG_inj]. intros w1 h1 r1 w2 h2 r2 [-> ->] [-> ->] _. auto.
Qed.
Lemma raw_inj b1 d1 b2 d2 r1 r2 : RawStream RB (opt_dict opt) b1 d1 -> RawStream RB (opt_dict opt) b2 d2 -> b1 ++ r1 = b2 ++ r2 -> b1 = b2 /\ d1 = d2.
Proof.
  intros [O1 [w1 [p1 [L1 [E1 D1]]]]] [O2 [w2 [p2 [L2 [E2 D2]]]]] E. apply Deflate_DefR in D1. apply Deflate_DefR in D2.
  pose proof (f_equal bits_of_bytes E) as EB. rewrite !bits_of_bytes_app, E1, E2, <- !app_assoc in EB.
  destruct (DefR_inj Hlib Hcap D1 D2 EB) as [EW [EH _]]. apply app_inv_tail in EH. apply rev_inv in EH. split; auto.
  assert (LB : length b1 = length b2).
  { apply (f_equal (@length _)) in E1. apply (f_equal (@length _)) in E2. rewrite length_bits_of_bytes, app_length in E1, E2. subst w2. lia. }
  destruct (app_inj_length LB E) as [-> _]. auto.
Qed.
Lemma RSt_inj f b1 d1 h1 b2 d2 h2 r1 r2 : RSt f b1 d1 h1 -> RSt f b2 d2 h2 -> b1 ++ r1 = b2 ++ r2 -> b1 = b2 /\ d1 = d2 /\ h1 = h2.
Proof.
  intros [w1 [y1 [A1 [A2 ->]]]] [w2 [y2 [B1 [B2 ->]]]] E. rewrite <- !app_assoc in E.
  destruct (Hd_inj A1 B1 E) as [<- <-]. apply app_inv_head in E. destruct (raw_inj A2 B2 E) as [<- <-]. auto.
Qed.
Lemma raw_nonempty b d : RawStream RB (opt_dict opt) b d -> b <> [].
Proof.
  intros [O1 [w [p [L [E D]]]]] ->. apply Deflate_DefR in D. cbn in E. symmetry in E. apply app_eq_nil in E. destruct E as [-> _].
  assert (G : forall w h', DefR RB 0 (rev (opt_dict opt)) w h' -> w <> []).
  { intros w h' D1. destruct D1 as [w h' H|w h ws h' H _]; destruct H; discriminate. }
  eapply G; eauto.
Qed.
Lemma RSt_nonempty f b d h : RSt f b d h -> b <> [].
Proof.
  intros [w [y [A [B ->]]]] E. apply app_eq_nil in E. destruct E as [_ E]. apply app_eq_nil in E. destruct E as [-> _]. apply raw_nonempty in B. congruence.
Qed.

(** ** The format *)
Definition autofmt (i : ist) : sformat :=
  let p := firstn (Nat.min 2 (e_peek2 env (i_total i))) (i_buf i) in
  if length p <? 2 then SRaw
  else if ((nthN p 0 =? 0x1f) && (nthN p 1 =? 0x8b))%N then SGzip
  else if ((N.land (nthN p 0) 0x0f =? 8) && (unbe16 p mod 31 =? 0))%N then SZlib
  else SRaw.
Definition selfmt (i : ist) : sformat :=
  match o_format opt with RawFormat => SRaw | ZlibFormat => SZlib | GZIPFormat => SGzip | DefaultFormat => autofmt i end.
Definition fmt_of (f : sformat) : format := match f with SRaw => RawFormat | SZlib => ZlibFormat | SGzip => GZIPFormat end.

Record inv (r : reader) : Prop := Inv {
  v_opt : r_opt r = opt; v_iok : iok (r_in r); v_bok : bok (r_in r); v_ibl : ibl (r_in r) = 0; v_ook : ook (r_out r); v_dbuf : o_dbuf (r_out r) = [] }.

Lemma zlib_fmt r r' : readHeaderZlib env r = (r', true) -> r_fmt r' = ZlibFormat.
Proof.
  unfold readHeaderZlib. repeat match goal with |- context [let '(_, _) := ?x in _] => destruct x | |- context [match ?x with Some _ => _ | None => _ end] => destruct x | |- context [if ?x then _ else _] => destruct x end;
   intros E; inversion E; subst; apply fmt_set_fmt.
Qed.
Lemma ook_head o h : ook o -> bytes_ok h -> ook (o_sethist (o_streamreset o) h).
Proof. intros [H1 H2 H3 H4 H5 H6 H7] Hh. destruct o. constructor; auto. reflexivity. Qed.
Lemma streamreset_ink i i' w : ink (i_streamreset i) i' w -> ink i i' w.
Proof. intros [A1 A2 A3 A4 A5]. destruct i. constructor; auto. Qed.
Lemma iok_streamreset i : iok i -> iok (i_streamreset i).
Proof. intros [H1 H2 H3 H4 H5]. destruct i. constructor; auto. reflexivity. Qed.

Definition out_head (r : reader) : ost := o_sethist (o_streamreset (r_out r)) (rev (opt_dict opt)).
Definition in_head (r : reader) : ist := fillIfEmpty (i_streamreset (r_in r)).
Lemma readHeader_spec r : inv r ->
  match readHeader env r with
  | Ok (r', ok) => r_opt r' = opt /\ iok (r_in r') /\ bok (r_in r') /\ ibl (r_in r') = 0 /\
      ((i_all (r_in r) = [] /\ ok = false /\ hkeep r r' /\ ink (r_in r) (r_in r') [] /\ i_err (r_in r') = Some (i_end (r_in r)) /\
        r_out r' = closeWithError (o_streamreset (r_out r)) (i_end (r_in r))) \/
       (i_all (r_in r) <> [] /\ let f := selfmt (in_head r) in
        if ok : bool then exists w h ev1 ev2, Hd f w h /\ ink (r_in r) (r_in r') w /\ r_out r' = out_head r /\ r_fmt r' = fmt_of f /\
          r_events r' = r_events r ++ [ev1; ev2] /\ pre_of ev1 = ev_simple StreamBeginEvent /\ pre_of ev2 = ev_header h /\ (forall n, RC n r -> RC n r')
        else exists e w, ink (r_in r) (r_in r') w /\ r_out r' = closeWithError (out_head r) e /\ fail_err (i_end (r_in r)) e /\
          FailH (Hd f) (i_all (r_in r)) (r_in r') (i_end (r_in r)) e /\ (forall n, RC n r -> RC n r')))
  | Panic c => gz_panic (i_all (r_in r)) c /\ selfmt (in_head r) = SGzip
  | NoFuel => False
  end.
Proof.
  intros [VO VI VB V0 VK VD]. unfold readHeader.
  set (i0 := i_streamreset (r_in r)). assert (H0 : iok i0) by (apply iok_streamreset; auto).
  assert (EALL : i_all i0 = i_all (r_in r)) by (unfold i0; destruct (r_in r); auto). assert (EEND : i_end i0 = i_end (r_in r)) by (unfold i0; destruct (r_in r); auto).
  assert (B0 : bok i0 /\ ibl i0 = 0) by (unfold i0, bok in *; destruct (r_in r); auto).
  set (o0 := o_streamreset (r_out r)). assert (EI : r_in (set_d r (DST i0 o0)) = i0) by (unfold r_in; rewrite d_set_d; auto). rewrite EI.
  destruct (fill_spec H0) as [X1 [F1 [F2 F3]]]. set (i1 := fillIfEmpty i0) in *.
  assert (IH1 : in_head r = i1) by reflexivity. clearbody i1.
  destruct (iext_iok H0 X1) as [K1 _]. destruct (iext_nil H0 X1) as [A1 [A2 _]].
  assert (B1 : bok i1 /\ ibl i1 = 0) by (unfold bok in *; rewrite F1, F2; auto). destruct B1 as [B1 B2].
  assert (INK1 : ink (r_in r) i1 []) by (apply streamreset_ink, ink_iext; auto).
  rewrite in_set_rin. destruct (i_buf i1) as [|x0 b0] eqn:EB.
  - destruct (F3 eq_refl) as [F4 F5]. rewrite EEND in F5. rewrite EALL in F4.
    set (r1 := set_rin _ i1). assert (I1 : r_in r1 = i1) by (unfold r1; rewrite in_set_rin; auto).
    assert (O1 : r_out r1 = o0) by (unfold r1; rewrite out_set_rin; unfold r_out; rewrite d_set_d; auto).
    assert (K : hkeep r r1) by (unfold r1; destruct r as [? [? ?] ? ? ? ?]; repeat split). clearbody r1.
    assert (K' : hkeep r (r_propagate r1 false)) by (eapply hkeep_trans; [exact K|apply keep_prop]).
    rewrite in_prop, I1. split; [destruct K' as [? _]; congruence|]. split; auto. split; auto. split; auto. left. split; auto. split; auto. split; auto. split; auto. split; auto.
    unfold r_propagate, propagateError. change (d_in (r_d r1)) with (r_in r1). rewrite I1, F5. unfold r_out at 1. rewrite d_set_d. cbn [d_out]. change (d_out (r_d r1)) with (r_out r1). rewrite O1.
    destruct (i_end (r_in r)); reflexivity.
  - assert (NE : i_all (r_in r) <> []) by (rewrite <- EALL, <- A1; unfold i_all; rewrite EB; discriminate).
    set (r1 := incr_num _). set (r2 := set_rout r1 _). set (r3 := r_sendEvent _ _). set (r4 := set_rhdr r3 header0).
    assert (O1 : r_opt r4 = opt) by (unfold r4, r3, r2, r1, set_rout; destruct r as [? [? ?] ? ? ? ?]; auto).
    assert (I1 : r_in r4 = i1) by (unfold r4, r3, r2, r1, set_rout; destruct r as [? [? ?] ? ? ? ?]; auto).
    assert (U1 : r_out r4 = out_head r) by (unfold r4, r3, r2, r1, set_rout, out_head, o0; clear - VO; destruct r as [? [? ?] ? ? ? ?]; cbn in *; subst; reflexivity).
    assert (H1 : r_hdr r4 = header0) by (unfold r4; destruct r3; auto).
    assert (V1 : exists ev1, r_events r4 = r_events r ++ [ev1] /\ pre_of ev1 = ev_simple StreamBeginEvent).
    { exists (mk_event (set_fmt r2 DefaultFormat) (ev_simple StreamBeginEvent)). split; [|apply pre_mk_event].
      unfold r4. destruct (keep_set_rhdr r3 header0) as [_ [_ EV]]. rewrite EV. unfold r3. rewrite ev_sendEvent. f_equal.
      unfold r2, r1, set_rout. clear. destruct r as [? [? ?] ? ? ? ?]. reflexivity. }
    assert (C1 : forall n, RC n r -> RC n r4).
    { intros n C. assert (C3 : RC n r3).
      { unfold r3. apply RC_ev. eapply RC_keep; [exact C|..].
        - unfold r2, r1, set_rout. destruct r as [? [? ?] ? ? ? ?]. reflexivity.
        - assert (EI2 : r_in (set_fmt r2 DefaultFormat) = i1) by (unfold r2, r1, set_rout; destruct r as [? [? ?] ? ? ? ?]; auto). rewrite EI2. eapply ink_iw; eauto.
        - assert (EU : r_out (set_fmt r2 DefaultFormat) = out_head r) by (unfold r2, r1, set_rout, out_head, o0; clear - VO; destruct r as [? [? ?] ? ? ? ?]; cbn in *; subst; reflexivity). rewrite EU.
          exists []. unfold out_head. pose proof (ok_total VK) as T. clear - T. destruct (r_out r) eqn:EO. cbn in *. rewrite app_nil_r. split; auto. symmetry. apply add64_0. exact T. }
      eapply RC_keep; [exact C3|..]; unfold r4; rd; auto; [apply (keep_set_rhdr r3)|..].
      - exists []. split; auto. symmetry. apply add64_0. assert (ET : r_in r3 = i1) by (unfold r4 in I1; rd; auto). rewrite ET. apply K1.
      - apply owl_refl. assert (ET : r_out r3 = out_head r) by (unfold r4 in U1; rd; auto). rewrite ET. unfold out_head. pose proof (ok_total VK) as T. clear - T. destruct (r_out r). exact T. }
    clearbody r4. clear r1 r2 r3.
    assert (OH : o_hist (r_out r4) = rev (opt_dict opt)) by (rewrite U1; unfold out_head; destruct (r_out r); auto).
    assert (SPEC : header_spec (match o_format (r_opt r4) with DefaultFormat => readHeaderAuto env r4 | RawFormat => Ok (readHeaderRaw r4) | ZlibFormat => Ok (readHeaderZlib env r4) | GZIPFormat => readHeaderGZIP r4 end)
              r4 (Hd (selfmt i1)) (fmt_of (selfmt i1))).
    { assert (SR : header_spec (Ok (readHeaderRaw r4)) r4 (Hd SRaw) RawFormat).
      { cbn [header_spec]. apply stage_header; [|intros _; unfold readHeaderRaw; cbn [fst]; destruct r4; auto]. cbn [Hd]. rewrite <- H1. apply readHeaderRaw_spec; rewrite I1; auto. }
      assert (SZ : header_spec (Ok (readHeaderZlib env r4)) r4 (Hd SZlib) ZlibFormat).
      { cbn [header_spec]. apply stage_header; [|intros E; destruct (readHeaderZlib env r4) eqn:EZ; cbn in *; subst; eapply zlib_fmt; eauto]. cbn [Hd]. rewrite <- H1. apply readHeaderZlib_spec; auto. rewrite I1; auto. }
      assert (SG : header_spec (readHeaderGZIP r4) r4 (Hd SGzip) GZIPFormat).
      { cbn [Hd]. rewrite <- H1. apply readHeaderGZIP_spec. rewrite I1. auto. }
      rewrite O1. unfold selfmt. destruct (o_format opt); auto. unfold readHeaderAuto, autofmt. rewrite I1. set (p := firstn _ _). clearbody p.
      destruct (length p <? 2); auto. destruct ((nthN p 0 =? 31) && (nthN p 1 =? 139))%N; auto. destruct ((N.land (nthN p 0) 15 =? 8) && (unbe16 p mod 31 =? 0))%N; auto. }
    assert (PANIC : forall c, match o_format (r_opt r4) with DefaultFormat => readHeaderAuto env r4 | RawFormat => Ok (readHeaderRaw r4) | ZlibFormat => Ok (readHeaderZlib env r4) | GZIPFormat => readHeaderGZIP r4 end = Panic c ->
       gz_panic (i_all (r_in r)) c /\ selfmt i1 = SGzip).
    { intros c. assert (G : readHeaderGZIP r4 = Panic c -> gz_panic (i_all (r_in r)) c) by (intros P; apply readHeaderGZIP_panic in P; [rewrite I1, A1, EALL in P; auto|rewrite I1; auto]).
      rewrite O1. unfold selfmt. destruct (o_format opt); try discriminate; [|intros P; split; auto]. unfold readHeaderAuto, autofmt. rewrite I1. set (p := firstn _ _). clearbody p.
      destruct (length p <? 2); [discriminate|]. destruct ((nthN p 0 =? 31) && (nthN p 1 =? 139))%N; [intros P; split; auto|]. destruct ((N.land (nthN p 0) 15 =? 8) && (unbe16 p mod 31 =? 0))%N; discriminate. }
    unfold header_spec in SPEC. rewrite I1, A1, EALL in SPEC.
    destruct (match o_format (r_opt r4) with DefaultFormat => readHeaderAuto env r4 | RawFormat => Ok (readHeaderRaw r4) | ZlibFormat => Ok (readHeaderZlib env r4) | GZIPFormat => readHeaderGZIP r4 end) as [[r5 ok]|c|]; cbn [rbind]; auto.
    2:{ rewrite IH1. apply PANIC. auto. }
    destruct SPEC as [K [S1 [S2 [S3 S4]]]]. rewrite I1 in S4. rewrite (nk_end INK1), A1, EALL in S4. rewrite IH1.
    assert (TT : (o_total (r_out r4) < two64)%N) by (rewrite U1; unfold out_head; pose proof (ok_total VK) as T; destruct (r_out r); exact T).
    destruct ok.
    + destruct S4 as [w [S4 [S5 [S6 S7]]]]. destruct V1 as [ev1 [V1 V2]].
      assert (EI5 : r_in (r_sendEvent r5 (ev_header (r_hdr r5))) = r_in r5) by (unfold r_in; rewrite d_sendEvent; auto).
      assert (EO5 : r_out (r_sendEvent r5 (ev_header (r_hdr r5))) = r_out r5) by (unfold r_out; rewrite d_sendEvent; auto).
      rewrite EI5, EO5. split; [destruct (rsame_ev r5 (ev_header (r_hdr r5))) as [E _]; rewrite E; destruct K; congruence|]. split; auto. split; auto. split; auto. right. split; auto.
      exists w, (r_hdr r5), ev1, (mk_event r5 (ev_header (r_hdr r5))). split; auto. split; [change w with ([] ++ w); eapply ink_trans; eauto|]. split; [congruence|].
      split; [destruct r5; auto|]. rewrite ev_sendEvent, pre_mk_event. destruct K as [K1' [K2' K3']]. rewrite K3', V1, <- app_assoc. split; auto. split; auto. split; auto.
      intros n C. apply RC_ev. eapply RC_keep; [exact (C1 n C)|auto|rewrite I1; eapply ink_iw; eauto|rewrite S6; apply owl_refl; auto].
    + destruct S4 as [e [w [S4 [S5 [S6 S7]]]]]. split; [destruct K; congruence|]. split; auto. split; auto. split; auto. right. split; auto.
      exists e, w. split; [change w with ([] ++ w); eapply ink_trans; eauto|]. split; [congruence|]. split; auto. split; auto.
      intros n C. eapply RC_keep; [exact (C1 n C)|apply K|rewrite I1; eapply ink_iw; eauto|rewrite S5; apply owl_close; auto].
Qed.
End Str.
