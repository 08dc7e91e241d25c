(** Footers read by the Reader. *)
From Verif Require Import Base SpecChecksum SpecHuffman SpecDeflate SpecFormats SpecEvents MChecksum PChecksum MToken MCommon MWriter MReader SpecLib PToken PHuffman PBits PActs PGram PInput POutput PDecode PDynamic PBlockDec PHeader PStream.

Definition FQ (f : sformat) (a c n : N) : list N :=
  match f with SRaw => [] | SZlib => be32 a | SGzip => le32 c ++ le32 (n mod two32)%N end.
Definition is_w (w0 : list N) (h0 : header) (w : list N) (h : header) : Prop := w = w0 /\ h = h0.

Lemma in_sendEvent r p : r_in (r_sendEvent r p) = r_in r. Proof. destruct r; auto. Qed.
Lemma out_sendEvent r p : r_out (r_sendEvent r p) = r_out r. Proof. destruct r; auto. Qed.
Lemma hdr_sendEvent r p : r_hdr (r_sendEvent r p) = r_hdr r. Proof. destruct r; auto. Qed.
Lemma fmt_sendEvent r p : r_fmt (r_sendEvent r p) = r_fmt r. Proof. destruct r; auto. Qed.
Lemma opt_sendEvent r p : r_opt (r_sendEvent r p) = r_opt r. Proof. destruct r; auto. Qed.
Lemma ev_set_rin r i : r_events (set_rin r i) = r_events r. Proof. destruct r; auto. Qed.

Lemma readFooterZlib_spec r a : iok (r_in r) -> (a < two32)%N -> stage_post r (is_w (be32 a) (r_hdr r)) (readFooterZlib r a).
Proof.
  intros H Ha. unfold readFooterZlib, readU32be. destruct (@readU_spec unbe32 4 _ H) as [i1 [out [E1 [[q G1] [B1 [B2 G4]]]]]]. rewrite E1. clear E1.
  destruct out as [v|].
  2:{ destruct G4 as [G4 [G5 G6]]. eapply post_short with (n := 4); rd; eauto; [keep|]. intros w h [-> _]. reflexivity. }
  destruct G4 as [p [X1 [LP ->]]]. destruct (iext_iok H X1) as [K1 BP].
  destruct (N.eqb_spec (unbe32 p) a) as [C|C]; cbn [negb].
  - eapply post_good with (w := p); rd; eauto; [keep|]. split; auto. rewrite <- C. symmetry. apply be32_unbe32; auto.
  - eapply post_corrupt with (w := p); rd; eauto; [keep|]. intros x w s h [-> _] EA. rewrite (ix_all X1), <- app_assoc in EA.
    apply app_inj_length in EA; [|rewrite LP; reflexivity]. destruct EA as [-> _]. apply C. apply unbe32_be32. auto.
Qed.

Lemma readFooterGZIP_spec r c : iok (r_in r) -> (c < two32)%N -> stage_post r (is_w (le32 c ++ le32 (o_stream (r_out r) mod two32)%N) (r_hdr r)) (readFooterGZIP r c).
Proof.
  intros H Ha. unfold readFooterGZIP, readU32le. destruct (@readU_spec unle32 4 _ H) as [i1 [out [E1 [[q G1] [B1 [B2 G4]]]]]]. rewrite E1. clear E1.
  destruct out as [v|].
  2:{ destruct G4 as [G4 [G5 G6]]. eapply post_short with (n := 4); rd; eauto; [keep|]. intros w h [-> _]. rewrite app_length. cbn. lia. }
  destruct G4 as [p [X1 [LP ->]]]. destruct (iext_iok H X1) as [K1 BP]. rd.
  destruct (@readU_spec unle32 4 _ K1) as [i2 [out [E2 [[q2 G5] [B3 [B4 G6]]]]]]. rewrite E2. clear E2.
  destruct out as [v|].
  2:{ destruct G6 as [G6 [G7 G8]]. rewrite (ix_end X1) in G8. eapply post_short with (n := 8) (w := p ++ q2); rd; eauto.
      - eapply iext_trans; eauto.
      - keep.
      - rewrite (ix_all X1), app_length. lia.
      - intros w h [-> _]. rewrite app_length. cbn. lia. }
  destruct G6 as [p2 [X2 [LP2 ->]]]. destruct (iext_iok K1 X2) as [K2 BP2]. pose proof (iext_trans H X1 X2) as X12. rd.
  set (n := (o_stream (r_out r) mod two32)%N). assert (Hn : (n < two32)%N) by (apply N.mod_lt; discriminate). clearbody n.
  assert (CAND : forall x s, i_all (r_in r) ++ x = (le32 c ++ le32 n) ++ s -> unle32 p = c /\ unle32 p2 = n).
  { intros x s EA. rewrite (ix_all X12), <- !app_assoc in EA. apply app_inj_length in EA; [|rewrite LP; reflexivity]. destruct EA as [-> EA].
    apply app_inj_length in EA; [|rewrite LP2; reflexivity]. destruct EA as [-> _]. split; apply unle32_le32; auto. }
  destruct (N.eqb_spec (unle32 p) c) as [C|C]; cbn [negb].
  2:{ eapply post_corrupt with (w := p ++ p2); rd; eauto; [keep|]. intros x w s h [-> _] EA. destruct (CAND _ _ EA). congruence. }
  destruct (N.eqb_spec (unle32 p2) n) as [C2|C2]; cbn [negb].
  2:{ eapply post_corrupt with (w := p ++ p2); rd; eauto; [keep|]. intros x w s h [-> _] EA. destruct (CAND _ _ EA). congruence. }
  eapply post_good with (w := p ++ p2); rd; eauto; [keep|]. split; auto. rewrite <- C, <- C2. f_equal; symmetry; apply le32_unle32; auto.
Qed.

Lemma readFooter_spec f r : r_fmt r = fmt_of f -> iok (r_in r) -> (o_adler (r_out r) < two32)%N -> (o_crc (r_out r) < two32)%N -> (o_total (r_out r) < two64)%N ->
  let F := FQ f (o_adler (r_out r)) (o_crc (r_out r)) (o_stream (r_out r)) in
  exists r' ok w, readFooter r = Ok (r', ok) /\ r_opt r' = r_opt r /\ iok (r_in r') /\ bok (r_in r') /\ ibl (r_in r') = 0 /\ (forall n, RC n r -> RC n r') /\
    iext (r_in r) (r_in r') w /\
    if ok : bool then w = F /\ r_out r' = r_out r /\ exists ev1 ev2, r_events r' = r_events r ++ [ev1; ev2] /\
      pre_of ev1 = ev_footer (o_adler (r_out r)) (o_crc (r_out r)) /\ pre_of ev2 = ev_simple StreamCloseEvent
    else exists e, r_out r' = closeWithError (r_out r) e /\ fail_err (i_end (r_in r)) e /\
      FailH (fun w (_ : unit) => w = F) (i_all (r_in r)) (r_in r') (i_end (r_in r)) e.
Proof.
  intros EF H HA HC HT F. unfold readFooter.
  destruct (discard_spec H) as [X1 [D1 D2]]. set (i1 := inputBitsDiscard (r_in r)) in *. clearbody i1. rewrite out_set_rin.
  set (a := o_adler (r_out r)) in *. set (c := o_crc (r_out r)) in *. set (r1 := r_sendEvent (set_rin r i1) (ev_footer a c)).
  assert (I1 : r_in r1 = i1) by (unfold r1; rewrite in_sendEvent; rd; auto). assert (O1 : r_out r1 = r_out r) by (unfold r1; rewrite out_sendEvent; rd; auto).
  assert (F1 : r_fmt r1 = fmt_of f) by (unfold r1; rewrite fmt_sendEvent; rd; auto). assert (P1 : r_opt r1 = r_opt r) by (unfold r1; rewrite opt_sendEvent; rd; auto).
  assert (V1 : exists ev1, r_events r1 = r_events r ++ [ev1] /\ pre_of ev1 = ev_footer a c).
  { exists (mk_event (set_rin r i1) (ev_footer a c)). split; [|apply pre_mk_event]. unfold r1. rewrite ev_sendEvent, ev_set_rin. auto. }
  assert (C1 : forall n, RC n r -> RC n r1).
  { intros n C. unfold r1. apply RC_ev. eapply RC_keep; [exact C|apply ev_set_rin|rd; eapply ink_iw; apply ink_iext; eauto|rd; apply owl_refl; auto]. }
  destruct (iext_iok H X1) as [K1 _]. clearbody r1.
  assert (ST : exists r2 ok, (match r_fmt r1 with
             | RawFormat => Ok (r1, true)
             | ZlibFormat => Ok (readFooterZlib r1 a)
             | GZIPFormat => Ok (readFooterGZIP r1 c)
             | DefaultFormat => Panic PAssert
             end) = Ok (r2, ok) /\ stage_post r1 (is_w F (r_hdr r1)) (r2, ok)).
  { rewrite F1. destruct f; cbn [fmt_of].
    - exists r1, true. split; auto. eapply post_good with (w := []); rewrite ?I1; auto; [apply iext_refl; auto|keep|split; auto].
    - pose proof (@readFooterZlib_spec r1 a) as S. rewrite I1 in S. specialize (S K1 HA). destruct (readFooterZlib r1 a) as [r2 ok]. exists r2, ok. auto.
    - pose proof (@readFooterGZIP_spec r1 c) as S. rewrite I1, O1 in S. specialize (S K1 HC). destruct (readFooterGZIP r1 c) as [r2 ok]. exists r2, ok. auto. }
  destruct ST as [r2 [ok [E2 ST]]]. rewrite E2. cbn [rbind]. destruct ST as [[T1 [T2 T3]] [K2 ST]].
  destruct V1 as [ev1 [V1 V2]]. destruct ok.
  - destruct ST as [w [[-> _] [X2 [B2 [L2 O2]]]]]. rewrite I1 in X2.
    exists (r_sendEvent r2 (ev_simple StreamCloseEvent)), true, F. rewrite in_sendEvent, out_sendEvent, opt_sendEvent.
    split; auto. split; [congruence|]. split; auto. split; auto. split; auto. split.
    { intros n C. apply RC_ev. eapply RC_keep; [apply C1; eauto|auto|rewrite I1; eapply ink_iw; apply ink_iext; eauto|rewrite O2, O1; apply owl_refl; auto]. }
    split; [change F with ([] ++ F); eapply iext_trans; eauto|]. split; auto. split; [congruence|].
    exists ev1, (mk_event r2 (ev_simple StreamCloseEvent)). rewrite ev_sendEvent, T3, V1, <- app_assoc. split; auto.
  - destruct ST as [e [w [X2 [B2 [L2 [O2 [FE FH]]]]]]]. rewrite I1 in *. rewrite O1 in O2. rewrite (ix_end X1) in *.
    assert (EA : i_all (r_in r) = i_all i1) by (rewrite (ix_all X1); auto).
    exists r2, false, w. split; auto. split; [congruence|]. split; auto. split; auto. split; auto. split.
    { intros n C. eapply RC_keep; [apply C1; eauto|auto|rewrite I1; eapply ink_iw; apply ink_iext; eauto|rewrite O2, O1; apply owl_close; auto]. }
    split; [change w with ([] ++ w); eapply iext_trans; eauto|]. exists e. split; auto. split; auto.
    rewrite EA. intros x w0 s _ -> E. apply (FH x F s (r_hdr r1)); auto. split; auto.
Qed.
