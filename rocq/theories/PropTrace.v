(** C55: CaptureHeader. *)
From Verif Require Import Base SpecChecksum SpecHuffman SpecDeflate SpecFormats SpecSession SpecEvents MChecksum PChecksum MToken MCommon MWriter MReader MSession SpecReader SpecLib MTrace PToken PHuffman PBits PActs PGram PInput POutput PDecode PDynamic PBlockDec PHeader PStream PFooter PThread PLoop PCompress PWriter PSession PInv PFormat PApi PInst PAccept PRead PropWriter PropReader PropReader3 PropReader5 PropRound Demo PDemo.

(** In a well-nested sequence only StreamHeader events carry headers. *)
Definition hdr_typed (p : pre_event) : Prop := p_header p <> None -> p_type p = StreamHeaderEvent.
Lemma sevs_typed ds st es : SEvs ds st es -> Forall hdr_typed es.
Proof.
  induction 1 as [|ds es h H IH|ds es bs fin H IH K|ds es d H IH]; [constructor| | |]; apply Forall_app; split; auto.
  - repeat constructor; intros Q; cbn in *; congruence.
  - destruct K as [|bt tr _]; repeat constructor; intros Q; cbn in *; congruence.
  - repeat constructor; intros Q; cbn in *; congruence.
Qed.
Lemma captured_last evs : Forall hdr_typed (map pre_of evs) -> forall h0, traced capture_OnEvent h0 evs = last (headers_of evs) h0.
Proof.
  unfold traced. induction evs as [|e evs IH]; intros H h0; [reflexivity|]. cbn [map fold_left] in *. inversion H as [|? ? H1 H2]; subst. rewrite (IH H2).
  unfold hdr_typed, pre_of in H1. cbn [p_header p_type] in H1. change (headers_of (e :: evs)) with ((match e_header e with Some h => [h] | None => [] end) ++ headers_of evs). unfold capture_OnEvent.
  destruct (e_header e) as [h|].
  - rewrite H1 by discriminate. cbn [app]. generalize (headers_of evs). clear. intros l. destruct l as [|x l]; auto. change (last (x :: l) h = last (x :: l) h0).
    revert x. induction l as [|y l IH]; intros; cbn [last] in *; auto.
  - cbn [app]. destruct (e_type e); auto.
Qed.
(** A Header registered with CaptureHeader at a Reader ends up as the header of
    the last stream, as it was given to the Writer. *)
Theorem C55_capture_header :
  forall wenv renv wopts ropts ops w' src h0, lib_ok wenv -> rlib_ok renv -> opts_ok wopts -> opts_ok ropts -> Forall op_ok ops ->
    w_session wenv (newWriter wopts) ops = Ok (w', None) -> matching wopts ropts -> o_format (effective wopts) = GZIPFormat ->
    polite_src src -> detached_src src -> src_bytes src = sink (w_out w') ->
    exists a r streams h d, asteps a_init ops a /\ a_done (a_finish a) = streams ++ [(h, d)] /\
      readThread renv (newReader src ropts) = Ok r /\ HeaderBack (effective wopts) h (traced capture_OnEvent h0 (r_events r)).
Proof.
  intros wenv renv wopts ropts ops w' src h0 HL HRL HO HRO Hops E M EG HP HD EB.
  destruct (C11_gzip_header_round_trip HL HRL HO HRO Hops E M EG HP HD EB) as [a [A1 A2]].
  destruct (C02_writer_output_conforms HL HO Hops E) as [a' [bs [B1 [B2 [B3 B4]]]]].
  destruct (good_valid HO M (session_rep B1) (session_hb B1 Hops) B3) as [V1 [V2 V3]]. set (l := combine bs (map snd (a_done (a_finish a')))) in *.
  assert (GS : good_src src) by (split; auto; rewrite EB, B2; eapply good_bytes; eauto).
  assert (ST : set_to ropts (fmt_stream (o_format (effective wopts)))).
  { destruct M as [M1 [M2 [M3 M4]]]. split; [rewrite M1; apply fmt_stream_of; apply effective_ok; auto|]. intros EZ. rewrite EG in EZ. discriminate. }
  destruct (C45_reader_events_valid HRL HRO GS ST V1) as [r [R1 [R2 [R3 _]]]]; [rewrite EB, B2, V2; auto|auto|].
  unfold headers_reported in A2. rewrite R1 in A2.
  assert (NE : a_done (a_finish a) <> []). { unfold a_finish. destruct (a_cur a); [destruct (a_done a) eqn:K|]; cbn [a_done]; rewrite ?K; try discriminate. destruct (a_done a); discriminate. }
  destruct (exists_last NE) as [streams [[h d] EL]]. exists a, r, streams, h, d. split; auto. split; auto. split; auto.
  rewrite captured_last by (eapply sevs_typed; eauto). rewrite EL, map_app in A2. cbn [map fst] in A2.
  apply Forall2_app_inv_l in A2. destruct A2 as [l1 [l2 [Q1 [Q2 Q3]]]]. rewrite Q3. clear R2 R3 V1 V2 V3 l; inversion Q2 as [|? y ? ? Y1 Y2]; subst. inversion Y2; subst. rewrite last_last. exact Y1.
Qed.
Print Assumptions C55_capture_header.
(** NoOpTracer keeps its state. *)
Theorem C55_noop : forall (S : Type) (s : S) evs, traced noop_OnEvent s evs = s.
Proof. intros S s evs. unfold traced. induction evs; auto. Qed.
Example C55_example : exists w r, w_session demo_wenv (newWriter [WithFormat GZIPFormat; WithMemoryLevel 7])
    [OSetHeader (Header [97; 98]%N [99]%N (Some 5%Z) UnknownData OSTypeUnknown [] 0 0); OWrite [104; 105]%N] = Ok (w, None) /\
  readThread demo_renv (newReader [(sink (w_out w), None); ([], Some EOF)] [WithFormat GZIPFormat]) = Ok r /\
  h_name (traced capture_OnEvent header0 (r_events r)) = [97; 98]%N /\ h_comment (traced capture_OnEvent header0 (r_events r)) = [99]%N.
Proof. eexists _, _. split; [vm_compute; reflexivity|]. split; [vm_compute; reflexivity|]. split; vm_compute; reflexivity. Qed.
