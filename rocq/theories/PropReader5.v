(** C45, Reader side: trace events. *)
From Verif Require Import Base SpecChecksum SpecHuffman SpecDeflate SpecFormats SpecSession SpecEvents MChecksum PChecksum MToken MCommon MWriter MReader MSession SpecReader SpecLib PToken PHuffman PBits PActs PGram PInput POutput PDecode PDynamic PBlockDec PHeader PStream PFooter PThread PLoop PCompress PWriter PSession PInv PFormat PApi PInst PAccept PRead PropReader PropReader3 Demo PDemo.

(** Whenever decoding ended with io.EOF: [l] are the streams found (compressed
    bytes and contents); the events are those of these streams, with their
    checksums, and the totals in each StreamClose event are the sums up to there. *)
Theorem C45_reader_events :
  forall env opts src r d, rlib_ok env -> opts_ok opts -> good_src src ->
    readThread env (newReader src opts) = Ok r -> r_result r = (d, Some EOF) ->
    exists (l : list (list N * list N)) rest,
      src_bytes src = concat (map fst l) ++ rest /\ d = concat (map snd l) /\ (detached_src src -> rest = []) /\
      SEvs (map snd l) EvIdle (map pre_of (r_events r)) /\
      EvCnt (r_events r) (N.of_nat (length (src_bytes src))) (lenN d) /\
      closes (r_events r) = running 0 0 l.
Proof.
  intros env opts src r d HL HO [HP HB] E1 E2. pose proof (@thread_facts env HL opts HO src HP HB) as T. rewrite E1 in T.
  destruct T as [[T1 T2 T3] [d' [e [ss [rest [R [S D]]]]]]]. rewrite R in E2. inversion E2; subst d' e.
  destruct D as [[[D1 [D2 [D3 D4]]] [D5 [D6 D7]]]|[_ [f [p [t [z [_ [_ [F _]]]]]]]]]; [|exfalso; eapply eof_not_fail; eauto].
  exists (pairs ss), rest. unfold pairs in *. rewrite !map_map. cbn [fst snd]. split; [apply (seq_bytes S)|]. split; auto. split; auto. split; auto. split; auto.
  assert (ED : d = log_data (o_log (r_out r))) by (unfold r_result in R; congruence). rewrite ED. auto.
Qed.
(** ... and for valid streams it does end that way, with the events of exactly these. *)
Theorem C45_reader_events_valid :
  forall env opts src f l, rlib_ok env -> opts_ok opts -> good_src src -> set_to opts f ->
    Forall (valid opts f) l -> src_bytes src = concat (map fst l) -> detached_src src ->
    exists r, readThread env (newReader src opts) = Ok r /\ r_result r = (concat (map snd l), Some (src_end src)) /\
      SEvs (map snd l) EvIdle (map pre_of (r_events r)) /\
      EvCnt (r_events r) (N.of_nat (length (src_bytes src))) (lenN (concat (map snd l))) /\
      closes (r_events r) = running 0 0 l.
Proof.
  intros env opts src f l HL HO [HP HB] HS HA EB HD.
  destruct (valid_infos HL HO HS HA) as [ss [V1 [V2 V3]]].
  pose proof (@follow_all env HL opts HO src HP HB f ss (proj1 HS) V1) as F. rewrite V2, V3 in F. specialize (F EB (or_introl HD)).
  destruct (readThread env (newReader src opts)) as [r| |]; try contradiction. exists r. destruct F as [F1 [[F2 _ _] [_ [F4 F5]]]].
  split; auto. split; auto. split; auto. split.
  - assert (ED : concat (map snd l) = log_data (o_log (r_out r))) by (unfold r_result in F1; congruence). rewrite ED. auto.
  - rewrite F5. f_equal. clear - V2 V3. revert l V2 V3. induction ss as [|s ss IH]; intros [|[b d] l] V2 V3; try discriminate; auto. cbn in *. inversion V2; inversion V3; subst. f_equal. auto.
Qed.
Example C45_reader_meets : exists r, readThread demo_renv (newReader [([0x78; 0x9c; 0x4b], None); ([4; 0; 0; 0x62; 0; 0x62], None)]%N zlib_opts) = Ok r /\ r_result r = ([97]%N, Some EOF) /\
  closes (r_events r) = [(9, 1)]%N.
Proof. destruct (readThread demo_renv (newReader [([0x78; 0x9c; 0x4b], None); ([4; 0; 0; 0x62; 0; 0x62], None)]%N zlib_opts)) as [r| |] eqn:E; try (vm_compute in E; discriminate). exists r. split; auto. vm_compute in E. inversion E; subst. split; reflexivity. Qed.
Print Assumptions C45_reader_events.
Print Assumptions C45_reader_events_valid.
