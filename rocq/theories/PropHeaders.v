(** C84: the headers a Reader reports say what the bytes before the DEFLATE data say; and what a
    zlib Writer puts there comes back. *)
From Verif Require Import Base SpecChecksum SpecEvents SpecBlocks SpecTraced SpecHeads PAt SpecHuffman SpecDeflate SpecFormats SpecSession MChecksum PChecksum MToken MCommon MWriter MReader MSession SpecReader SpecLib
  PToken PHuffman PTree PBits PActs PGram PInput POutput PDecode PDynamic PBlockDec PHeader PStream PFooter PThread PLoop PCompress PWriter PSession PInv PFormat PClient PApi PInst PAccept PRead PropReader PropRound PDescr PMirror PTold Demo PDemo PropWriter PropReader3 PropDescr.

Lemma extra_ok_enc o x : match o with Some p => bytes_ok p | None => True end -> extra_ok o x ->
  exists tail, opt_bytes o = extra_enc (match o with Some _ => x | None => [] end) ++ tail /\ length tail < 4.
Proof.
  destruct o as [p|]; unfold opt_bytes, extra_ok, extra_parse.
  - intros HB E. destruct (xparse_inv HB E) as [_ [tl [-> H]]]. exists tl. auto.
  - intros _ _. exists []. split; cbn; auto; lia.
Qed.
Lemma Hd_says env opt f w h : Hd env opt f w h -> HeadSays f w h.
Proof.
  destruct f; cbn [Hd HeadSays].
  - intros [-> ->]. repeat split.
  - intros [cmf [flg [di [A1 [A2 [A3 [A4 [A5 [A6 [-> ->]]]]]]]]]]. split; [repeat split|]. exists cmf, flg, di. split; auto. split; [cbn; lia|]. cbn [h_clevel set_levels header0].
    unfold zlib_level, zlib_class. rewrite N.shiftr_div_pow2. change (2 ^ 6)%N with 64%N. unfold is_byte in A2. assert (K : (flg / 64 < 4)%N) by (apply N.div_lt_upper_bound; lia).
    destruct (N.eqb_spec (flg / 64) 0) as [->|N0]; [reflexivity|]. destruct (N.eqb_spec (flg / 64) 1) as [->|N1]; [reflexivity|]. destruct (N.eqb_spec (flg / 64) 2) as [->|N2]; [reflexivity|].
    replace (flg / 64)%N with 3%N by lia. reflexivity.
  - intros [g [x [G1 [G2 [-> ->]]]]]. exists g. split; auto. split; auto.
    assert (HX : match gz_extra g with Some p => bytes_ok p | None => True end) by (destruct G1 as [_ [_ [_ [G1 _]]]]; destruct (gz_extra g); tauto).
    destruct (@extra_ok_enc (gz_extra g) x HX G2) as [tl [T1 T2]]. unfold hdr_of.
    pose proof (hdr10_mtime (gz_text g) (gz_mtime g) (gz_xfl g) (gz_os g)) as K1. pose proof (hdr10_os (gz_text g) (gz_mtime g) (gz_xfl g) (gz_os g)) as K2.
    pose proof (hdr10_datatype (gz_text g) (gz_mtime g) (gz_xfl g) (gz_os g)) as K3. pose proof (hdr10_level (gz_text g) (gz_mtime g) (gz_xfl g) (gz_os g)) as K4.
    pose proof (hdr10_rest (gz_text g) (gz_mtime g) (gz_xfl g) (gz_os g)) as [K5 [K6 K7]].
    assert (K8 : h_wbits (hdr10 header0 (gz_text g) (gz_mtime g) (gz_xfl g) (gz_os g)) = 0%N) by (unfold hdr10; destruct (gz_mtime g =? 0)%N; reflexivity).
    set (h0 := hdr10 _ _ _ _ _) in *. clearbody h0. destruct h0 as [a b c d e ff k l]. cbn in K1, K2, K3, K4, K5, K6, K7, K8. subst.
    destruct (gz_name g), (gz_comment g), (gz_extra g); cbn in *; (do 7 (split; [reflexivity|])); exists tl; auto.
Qed.

(** ** What the Reader reports *)
Theorem C84_reader_headers :
  forall env opts src r d, rlib_ok env -> opts_ok opts -> good_src src -> DictVisible (limit_of opts) (dict_of opts) ->
    readThread env (newReader src opts) = Ok r -> r_result r = (d, Some EOF) ->
    exists (l : list (sformat * traced)) rest,
      src_bytes src = concat (map (fun x => tr_bytes (snd x)) l) ++ rest /\ (detached_src src -> rest = []) /\
      map pre_of (r_events r) = concat (map (fun x => tr_events (snd x)) l) /\
      headers_of (r_events r) = map (fun x => tr_hdr (snd x)) l /\
      Forall (fun x => HeadSays (fst x) (tr_head (snd x)) (tr_hdr (snd x)) /\ tr_foot (snd x) = FootOf (fst x) (tr_data (snd x)) /\
        RawStream (LaxBlock env (2 ^ limit_of opts)) (dict_bytes (dict_of opts)) (tr_body (snd x)) (tr_data (snd x))) l.
Proof.
  intros env opts src r d HL HO [HP HB] HV E1 E2. pose proof (@thread_facts_d env HL opts HO src HP HB) as T. rewrite E1 in T.
  destruct T as [_ [d' [e [ss [rest [R [S D]]]]]]]. rewrite R in E2. inversion E2; subst d' e.
  destruct D as [[[D1 [D2 [D3 D4]]] [DH [_ [_ D5]]]]|[_ [f [p [t [z [_ [_ [F _]]]]]]]]]; [|exfalso; eapply eof_not_fail; eauto].
  destruct (@described_told env opts ss _ HL HO (fun _ _ _ => HV) D5) as [l [L1 [L2 [L3 L4]]]].
  exists (combine (map sf ss) l), rest.
  assert (LL : length (map sf ss) = length l) by (rewrite map_length; apply (f_equal (@length _)) in L2; rewrite !map_length in L2; auto).
  assert (MS : forall {A} (g : traced -> A), map (fun x => g (snd x)) (combine (map sf ss) l) = map g l).
  { intros A g. rewrite <- (map_map snd g). f_equal. clear - LL. revert l LL. induction (map sf ss) as [|a fs IH]; intros [|t l] LL; cbn in *; try discriminate; auto. f_equal; auto. }
  rewrite !MS, L1, L3. split; [apply (seq_bytes S)|]. split; auto. split; auto. split.
  - assert (HE : map sh ss = map tr_hdr l).
    { clear - L4. induction L4 as [|s t ss l [_ [[_ H] _]] _ IH]; cbn; auto. f_equal; auto. }
    congruence.
  - clear - L4. induction L4 as [|s t ss l [H1 [[H2 _] H3]] _ IH]; cbn; constructor; auto. cbn. split; [eapply Hd_says; eauto|]. destruct H1 as [_ [H4 H5]]. split; auto. eapply RawE_Stream; eauto.
Qed.
(** ... and for valid streams, of exactly these. *)
Theorem C84_reader_headers_valid :
  forall env opts src f l, rlib_ok env -> opts_ok opts -> good_src src -> set_to opts f ->
    Forall (Told proper_code (strict_lk (2 ^ limit_of opts)) ExtraField (limit_of opts) (dict_of opts) f) l ->
    src_bytes src = concat (map tr_bytes l) -> detached_src src \/ length l <= 1 ->
    Forall2 (fun t h => HeadSays f (tr_head t) h) l (headers_reported env opts src).
Proof.
  intros env opts src f l HL HO HS HF HT EB HD. destruct (reader_valid_full HL HO HS HF HT EB HD) as [r [R1 [_ [_ R4]]]]. unfold headers_reported. rewrite R1.
  clear - R4. induction R4; constructor; auto. eapply Hd_says; eauto.
Qed.

(** ** zlib: what the Writer puts in comes back *)
Lemma zlib_says o h : (8 <= o_wbits o <= 15)%N -> HeadSays SZlib (zlibHeaderBytes o) h ->
  ZlibBack (o_wbits o) (strategy_eqb (o_strategy o) HuffmanOnlyStrategy || strategy_eqb (o_strategy o) HuffmanRLEStrategy) (o_clevel o) h.
Proof.
  intros HW [HB [cmf [flg [t [E [H1 H2]]]]]]. split; auto. rewrite H1, H2. clear H1 H2 HB.
  set (b := strategy_eqb (o_strategy o) HuffmanOnlyStrategy || strategy_eqb (o_strategy o) HuffmanRLEStrategy).
  set (cl := (if b || (o_clevel o <? 2)%Z then 1 else if (o_clevel o <? 6)%Z then 2 else if (o_clevel o =? 6)%Z then -1 else 9)%Z).
  unfold zlibHeaderBytes in E. set (fl := if lowLevel o then 0%N else _) in E.
  assert (F : (fl = 0%N /\ cl = 1%Z) \/ (fl = 1%N /\ cl = 2%Z) \/ (fl = 2%N /\ cl = (-1)%Z) \/ (fl = 3%N /\ cl = 9%Z)).
  { unfold fl, cl, lowLevel. fold b. destruct (b || (o_clevel o <? 2)%Z); auto. destruct (o_clevel o <? 6)%Z; auto. destruct (o_clevel o =? 6)%Z; auto. }
  clearbody fl cl. cbv zeta in E. cbn [app] in E. injection E as E1 E2 _. subst cmf flg. clear b t.
  assert (W : exists k, o_wbits o = (8 + N.of_nat k)%N /\ k < 8) by (exists (N.to_nat (o_wbits o - 8)); lia).
  destruct W as [k [-> Hk]]. clear HW.
  destruct (o_dict o);
  do 8 (destruct k as [|k]; [destruct F as [[-> ->]|[[-> ->]|[[-> ->]|[-> ->]]]]; vm_compute; auto|]); exfalso; lia.
Qed.

Theorem C84_zlib_header_round_trip :
  forall wenv renv wopts ropts ops w' src, lib_ok wenv -> rlib_ok renv -> opts_ok wopts -> opts_ok ropts -> Forall op_ok ops ->
    w_session wenv (newWriter wopts) ops = Ok (w', None) -> matching wopts ropts -> o_format (effective wopts) = ZlibFormat ->
    polite_src src -> detached_src src -> src_bytes src = sink (w_out w') ->
    exists a, asteps a_init ops a /\ length (headers_reported renv ropts src) = length (a_done (a_finish a)) /\
      Forall (ZlibBack (o_wbits (effective wopts))
        (strategy_eqb (o_strategy (effective wopts)) HuffmanOnlyStrategy || strategy_eqb (o_strategy (effective wopts)) HuffmanRLEStrategy)
        (o_clevel (effective wopts))) (headers_reported renv ropts src).
Proof.
  intros wenv renv wopts ropts ops w' src HL HRL HO HRO Hops E [M1 [M2 [M3 M4]]] EZ HP HD EB. pose proof (effective_ok HO) as Hw.
  destruct (writer_told_full HL HO Hops (f := SZlib) EZ E) as [a [l [L1 [L2 [L3 [L4 L5]]]]]]. exists a. split; auto.
  assert (ST : set_to ropts SZlib) by (split; [rewrite M1; auto|intros _; apply M4; auto]).
  assert (HS : good_src src).
  { split; auto. destruct (C02_writer_output_conforms HL HO Hops E) as [a2 [bs [A1 [A2 [A3 A4]]]]]. rewrite EB, A2. eapply good_bytes; eauto. }
  assert (F2 : Forall2 (fun t h => HeadSays SZlib (tr_head t) h) l (headers_reported renv ropts src)).
  { apply C84_reader_headers_valid; auto; [|rewrite EB; auto]. eapply Forall_impl; [|exact L5]. intros t [_ T]. rewrite <- M2 in T.
    eapply Told_limit; [| |exact T]; auto. apply N.pow_le_mono_r; [discriminate|auto]. }
  apply (f_equal (@length _)) in L3. rewrite !map_length in L3. rewrite <- L3. clear - F2 L5 Hw EZ.
  induction F2 as [|t h l hs H F2 IH]; [split; constructor|]. inversion L5 as [|? ? [[Q1 _] _] L6]; subst. destruct (IH L6) as [I1 I2]. split; [cbn; auto|]. constructor; auto.
  apply zlib_says; [apply (wo_wbits Hw)|]. rewrite Q1 in H. unfold hdr_bytes in H. rewrite EZ in H. auto.
Qed.

Example C84_met_zlib : headers_reported demo_renv zlib_opts [([0x78; 0x9c; 0x4b], None); ([4; 0; 0; 0x62; 0; 0x62], None)]%N = [Header [] [] None UnknownData 0 [] 15 (-1)].
Proof. vm_compute. reflexivity. Qed.
Definition c84_wopts : list opt := [WithFormat ZlibFormat; WithMemoryLevel 7; WithCompressLevel 9%Z; WithWindowBits 9].
Lemma c84_run : match w_session demo_wenv (newWriter c84_wopts) [OWrite [7; 7; 7]%N] with Ok (w', None) => length (sink (w_out w')) = 19 | _ => False end.
Proof. vm_compute. reflexivity. Qed.
Example C84_met_round : exists w' h, lib_ok demo_wenv /\ rlib_ok demo_renv /\ opts_ok c84_wopts /\ opts_ok zlib_opts /\ matching c84_wopts zlib_opts /\
  o_format (effective c84_wopts) = ZlibFormat /\ w_session demo_wenv (newWriter c84_wopts) [OWrite [7; 7; 7]%N] = Ok (w', None) /\
  headers_reported demo_renv zlib_opts [(sink (w_out w'), None)] = [h] /\ h_wbits h = 9%N /\ h_clevel h = 9%Z.
Proof.
  pose proof c84_run as R. destruct (w_session demo_wenv (newWriter c84_wopts) [OWrite [7; 7; 7]%N]) as [[w' [e|]]| |] eqn:E; try contradiction.
  assert (M : matching c84_wopts zlib_opts) by (split; [reflexivity|split; [reflexivity|split; [vm_compute; discriminate|intros _; exact I]]]).
  assert (HO : opts_ok c84_wopts) by (repeat constructor). assert (HR : opts_ok zlib_opts) by (repeat constructor).
  assert (HP : Forall op_ok [OWrite [7; 7; 7]%N]) by (repeat constructor).
  assert (P : polite_src [(sink (w_out w'), None)]) by (split; [|exact I]; intros K; rewrite K in R; discriminate R).
  assert (Q : src_bytes [(sink (w_out w'), None)] = sink (w_out w')) by (cbn; apply app_nil_r).
  destruct (@C84_zlib_header_round_trip demo_wenv demo_renv c84_wopts zlib_opts _ w' [(sink (w_out w'), None)] demo_lib_ok demo_rlib_ok HO HR HP E M eq_refl P I Q) as [a [A1 [A2 A3]]].
  assert (AD : length (a_done (a_finish a)) = 1).
  { clear - A1. inversion A1 as [|? ? b ? ? S1 S2]; subst. inversion S2; subst. inversion S1; subst. reflexivity. }
  rewrite AD in A2. clear - A2 A3 HO HR M E. revert A2 A3. generalize (eq_refl (headers_reported demo_renv zlib_opts [(sink (w_out w'), None)])).
  generalize (headers_reported demo_renv zlib_opts [(sink (w_out w'), None)]) at 2 3 4. intros [|h [|h2 hs]] EH A2 A3; [discriminate A2| |discriminate A2]. apply Forall_inv in A3. destruct A3 as [_ [H2 H3]].
  exists w', h. split; [apply demo_lib_ok|]. split; [apply demo_rlib_ok|]. split; [exact HO|]. split; [exact HR|]. split; [exact M|]. split; [reflexivity|]. split; [exact eq_refl|]. split; [exact EH|]. split; [exact H2|]. exact H3.
Qed.
Print Assumptions C84_reader_headers.
Print Assumptions C84_reader_headers_valid.
Print Assumptions C84_zlib_header_round_trip.
