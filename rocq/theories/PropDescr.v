(** C83: the trace events describe the stream - its headers, the type, the final flag and the
    Huffman trees of every block, its footers - and the Reader reports what the Writer reported. *)
From Verif Require Import Base SpecChecksum SpecEvents SpecBlocks SpecTraced PAt SpecHuffman SpecDeflate SpecFormats SpecSession MChecksum PChecksum MToken MCommon MWriter MReader MSession SpecReader SpecLib
  PToken PHuffman PTree PBits PActs PGram PInput POutput PDecode PDynamic PBlockDec PHeader PStream PFooter PThread PLoop PCompress PWriter PSession PInv PFormat PClient PApi PInst PAccept PRead PropReader PropRound PDescr PMirror PTold Demo PDemo PropWriter PropReader3.

(** The stream [t] is one of the format [f], and its events describe its blocks. *)
Definition Told (acc : list nat -> Prop) (lk : list N -> N -> option N) (extra : list N -> Prop) (limit : N) (dict : option (list N)) (f : sformat) (t : traced) : Prop :=
  HeadOf extra limit dict f (tr_head t) /\ tr_foot t = FootOf f (tr_data t) /\
  RawStreamE acc lk (dict_bytes dict) (tr_body t) (tr_data t) (tr_blocks t).

Section Heads.
Variable env : renv.
Hypothesis Hlib : rlib_ok env.
Variable opts : list opt.
Hypothesis Hopts : opts_ok opts.
Notation limit := (limit_of opts).
Notation dict := (dict_of opts).
Lemma Hd_HeadOf f w h : (f = SZlib -> DictVisible limit dict) -> Hd env (reffective opts) f w h -> HeadOf (fun _ => True) limit dict f w.
Proof.
  destruct (reffective_ok Hopts) as [HW HD]. intros HV H. destruct f; cbn [Hd HeadOf] in *.
  - destruct H; auto.
  - destruct H as [cmf [flg [di [A1 [A2 [A3 [A4 [A5 [A6 [A7 _]]]]]]]]]]. exists cmf, flg, di. split; auto. split; auto. split; auto. split; [lia|]. split; auto. split; auto.
    rewrite (dict_zero_eq Hlib (HV eq_refl)) in A6. unfold opt_dict in A6. destruct (o_dict (reffective opts)); auto.
  - destruct H as [g [x [G1 [G2 [-> _]]]]]. exists g. auto.
Qed.
Lemma HeadOf_Hd f w : (f = SZlib -> DictVisible limit dict) -> HeadOf ExtraField limit dict f w -> exists h, Hd env (reffective opts) f w h.
Proof.
  destruct (reffective_ok Hopts) as [HW HD]. intros HV H. destruct f; cbn [Hd HeadOf] in *.
  - eexists. split; auto.
  - destruct H as [cmf [flg [di [A1 [A2 [A3 [A4 [A5 [A6 A7]]]]]]]]]. eexists. exists cmf, flg, di. split; auto. split; auto. split; auto. split; [lia|]. split; auto. split; auto.
    rewrite (dict_zero_eq Hlib (HV eq_refl)). unfold opt_dict. destruct (o_dict (reffective opts)); auto.
  - destruct H as [g [G1 [G2 ->]]]. destruct (gz_extra g) as [p|] eqn:EG.
    + destruct (G2 p eq_refl) as [recs [F ->]]. eexists. exists g, recs. split; auto. split; [|auto]. rewrite EG. cbn. rewrite <- (app_nil_r (extra_enc recs)). apply extra_parse_enc; [|cbn; lia].
      eapply Forall_impl; [|exact F]. cbn. tauto.
    + eexists. exists g, []. split; auto. split; [|auto]. rewrite EG. exact I.
Qed.
End Heads.

(** ** The Reader *)
Lemma described_told env opts ss evs : rlib_ok env -> opts_ok opts ->
  (forall s, In s ss -> sf s = SZlib -> DictVisible (limit_of opts) (dict_of opts)) -> described env opts ss evs ->
  exists l : list traced, map tr_bytes l = map sb ss /\ map tr_data l = map sd ss /\ map pre_of evs = concat (map tr_events l) /\
    Forall2 (fun s t => Told not_oversubscribed (window_lk env (2 ^ limit_of opts)) (fun _ => True) (limit_of opts) (dict_of opts) (sf s) t /\
      (Hd env (reffective opts) (sf s) (tr_head t) (tr_hdr t) /\ tr_hdr t = sh s) /\
      RawStreamE (racc env) (wlk env (win_size (reffective opts))) (opt_dict (reffective opts)) (tr_body t) (tr_data t) (tr_blocks t)) ss l.
Proof.
  intros HL HO HV [ess [-> F]]. induction F as [|s es ss ess H F IH].
  - exists []. repeat split. constructor.
  - destruct IH as [l [I1 [I2 [I3 I4]]]]; [intros s' K; apply HV; right; auto|]. destruct H as [hb [body [bes [H1 [H2 [H3 H4]]]]]].
    exists (Traced hb body (ftr (sf s) (sd s)) (sd s) (sh s) bes :: l). cbn [map concat]. rewrite I1, I2, I3.
    split; [unfold tr_bytes; cbn; rewrite H3; auto|]. split; auto. split; [rewrite H4; auto|]. constructor; auto. cbn. split; [|auto].
    split; [eapply Hd_HeadOf; eauto; apply HV; left; auto|]. split; [destruct (sf s); auto|].
    cbn. rewrite <- opt_dict_eq. eapply RawStreamE_impl; [| |exact H2]; [intros x _ S A; apply (rl_acc_sound HL); auto|]. intros dd hh c. auto.
Qed.

Theorem C83_reader_events_describe :
  forall env opts src r d, rlib_ok env -> opts_ok opts -> good_src src -> DictVisible (limit_of opts) (dict_of opts) ->
    readThread env (newReader src opts) = Ok r -> r_result r = (d, Some EOF) ->
    exists (l : list (sformat * traced)) rest,
      src_bytes src = concat (map (fun x => tr_bytes (snd x)) l) ++ rest /\ (detached_src src -> rest = []) /\
      d = concat (map (fun x => tr_data (snd x)) l) /\
      map pre_of (r_events r) = concat (map (fun x => tr_events (snd x)) l) /\
      Forall (fun x => Told not_oversubscribed (window_lk env (2 ^ limit_of opts)) (fun _ => True) (limit_of opts) (dict_of opts) (fst x) (snd x)) l.
Proof.
  intros env opts src r d HL HO [HP HB] HV E1 E2. pose proof (@thread_facts_d env HL opts HO src HP HB) as T. rewrite E1 in T.
  destruct T as [_ [d' [e [ss [rest [R [S D]]]]]]]. rewrite R in E2. inversion E2; subst d' e.
  destruct D as [[[D1 [D2 [D3 D4]]] [_ [_ [_ D5]]]]|[_ [f [p [t [z [_ [_ [F _]]]]]]]]]; [|exfalso; eapply eof_not_fail; eauto].
  destruct (@described_told env opts ss _ HL HO (fun _ _ _ => HV) D5) as [l [L1 [L2 [L3 L4]]]].
  exists (combine (map sf ss) l), rest.
  assert (LL : length (map sf ss) = length l) by (rewrite map_length; apply (f_equal (@length _)) in L2; rewrite !map_length in L2; auto).
  assert (MS : forall {A} (g : traced -> A), map (fun x => g (snd x)) (combine (map sf ss) l) = map g l).
  { intros A g. rewrite <- (map_map snd g). f_equal. clear - LL. revert l LL. induction (map sf ss) as [|a fs IH]; intros [|t l] LL; cbn in *; try discriminate; auto. f_equal; auto. }
  rewrite !MS, L1, L2, L3. split; [apply (seq_bytes S)|]. split; auto. split; auto. split; auto.
  clear - L4. induction L4; cbn; constructor; auto. cbn. tauto.
Qed.

(** Valid streams: the events are theirs (up to the headers; see C45, C11). *)
Lemma reader_valid_full :
  forall env opts src f l, rlib_ok env -> opts_ok opts -> good_src src -> set_to opts f ->
    Forall (Told proper_code (strict_lk (2 ^ limit_of opts)) ExtraField (limit_of opts) (dict_of opts) f) l ->
    src_bytes src = concat (map tr_bytes l) -> detached_src src \/ length l <= 1 ->
    exists r, readThread env (newReader src opts) = Ok r /\ r_result r = (concat (map tr_data l), Some (src_end src)) /\
      map bare (map pre_of (r_events r)) = map bare (concat (map tr_events l)) /\
      Forall2 (fun t h => Hd env (reffective opts) f (tr_head t) h) l (headers_of (r_events r)).
Proof.
  intros env opts src f l HL HO [HP HB] [HF HV] HT EB HD. destruct (reffective_ok HO) as [HW HDI].
  assert (VI : exists ss, valid_list env opts f ss /\ map sb ss = map tr_bytes l /\ map sd ss = map tr_data l /\
     Forall2 (fun s t => sf s = f /\ Hd env (reffective opts) f (tr_head t) (sh s) /\ tr_foot t = ftr f (tr_data t) /\
       RawStreamE (racc env) (wlk env (win_size (reffective opts))) (opt_dict (reffective opts)) (tr_body t) (tr_data t) (tr_blocks t)) ss l).
  { clear EB HD. induction HT as [|t l [H1 [H2 H3]] HT [ss [I1 [I2 [I3 I4]]]]]; [exists []; repeat split; constructor|].
    destruct (@HeadOf_Hd env HL opts HO f _ HV H1) as [h H4].
    assert (H5 : RawStreamE (racc env) (wlk env (win_size (reffective opts))) (opt_dict (reffective opts)) (tr_body t) (tr_data t) (tr_blocks t)).
    { rewrite opt_dict_eq. eapply RawStreamE_impl; [| |exact H3]; [intros x A _ P; apply (rl_acc_complete HL); auto|apply strict_wlk]. }
    exists (SInfo f (tr_bytes t) (tr_data t) h :: ss). cbn. rewrite I2, I3. split; [|split; [auto|split; [auto|constructor; auto]]].
    - constructor; auto. cbn. split; auto. exists (tr_head t), (tr_body t). split; auto. split; [eapply RawE_Stream; eauto|]. unfold tr_bytes. rewrite H2. destruct f; auto. }
  destruct VI as [ss [V1 [V2 [V3 V4]]]].
  assert (LS : length ss = length l) by (apply (f_equal (@length _)) in V2; rewrite !map_length in V2; auto).
  pose proof (@follow_all_d env HL opts HO src HP HB f ss HF V1) as F. rewrite V2, V3 in F. rewrite LS in F. specialize (F EB HD).
  destruct (readThread env (newReader src opts)) as [r| |]; try contradiction. exists r. destruct F as [F1 [_ [FH [_ [_ [ess [F6 F7]]]]]]].
  split; auto. split; auto. split; [|rewrite FH; clear - V4; induction V4 as [|s t ss l [H1 [H2 _]] _ IH]; cbn; constructor; auto]. rewrite F6. clear - V2 V3 V4 F7 HL. revert ess F7 V2 V3. induction V4 as [|s t ss l [H1 [H2 [H3 H4]]] V4 IH]; intros ess F7 V2 V3; inversion F7 as [|? es ? ess' K1 K2]; subst; auto.
  cbn [map] in V2, V3. inversion V2 as [[B1 B2]]. inversion V3 as [[D1 D2]]. cbn [map concat]. rewrite !map_app, (IH _ K2 B2 D2). f_equal.
  destruct K1 as [hb [body [bes [K1 [K3 [K4 ->]]]]]]. unfold tr_bytes in B1. rewrite K4 in B1.
  destruct (@Hd_inj env (reffective opts) (sf s) hb (sh s) _ _ _ _ K1 H2 B1) as [E1 _]; subst hb. apply app_inv_head in B1. rewrite H3, D1 in B1. apply app_inv_tail in B1. subst body.
  rewrite D1 in *. rewrite (RawE_unique HL K3 H4). unfold tr_events. cbn [map]. unfold bare at 2. f_equal.
Qed.
(** Valid streams: the events are theirs (up to the headers; see C45, C11). *)
Theorem C83_reader_events_valid :
  forall env opts src f l, rlib_ok env -> opts_ok opts -> good_src src -> set_to opts f ->
    Forall (Told proper_code (strict_lk (2 ^ limit_of opts)) ExtraField (limit_of opts) (dict_of opts) f) l ->
    src_bytes src = concat (map tr_bytes l) -> detached_src src \/ length l <= 1 ->
    exists r, readThread env (newReader src opts) = Ok r /\ r_result r = (concat (map tr_data l), Some (src_end src)) /\
      map bare (map pre_of (r_events r)) = map bare (concat (map tr_events l)).
Proof.
  intros env opts src f l HL HO HS HF HT EB HD. destruct (reader_valid_full HL HO HS HF HT EB HD) as [r [R1 [R2 [R3 _]]]]. exists r. auto.
Qed.

(** ** The Writer *)
Lemma told_align opt l bs hs : wopt_ok opt -> Forall (Logged opt) l ->
  Forall2 (done_ok opt (StrictBlock (2 ^ o_wbits opt))) hs bs -> map tr_data l = map snd hs -> concat (map tr_bytes l) = concat bs ->
  Forall (fun t => Logged opt t /\ RawStreamE proper_code (strict_lk (2 ^ o_wbits opt)) (dict_bytes (o_dict opt)) (tr_body t) (tr_data t) (tr_blocks t)) l.
Proof.
  intros HO HL. revert bs hs. induction HL as [|t l [H1 [H2 [H3 [H4 H5]]]] HL IH]; intros bs hs HD ED EB; constructor.
  - destruct HD as [|hd b hs bs [h' [K1 [K2 [body [K3 K4]]]]] HD]; [discriminate|]. cbn [map concat] in *. inversion ED as [[E1 E2]]. subst b. unfold tr_bytes in EB.
    rewrite H1, <- !app_assoc in EB. destruct (hdr_bytes_inj H2 K1 EB) as [_ EB2]. symmetry in EB2.
    destruct (body_same K4 H4 H5 EB2) as [-> [_ K5]]. split; [split; auto|]. rewrite E1. rewrite <- opt_dict_eq. exact K5.
  - destruct HD as [|hd b hs bs [h' [K1 [K2 [body [K3 K4]]]]] HD]; [discriminate|]. cbn [map concat] in *. inversion ED as [[E1 E2]]. subst b. unfold tr_bytes in EB.
    rewrite H1, <- !app_assoc in EB. destruct (hdr_bytes_inj H2 K1 EB) as [_ EB2]. symmetry in EB2.
    destruct (body_same K4 H4 H5 EB2) as [-> [EB3 K5]]. rewrite H3, E1 in EB3. apply app_inv_head in EB3. symmetry in EB3. eapply IH; eauto.
Qed.
Lemma hdr_HeadOf opt f h : wopt_ok opt -> o_format opt = fmt_of f -> header_ok h -> HeadOf ExtraField (o_wbits opt) (o_dict opt) f (hdr_bytes opt h).
Proof.
  intros HO EF Hh. destruct f; cbn [fmt_of HeadOf] in *.
  - unfold hdr_bytes. rewrite EF. auto.
  - destruct (zlib_header_facts (wo_wbits HO)) as [cmf [flg [Z1 [Z2 [Z3 [Z4 [Z5 [Z6 Z7]]]]]]]]. unfold hdr_bytes. rewrite EF, Z1. pose proof (wo_wbits HO).
    exists cmf, flg, (match o_dict opt with Some d => be32 (adler_checksum d) | None => [] end). split; auto. split; auto. split; auto. split; [lia|]. split; auto. split; auto.
    pose proof (wo_dict HO) as HD. destruct (o_dict opt); split; auto. rewrite adler_checksum_spec; tauto.
  - rewrite (hdr_gzip EF Hh). exists (fields_of opt h). split; [apply fields_of_ok; auto|]. split; [|auto]. intros x. apply fields_extra. auto.
Qed.

Lemma writer_told_full :
  forall env opts ops w' f, lib_ok env -> opts_ok opts -> Forall op_ok ops -> o_format (effective opts) = fmt_of f ->
    w_session env (newWriter opts) ops = Ok (w', None) ->
    exists a (l : list traced), asteps a_init ops a /\
      sink (w_out w') = concat (map tr_bytes l) /\ map tr_data l = map snd (a_done (a_finish a)) /\
      map pre_of (w_events w') = concat (map tr_events l) /\
      Forall (fun t => Logged (effective opts) t /\ Told proper_code (strict_lk (2 ^ o_wbits (effective opts))) ExtraField (o_wbits (effective opts)) (o_dict (effective opts)) f t) l.
Proof.
  intros env opts ops w' f HL HO Hops EF E. pose proof (effective_ok HO) as Hw.
  pose proof (@c_session env HL _ Hw 0 0 [] _ _ (inst_strict (lib_lz HL) Hw) ops a_init (newWriter opts)
    (sess_new _ (lib_bpb HL) HO) Hops) as P.
  rewrite E in P. destruct P as [a [P1 [bs [P2 [P3 [P4 [P5 [P6 [[evs [P7 [P8 [P9 PL]]]] P10]]]]]]]]]. exists a.
  destruct (ELog_streams PL) as [l [tw [te [L1 [L2 [L3 [L4 [-> ->]]]]]]]]. exists l. rewrite app_nil_r in L1, L2.
  assert (B1 : bytes_ok (concat (map tr_bytes l))).
  { clear - L4. induction L4 as [|t l [H1 [H2 [H3 [H4 _]]]] _ IH]; cbn; [constructor|]. apply bytes_ok_app. split; auto. unfold tr_bytes. rewrite H1, H3.
    apply bytes_ok_app. split; [apply hdr_bytes_ok; apply H2|]. apply bytes_ok_app. split; auto. apply ftr_bytes_ok. }
  assert (B2 : bytes_ok (concat bs)).
  { clear - P2. induction P2 as [|hd b hs bs [h' [K1 [K2 [body [-> [K4 _]]]]]] _ IH]; cbn; [constructor|]. apply bytes_ok_app. split; auto.
    apply bytes_ok_app. split; [apply hdr_bytes_ok; apply K1|]. apply bytes_ok_app. split; auto. apply ftr_bytes_ok. }
  rewrite P3 in L1. apply Base.bits_of_bytes_inj in L1; auto.
  pose proof (told_align Hw L4 P2 L3 (eq_sym L1)) as T.
  split; auto. split; [rewrite P3; auto|]. split; auto. split; [rewrite P7; cbn [app]; auto|].
  clear - T EF Hw. induction T as [|t l [HH R] _ IH]; constructor; auto. split; auto. destruct HH as [H1 [H2 [H3 _]]]. split; [rewrite H1; apply hdr_HeadOf; auto|]. split; auto.
  rewrite H3. unfold ftr_bytes. rewrite EF. destruct f; auto.
Qed.
Theorem C83_writer_events_describe :
  forall env opts ops w' f, lib_ok env -> opts_ok opts -> Forall op_ok ops -> o_format (effective opts) = fmt_of f ->
    w_session env (newWriter opts) ops = Ok (w', None) ->
    exists a (l : list traced), asteps a_init ops a /\
      sink (w_out w') = concat (map tr_bytes l) /\ map tr_data l = map snd (a_done (a_finish a)) /\
      map pre_of (w_events w') = concat (map tr_events l) /\
      Forall (Told proper_code (strict_lk (2 ^ o_wbits (effective opts))) ExtraField (o_wbits (effective opts)) (o_dict (effective opts)) f) l.
Proof.
  intros env opts ops w' f HL HO Hops EF E. destruct (writer_told_full HL HO Hops EF E) as [a [l [L1 [L2 [L3 [L4 L5]]]]]]. exists a, l.
  split; auto. split; auto. split; auto. split; auto. eapply Forall_impl; [|exact L5]. cbn. tauto.
Qed.

(** ** Together: the Reader reports what the Writer reported. *)
Lemma Told_limit win win' limit limit' dict f t : (win <= win')%N -> (limit <= limit')%N ->
  Told proper_code (strict_lk win) ExtraField limit dict f t -> Told proper_code (strict_lk win') ExtraField limit' dict f t.
Proof.
  intros HW HL [H1 [H2 H3]]. split; [|split; auto].
  - destruct f; auto. destruct H1 as [cmf [flg [di [A1 [A2 [A3 [A4 [A5 [A6 A7]]]]]]]]]. exists cmf, flg, di. split; auto. split; auto. split; auto. split; [lia|]. auto.
  - eapply RawStreamE_impl; [| |exact H3]; auto. intros d hh c. unfold strict_lk.
    destruct ((1 <=? d) && (d <=? win) && (d <=? lenN hh))%N eqn:K; [|discriminate]. intros E. replace ((1 <=? d) && (d <=? win') && (d <=? lenN hh))%N with true by lia. auto.
Qed.
Theorem C83_mirror :
  forall wenv renv wopts ropts ops w' src, lib_ok wenv -> rlib_ok renv -> opts_ok wopts -> opts_ok ropts -> Forall op_ok ops ->
    w_session wenv (newWriter wopts) ops = Ok (w', None) -> matching wopts ropts ->
    polite_src src -> detached_src src \/ ~ In (OFlush FinishFlush) ops -> src_bytes src = sink (w_out w') ->
    exists r, readThread renv (newReader src ropts) = Ok r /\ r_result r = (ops_data ops, Some (src_end src)) /\
      map bare (map pre_of (r_events r)) = map bare (map pre_of (w_events w')).
Proof.
  intros wenv renv wopts ropts ops w' src HL HRL HO HRO Hops E HM HP HD EB. pose proof (effective_ok HO) as Hw. pose proof HM as [M1 [M2 [M3 M4]]].
  destruct (C83_writer_events_describe HL HO Hops (fmt_stream_of Hw) E) as [a [l [L1 [L2 [L3 [L4 L5]]]]]].
  set (f := fmt_stream (o_format (effective wopts))) in *.
  assert (SF : o_format (effective wopts) = fmt_of f) by (apply fmt_stream_of; auto).
  assert (ST : set_to ropts f).
  { split; [rewrite M1; exact SF|]. intros EZ. apply M4. rewrite SF, EZ. auto. }
  assert (OD : concat (map tr_data l) = ops_data ops).
  { rewrite L3. pose proof (asteps_data L1) as D. cbn in D. rewrite <- D. unfold a_data, a_finish.
    destruct (a_cur a) eqn:E1; [destruct (a_done a) eqn:E2|]; cbn [a_done map snd concat]; auto.
    - rewrite E2. cbn [map concat]. now rewrite app_nil_r.
    - rewrite map_app, concat_app. cbn [map concat snd]. now rewrite app_nil_r. }
  assert (HS : good_src src).
  { split; auto. destruct (C02_writer_output_conforms HL HO Hops E) as [a2 [bs [A1 [A2 [A3 A4]]]]]. rewrite EB, A2. eapply good_bytes; eauto. }
  destruct (@C83_reader_events_valid renv ropts src f l HRL HRO HS ST) as [r [R1 [R2 R3]]].
  - eapply Forall_impl; [|exact L5]. intros t. rewrite <- M2. apply Told_limit; auto. apply N.pow_le_mono_r; [discriminate|auto].
  - rewrite EB. auto.
  - destruct HD as [HD|HD]; auto. right. apply (f_equal (@length _)) in L3. rewrite !map_length in L3. rewrite L3.
    assert (K : a_done a = []).
    { assert (G : forall a0 ops0 a1, asteps a0 ops0 a1 -> ~ In (OFlush FinishFlush) ops0 -> a_done a0 = [] -> a_done a1 = []).
      { induction 1 as [|b op b1 ops1 b2 H1 H2 IH]; auto. intros NI D. cbn in NI. apply IH; [tauto|]. destruct H1 as [b p|b ft|b h Hh|b h Hh]; auto.
        - unfold a_write. destruct p; auto. destruct (a_cur b); auto.
        - destruct ft; auto. exfalso. tauto. }
      eapply G; eauto. }
    unfold a_finish. rewrite K. destruct (a_cur a); cbn; rewrite ?K; auto.
  - exists r. split; auto. split; [rewrite <- OD; auto|]. rewrite R3, L4. auto.
Qed.

(** Non-vacuity: a session with stored, static and dynamic blocks, written and read. *)
Definition kinds (es : list event) : list (blocktype * bool * bool) :=
  flat_map (fun e => match p_block e, p_type e with Some (t, f), BlockBeginEvent => [(t, f, false)] | Some (t, f), BlockTreesEvent => [(t, f, true)] | _, _ => [] end) (map pre_of es).
Definition c83_opts : list opt := [WithFormat RawFormat; WithMemoryLevel 7; WithStrategy HuffmanOnlyStrategy].
Definition c83_ops : list wop := [OWrite [104; 105]%N; OFlush SyncFlush; OWrite (repeat 1%N 12); OFlush BlockFlush; OWrite (flat_map (fun _ => [1; 2; 1; 1; 3; 3; 1; 1; 2; 2; 2]%N) (seq 0 60))].
Lemma c83_run : match w_session demo_wenv (newWriter c83_opts) c83_ops with
  | Ok (w', None) => kinds (w_events w') = [(StoredBlock, false, false); (StoredBlock, false, false); (StaticBlock, false, false); (StaticBlock, false, true); (DynamicBlock, false, false); (DynamicBlock, false, true); (StoredBlock, true, false)] /\ length (sink (w_out w')) = 207
  | _ => False end.
Proof. vm_compute. split; reflexivity. Qed.
Example C83_met : exists w' r, lib_ok demo_wenv /\ rlib_ok demo_renv /\ opts_ok c83_opts /\ Forall op_ok c83_ops /\ matching c83_opts raw_opts /\
  w_session demo_wenv (newWriter c83_opts) c83_ops = Ok (w', None) /\
  readThread demo_renv (newReader [(sink (w_out w'), None)] raw_opts) = Ok r /\
  kinds (r_events r) = [(StoredBlock, false, false); (StoredBlock, false, false); (StaticBlock, false, false); (StaticBlock, false, true); (DynamicBlock, false, false); (DynamicBlock, false, true); (StoredBlock, true, false)].
Proof.
  pose proof c83_run as R. destruct (w_session demo_wenv (newWriter c83_opts) c83_ops) as [[w' [e|]]| |] eqn:E; try contradiction. destruct R as [R RL].
  assert (M : matching c83_opts raw_opts) by (repeat split; cbn; try reflexivity; discriminate).
  assert (HO : opts_ok c83_opts) by (repeat constructor). assert (HR : opts_ok raw_opts) by (repeat constructor).
  assert (HP : Forall op_ok c83_ops) by (vm_compute; repeat constructor).
  destruct (@C83_mirror demo_wenv demo_renv c83_opts raw_opts c83_ops w' [(sink (w_out w'), None)] demo_lib_ok demo_rlib_ok HO HR HP E M) as [r [R1 [R2 R3]]].
  - split; [|exact I]. intros K. rewrite K in RL. discriminate RL.
  - left. exact I.
  - apply app_nil_r.
  - exists w', r. split; [apply demo_lib_ok|]. split; [apply demo_rlib_ok|]. split; auto. split; auto. split; auto. split; auto. split; auto.
    rewrite <- R. unfold kinds. clear - R3. revert R3. generalize (map pre_of (w_events w')) (map pre_of (r_events r)). intros l1 l2. revert l1. induction l2 as [|x l2 IH]; intros [|y l1] K; try discriminate; auto.
    cbn [map] in K. inversion K as [[K1 K2 K3 K4 K5]]. cbn [flat_map]. rewrite (IH _ K5), K1, K2. auto.
Qed.
Print Assumptions C83_reader_events_describe.
Print Assumptions C83_reader_events_valid.
Print Assumptions C83_writer_events_describe.
Print Assumptions C83_mirror.
