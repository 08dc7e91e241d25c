(** What was flushed can be read back, whatever becomes of the rest of the stream. *)
From Verif Require Import Base SpecChecksum SpecHuffman SpecDeflate SpecFormats SpecSession SpecEvents MChecksum PChecksum MToken MCommon MWriter MReader MSession SpecReader SpecLib PToken PHuffman PBits PActs PGram PInput POutput PDecode PDynamic PBlockDec PHeader PStream PFooter PThread PLoop PCompress PWriter PSession PInv PFormat PApi PInst PAccept PRead PFlushed PropWriter PropReader PropReader3 PropRound Demo PDemo.

Section Thr.
Variable env : renv.
Hypothesis Hlib : rlib_ok env.
Variable opts : list opt.
Hypothesis Hopts : opts_ok opts.
Variable src : source.
Hypothesis Hpol : polite_src src.
Hypothesis Hbytes : bytes_ok (src_bytes src).
Notation opt := (reffective opts).


Lemma thread_after r1 d log : holds opt log (o_log (r_out r1)) d ->
  holds opt log (o_log (r_out (r_propagate (match i_err (r_in r1) with Some _ => r1 | None => set_rin r1 (set_ierr (r_in r1) (Some EOF)) end) false))) d.
Proof.
  intros W. set (r2 := match i_err (r_in r1) with Some _ => r1 | None => set_rin r1 (set_ierr (r_in r1) (Some EOF)) end).
  assert (U2 : r_out r2 = r_out r1) by (unfold r2; destruct (i_err (r_in r1)); rd; auto). rewrite <- U2 in W. clearbody r2. clear U2 r1.
  eapply holds_more; [exact W|]. unfold r_propagate, propagateError. change (d_in (r_d r2)) with (r_in r2). change (d_out (r_d r2)) with (r_out r2).
  destruct (i_err (r_in r2)) as [e|]; unfold r_out at 1; rewrite d_set_d; cbn [d_out].
  - match goal with |- exists s, o_log (closeWithError _ ?x) = _ => destruct (log_close (r_out r2) x) as [s [S1 _]] end. exists s. auto.
  - exists []. rewrite app_nil_r. reflexivity.
Qed.
Lemma thread_open f l hb body d rest : o_format opt = fmt_of f -> valid_list env opts f l -> Opened env opt f hb body d -> hb ++ body <> [] ->
  src_bytes src = concat (map sb l) ++ hb ++ body ++ rest -> detached_src src \/ l = [] ->
  match readThread env (newReader src opts) with
  | Ok r' => holds opt [] (o_log (r_out r')) (concat (map sd l) ++ d)
  | Panic c => exists pre tail, rest = pre ++ tail /\ gz_panic tail c
  | NoFuel => False
  end.
Proof.
  intros EF HL HO NE EB HD. destruct (reffective_ok Hopts) as [_ Hdt]. unfold readThread.
  pose proof (inv_new opts Hpol Hbytes) as V0. apply inv_reset_num in V0.
  pose proof (@walk env Hlib opt Hdt (at_src src) (@at_src_ink src) f l EF HL (S (S (src_left (r_in (newReader src opts))))) (reset_num (newReader src opts)) hb body d rest V0 (at_src_new opts src)) as W.
  change (r_in (reset_num (newReader src opts))) with (r_in (newReader src opts)) in *. specialize (W ltac:(lia) HO EB NE eq_refl HD).
  destruct (streamsLoop env _ _) as [r1|c|]; cbn [rbind]; auto. destruct W as [_ W]. apply thread_after. auto.
Qed.
Lemma thread_done f l rest : o_format opt = fmt_of f -> valid_list env opts f l -> src_bytes src = concat (map sb l) ++ rest -> detached_src src \/ length l <= 1 ->
  match readThread env (newReader src opts) with
  | Ok r' => holds opt [] (o_log (r_out r')) (concat (map sd l))
  | Panic c => exists pre tail, rest = pre ++ tail /\ gz_panic tail c
  | NoFuel => False
  end.
Proof.
  intros EF HL EB HD. destruct (reffective_ok Hopts) as [_ Hdt]. unfold readThread.
  pose proof (inv_new opts Hpol Hbytes) as V0. apply inv_reset_num in V0.
  pose proof (@walk_done env Hlib opt Hdt (at_src src) (@at_src_ink src) f l EF HL (S (S (src_left (r_in (newReader src opts))))) (reset_num (newReader src opts)) rest V0 (at_src_new opts src)) as W.
  change (r_in (reset_num (newReader src opts))) with (r_in (newReader src opts)) in *. specialize (W ltac:(lia) EB (or_introl eq_refl) HD).
  destruct (streamsLoop env _ _) as [r1|c|]; cbn [rbind]; auto. destruct W as [_ W]. apply thread_after. auto.
Qed.
End Thr.

(** ** From the Writer's output to what the Reader finds in it *)
Lemma gz_bad all c : gz_panic all c -> BadGzip all.
Proof. intros [h [p [b [E [L [M1 [M2 [F [LP [BP K]]]]]]]]]]. unfold extra_parse in K. apply xparse_bad in K; auto. destruct K as [_ K]. exists h, p, b. auto 10. Qed.
Lemma Blocks_impl (B B' : blockpred) : (forall pos h f w h', B pos h f w h' -> B' pos h f w h') -> forall pos h w h', Blocks B pos h w h' -> Blocks B' pos h w h'.
Proof. intros H pos h w h'. induction 1; [constructor|]. eapply blocks_snoc; eauto. Qed.
Lemma header_found env wopts ropts h hb : rlib_ok env -> opts_ok wopts -> opts_ok ropts -> matching wopts ropts -> Representable h -> header_bytes h -> StreamHeader (effective wopts) h hb ->
  exists h', Hd env (reffective ropts) (fmt_stream (o_format (effective wopts))) hb h'.
Proof.
  intros HL HO HRO [M1 [M2 [M3 M4]]] HR HHB. unfold StreamHeader. pose proof (effective_ok HO) as Hw. destruct (o_format (effective wopts)) eqn:EF; cbn [fmt_stream Hd].
  - intros [].
  - intros ->. eexists. split; reflexivity.
  - intros [cmf [flg [-> [EC [B1 [B2 B3]]]]]]. pose proof (wo_wbits Hw) as W.
    assert (ED : (cmf / 16 = o_wbits (effective wopts) - 8)%N).
    { subst cmf. replace (8 + 16 * (o_wbits (effective wopts) - 8))%N with (8 + (o_wbits (effective wopts) - 8) * 16)%N by lia. rewrite N.div_add by discriminate. reflexivity. }
    assert (EM : (cmf mod 16 = 8)%N).
    { subst cmf. replace (8 + 16 * (o_wbits (effective wopts) - 8))%N with (8 + (o_wbits (effective wopts) - 8) * 16)%N by lia. rewrite N.mod_add by discriminate. reflexivity. }
    eexists. exists cmf, flg, (match o_dict (effective wopts) with Some d => be32 (spec_adler32 d) | None => [] end). split; [unfold is_byte; subst cmf; lia|]. split; auto. split; auto. split; [rewrite ED; lia|]. split; auto.
    split; [|split; reflexivity]. rewrite (dict_zero_eq HL (M4 eq_refl)). unfold opt_dict. rewrite M2. destruct (o_dict (effective wopts)); cbn [is_some] in B3; auto.
  - intros [g [GF [G ->]]]. assert (X : exists x, extra_ok (gz_extra g) x).
    { destruct GF as [_ [_ [GE _]]]. rewrite GE. destruct HR as [_ [_ [_ [_ [_ [_ [_ [_ [HX _]]]]]]]]]. destruct HHB as [_ [_ HB]]. exists (h_extra h).
      destruct (h_extra h) eqn:EX; [exact I|]. rewrite <- EX in *. assert (SE : some_if (extra_enc (h_extra h)) = Some (extra_enc (h_extra h))) by (rewrite EX; reflexivity). rewrite SE. cbn [extra_ok].
      rewrite <- (app_nil_r (extra_enc (h_extra h))). apply extra_parse_enc; [|cbn; lia]. eapply Forall_impl; [|exact HX]. cbn. intros y Hy. lia. }
    destruct X as [x X]. eexists. exists g, x. auto.
Qed.
Lemma opened_found env wopts ropts h hb body d : rlib_ok env -> opts_ok wopts -> opts_ok ropts -> matching wopts ropts -> Representable h -> header_bytes h -> bytes_ok body ->
  StreamHeader (effective wopts) h hb -> OpenData (StrictBlock (2 ^ o_wbits (effective wopts))) (effective wopts) (bits_of_bytes body) d ->
  Opened env (reffective ropts) (fmt_stream (o_format (effective wopts))) hb body d.
Proof.
  intros HL HO HRO M HR HHB BB HH HD. split; [eapply header_found; eauto|]. split; auto. destruct M as [M1 [M2 [M3 M4]]].
  unfold OpenData in HD. rewrite opt_dict_eq, M2. revert HD. apply Blocks_impl.
  intros pos g f w h'. destruct (reffective_ok HRO) as [Hwb _]. eapply strict_RB; eauto. apply N.pow_le_mono_r; [discriminate|auto].
Qed.
Lemma a_done_open ops a : asteps a_init ops a -> ~ In (OFlush FinishFlush) ops -> a_done a = [].
Proof.
  assert (G : forall a0 ops0 a1, asteps a0 ops0 a1 -> ~ In (OFlush FinishFlush) ops0 -> a_done a0 = [] -> a_done a1 = []).
  { induction 1 as [|b op b1 ops1 b2 H1 H2 IH]; auto. intros NI D. cbn in NI. apply IH; [tauto|]. destruct H1 as [b p|b ft|b h Hh|b h Hh]; auto.
    - unfold a_write. destruct p; auto. destruct (a_cur b); auto.
    - destruct ft; auto. exfalso. tauto. }
  intros H NI. eapply G; eauto.
Qed.

Lemma asteps_snoc ops : forall a op a', asteps a (ops ++ [op]) a' -> exists a0, asteps a ops a0 /\ astep a0 op a'.
Proof.
  induction ops as [|x ops IH]; intros a op a' H; inversion H as [|b y b1 o b2 H1 H2]; subst.
  - inversion H2; subst. exists a. split; [constructor|auto].
  - destruct (IH _ _ _ H2) as [a0 [Q1 Q2]]. exists a0. split; auto. econstructor; eauto.
Qed.

(** ** C70: flushed data survives *)
Lemma flushed_parse wenv renv wopts ropts ops ft w' (src : source) rest :
  lib_ok wenv -> rlib_ok renv -> opts_ok wopts -> opts_ok ropts -> Forall op_ok ops -> delivering ft ->
  w_run wenv (newWriter wopts) (ops ++ [OFlush ft]) = Ok (w', None) -> matching wopts ropts ->
  bytes_ok (sink (w_out w') ++ rest) -> detached_src src \/ ~ In (OFlush FinishFlush) ops ->
  exists f l, o_format (reffective ropts) = fmt_of f /\ valid_list renv ropts f l /\
    ((sink (w_out w') = concat (map sb l) /\ ops_data ops = concat (map sd l) /\ (detached_src src \/ length l <= 1)) \/
     exists hb body d, Opened renv (reffective ropts) f hb body d /\ hb ++ body <> [] /\ sink (w_out w') = concat (map sb l) ++ hb ++ body /\
       ops_data ops = concat (map sd l) ++ d /\ (detached_src src \/ l = [])).
Proof.
  intros HL HRL HO HRO Hops Hft E M BS HD. pose proof M as [M1 [M2 [M3 M4]]]. pose proof (effective_ok HO) as Hw.
  destruct (C03_flush_delivers HL HO Hops Hft E) as [a [A1 [A2 [bs [tail [A3 [A4 A5]]]]]]].
  assert (Hops' : Forall op_ok (ops ++ [OFlush ft])) by (apply Forall_app; split; auto; constructor; auto; exact I).
  assert (RP : a_rep a) by (eapply asteps_rep; eauto; split; [constructor|split; apply header0_rep]).
  assert (HBs : a_hb a) by (eapply asteps_hb; eauto; split; [constructor|split; apply header0_hb]).
  destruct RP as [RP1 [RP2 RP3]]. destruct HBs as [HB1 [HB2 HB3]].
  destruct (good_valid HO M RP1 HB1 A4) as [V1 [V2 V3]].
  assert (ST : set_to ropts (fmt_stream (o_format (effective wopts)))).
  { split; [rewrite M1; apply fmt_stream_of; auto|]. intros EZ. apply M4. rewrite (fmt_stream_of Hw), EZ. reflexivity. }
  destruct (valid_infos HRL HRO ST V1) as [l [L1 [L2 L3]]]. rewrite V2 in L2. rewrite V3 in L3.
  assert (EF : o_format (reffective ropts) = fmt_of (fmt_stream (o_format (effective wopts)))) by (rewrite M1; apply fmt_stream_of; auto).
  assert (LN : length l = length (a_done a)) by (apply (f_equal (@length _)) in L3; rewrite !map_length in L3; auto).
  assert (GD : detached_src src \/ (a_done a = [] /\ ~ In (OFlush FinishFlush) ops) \/ (ft = FinishFlush /\ ~ In (OFlush FinishFlush) ops)).
  { destruct HD as [HD|HD]; auto. right. destruct Hft as [-> |[-> | ->]]; auto; left; split; auto; eapply a_done_open; eauto; rewrite in_app_iff; cbn; intros [K|[K|[]]]; auto; discriminate. }
  exists (fmt_stream (o_format (effective wopts))), l. split; auto. split; auto. rewrite <- A2. unfold a_data. rewrite L2, L3.
  destruct A5 as [[C1 ->]|[C1 [hb [body [-> [C2 C3]]]]]].
  - left. rewrite app_nil_r in A3. split; auto. split; [rewrite C1, app_nil_r; auto|].
    destruct GD as [GD|[[GD _]|[-> GD]]]; auto; right; rewrite LN; [rewrite GD; cbn; lia|].
    destruct (asteps_snoc A1) as [a0 [Q1 Q2]]. inversion Q2; subst. cbn [a_flush]. unfold a_finish. rewrite (a_done_open Q1 GD). destruct (a_cur a0); cbn; lia.
  - right. assert (BT : bytes_ok body) by (rewrite A3 in BS; rewrite !bytes_ok_app in BS; tauto).
    assert (OP : Opened renv (reffective ropts) (fmt_stream (o_format (effective wopts))) hb body (a_cur a)) by (eapply opened_found; eauto).
    assert (NE : hb ++ body <> []).
    { intros K. apply app_eq_nil in K. destruct K as [-> ->]. unfold OpenData in C3. remember (bits_of_bytes []) as nb eqn:EN. remember (rev (a_cur a) ++ _) as hh eqn:EH. destruct C3 as [|w1 h1 w2 h2 _ C3].
      - destruct (a_cur a); auto. apply (f_equal (@length _)) in EH. rewrite app_length, (rev_length (_ :: _)) in EH. cbn [length] in EH. lia.
      - apply app_eq_nil in EN. destruct EN as [_ EN]. destruct C3; discriminate. }
    exists hb, body, (a_cur a). split; auto. split; auto. split; auto. split; auto.
    destruct GD as [GD|[[GD _]|[-> GD]]]; auto; right; [destruct l; auto; rewrite GD in LN; discriminate|].
    exfalso. destruct (asteps_snoc A1) as [a0 [Q1 Q2]]. inversion Q2; subst. apply C1. cbn [a_flush]. unfold a_finish. rewrite (a_done_open Q1 GD). destruct (a_cur a0); reflexivity.
Qed.
Lemma flushed_facts wenv renv wopts ropts ops ft w' src rest :
  lib_ok wenv -> rlib_ok renv -> opts_ok wopts -> opts_ok ropts -> Forall op_ok ops -> delivering ft ->
  w_run wenv (newWriter wopts) (ops ++ [OFlush ft]) = Ok (w', None) -> matching wopts ropts ->
  good_src src -> detached_src src \/ ~ In (OFlush FinishFlush) ops -> src_bytes src = sink (w_out w') ++ rest ->
  match readThread renv (newReader src ropts) with
  | Ok r' => holds (reffective ropts) [] (o_log (r_out r')) (ops_data ops)
  | Panic c => exists pre b, rest = pre ++ b /\ BadGzip b
  | NoFuel => False
  end.
Proof.
  intros HL HRL HO HRO Hops Hft E M [HP BS] HD EB. pose proof BS as BS'. rewrite EB in BS'.
  destruct (flushed_parse HL HRL HO HRO Hops Hft E M BS' HD) as [f [l [EF [L1 [[A3 [-> L1']]|[hb [body [d [OP [NE [A3 [-> L1']]]]]]]]]]]].
  - pose proof (thread_done HRL HRO HP BS (f := f) (l := l) (rest := rest) EF L1) as T. rewrite EB, A3 in T. specialize (T eq_refl L1').
    destruct (readThread renv (newReader src ropts)) as [r'|c|]; auto. destruct T as [pre [tl [T1 T2]]]. exists pre, tl. split; auto. eapply gz_bad; eauto.
  - pose proof (thread_open HRL HRO HP BS (f := f) (l := l) (rest := rest) EF L1 OP NE) as T. rewrite EB, A3, <- !app_assoc in T. specialize (T eq_refl L1').
    destruct (readThread renv (newReader src ropts)) as [r'|c|]; auto. destruct T as [pre [tl [T1 T2]]]. exists pre, tl. split; auto. eapply gz_bad; eauto.
Qed.

(** Whatever follows the flushed bytes (nothing, because the writing process
    crashed; the rest of the stream; or rubbish), a client that reads until it
    gets an error is given all the data that was written before the flush. *)
Theorem C70_flushed_data_survives :
  forall wenv renv wopts ropts ops ft w' src rest,
    lib_ok wenv -> rlib_ok renv -> opts_ok wopts -> opts_ok ropts -> Forall op_ok ops -> delivering ft ->
    w_run wenv (newWriter wopts) (ops ++ [OFlush ft]) = Ok (w', None) -> matching wopts ropts ->
    good_src src -> detached_src src \/ ~ In (OFlush FinishFlush) ops -> src_bytes src = sink (w_out w') ++ rest ->
    match decompress renv ropts src with
    | Ok (d, oe) => exists t, d = ops_data ops ++ t
    | Panic _ => exists pre b, rest = pre ++ b /\ BadGzip b      (* see C34 *)
    | NoFuel => False
    end.
Proof.
  intros wenv renv wopts ropts ops ft w' src rest HL HRL HO HRO Hops Hft E M HS HD EB.
  pose proof (flushed_facts HL HRL HO HRO Hops Hft E M HS HD EB) as T. unfold decompress. destruct (readThread renv (newReader src ropts)) as [r'|c|]; cbn [rbind]; auto.
  destruct T as [s [t [T1 [_ [_ [q T2]]]]]]. unfold r_result. exists q. rewrite T1. exact T2.
Qed.
(** C51: what the goroutine hands over is, whatever follows the flushed bytes in
    the input, at first data only, and that data is all but at most
    2^(memory level + 6) bytes of what was written before the flush. *)
Theorem C51_handed_over_partial :
  forall wenv renv wopts ropts ops ft w' src rest r,
    lib_ok wenv -> rlib_ok renv -> opts_ok wopts -> opts_ok ropts -> Forall op_ok ops -> delivering ft ->
    w_run wenv (newWriter wopts) (ops ++ [OFlush ft]) = Ok (w', None) -> matching wopts ropts ->
    good_src src -> detached_src src \/ ~ In (OFlush FinishFlush) ops -> src_bytes src = sink (w_out w') ++ rest ->
    readThread renv (newReader src ropts) = Ok r ->
    exists s t, o_log (r_out r) = s ++ t /\ Forall is_data s /\ (exists q, log_data (s ++ t) = ops_data ops ++ q) /\
      (lenN (ops_data ops) <= lenN (log_data s) + 2 ^ (o_mlevel (reffective ropts) + 6))%N.
Proof.
  intros wenv renv wopts ropts ops ft w' src rest r HL HRL HO HRO Hops Hft E M HS HD EB ER.
  pose proof (flushed_facts HL HRL HO HRO Hops Hft E M HS HD EB) as T. rewrite ER in T. destruct T as [s [t [T1 [T2 [T3 T4]]]]]. exists s, t. auto.
Qed.

(** An unfinished stream can be finished without more data. *)
Lemma opened_cut env opts f hb body d : rlib_ok env -> opts_ok opts -> Opened env (reffective opts) f hb body d -> exists x, cut_of env opts f (hb ++ body) x /\ sd x = d.
Proof.
  intros HL HO [[h H1] [H2 H3]]. exists (SInfo f (hb ++ (body ++ [3; 0]%N) ++ ftr f d) d h). split; [|reflexivity]. split; [reflexivity|]. cbn [sb sd sh]. split.
  - exists hb, (body ++ [3; 0]%N). split; auto. split; auto. split; [apply bytes_ok_app; split; auto; repeat constructor|].
    exists (bits_of_bytes body ++ static_bits true []), (repeat false 6). split; [cbn; lia|]. split; [rewrite bits_of_bytes_app, <- app_assoc; f_equal|].
    exists (bits_of_bytes body), (rev d ++ rev (opt_dict (reffective opts))), (static_bits true []). split; auto. split; auto.
    unfold static_bits. apply block_static with (ts := map TLit []); [apply static_lits; constructor|reflexivity].
  - exists ([3; 0]%N ++ ftr f d). split; [discriminate|]. rewrite <- !app_assoc. reflexivity.
Qed.
(** The writing process crashed right after the flush: exactly the flushed data
    can be read. *)
Theorem C70_crash_after_flush :
  forall wenv renv wopts ropts ops ft w' src,
    lib_ok wenv -> rlib_ok renv -> opts_ok wopts -> opts_ok ropts -> Forall op_ok ops -> delivering ft ->
    w_run wenv (newWriter wopts) (ops ++ [OFlush ft]) = Ok (w', None) -> matching wopts ropts ->
    good_src src -> detached_src src \/ ~ In (OFlush FinishFlush) ops -> src_bytes src = sink (w_out w') -> ~ is_corrupt (src_end src) ->
    exists e, decompress renv ropts src = Ok (ops_data ops, Some e).
Proof.
  intros wenv renv wopts ropts ops ft w' src HL HRL HO HRO Hops Hft E M HS HD EB NC.
  pose proof HS as [HP BS]. pose proof BS as BS'. rewrite EB, <- (app_nil_r (sink (w_out w'))) in BS'.
  destruct (flushed_parse HL HRL HO HRO Hops Hft E M BS' HD) as [f [l [EF [L1 [[A3 [ED L1']]|[hb [body [d [OP [NE [A3 [ED L1']]]]]]]]]]]].
  - pose proof (follow_all HRL HRO HP BS EF L1) as T. rewrite EB, A3 in T. specialize (T eq_refl L1'). unfold decompress.
    destruct (readThread renv (newReader src ropts)) as [r'|c|]; try contradiction. destruct T as [T _]. cbn [rbind]. rewrite T, ED. eauto.
  - destruct (opened_cut HRL HRO OP) as [x [X1 X2]]. rewrite A3 in EB.
    destruct (@follow_cut renv HRL ropts HRO src HP BS f l (hb ++ body) x EF L1 NE X1 EB L1') as [d' [t [e [T1 [T2 [_ T3]]]]]]. destruct (T3 NC) as [q T4].
    assert (EB' : src_bytes src = sink (w_out w') ++ []) by (rewrite app_nil_r, A3; auto).
    pose proof (C70_flushed_data_survives HL HRL HO HRO Hops Hft E M HS HD EB') as K. rewrite T1 in K. destruct K as [u K].
    exists e. rewrite T1. do 2 f_equal. rewrite ED in *. rewrite K in T2. rewrite <- app_assoc in T2. apply app_inv_head in T2. rewrite X2 in T4. rewrite <- T2, <- app_assoc in T4.
    rewrite <- (app_nil_r d) in T4 at 1. apply app_inv_head in T4. symmetry in T4. apply app_eq_nil in T4. destruct T4 as [-> _]. rewrite K, app_nil_r. reflexivity.
Qed.

(** ** The hypotheses are met *)
Definition hello : list N := [104; 101; 108; 108; 111]%N.
Definition flushed_hello : list N :=
  match w_run demo_wenv (newWriter [WithFormat RawFormat; WithMemoryLevel 7]) ([OWrite hello] ++ [OFlush SyncFlush]) with Ok (w, _) => sink (w_out w) | _ => [] end.
Example C70_hypotheses_met :
  exists w', w_run demo_wenv (newWriter [WithFormat RawFormat; WithMemoryLevel 7]) ([OWrite hello] ++ [OFlush SyncFlush]) = Ok (w', None) /\ delivering SyncFlush /\
    matching [WithFormat RawFormat; WithMemoryLevel 7] raw_opts /\ lib_ok demo_wenv /\ rlib_ok demo_renv /\
    (forall e rest, bytes_ok rest -> let src := [(flushed_hello, None); (rest, None); ([], Some e)] in
       rest <> [] -> good_src src /\ detached_src src /\ src_bytes src = sink (w_out w') ++ rest).
Proof.
  eexists. split; [vm_compute; reflexivity|]. split; [left; reflexivity|]. split; [repeat split; vm_compute; discriminate|]. split; [apply demo_lib_ok|]. split; [apply demo_rlib_ok|].
  intros e rest HB src NE. assert (B : src_bytes src = flushed_hello ++ rest) by (unfold src; cbn [src_bytes]; rewrite app_nil_r; reflexivity).
  split; [|split; [|rewrite B; vm_compute; reflexivity]].
  - split; [|rewrite B; apply bytes_ok_app; split; auto; vm_compute; repeat constructor]. unfold src. cbn [polite_src]. split; [vm_compute; discriminate|auto].
  - unfold src. cbn. reflexivity.
Qed.
Example C70_met_truncated : decompress demo_renv raw_opts [(flushed_hello, None)] = Ok (hello, Some ErrUnexpectedEOF).
Proof. vm_compute. reflexivity. Qed.
Example C70_met_rubbish : exists t e, decompress demo_renv raw_opts [(flushed_hello ++ [7; 255; 1]%N, None)] = Ok (hello ++ t, Some e).
Proof. exists []. eexists. vm_compute. reflexivity. Qed.
Print Assumptions C70_flushed_data_survives.
Print Assumptions C70_crash_after_flush.
Print Assumptions C51_handed_over_partial.
