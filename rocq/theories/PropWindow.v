(** C74: a larger window accepts whatever a smaller one does. *)
From Verif Require Import Base SpecChecksum SpecHuffman SpecDeflate SpecFormats SpecSession SpecEvents MChecksum PChecksum MToken MCommon MWriter MReader SpecReader SpecLib PToken PHuffman PBits PActs PGram PInput POutput PDecode PDynamic PBlockDec PHeader PStream PFooter PThread PLoop PFormat PApi PInst PAccept PRead PropReader.

Section Larger.
Variable env : renv.
Hypothesis Hlib : rlib_ok env.
Variable O O' : options.
Hypothesis Owb : (o_wbits O <= o_wbits O')%N.
Hypothesis Odict : o_dict O = o_dict O'.

Lemma lk_larger h d c : wlk env (win_size O) h d = Some c -> wlk env (win_size O') h d = Some c.
Proof.
  unfold wlk, window_lk, win_size. assert (L : (2 ^ o_wbits O <= 2 ^ o_wbits O')%N) by (apply N.pow_le_mono_r; [discriminate|exact Owb]).
  destruct (N.leb_spec 1 d), (N.leb_spec d (2 ^ o_wbits O)), (N.leb_spec d (2 ^ o_wbits O')); cbn [andb]; auto; try discriminate. lia.
Qed.
Lemma RB_larger pos h f w h' : RB env O pos h f w h' -> RB env O' pos h f w h'.
Proof. apply Block_impl2; auto. intros d hh c. apply lk_larger. Qed.
Lemma visible_larger : DictVisible (o_wbits O) (o_dict O) -> DictVisible (o_wbits O') (o_dict O').
Proof.
  rewrite <- Odict. unfold DictVisible. destruct (o_dict O) as [d|]; auto. intros [x [H1 H2]]. exists x. split; auto.
  assert (L : N.to_nat (2 ^ o_wbits O) <= N.to_nat (2 ^ o_wbits O')) by (pose proof (@N.pow_le_mono_r 2 _ _ ltac:(discriminate) Owb); lia).
  revert L H1. generalize (N.to_nat (2 ^ o_wbits O)) (N.to_nat (2 ^ o_wbits O')) (rev d). clear. intros a b l L. rewrite <- (firstn_skipn a (firstn b l)), firstn_firstn, (Nat.min_l a b) by exact L. intros H. apply in_or_app. auto.
Qed.
Lemma RSt_larger f b d h : (f = SZlib -> DictVisible (o_wbits O) (o_dict O)) -> RSt env O f b d h -> RSt env O' f b d h.
Proof.
  intros HV [w [body [H1 [H2 H3]]]]. exists w, body. split; [|split]; auto.
  - destruct f; auto. specialize (HV eq_refl). cbn [Hd] in *. destruct H1 as [cmf [flg [id [A1 [A2 [A3 [A4 [A5 [A6 A7]]]]]]]]]. exists cmf, flg, id. repeat (split; auto). { eapply N.le_trans; eauto. }
    assert (E : opt_dict O = opt_dict O') by (unfold opt_dict; now rewrite Odict). rewrite <- E.
    rewrite (dict_zero_eq Hlib (visible_larger HV)), <- Odict. rewrite (dict_zero_eq Hlib HV) in A6. exact A6.
  - assert (E : opt_dict O = opt_dict O') by (unfold opt_dict; now rewrite Odict). rewrite <- E. eapply Raw_impl; [|exact H2]. apply RB_larger.
Qed.
End Larger.

(** ** C74 *)
Theorem C74_larger_window_accepts :
  forall env opts opts' src d f, rlib_ok env -> opts_ok opts -> opts_ok opts' -> good_src src -> detached_src src -> set_to opts f ->
    o_format (reffective opts') = o_format (reffective opts) -> dict_of opts' = dict_of opts -> (limit_of opts <= limit_of opts')%N ->
    decompress env opts src = Ok (d, Some EOF) -> decompress env opts' src = Ok (d, Some EOF).
Proof.
  intros env opts opts' src d f HL HO HO' [HP HB] HD [HS HV] EF ED EW E.
  pose proof (@dec_facts env HL opts HO src HP HB) as T. rewrite E in T. destruct T as [e [ss [rest [[= <-] [S D]]]]].
  destruct D as [[-> [D2 [D3 D4]]]|[_ [f' [p [t [z [_ [_ [F _]]]]]]]]]; [|exfalso; eapply eof_not_fail; eauto]. specialize (D3 HD). subst rest.
  pose proof (@seq_fixed env (reffective opts) (at_src src) f _ _ _ HS S) as Q.
  assert (V : valid_list env opts' f ss). { eapply Forall_impl; [|exact Q]. intros s [Q1 Q2]. split; auto. eapply RSt_larger with (O := reffective opts); eauto. }
  pose proof (seq_bytes S) as EB. rewrite app_nil_r in EB. assert (HS' : o_format (reffective opts') = fmt_of f) by (rewrite EF; exact HS).
  pose proof (@follow_all env HL opts' HO' src HP HB f ss HS' V EB (or_introl HD)) as F.
  unfold decompress. destruct (readThread env (newReader src opts')); try contradiction. cbn. destruct F as [-> _]. now rewrite <- D2.
Qed.

From Verif Require Import Demo PropReader3.
(** A stream made for a 256-byte window, read with the default window. *)
Definition small_zlib : list N := [0x08; 0x1d; 0x4b; 4; 0; 0; 0x62; 0; 0x62]%N.
Example C74_example : decompress demo_renv [WithFormat ZlibFormat] [(small_zlib, None)] = Ok ([97]%N, Some EOF).
Proof.
  apply C74_larger_window_accepts with (opts := [WithFormat ZlibFormat; WithWindowBits 8]) (f := SZlib); try apply demo_rlib_ok; try (repeat constructor; fail); try reflexivity; try discriminate.
  - split; [cbn; repeat split; discriminate|repeat constructor].
Qed.
(** The condition on the dictionary (part of [set_to]) cannot be dropped: with
    zlib, a dictionary that looks empty through the small window does not
    through the large one, and the stream is then refused. *)
Definition zero_tail : list N := 1%N :: repeat 0%N 256.
Definition zt_opts (w : N) : list opt := [WithFormat ZlibFormat; WithWindowBits w; WithDictionary (Some zero_tail)].
Theorem C74_hidden_dictionary_refuted :
  opts_ok (zt_opts 8) /\ opts_ok (zt_opts 15) /\ decompress demo_renv (zt_opts 8) [(small_zlib, None)] = Ok ([97]%N, Some EOF) /\
  exists e, decompress demo_renv (zt_opts 15) [(small_zlib, None)] = Ok ([], Some e) /\ e <> EOF.
Proof.
  assert (B : bytes_ok zero_tail) by (unfold zero_tail; constructor; [reflexivity|]; apply Forall_forall; intros x Hx; apply repeat_spec in Hx; subst; reflexivity).
  split; [repeat constructor; exact B|]. split; [repeat constructor; exact B|]. split; [vm_compute; reflexivity|]. eexists. split; [vm_compute; reflexivity|discriminate].
Qed.
