(** The streams of the specification and the streams the Reader decodes. *)
From Verif Require Import Base SpecChecksum SpecHuffman SpecDeflate SpecFormats SpecSession SpecEvents MChecksum PChecksum MToken MCommon MWriter MReader SpecReader SpecLib PToken PHuffman PBits PActs PGram PInput POutput PDecode PDynamic PBlockDec PHeader PStream PFooter PThread PLoop PFormat PApi PInst.

(** ** Extra fields *)
Lemma xparse_more f : forall raw x, xparse f raw = Ok x -> forall f', f <= f' -> xparse f' raw = Ok x.
Proof.
  induction f as [|f IH]; intros raw x; cbn [xparse]; [discriminate|]. destruct f' as [|f']; [lia|]. intros L. cbn [xparse].
  destruct raw as [|a [|b [|c [|d t]]]]; auto. destruct (_ <=? _); auto.
  destruct (xparse f _) as [y| |] eqn:E; cbn [rbind] in *; try discriminate. rewrite (IH _ _ E f') by lia. auto.
Qed.
Definition xr_ok (r : xrecord) : Prop := is_byte (x_id0 r) /\ is_byte (x_id1 r) /\ bytes_ok (x_bytes r) /\ (lenN (x_bytes r) < 65536)%N.
Lemma extra_enc_cons r l : extra_enc (r :: l) = x_id0 r :: x_id1 r :: le16 (lenN (x_bytes r)) ++ x_bytes r ++ extra_enc l.
Proof. unfold extra_enc. cbn [flat_map app]. rewrite <- app_assoc. auto. Qed.
Lemma unle16_le16 n : (n < 65536)%N -> unle16 (le16 n) = n.
Proof. intros H. unfold unle16, le16, nthN. cbn [nth]. pose proof (N.div_mod n 256 ltac:(discriminate)). assert (n / 256 < 256)%N by (apply N.div_lt_upper_bound; lia). rewrite (N.mod_small (n / 256)) by auto. lia. Qed.
Lemma xparse_enc l : Forall (fun r => (lenN (x_bytes r) < 65536)%N) l -> forall f tl, length (extra_enc l) < f -> length tl < 4 -> xparse f (extra_enc l ++ tl) = Ok l.
Proof.
  induction 1 as [|r l H Hl IH]; intros f tl L LT.
  - destruct f; [lia|]. cbn [extra_enc flat_map app xparse]. destruct tl as [|a [|b [|c [|d t]]]]; auto. cbn in LT. lia.
  - rewrite extra_enc_cons in *. destruct f as [|f]; [lia|]. assert (E16 : le16 (lenN (x_bytes r)) = [(lenN (x_bytes r) mod 256)%N; ((lenN (x_bytes r) / 256) mod 256)%N]) by reflexivity.
    pose proof (unle16_le16 H) as EU. rewrite E16 in *. cbn [app xparse length] in *. rewrite EU.
    assert (EL : N.to_nat (lenN (x_bytes r)) = length (x_bytes r)) by (unfold lenN; lia). rewrite EL, <- app_assoc.
    rewrite app_length in *. destruct (Nat.leb_spec (length (x_bytes r)) (length (x_bytes r) + length (extra_enc l ++ tl))) as [_|C]; [|lia].
    rewrite skipn_app, skipn_all, Nat.sub_diag, firstn_app, firstn_all, Nat.sub_diag. cbn [skipn firstn app]. rewrite app_nil_r.
    rewrite IH; auto; [|lia]. cbn [rbind]. destruct r; auto.
Qed.
Lemma extra_parse_enc l tl : Forall (fun r => (lenN (x_bytes r) < 65536)%N) l -> length tl < 4 -> extra_parse (extra_enc l ++ tl) = Ok l.
Proof. intros H LT. unfold extra_parse. apply xparse_enc; auto. rewrite app_length. lia. Qed.
(** Conversely. *)
Lemma xparse_inv f : forall raw x, bytes_ok raw -> xparse f raw = Ok x -> Forall xr_ok x /\ exists tl, raw = extra_enc x ++ tl /\ length tl < 4.
Proof.
  induction f as [|f IH]; intros raw x HB; cbn [xparse]; [discriminate|].
  destruct raw as [|a [|b [|c [|d t]]]]; try (intros E; inversion E; subst; split; [constructor|]; eexists; split; [reflexivity|cbn; lia]).
  set (n := unle16 [c; d]). destruct (Nat.leb_spec (N.to_nat n) (length t)) as [L|L]; [|discriminate].
  destruct (xparse f (skipn (N.to_nat n) t)) as [y| |] eqn:E; cbn [rbind]; try discriminate. intros EX. inversion EX; subst x.
  assert (BB : is_byte a /\ is_byte b /\ is_byte c /\ is_byte d /\ bytes_ok t). { unfold bytes_ok in *; repeat match goal with Q : Forall _ (_ :: _) |- _ => inversion Q; clear Q; subst end; auto. }
  destruct BB as [Ba [Bb [Bc [Bd Bt]]]]. pose proof (firstn_skipn (N.to_nat n) t) as FS. assert (BT2 : bytes_ok (firstn (N.to_nat n) t ++ skipn (N.to_nat n) t)) by (rewrite FS; auto).
  apply bytes_ok_app in BT2. destruct BT2 as [B1 B2]. destruct (IH _ _ B2 E) as [F [tl [T1 T2]]].
  assert (Hn : (n < 65536)%N) by (unfold n, unle16, nthN, is_byte in *; cbn [nth]; lia).
  assert (LN : lenN (firstn (N.to_nat n) t) = n) by (unfold lenN; rewrite firstn_length; lia).
  split; [constructor; auto; split; [auto|split; [auto|cbn; rewrite LN; auto]]|]. exists tl. split; auto. rewrite extra_enc_cons. cbn [x_id0 x_id1 x_bytes]. rewrite LN.
  assert (E16 : le16 n = [c; d]) by (apply le16_unle16; [repeat constructor; auto|reflexivity]). rewrite E16. cbn [app]. rewrite <- app_assoc, <- T1, FS. auto.
Qed.
Lemma xparse_panic f : forall raw c, xparse f raw = Panic c -> c = PBounds.
Proof.
  induction f as [|f IH]; intros raw c; cbn [xparse]; [discriminate|]. destruct raw as [|a [|b [|x [|y t]]]]; try discriminate. destruct (_ <=? _); [|congruence].
  destruct (xparse f _) as [z| |] eqn:E; cbn [rbind]; try discriminate. intros [= <-]. eauto.
Qed.
Lemma xparse_fuel f : forall l, length l < f -> xparse f l <> NoFuel.
Proof.
  induction f as [|f IH]; intros l L; [lia|]. cbn [xparse]. destruct l as [|a [|b [|c [|d t]]]]; try discriminate.
  destruct (_ <=? _); [|discriminate]. cbn [length] in L. set (k := N.to_nat _). assert (LS : length (skipn k t) < f) by (rewrite skipn_length; lia).
  specialize (IH _ LS). destruct (xparse f (skipn k t)); cbn [rbind]; congruence.
Qed.

(** ** Blocks *)
Lemma cl_sizes_pure x done out w : ClEnc x done out w -> sizes_le 15 done -> sizes_le 15 out.
Proof.
  induction 1 as [done|done n w out ws H1 H2 H3 IH|done p e w out ws H1 H2 H3 IH|done e w out ws H1 H2 H3 IH|done e w out ws H1 H2 H3 IH]; intros HS.
  - constructor.
  - constructor; [lia|]. apply IH. apply Forall_app. split; auto. constructor; [lia|constructor].
  - assert (R : forall k, sizes_le 15 (repeat p k)).
    { intros k. apply Forall_forall. intros y Hy. apply repeat_spec in Hy. subst y. unfold sizes_le in HS. rewrite Forall_forall in HS. apply HS. apply in_or_app. right. left. auto. }
    apply Forall_app. split; [apply R|]. apply IH. apply Forall_app. split; auto. apply R.
  - assert (R : forall k, sizes_le 15 (repeat 0 k)) by (intros k; apply Forall_forall; intros y Hy; apply repeat_spec in Hy; lia).
    apply Forall_app. split; [apply R|]. apply IH. apply Forall_app. split; auto. apply R.
  - assert (R : forall k, sizes_le 15 (repeat 0 k)) by (intros k; apply Forall_forall; intros y Hy; apply repeat_spec in Hy; lia).
    apply Forall_app. split; [apply R|]. apply IH. apply Forall_app. split; auto. apply R.
Qed.
Lemma DynTrees_impl (acc acc' : list nat -> Prop) ll d w : (forall s, length s <= 288 -> sizes_le 15 s -> acc s -> acc' s) -> DynTrees acc ll d w -> DynTrees acc' ll d w.
Proof.
  intros HA [hlit [hdist [hclen [x [wc [A1 [A2 [A3 [A4 [A5 [A6 [A7 [[lls [ds [B1 [B2 [B3 [B4 B5]]]]]] [A9 [A10 A11]]]]]]]]]]]]]]].
  assert (SL : sizes_le 15 (lls ++ ds)) by (apply (@cl_sizes_pure x [] (lls ++ ds) wc B3); constructor). apply Forall_app in SL. destruct SL as [S1 S2].
  exists hlit, hdist, hclen, x, wc. split; auto. split; auto. split; auto. split; auto. split; auto. split; auto. split; [apply HA; auto; [lia|eapply sizes_le_weak; [|eauto]; lia]|].
  split; [exists lls, ds; auto|]. split; [|split; auto]; apply HA; auto; subst ll d; rewrite ?app_length, ?repeat_length; try lia;
   apply Forall_app; split; auto; apply Forall_forall; intros y Hy; apply repeat_spec in Hy; subst; lia.
Qed.
Lemma Block_impl2 (acc acc' : list nat -> Prop) (lk lk' : list N -> N -> option N) : (forall s, length s <= 288 -> sizes_le 15 s -> acc s -> acc' s) ->
  (forall d h c, lk h d = Some c -> lk' h d = Some c) ->
  forall pos h f w h', Block acc lk pos h f w h' -> Block acc' lk' pos h f w h'.
Proof.
  intros HA HL pos h f w h' HB. apply (Block_impl HL) in HB. destruct HB as [pad data Q1 Q2 Q3 Q4|ts w1 h1 Q1 Q2|ll d ts wt w1 h1 Q1 Q2 Q3].
  - exact (@block_stored acc' lk' pos h f pad data Q1 Q2 Q3 Q4).
  - exact (@block_static acc' lk' pos h f ts w1 h1 Q1 Q2).
  - exact (@block_dynamic acc' lk' pos h f ll d ts wt w1 h1 (DynTrees_impl HA Q1) Q2 Q3).
Qed.
Lemma Stream_impl (Bw Bw' : N -> blockpred) f dict b d : (forall win pos h fi w h', Bw win pos h fi w h' -> Bw' win pos h fi w h') -> Stream Bw f dict b d -> Stream Bw' f dict b d.
Proof.
  intros H. destruct f; cbn [Stream].
  - apply Raw_impl. intros pos h fi w h'. apply H.
  - intros [cmf [flg [di [body [A1 [A2 [A3 [A4 [A5 [A6 [A7 A8]]]]]]]]]]]. exists cmf, flg, di, body. split; [exact A1|]. split; [exact A2|]. split; [exact A3|]. split; [exact A4|]. split; [exact A5|]. split; [exact A6|]. split; [|exact A8]. eapply Raw_impl; [|exact A7]. auto.
  - intros [g [G1 [body [G2 G3]]]]. exists g. split; auto. exists body. split; auto. eapply Raw_impl; [|exact G2]. auto.
Qed.

Section Acc.
Variable env : renv.
Hypothesis Hlib : rlib_ok env.
Variable opt : options.
Hypothesis Hdict : bytes_ok (opt_dict opt).
Hypothesis Hwb : (8 <= o_wbits opt <= 15)%N.
Notation RB := (RB env opt).
Notation RSt := (RSt env opt).
Notation limit := (o_wbits opt).
Notation dict := (o_dict opt).

Lemma opt_dict_eq : opt_dict opt = dict_bytes dict. Proof. reflexivity. Qed.
Lemma strict_RB win pos h f w h' : (win <= 2 ^ limit)%N -> StrictBlock win pos h f w h' -> RB pos h f w h'.
Proof.
  intros HW. apply Block_impl2.
  - intros s L _ P. apply (rl_acc_complete Hlib); auto.
  - intros d hh c. unfold strict_lk, wlk, window_lk, win_size. destruct ((1 <=? d) && (d <=? win) && (d <=? lenN hh))%N eqn:E; [|discriminate]. intros E2.
    replace ((1 <=? d) && (d <=? 2 ^ limit))%N with true by lia. replace (d <=? lenN hh)%N with true by lia. auto.
Qed.
Definition LaxBlock (win : N) : blockpred := Block not_oversubscribed (window_lk env win).
Lemma RB_lax pos h f w h' : RB pos h f w h' -> LaxBlock (2 ^ limit) pos h f w h'.
Proof. apply Block_impl2; [|auto]. intros s _ S A. apply (rl_acc_sound Hlib); auto. Qed.
Lemma RB_strict pos h f w h' : e_far env = None -> RB pos h f w h' -> Block not_oversubscribed (strict_lk (2 ^ limit)) pos h f w h'.
Proof.
  intros EF. apply Block_impl2.
  - intros s _ S A. apply (rl_acc_sound Hlib); auto.
  - intros d hh c. unfold strict_lk, wlk, window_lk, win_size. rewrite EF. destruct ((1 <=? d) && (d <=? 2 ^ limit))%N; [|discriminate]. destruct (d <=? lenN hh)%N; cbn [andb]; auto.
Qed.

Lemma dict_zero_eq : DictVisible limit dict -> dict_zero env opt = match dict with None => true | Some _ => false end.
Proof.
  unfold DictVisible, dict_zero, opt_dict, win_size. destruct (o_dict opt) as [d|].
  - intros H. apply (rl_zero_not Hlib). auto.
  - intros _. rewrite firstn_nil. apply (rl_zero_nil Hlib).
Qed.

(** Every acceptable stream is decoded. *)
Lemma raw_RSt b d : RawStream (StrictBlock (2 ^ limit)) (dict_bytes dict) b d -> exists h, RSt SRaw b d h.
Proof.
  intros H. eexists. exists [], b. split; [split; reflexivity|]. split; [|cbn; rewrite app_nil_r; auto].
  rewrite opt_dict_eq. eapply Raw_impl; [|exact H]. intros pos h f w h'. apply strict_RB. lia.
Qed.
Lemma zlib_RSt b d : DictVisible limit dict -> ZlibStream StrictBlock dict b d -> (exists cmf t, b = cmf :: t /\ (cmf / 16 + 8 <= limit)%N) -> exists h, RSt SZlib b d h.
Proof.
  intros HV [cmf [flg [di [body [A1 [A2 [A3 [A4 [A5 [A6 [A7 ->]]]]]]]]]]] [cmf' [t [E L]]]. cbn [app] in E. inversion E; subst cmf' t.
  exists (set_levels header0 (8 + cmf / 16)%N (zlib_level flg)), ([cmf; flg] ++ di), body. split.
  - exists cmf, flg, di. split; auto. split; auto. split; auto. split; [lia|]. split; auto. split; [|auto]. rewrite (dict_zero_eq HV). unfold opt_dict. destruct (o_dict opt); auto.
  - split; [|cbn [ftr app]; rewrite <- ?app_assoc; cbn [app]; reflexivity]. rewrite opt_dict_eq. eapply Raw_impl; [|exact A7]. intros pos h f w h'. apply strict_RB. apply N.pow_le_mono_r; [discriminate|auto].
Qed.
Lemma gzip_RSt g x b d : GzipStream (fun _ => StrictBlock (2 ^ limit)) dict g b d -> extra_ok (gz_extra g) x -> RSt SGzip b d (hdr_of header0 g x).
Proof.
  intros [G [body [B ->]]] EX. exists (gzip_header g), body. split; [exists g, x; auto|]. split; [|auto].
  rewrite opt_dict_eq. eapply Raw_impl; [|exact B]. intros pos h f w h'. apply strict_RB. lia.
Qed.
Lemma Acceptable_RSt f b d : (f = SZlib -> DictVisible limit dict) -> Acceptable limit dict f b d -> exists h, RSt f b d h.
Proof.
  intros HV. destruct f; cbn [Acceptable].
  - apply raw_RSt.
  - intros [H1 H2]. apply zlib_RSt; auto.
  - intros [g [H1 H2]]. destruct (gz_extra g) as [p|] eqn:EG.
    + destruct (H2 p eq_refl) as [recs [F ->]]. exists (hdr_of header0 g recs). apply gzip_RSt; auto. rewrite EG. cbn. rewrite <- (app_nil_r (extra_enc recs)). apply extra_parse_enc; [|cbn; lia].
      eapply Forall_impl; [|exact F]. cbn. tauto.
    + exists (hdr_of header0 g []). apply gzip_RSt; auto. rewrite EG. exact I.
Qed.

(** Every decoded stream is one of the format. *)
Lemma RSt_stream f b d h : (f = SZlib -> DictVisible limit dict) -> RSt f b d h -> Stream (fun _ => RB) f dict b d.
Proof.
  intros HV [w [body [H1 [H2 ->]]]]. destruct f; cbn [Stream ftr] in *.
  - destruct H1 as [-> _]. rewrite app_nil_r. auto.
  - destruct H1 as [cmf [flg [di [A1 [A2 [A3 [A4 [A5 [A6 [-> _]]]]]]]]]]. exists cmf, flg, di, body. split; auto. split; auto. split; auto. split; [lia|]. split; auto. split.
    + rewrite (dict_zero_eq (HV eq_refl)) in A6. unfold opt_dict in A6. destruct (o_dict opt); auto.
    + split; auto.
  - destruct H1 as [g [x [G1 [G2 [-> _]]]]]. exists g. split; auto. exists body. split; auto.
Qed.

(** A gzip stream that is decoded does not cause a panic. *)
Lemma gzip_no_panic b d h x c : RSt SGzip b d h -> ~ gz_panic (b ++ x) c.
Proof.
  intros [w [body [H1 [H2 ->]]]] [h10 [p [q [E [L [_ [_ [F [LP [BP EP]]]]]]]]]]. cbn [Hd] in H1. apply HG_iff in H1.
  destruct H1 as [p' [t [-> [L' [_ [_ [_ [_ [_ [w1 [h1 [w2 [-> [Q _]]]]]]]]]]]]]]. rewrite <- !app_assoc in E. apply app_inj_length in E; [|congruence]. destruct E as [-> E].
  rewrite flag4, F in Q. destruct Q as [pp [y [LQ [BQ [EQ [-> _]]]]]]. rewrite <- !app_assoc in E. apply app_inj_length in E; [|reflexivity]. destruct E as [E1 E2].
  apply le16_inj in E1; auto. apply app_inj_length in E2; [|apply lenN_len; auto]. destruct E2 as [-> _]. congruence.
Qed.

(** ** Formats *)
Variable Pk : ist -> Prop.
Lemma picks_fixed f all : o_format opt <> DefaultFormat -> picks env opt Pk f all -> o_format opt = fmt_of f.
Proof. intros NF [i [_ [_ [_ ->]]]]. unfold selfmt. destruct (o_format opt); auto. congruence. Qed.
Lemma fmt_of_inj f g : fmt_of f = fmt_of g -> f = g. Proof. destruct f, g; auto; discriminate. Qed.
Lemma picks_is f g all : o_format opt = fmt_of f -> picks env opt Pk g all -> g = f.
Proof. intros E P. apply fmt_of_inj. rewrite <- E. symmetry. eapply picks_fixed; eauto. rewrite E. destruct f; discriminate. Qed.
Lemma picks_nonempty f all : picks env opt Pk f all -> all <> [].
Proof. intros [i [<- [NB _]]] E. unfold i_all in E. apply app_eq_nil in E. destruct E. auto. Qed.
Notation StreamSeq := (StreamSeq env opt Pk).
Lemma seq_fixed f all ss rest : o_format opt = fmt_of f -> StreamSeq all ss rest -> Forall (fun s => sf s = f /\ RSt f (sb s) (sd s) (sh s)) ss.
Proof. intros E. induction 1; constructor; auto. assert (f0 = f) by (eapply picks_is; eauto). subst. split; auto. Qed.

(** The Reader follows any list of valid streams. *)
Definition Finds (l : list sinfo) (tail : list N) : Prop :=
  forall g l1 x l2, l = l1 ++ x :: l2 -> picks env opt Pk g (sb x ++ concat (map sb l2) ++ tail) -> g = sf x.
Lemma finds_fixed f l tail : o_format opt = fmt_of f -> Forall (fun s => sf s = f /\ RSt f (sb s) (sd s) (sh s)) l -> Finds l tail.
Proof.
  intros E H g l1 x l2 -> P. apply Forall_app in H. destruct H as [_ H]. inversion H as [|? ? [Q _] _]; subst. eapply picks_is; eauto.
Qed.
Lemma finds_tl x l tail : Finds (x :: l) tail -> Finds l tail.
Proof. intros H g l1 y l2 ->. exact (H g (x :: l1) y l2 eq_refl). Qed.
Lemma valid_each f l : Forall (fun s => sf s = f /\ RSt f (sb s) (sd s) (sh s)) l -> Forall (fun s => RSt (sf s) (sb s) (sd s) (sh s)) l.
Proof. apply Forall_impl. intros s [<- H]. exact H. Qed.
Lemma seq_follow_each l tail : Finds l tail -> Forall (fun s => RSt (sf s) (sb s) (sd s) (sh s)) l ->
  forall ss rest, StreamSeq (concat (map sb l) ++ tail) ss rest ->
  (exists x l2, l = ss ++ x :: l2 /\ rest = concat (map sb (x :: l2)) ++ tail) \/ exists ss2, ss = l ++ ss2 /\ StreamSeq tail ss2 rest.
Proof.
  intros EF H. revert EF. induction H as [|x l X2 Hl IH]; intros EF ss rest HS.
  - right. exists ss. auto.
  - cbn [map concat] in HS. rewrite <- app_assoc in HS. inversion HS as [all E1 E2 E3|f' b d h all ss' rest' P R S' E1 E2 E3].
    + left. exists x, l. cbn [app map concat]. rewrite <- app_assoc. auto.
    + rewrite E1 in P. assert (f' = sf x) by exact (EF f' [] x l eq_refl P). subst f'. specialize (IH (finds_tl EF)). destruct (RSt_inj Hlib R X2 E1) as [-> [-> ->]]. apply app_inv_head in E1. rewrite <- E1 in IH.
      assert (EX : SInfo (sf x) (sb x) (sd x) (sh x) = x) by (destruct x; cbn in *; subst; auto). rewrite EX.
      destruct (IH _ _ S') as [[y [l2 [-> ->]]]|[ss2 [-> S2]]]; [left; exists y, l2; split; auto; rewrite E1; auto|right; exists ss2; auto].
Qed.
Lemma seq_follow f l tail : o_format opt = fmt_of f -> Forall (fun s => sf s = f /\ RSt f (sb s) (sd s) (sh s)) l ->
  forall ss rest, StreamSeq (concat (map sb l) ++ tail) ss rest ->
  (exists x l2, l = ss ++ x :: l2 /\ rest = concat (map sb (x :: l2)) ++ tail) \/ exists ss2, ss = l ++ ss2 /\ StreamSeq tail ss2 rest.
Proof. intros E H. apply seq_follow_each; [eapply finds_fixed; eauto|eapply valid_each; eauto]. Qed.
End Acc.
