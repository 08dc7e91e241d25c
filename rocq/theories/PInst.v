(** Instances of the Writer invariant: which blocks the options allow. *)
From Verif Require Import Base SpecChecksum SpecEvents SpecHuffman SpecDeflate SpecFormats SpecSession MChecksum PChecksum MToken MCommon MWriter MReader SpecLib MSession
  PToken PHuffman PTree PBits PActs PBlocks PCompress PWriter PSession PInv PFormat PApi.

(** ** Blocks and positions, longer histories, weaker look-ups *)
Lemma Block_pos acc lk k pos h f w h' : Block acc lk (8 * k + pos) h f w h' <-> Block acc lk pos h f w h'.
Proof.
  assert (E : forall n, (8 * k + pos + 3 + n) mod 8 = (pos + 3 + n) mod 8).
  { intros n. replace (8 * k + pos + 3 + n) with (pos + 3 + n + k * 8) by lia. apply Nat.mod_add. lia. }
  split; intros H; inversion H; subst; try (econstructor; eauto; fail).
  - constructor; auto. rewrite <- E. auto.
  - constructor; auto. rewrite E. auto.
Qed.

Lemma copy_bytes_mono (lk lk' : list N -> N -> option N) r d :
  (forall h c, lk h d = Some c -> lk' (h ++ r) d = Some c) ->
  forall n h h', copy_bytes lk h d n = Some h' -> copy_bytes lk' (h ++ r) d n = Some (h' ++ r).
Proof.
  intros H. induction n as [|n IH]; intros h h'; cbn [copy_bytes]; [intros [= <-]; auto|].
  destruct (lk h d) as [c|] eqn:E; [|discriminate]. rewrite (H _ _ E). apply (IH (c :: h)).
Qed.
Lemma expand_mono (lk lk' : list N -> N -> option N) r :
  (forall d h c, lk h d = Some c -> lk' (h ++ r) d = Some c) ->
  forall ts h h', expand lk h ts = Some h' -> expand lk' (h ++ r) ts = Some (h' ++ r).
Proof.
  intros H. induction ts as [|[c|l d] ts IH]; intros h h'; cbn [expand]; [intros [= <-]; auto|apply (IH (c :: h))|].
  destruct (copy_bytes lk h d (N.to_nat l)) as [h1|] eqn:E; [|discriminate].
  rewrite (copy_bytes_mono (H d) E). apply IH.
Qed.
Lemma Block_mono acc (lk lk' : list N -> N -> option N) r :
  (forall d h c, lk h d = Some c -> lk' (h ++ r) d = Some c) ->
  forall pos h f w h', Block acc lk pos h f w h' -> Block acc lk' pos (h ++ r) f w (h' ++ r).
Proof.
  intros H pos h f w h' HB. inversion HB; subst.
  - rewrite <- app_assoc. constructor; auto.
  - econstructor; eauto. eapply expand_mono; eauto.
  - econstructor; eauto. eapply expand_mono; eauto.
Qed.
Lemma Block_impl acc (lk lk' : list N -> N -> option N) :
  (forall d h c, lk h d = Some c -> lk' h d = Some c) ->
  forall pos h f w h', Block acc lk pos h f w h' -> Block acc lk' pos h f w h'.
Proof.
  intros H pos h f w h' HB.
  assert (K := @Block_mono acc lk lk' [] (fun d h c E => eq_ind_r (fun x => lk' x d = Some c) (H d h c E) (app_nil_r h)) _ _ _ _ _ HB).
  rewrite !app_nil_r in K. exact K.
Qed.

Lemma Blocks_impl (B B' : blockpred) : (forall pos h f w h', B pos h f w h' -> B' pos h f w h') ->
  forall pos h w h', Blocks B pos h w h' -> Blocks B' pos h w h'.
Proof. intros H pos h w h'. induction 1; econstructor; eauto. Qed.
Lemma Raw_impl (B B' : blockpred) : (forall pos h f w h', B pos h f w h' -> B' pos h f w h') ->
  forall dict b d, RawStream B dict b d -> RawStream B' dict b d.
Proof.
  intros H dict b d [H0 [w [pad [H1 [H2 [w1 [h [w2 [H3 [H4 H5]]]]]]]]]]. split; auto. exists w, pad. split; auto. split; auto.
  exists w1, h, w2. split; [eapply Blocks_impl; eauto|]. split; auto.
Qed.

Lemma nth_error_app_some {A} (l r : list A) n x : nth_error l n = Some x -> nth_error (l ++ r) n = Some x.
Proof. intros H. rewrite nth_error_app1; auto. apply nth_error_Some. congruence. Qed.
Lemma strict_lk_mono win win' r d h c : (win <= win')%N -> strict_lk win h d = Some c -> strict_lk win' (h ++ r) d = Some c.
Proof.
  unfold strict_lk. intros Hw. destruct ((1 <=? d) && (d <=? win) && (d <=? lenN h))%N eqn:E; [|discriminate].
  intros H. rewrite lenN_app. replace ((1 <=? d) && (d <=? win') && (d <=? lenN h + lenN r))%N with true by lia.
  apply nth_error_app_some. auto.
Qed.
Lemma strict_mono win win' : (win <= win')%N ->
  forall pos h f w h', StrictBlock win pos h f w h' -> StrictBlock win' pos h f w h'.
Proof.
  intros H. apply Block_impl. intros d h c E. pose proof (@strict_lk_mono win win' [] d h c H E) as K. now rewrite app_nil_r in K.
Qed.

(** ** Effective options *)
Definition effective (opts : list opt) : options := populateWriterDefaults (opt_apply options_reset opts).
Definition opts_ok (opts : list opt) : Prop :=
  Forall (fun x => opt_valid x = true /\ match x with WithDictionary (Some d) => bytes_ok d | _ => True end) opts.

Definition pre_ok (o : options) : Prop :=
  (o_wbits o = 0 \/ 8 <= o_wbits o <= 15)%N /\ (o_mlevel o <= 9)%N /\ (-1 <= o_clevel o <= 9)%Z /\
  match o_dict o with Some d => bytes_ok d /\ d <> [] | None => True end.
Lemma pre_ok_apply opts : opts_ok opts -> forall o, pre_ok o -> pre_ok (opt_apply o opts).
Proof.
  unfold opt_apply. induction 1 as [|x l [H1 H2] Hl IH]; intros o Ho; cbn [fold_left]; auto.
  apply IH. destruct o as [f s c m w d t]. unfold pre_ok in *.
  cbn [o_wbits o_mlevel o_clevel o_dict] in *. destruct Ho as [A [B [C D]]].
  destruct x as [f'| |s'|c'|m'|w'|d'|n']; cbn [opt_apply1 opt_valid o_wbits o_mlevel o_clevel o_dict] in *; repeat split; auto; try lia.
  destruct d' as [[|y d']|]; try discriminate; auto. split; auto. discriminate.
Qed.
Lemma pre_ok_defaults o : pre_ok o -> wopt_ok (populateWriterDefaults o).
Proof.
  destruct o as [f s c m w d t]. intros [A [B [C D]]]. cbn [o_wbits o_mlevel o_clevel o_dict] in *.
  unfold populateWriterDefaults, populateReaderDefaults. constructor; cbn [o_format o_wbits o_mlevel o_clevel o_dict]; auto.
  - destruct f; discriminate.
  - destruct (N.eqb_spec w 0); lia.
  - destruct (N.eqb_spec m 0); lia.
  - destruct (Z.eqb_spec c (-1)); lia.
Qed.
Lemma effective_ok opts : opts_ok opts -> wopt_ok (effective opts).
Proof.
  intros H. apply pre_ok_defaults. apply pre_ok_apply; auto. unfold pre_ok, options_reset; cbn. repeat split; auto; lia.
Qed.

(** ** The match finder under each strategy *)
Lemma pow_wbits o : wopt_ok o -> (256 <= 2 ^ o_wbits o <= 32768)%N.
Proof.
  intros H. change 256%N with (2 ^ 8)%N. change 32768%N with (2 ^ 15)%N.
  split; apply N.pow_le_mono_r; try discriminate; apply (wo_wbits H).
Qed.

Definition noneb (_ : list N) (_ : N) : option N := None.
Definition rle_lk (hist : list N) (d : N) : option N := if (d =? 1)%N then hd_error hist else None.

Section Match.
Variable env : wenv.
Hypothesis Hlz : lz_contract env.
Variable opt : options.
Hypothesis Hopt : wopt_ok opt.

Lemma match_strict : match_ok env (hybridOptions opt) (strict_lk (2 ^ o_wbits opt)).
Proof.
  intros calls hist buf d len E. destruct (Hlz E) as [H1 [H2 [H3 [H4 H5]]]].
  pose proof (pow_wbits Hopt) as HW.
  assert (K : (3 <= len <= 258)%N /\ (1 <= d <= 2 ^ o_wbits opt)%N).
  { unfold hybridOptions in H1, H3, H4. destruct (o_strategy opt); cbn [lz_minlen lz_maxlen lz_winbits lz_maxdist] in *; lia. }
  destruct K as [K1 K2]. split; auto. split; auto. split; [lia|].
  intros i Hi. specialize (H5 i Hi). unfold strict_lk.
  assert (Hb : i < length buf) by (unfold lenN in H2; lia).
  destruct (nth_error buf i) eqn:E2; [|apply nth_error_None in E2; lia].
  assert (Hl : (N.to_nat (d - 1) < length (rev (firstn i buf) ++ hist))) by (apply nth_error_Some; congruence).
  replace ((1 <=? d) && (d <=? 2 ^ o_wbits opt) && (d <=? lenN (rev (firstn i buf) ++ hist)))%N with true; auto.
  unfold lenN. lia.
Qed.

Lemma match_none : o_strategy opt = HuffmanOnlyStrategy -> match_ok env (hybridOptions opt) noneb.
Proof.
  intros HS calls hist buf d len E. destruct (Hlz E) as [H1 [H2 [H3 [H4 H5]]]]. unfold hybridOptions in *. rewrite HS in *.
  cbn [lz_maxdist] in H4. lia.
Qed.
Lemma match_rle : o_strategy opt = HuffmanRLEStrategy -> match_ok env (hybridOptions opt) rle_lk.
Proof.
  intros HS calls hist buf d len E. destruct (Hlz E) as [H1 [H2 [H3 [H4 H5]]]].
  unfold hybridOptions in *. rewrite HS in *. cbn [lz_maxdist lz_minlen lz_maxlen] in *.
  assert (d = 1%N) by lia. subst d. split; [lia|]. split; [exact H2|]. split; [lia|].
  intros i Hi. specialize (H5 i Hi). unfold rle_lk. rewrite N.eqb_refl. rewrite <- H5. change (N.to_nat (1 - 1)) with 0. destruct (rev (firstn i buf) ++ hist); reflexivity.
Qed.
End Match.

(** ** The three notions of block satisfy what the invariant needs *)
Lemma block_stored_ok acc lk : forall pos hist fin data, (lenN data <= 65535)%N -> bytes_ok data ->
  Block acc lk pos hist fin (acts_bits pos (stored_acts data fin)) (rev data ++ hist).
Proof. intros. apply stored_block; auto. Qed.
Lemma block_empty_ok acc lk : forall pos hist, Block acc lk pos hist false (acts_bits pos (static_acts [makeStopToken] false)) hist.
Proof. intros. apply (@static_block acc lk pos hist hist [] false); auto. Qed.

Definition lk_mono (lk : list N -> N -> option N) : Prop := forall r d h c, lk h d = Some c -> lk (h ++ r) d = Some c.
Lemma strict_lk_mono1 win : lk_mono (strict_lk win).
Proof. intros r d h c. apply strict_lk_mono. lia. Qed.
Lemma none_mono : lk_mono noneb.
Proof. intros r d h c. discriminate. Qed.
Lemma rle_mono : lk_mono rle_lk.
Proof. intros r d h c. unfold rle_lk. destruct (d =? 1)%N; [|discriminate]. destruct h; [discriminate|auto]. Qed.

(** stored-only: *)
Lemma stored_only_ok : forall pos hist fin data, (lenN data <= 65535)%N -> bytes_ok data ->
  StoredOnlyBlock pos hist fin (acts_bits pos (stored_acts data fin)) (rev data ++ hist).
Proof.
  intros pos hist fin data H1 H2. pose proof (@stored_block (fun _ => True) noneb pos hist data fin H2 H1) as H.
  remember (acts_bits pos (stored_acts data fin)) as w eqn:EW. remember (rev data ++ hist) as h' eqn:EH.
  destruct H as [pad data' P1 P2 P3 P4|ts w h'' P1 P2|ll d ts wt w h'' P1 P2 P3].
  - left. exists pad, data. apply app_inv_tail in EH. apply (f_equal (@rev N)) in EH. rewrite !rev_involutive in EH. subst data'.
    repeat (split; [assumption|]). auto.
  - exfalso. unfold stored_acts in EW. cbn [acts_bits act_bits app] in EW. destruct fin; discriminate.
  - exfalso. unfold stored_acts in EW. cbn [acts_bits act_bits app] in EW. destruct fin; discriminate.
Qed.
Lemma stored_only_empty : forall pos hist, StoredOnlyBlock pos hist false (acts_bits pos (static_acts [makeStopToken] false)) hist.
Proof. intros. right. split; auto. Qed.
Lemma stored_only_mono : forall pos h fin w h' r, StoredOnlyBlock pos h fin w h' -> StoredOnlyBlock pos (h ++ r) fin w (h' ++ r).
Proof.
  intros pos h fin w h' r [[pad [data [P1 [P2 [P3 [P4 [P5 P6]]]]]]]|[P1 P2]]; [left|right].
  - exists pad, data. subst h'. rewrite <- app_assoc. repeat (split; [assumption|]). auto.
  - subst. auto.
Qed.
Lemma stored_only_pos : forall k pos h f w h', StoredOnlyBlock (8 * k + pos) h f w h' <-> StoredOnlyBlock pos h f w h'.
Proof.
  intros k pos h f w h'.
  assert (E : forall n, (8 * k + pos + 3 + n) mod 8 = (pos + 3 + n) mod 8).
  { intros n. replace (8 * k + pos + 3 + n) with (pos + 3 + n + k * 8) by lia. apply Nat.mod_add. lia. }
  unfold StoredOnlyBlock. split; (intros [[pad [data [P1 [P2 [P3 [P4 [P5 P6]]]]]]]|P]; [left|right; auto]); exists pad, data;
    rewrite E in *; repeat (split; [assumption|]); assumption.
Qed.

(** ** Putting it together: a package of (B, lk) good for the options. *)
Record inst (env : wenv) (opt : options) (pf : Prop) (B : blockpred) (lk : list N -> N -> option N) : Prop := Inst {
  in_stored : forall pos hist fin data, (lenN data <= 65535)%N -> bytes_ok data ->
    B pos hist fin (acts_bits pos (stored_acts data fin)) (rev data ++ hist);
  in_empty : pf -> forall pos hist, B pos hist false (acts_bits pos (static_acts [makeStopToken] false)) hist;
  in_tok : isStoreConfig (compressConfig opt) = false -> forall pos hist fin w hist',
    Block proper_code lk pos hist fin w hist' -> zero_padded pos w -> B pos hist fin w hist';
  in_mono : forall pos h fin w h' r, B pos h fin w h' -> B pos (h ++ r) fin w (h' ++ r);
  in_match : isStoreConfig (compressConfig opt) = false -> match_ok env (hybridOptions opt) lk;
  in_pos : forall k pos h f w h', B (8 * k + pos) h f w h' <-> B pos h f w h' }.

Lemma inst_block env opt lk : lk_mono lk -> match_ok env (hybridOptions opt) lk -> inst env opt True (Block proper_code lk) lk.
Proof.
  intros Hm Hk. constructor; auto.
  - apply block_stored_ok.
  - intros _. apply block_empty_ok.
  - intros pos h fin w h' r. apply Block_mono. intros d x c. apply Hm.
  - apply Block_pos.
Qed.
Lemma inst_strict env opt : lz_contract env -> wopt_ok opt -> inst env opt True (StrictBlock (2 ^ o_wbits opt)) (strict_lk (2 ^ o_wbits opt)).
Proof. intros. apply inst_block; [apply strict_lk_mono1|apply match_strict; auto]. Qed.
Lemma inst_none env opt : lz_contract env -> wopt_ok opt -> o_strategy opt = HuffmanOnlyStrategy -> inst env opt True NoCopyBlock noneb.
Proof. intros. apply inst_block; [apply none_mono|apply match_none; auto]. Qed.
Lemma inst_rle env opt : lz_contract env -> wopt_ok opt -> o_strategy opt = HuffmanRLEStrategy -> inst env opt True RleBlock rle_lk.
Proof. intros. apply inst_block; [apply rle_mono|apply match_rle; auto]. Qed.
Lemma inst_store env opt : o_clevel opt = 0%Z -> inst env opt True StoredOnlyBlock noneb.
Proof.
  intros H. assert (E : isStoreConfig (compressConfig opt) = true) by (unfold compressConfig; rewrite H; reflexivity).
  constructor; try (rewrite E; discriminate).
  - apply stored_only_ok.
  - intros _. apply stored_only_empty.
  - apply stored_only_mono.
  - apply stored_only_pos.
Qed.

(** Strict blocks with zero padding. *)
Lemma zero_padded_pos k pos w : zero_padded (8 * k + pos) w <-> zero_padded pos w.
Proof.
  unfold zero_padded. replace (8 * k + pos + 3) with (pos + 3 + k * 8) by lia. rewrite Nat.mod_add by lia. tauto.
Qed.
Lemma inst_clean env opt : lz_contract env -> wopt_ok opt -> inst env opt True (CleanBlock (2 ^ o_wbits opt)) (strict_lk (2 ^ o_wbits opt)).
Proof.
  intros HL Ho. pose proof (inst_strict HL Ho) as I1. constructor.
  - intros. split; [apply (in_stored I1); auto|apply stored_padded].
  - intros _ pos hist. split; [apply (in_empty I1); auto|apply static_padded].
  - intros E pos hist fin w hist' H1 H2. split; auto.
  - intros pos h fin w h' r [H1 H2]. split; auto. apply (in_mono I1); auto.
  - apply (in_match I1).
  - intros k pos h f w h'. unfold CleanBlock. rewrite zero_padded_pos. split; intros [H1 H2]; split; auto; apply (in_pos I1 k); auto.
Qed.
(** Stored blocks only, when PartialFlush is not used. *)
Lemma stored_left pos h f w h' : StoredBlockOnly pos h f w h' <-> StoredOnlyBlock pos h f w h' /\ nth 1 w false = false.
Proof.
  split.
  - intros H. split; [left; exact H|]. destruct H as [pad [data [_ [_ [_ [_ [-> _]]]]]]]. reflexivity.
  - intros [[H|[-> _]] E]; [exact H|discriminate].
Qed.
Lemma inst_pure env opt : o_clevel opt = 0%Z -> inst env opt False StoredBlockOnly noneb.
Proof.
  intros H. assert (E : isStoreConfig (compressConfig opt) = true) by (unfold compressConfig; rewrite H; reflexivity).
  constructor; try (rewrite E; discriminate).
  - intros pos hist fin data H1 H2. apply stored_left. split; [apply stored_only_ok; auto|].
    unfold stored_acts. cbn [acts_bits act_bits app length]. destruct fin; reflexivity.
  - contradiction.
  - intros pos h fin w h' r H1. apply stored_left in H1. destruct H1. apply stored_left. split; auto. apply stored_only_mono. auto.
  - intros k pos h f w h'. rewrite !stored_left. rewrite stored_only_pos. tauto.
Qed.

(** ** A new Writer *)
Lemma header0_ok : header_ok header0.
Proof. split; [|reflexivity]. repeat split; constructor. Qed.

Lemma sess_new env opts B : (bytesPerBlock env = 4 \/ bytesPerBlock env = 8) -> opts_ok opts -> sess env (effective opts) B 0 0 [] a_init (newWriter opts).
Proof.
  intros HB H. pose proof (effective_ok H) as Hw. exists []. split; [constructor|]. left.
  split; auto. split; auto. split; auto. exists header0. split; [left; auto|].
  constructor.
  - constructor; try reflexivity.
    + constructor.
    + cbn. apply N.le_0_l.
    + apply header0_ok.
    + split; [reflexivity|]. split; [reflexivity|]. split; [unfold bitsPerBlock; cbn; lia|]. split; [constructor|reflexivity].
    + split; reflexivity.
  - reflexivity.
  - reflexivity.
  - reflexivity.
  - exists []. split; auto. split; [constructor|]. split; [constructor|]. split; [reflexivity|]. split; [reflexivity|]. apply el_nil.
  - intros K. exfalso. apply K. reflexivity.
Qed.
