(** A header set while a stream is open does not influence that stream: used for C90. *)
From Verif Require Import Base SpecHuffman MChecksum MToken MCommon MWriter SpecEvents MCalls PWSim PWFrame.

Section Held.
Variable env : wenv.
Notation bw := (bw_writer env).

(** Two Writers that differ in the header at most, both in state [v]. *)
Record R (v : writerstate) (w1 w2 : writer) : Prop := Rc {
  r_opt : w_opt w1 = w_opt w2; r_cfg : w_cfg w1 = w_cfg w2; r_lz : w_lz w1 = w_lz w2; r_in : w_in w1 = w_in w2; r_out : w_out w1 = w_out w2;
  r_num : w_num w1 = w_num w2; r_fl : w_flushes w1 = w_flushes w2; r_sy : w_syncs w1 = w_syncs w2; r_ev : w_events w1 = w_events w2; r_st : wstate (w_out w1) = v }.
Lemma R_refl v w : wstate (w_out w) = v -> R v w w.
Proof. intros. constructor; auto. Qed.
Ltac rr := match goal with H : R ?v ?a ?b |- _ => destruct H as [? ? ? ? ? ? ? ? ? ?]; destruct a, b; cbn in *; subst; constructor; cbn; auto end.
Lemma r_setout v u w1 w2 o : wstate o = u -> R v w1 w2 -> R u (set_out w1 o) (set_out w2 o). Proof. intros. rr. Qed.
Lemma r_setlz v w1 w2 o : R v w1 w2 -> R v (set_lz w1 o) (set_lz w2 o). Proof. intros. rr. Qed.
Lemma r_setin v w1 w2 o : R v w1 w2 -> R v (set_in w1 o) (set_in w2 o). Proof. intros. rr. Qed.
Lemma r_sethdr v w1 w2 a b : R v w1 w2 -> R v (set_hdr w1 a) (set_hdr w2 b). Proof. intros. rr. Qed.
Lemma r_event v w1 w2 a : R v w1 w2 -> R v (sendEvent w1 a) (sendEvent w2 a). Proof. intros. rr. Qed.
Lemma r_state v w1 w2 s : R v w1 w2 -> R s (w_setstate w1 s) (w_setstate w2 s).
Proof. intros. unfold w_setstate. rewrite (r_out H). eapply r_setout; eauto. destruct (w_out w2); reflexivity. Qed.
Lemma r_fail v w1 w2 s : R v w1 w2 -> R errorState (w_fail w1 s) (w_fail w2 s).
Proof. intros. unfold w_fail. rewrite (r_out H). eapply r_setout; eauto. destruct (w_out w2); reflexivity. Qed.
Lemma r_calls v w1 w2 a b : R v w1 w2 -> R v (set_calls w1 a b) (set_calls w2 a b). Proof. intros. rr. Qed.

(** The output side changes the state only when it fails. *)
Section Out.
Variable v : writerstate.
Definition OC (o : wout) : Prop := wstate o = v.
Definition OE (o : wout) : Prop := wstate o = errorState.
Lemma oc_bufFlush o : OC o -> if snd (outputBufferFlush env o) then OC (fst (outputBufferFlush env o)) else OE (fst (outputBufferFlush env o)).
Proof. destruct o. unfold outputBufferFlush. destruct (e_sink _ _ _) as [[? ?]|]; cbn; auto. reflexivity. Qed.
Lemma oc_loop cap : forall f o p, OC o -> ho OC OE (outputBufferLoop env f cap o p).
Proof.
  induction f as [|f IH]; intros o p H; destruct p as [|x p]; try exact H; [exact I|]. cbn [outputBufferLoop]. cbv zeta.
  match goal with |- context [N.to_nat ?q] => generalize (N.to_nat q) end. intros nn.
  match goal with |- context [outputBufferFlush env ?q] => assert (K := @oc_bufFlush q); destruct (outputBufferFlush env q) as [o2 [|]] end.
  - apply IH. apply K. destruct o; exact H.
  - apply K. destruct o; exact H.
Qed.
Lemma oc_bitsFlush cap o : OC o -> ho OC OE (o_bitsFlush env cap o).
Proof. intros H. unfold o_bitsFlush. destruct (Nat.eqb _ _); [exact H|]. apply oc_loop. destruct o; exact H. Qed.
Lemma oc_bufferWrite cap o p : OC o -> ho OC OE (o_bufferWrite env cap o p).
Proof. intros H. unfold o_bufferWrite. eapply ho_bind; [apply oc_bitsFlush; exact H|]. intros. apply oc_loop; auto. Qed.
Lemma oc_bitsLoop cap : forall f o n x, OC o -> ho OC OE (o_bitsLoop env f cap o n x).
Proof.
  induction f as [|f IH]; intros o n x H; destruct n as [|n]; try exact H; [exact I|]. cbn [o_bitsLoop]. cbv zeta.
  match goal with |- context [set_ob o ?q ?r] => assert (K : OC (set_ob o q r)) by (destruct o; exact H); revert K; generalize (set_ob o q r) end.
  intros o1 H1. destruct (Nat.eqb _ _); [|apply IH; exact H1]. eapply ho_bind; [apply oc_bitsFlush; exact H1|]. intros. apply IH; auto.
Qed.
Lemma oc_bitsWrite cap o n x : OC o -> ho OC OE (o_bitsWrite env cap o n x).
Proof. intros H. unfold o_bitsWrite. apply ho_assert, ho_assert, oc_bitsLoop, H. Qed.
End Out.

Section St.
Variable v : writerstate.
Notation RR := (rel (R v) (R errorState)).
Lemma r_on f w1 w2 : (forall o, OC v o -> ho (OC v) OE (f o)) -> R v w1 w2 -> RR (on_out f w1) (on_out f w2).
Proof.
  intros HF H. unfold on_out. assert (K := HF (w_out w1) (r_st H)). rewrite (r_out H) in *.
  destruct (f (w_out w2)) as [[o []]| |]; cbn [rbind rel ho] in *; auto; eapply r_setout; eauto.
Qed.
Lemma r_bits n x w1 w2 : R v w1 w2 -> RR (w_bitsWrite env w1 n x) (w_bitsWrite env w2 n x).
Proof. intros H. unfold w_bitsWrite. rewrite (r_opt H). apply r_on; auto. intros. apply oc_bitsWrite; auto. Qed.
Lemma r_flush w1 w2 : R v w1 w2 -> RR (w_bitsFlush env w1) (w_bitsFlush env w2).
Proof. intros H. unfold w_bitsFlush. rewrite (r_opt H). apply r_on; auto. intros. apply oc_bitsFlush; auto. Qed.
Lemma r_buf p w1 w2 : R v w1 w2 -> RR (w_bufferWrite env w1 p) (w_bufferWrite env w2 p).
Proof. intros H. unfold w_bufferWrite. rewrite (r_opt H). apply r_on; auto. intros. apply oc_bufferWrite; auto. Qed.
Lemma r_stored data fin w1 w2 : R v w1 w2 -> RR (writeStoredBlock bw w1 data fin) (writeStoredBlock bw w2 data fin).
Proof.
  intros H. unfold writeStoredBlock. apply rel_assert. cbv zeta. cbn [bw_writer bw_bitsWrite bw_bitsFlush bw_writeU16le bw_bufferWrite bw_event].
  eapply rel_bind; [apply r_bits, r_event; eauto|]. intros x1 y1 H1. eapply rel_bind; [apply r_flush; eauto|]. intros x2 y2 H2.
  eapply rel_bind; [apply r_buf; eauto|]. intros x3 y3 H3. eapply rel_bind; [apply r_buf; eauto|]. intros x4 y4 H4.
  eapply rel_bind; [apply r_buf; eauto|]. intros x5 y5 H5. apply r_event; auto.
Qed.
Lemma r_optb (b : bool) n x w1 w2 : R v w1 w2 -> RR (if b then Ok (w1, true) else w_bitsWrite env w1 n x) (if b then Ok (w2, true) else w_bitsWrite env w2 n x).
Proof. intros H. destruct b; [exact H|apply r_bits; auto]. Qed.
Lemma r_lld ll d t w1 w2 : R v w1 w2 -> RR (encodeLLD bw ll d t w1) (encodeLLD bw ll d t w2).
Proof.
  intros H. unfold encodeLLD, bw_writeHC. cbn [bw_writer bw_bitsWrite]. apply rel_let. intros [[sl nl] xl]. apply rel_let. intros [[sd nd] xd]. destruct sl as [sl|]; [|exact H].
  eapply rel_bind; [apply r_bits; eauto|]. intros x1 y1 H1. eapply rel_bind; [apply r_optb; eauto|]. intros x2 y2 H2. destruct sd as [sd|]; [|exact H2].
  eapply rel_bind; [apply r_bits; eauto|]. intros x3 y3 H3. eapply rel_bind; [apply r_optb; eauto|]. intros x4 y4 H4. exact H4.
Qed.
Lemma r_x hx t w1 w2 : R v w1 w2 -> RR (encodeX bw hx t w1) (encodeX bw hx t w2).
Proof.
  intros H. unfold encodeX, bw_writeHC. cbn [bw_writer bw_bitsWrite]. destruct (symbolX t) as [[sx nx] xx]. destruct sx as [sx|]; [|exact H].
  eapply rel_bind; [apply r_bits; eauto|]. intros x1 y1 H1. eapply rel_bind; [apply r_optb; eauto|]. intros x2 y2 H2. exact H2.
Qed.
Lemma r_static tokens fin w1 w2 : R v w1 w2 -> RR (writeStaticBlock bw w1 tokens fin) (writeStaticBlock bw w2 tokens fin).
Proof.
  intros H. unfold writeStaticBlock. apply rel_assert. cbv zeta. cbn [bw_writer bw_bitsWrite bw_event]. eapply rel_bind; [apply r_bits, r_event; eauto|]. intros x1 y1 H1.
  eapply rel_bind; [apply rel_for; [intros; apply r_lld; eauto|apply r_event; eauto]|]. intros x2 y2 H2. apply r_event; auto.
Qed.
Lemma r_dynamic ll d tokens fin w1 w2 : R v w1 w2 -> RR (writeDynamicBlock env bw w1 ll d tokens fin) (writeDynamicBlock env bw w2 ll d tokens fin).
Proof.
  intros H. unfold writeDynamicBlock. apply rel_assert. cbv zeta. cbn [bw_writer bw_bitsWrite bw_event]. eapply rel_bind; [apply r_bits, r_event; eauto|]. intros x1 y1 H1.
  apply rel_let. intros [xt1 nll]. apply rel_let. intros [xt nd]. apply rel_let. intros fx.
  eapply rel_bind; [apply r_bits; eauto|]. intros x2 y2 H2. eapply rel_bind; [apply r_bits; eauto|]. intros x3 y3 H3.
  eapply rel_bind; [apply r_bits; eauto|]. intros x4 y4 H4.
  eapply rel_bind; [apply rel_for; [intros; apply r_bits; eauto|eauto]|]. intros x5 y5 H5.
  eapply rel_bind; [apply rel_for; [intros; apply r_x; eauto|eauto]|]. intros x6 y6 H6.
  eapply rel_bind; [apply rel_for; [intros; apply r_lld; eauto|apply r_event; eauto]|]. intros x7 y7 H7. apply r_event; auto.
Qed.
Lemma r_tokens data tokens fin w1 w2 : R v w1 w2 -> RR (compressTokens env bw w1 data tokens fin) (compressTokens env bw w2 data tokens fin).
Proof.
  intros H. unfold compressTokens. apply rel_let. intros [fll fd]. cbv zeta. apply rel_let. intros [dc b1]. apply rel_let. intros [sc b2].
  apply rel_if; [apply r_stored; auto|]. apply rel_if; [apply r_static; auto|apply r_dynamic; auto].
Qed.
Lemma r_storeLoop fuel : forall w1 w2, R v w1 w2 -> RR (compressStoreLoop env fuel w1) (compressStoreLoop env fuel w2).
Proof.
  induction fuel as [|f IH]; intros w1 w2 H; cbn [compressStoreLoop]; rewrite (r_lz H); destruct (lz_buf (w_lz w2)) eqn:E; try exact H; [exact I|].
  unfold inputBufferRead, lz_take. rewrite (r_lz H). set (l' := LZ _ _ _ _). set (p := firstn _ _).
  rewrite (r_in H).
  eapply rel_bind; [apply r_stored, r_setin, r_setlz; auto|]. intros x y HH. apply IH; auto.
Qed.
Lemma r_slowLoop fuel : forall w1 w2, R v w1 w2 ->
  match compressSlowLoop env fuel w1, compressSlowLoop env fuel w2 with
  | Ok (x, d, t), Ok (y, d', t') => R v x y /\ d = d' /\ t = t' | Panic p, Panic q => p = q | NoFuel, NoFuel => True | _, _ => False end.
Proof.
  induction fuel as [|f IH]; intros w1 w2 H; cbn [compressSlowLoop]; rewrite (r_lz H); destruct (lz_buf (w_lz w2)) eqn:E; try (cbn; auto; fail).
  unfold inputBufferAdvance, lz_take. cbv zeta. rewrite (r_lz H).
  set (m := e_match env _ _ _ _). set (l' := LZ _ _ _ _). set (p := firstn _ _).
  rewrite (r_in H).
  set (i := sum_bytes _ _). assert (HH : R v (set_in (set_lz w1 l') i) (set_in (set_lz w2 l') i)) by (apply r_setin, r_setlz; auto).
  specialize (IH _ _ HH). set (x := set_in (set_lz w1 l') i) in *. set (y := set_in (set_lz w2 l') i) in *. clearbody x y.
  destruct m as [[dd len]|].
  - unfold assertb. destruct (3 <=? len)%N; [|reflexivity]. destruct (1 <=? dd)%N; [|reflexivity]. destruct (makeCopyToken _ _); cbn [rbind]; auto.
    destruct (compressSlowLoop env f x) as [[[? ?] ?]| |], (compressSlowLoop env f y) as [[[? ?] ?]| |]; cbn [rbind]; try contradiction; auto.
    destruct IH as [? [-> ->]]. auto.
  - destruct p; [reflexivity|].
    destruct (compressSlowLoop env f x) as [[[? ?] ?]| |], (compressSlowLoop env f y) as [[[? ?] ?]| |]; cbn [rbind]; try contradiction; auto.
    destruct IH as [? [-> ->]]. auto.
Qed.
Lemma r_store all w1 w2 : R v w1 w2 -> RR (compressStore env w1 all) (compressStore env w2 all).
Proof. intros H. unfold compressStore. rewrite (r_lz H). destruct (_ && _)%bool; [exact H|apply r_storeLoop; auto]. Qed.
Lemma r_slow all w1 w2 : R v w1 w2 -> RR (compressSlow env w1 all) (compressSlow env w2 all).
Proof.
  intros H. unfold compressSlow. rewrite (r_lz H). destruct (_ && _)%bool; [exact H|]. pose proof (r_slowLoop (length (lz_buf (w_lz w2))) H) as L.
  destruct (compressSlowLoop env _ w1) as [[[? ?] ?]| |], (compressSlowLoop env _ w2) as [[[? ?] ?]| |]; cbn [rbind]; try contradiction; auto.
  destruct L as [? [-> ->]]. apply r_tokens; auto.
Qed.
End St.
Lemma r_footer v w1 w2 : R v w1 w2 -> rel (R v) (R errorState) (writeFooter env w1) (writeFooter env w2).
Proof.
  intros H. unfold writeFooter. eapply rel_bind; [apply r_flush; eauto|]. intros x y HH. cbv zeta. rewrite (r_in HH).
  pose proof (r_event (ev_footer (inAdler (w_in y)) (inCRC (w_in y))) HH) as HX. set (a := sendEvent x _) in *. set (b := sendEvent y _) in *. clearbody a b.
  rewrite (r_opt HX). eapply rel_bind with (R := R v).
  - destruct (o_format (w_opt b)); [reflexivity|exact HX|apply r_buf; auto|]. unfold writeFooterGZIP.
    pose proof (r_buf (le32 (inCRC (w_in y))) HX) as K. destruct (w_bufferWrite env a _) as [[p ok]| |], (w_bufferWrite env b _) as [[q ok']| |]; cbn [rel rbind] in *; try contradiction; try (destruct ok; contradiction); auto.
    destruct ok, ok'; try contradiction; rewrite ?(r_in K);
    pose proof (r_buf (le32 (inStream (w_in q) mod two32)) K) as K2; destruct (w_bufferWrite env p _) as [[p2 ok2]| |], (w_bufferWrite env q _) as [[q2 ok2']| |]; cbn [rel rbind] in *; try contradiction; try (destruct ok2; contradiction); auto;
    destruct ok2, ok2'; try contradiction; cbn [andb rel]; auto.
  - intros. cbn [rel]. apply r_event; auto.
Qed.
Notation OP := openStream.
Notation EE := errorState.
Lemma R_state v w1 w2 : R v w1 w2 -> w_state w1 = w_state w2.
Proof. intros H. unfold w_state. rewrite (r_out H). reflexivity. Qed.
Lemma R_is v w1 w2 : R v w1 w2 -> w_state w2 = v.
Proof. intros H. rewrite <- (R_state H). exact (r_st H). Qed.
Lemma r_compress all w1 w2 : R OP w1 w2 -> rel (R OP) (R EE) (compressImpl env w1 all) (compressImpl env w2 all).
Proof.
  intros H. unfold compressImpl. rewrite (r_lz H). destruct (lz_buf (w_lz w2)); [exact H|]. rewrite (R_state H), (R_is H). cbn [rbind].
  rewrite (R_state H), (R_is H). cbn [rbind]. rewrite (r_cfg H). apply rel_if; [apply r_store; auto|apply r_slow; auto].
Qed.

Definition after (ft : flushtype) : writerstate := if is_finish ft then closingStream else OP.
Lemma r_guts ft w1 w2 : R OP w1 w2 -> rel (R (after ft)) (R EE) (flushGuts env w1 ft) (flushGuts env w2 ft).
Proof.
  intros H. unfold flushGuts. destruct ft; cbn [after is_finish]; try exact H.
  - apply r_static; auto.
  - apply r_stored; auto.
  - eapply rel_bind; [apply r_stored; eauto|]. intros x y HX. cbn [rel]. rewrite (r_lz HX). apply r_setlz; auto.
  - eapply rel_bind; [apply r_stored; eauto|]. intros x y HX. cbn [rel]. rewrite (r_lz HX). eapply r_state, r_setlz; eauto.
Qed.
Definition ends (ft : flushtype) : writerstate := if is_finish ft then closedStream else OP.
Lemma r_flushImpl ft w1 w2 : R OP w1 w2 -> rel (R (ends ft)) (R EE) (flushImpl env w1 ft) (flushImpl env w2 ft).
Proof.
  intros H. unfold flushImpl. eapply rel_bind; [apply r_compress; eauto|]. intros x1 y1 H1. eapply rel_bind with (R := R OP).
  { destruct (is_finish ft); [|exact H1]. rewrite (R_state H1), (R_is H1). exact H1. }
  intros x2 y2 H2. rewrite (R_state H2), (R_is H2). eapply rel_bind; [apply r_guts; eauto|].
  intros x3 y3 H3. rewrite (R_state H3), (R_is H3). eapply rel_bind with (R := R (ends ft)).
  { unfold after, ends in *. destruct (is_finish ft); [|exact H3]. eapply rel_bind; [eapply r_footer; eauto|]. intros. cbn [rel]. eapply r_state; eauto. }
  intros x4 y4 H4. cbv zeta. rewrite (r_fl H4), (r_sy H4).
  pose proof (r_calls (S (w_flushes y4)) (w_syncs y4) H4) as H5. destruct (e_flushw env _); [cbn [rel]; eapply r_fail; eauto|].
  set (a := set_calls x4 _ _) in *. set (b := set_calls y4 _ _) in *. clearbody a b. rewrite (r_fl H5), (r_sy H5). pose proof (r_calls (w_flushes b) (S (w_syncs b)) H5) as H6.
  destruct (e_syncw env _) as [[]|]; cbn [rel]; auto; eapply r_fail; eauto.
Qed.
Lemma r_writeLoop fuel : forall buf w1 w2, R OP w1 w2 -> rel (R OP) (R EE) (writeLoop env fuel w1 buf) (writeLoop env fuel w2 buf).
Proof.
  induction fuel as [|f IH]; intros buf w1 w2 H; cbn [writeLoop]; destruct buf as [|b buf]; try exact H; [exact I|]. rewrite (r_lz H).
  destruct (lz_write (w_lz w2) (b :: buf)) as [[l nn] full]. cbv zeta. eapply rel_bind; [apply r_compress, r_setlz; auto|]. intros x y HX. apply IH; auto.
Qed.
End Held.
