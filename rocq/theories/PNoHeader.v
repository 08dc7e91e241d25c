(** The header set with SetHeader, and the detected data type, do not influence
    the bytes of raw DEFLATE and zlib output: used for C71 and C72. *)
From Verif Require Import Base SpecHuffman MChecksum MToken MCommon MWriter SpecEvents SpecSession MSession PWSim.

Section NoHeader.
Variable env : wenv.
Notation bw := (bw_writer env).

Record R (w1 w2 : writer) : Prop := Rc {
  r_opt : w_opt w1 = w_opt w2; r_cfg : w_cfg w1 = w_cfg w2; r_lz : w_lz w1 = w_lz w2; r_in : w_in w1 = w_in w2; r_out : w_out w1 = w_out w2;
  r_fl : w_flushes w1 = w_flushes w2; r_sy : w_syncs w1 = w_syncs w2; r_fmt : o_format (w_opt w1) <> GZIPFormat }.
Lemma R_refl w : o_format (w_opt w) <> GZIPFormat -> R w w.
Proof. intros. constructor; auto. Qed.
Ltac rr := match goal with H : R ?a ?b |- _ => destruct H as [? ? ? ? ? ? ? ?]; destruct a, b; cbn in *; subst; constructor; cbn; auto end.
Lemma r_setout w1 w2 o : R w1 w2 -> R (set_out w1 o) (set_out w2 o). Proof. intros. rr. Qed.
Lemma r_setlz w1 w2 o : R w1 w2 -> R (set_lz w1 o) (set_lz w2 o). Proof. intros. rr. Qed.
Lemma r_setin w1 w2 o : R w1 w2 -> R (set_in w1 o) (set_in w2 o). Proof. intros. rr. Qed.
Lemma r_setnum w1 w2 a b : R w1 w2 -> R (set_num w1 a) (set_num w2 b). Proof. intros. rr. Qed.
Lemma r_sethdr w1 w2 a b : R w1 w2 -> R (set_hdr w1 a) (set_hdr w2 b). Proof. intros. rr. Qed.
Lemma r_event w1 w2 a b : R w1 w2 -> R (sendEvent w1 a) (sendEvent w2 b). Proof. intros. rr. Qed.
Lemma r_state w1 w2 s : R w1 w2 -> R (w_setstate w1 s) (w_setstate w2 s). Proof. intros. rr. Qed.
Lemma r_fail w1 w2 s : R w1 w2 -> R (w_fail w1 s) (w_fail w2 s). Proof. intros. rr. Qed.
Lemma r_calls w1 w2 a b : R w1 w2 -> R (set_calls w1 a b) (set_calls w2 a b). Proof. intros. rr. Qed.

Notation RR := (rel R R).
Lemma r_on f w1 w2 : R w1 w2 -> RR (on_out f w1) (on_out f w2).
Proof. intros H. unfold on_out. rewrite (r_out H). destruct (f (w_out w2)) as [[o []]| |]; cbn [rbind rel]; auto using r_setout. Qed.
Lemma r_bits n x w1 w2 : R w1 w2 -> RR (w_bitsWrite env w1 n x) (w_bitsWrite env w2 n x).
Proof. intros H. unfold w_bitsWrite. rewrite (r_opt H). apply r_on; auto. Qed.
Lemma r_flush w1 w2 : R w1 w2 -> RR (w_bitsFlush env w1) (w_bitsFlush env w2).
Proof. intros H. unfold w_bitsFlush. rewrite (r_opt H). apply r_on; auto. Qed.
Lemma r_buf p w1 w2 : R w1 w2 -> RR (w_bufferWrite env w1 p) (w_bufferWrite env w2 p).
Proof. intros H. unfold w_bufferWrite. rewrite (r_opt H). apply r_on; auto. Qed.
Lemma r_stored data fin w1 w2 : R w1 w2 -> RR (writeStoredBlock bw w1 data fin) (writeStoredBlock bw w2 data fin).
Proof.
  intros H. unfold writeStoredBlock. apply rel_assert. cbv zeta. cbn [bw_writer bw_bitsWrite bw_bitsFlush bw_writeU16le bw_bufferWrite bw_event].
  eapply rel_bind; [apply r_bits, r_event; eauto|]. intros x1 y1 H1. eapply rel_bind; [apply r_flush; eauto|]. intros x2 y2 H2.
  eapply rel_bind; [apply r_buf; eauto|]. intros x3 y3 H3. eapply rel_bind; [apply r_buf; eauto|]. intros x4 y4 H4.
  eapply rel_bind; [apply r_buf; eauto|]. intros x5 y5 H5. apply r_event; auto.
Qed.
Lemma r_optb (b : bool) n x w1 w2 : R w1 w2 -> RR (if b then Ok (w1, true) else w_bitsWrite env w1 n x) (if b then Ok (w2, true) else w_bitsWrite env w2 n x).
Proof. intros H. destruct b; [exact H|apply r_bits; auto]. Qed.
Lemma r_lld ll d t w1 w2 : R w1 w2 -> RR (encodeLLD bw ll d t w1) (encodeLLD bw ll d t w2).
Proof.
  intros H. unfold encodeLLD, bw_writeHC. cbn [bw_writer bw_bitsWrite]. apply rel_let. intros [[sl nl] xl]. apply rel_let. intros [[sd nd] xd]. destruct sl as [sl|]; [|exact H].
  eapply rel_bind; [apply r_bits; eauto|]. intros x1 y1 H1. eapply rel_bind; [apply r_optb; eauto|]. intros x2 y2 H2. destruct sd as [sd|]; [|exact H2].
  eapply rel_bind; [apply r_bits; eauto|]. intros x3 y3 H3. eapply rel_bind; [apply r_optb; eauto|]. intros x4 y4 H4. exact H4.
Qed.
Lemma r_x hx t w1 w2 : R w1 w2 -> RR (encodeX bw hx t w1) (encodeX bw hx t w2).
Proof.
  intros H. unfold encodeX, bw_writeHC. cbn [bw_writer bw_bitsWrite]. destruct (symbolX t) as [[sx nx] xx]. destruct sx as [sx|]; [|exact H].
  eapply rel_bind; [apply r_bits; eauto|]. intros x1 y1 H1. eapply rel_bind; [apply r_optb; eauto|]. intros x2 y2 H2. exact H2.
Qed.
Lemma r_static tokens fin w1 w2 : R w1 w2 -> RR (writeStaticBlock bw w1 tokens fin) (writeStaticBlock bw w2 tokens fin).
Proof.
  intros H. unfold writeStaticBlock. apply rel_assert. cbv zeta. cbn [bw_writer bw_bitsWrite bw_event]. eapply rel_bind; [apply r_bits, r_event; eauto|]. intros x1 y1 H1.
  eapply rel_bind; [apply rel_for; [intros; apply r_lld; eauto|apply r_event; eauto]|]. intros x2 y2 H2. apply r_event; auto.
Qed.
Lemma r_dynamic ll d tokens fin w1 w2 : R w1 w2 -> RR (writeDynamicBlock env bw w1 ll d tokens fin) (writeDynamicBlock env bw w2 ll d tokens fin).
Proof.
  intros H. unfold writeDynamicBlock. apply rel_assert. cbv zeta. cbn [bw_writer bw_bitsWrite bw_event]. eapply rel_bind; [apply r_bits, r_event; eauto|]. intros x1 y1 H1.
  apply rel_let. intros [xt1 nll]. apply rel_let. intros [xt nd]. apply rel_let. intros fx.
  eapply rel_bind; [apply r_bits; eauto|]. intros x2 y2 H2. eapply rel_bind; [apply r_bits; eauto|]. intros x3 y3 H3.
  eapply rel_bind; [apply r_bits; eauto|]. intros x4 y4 H4.
  eapply rel_bind; [apply rel_for; [intros; apply r_bits; eauto|eauto]|]. intros x5 y5 H5.
  eapply rel_bind; [apply rel_for; [intros; apply r_x; eauto|eauto]|]. intros x6 y6 H6.
  eapply rel_bind; [apply rel_for; [intros; apply r_lld; eauto|apply r_event; eauto]|]. intros x7 y7 H7. apply r_event; auto.
Qed.
Lemma r_tokens data tokens fin w1 w2 : R w1 w2 -> RR (compressTokens env bw w1 data tokens fin) (compressTokens env bw w2 data tokens fin).
Proof.
  intros H. unfold compressTokens. apply rel_let. intros [fll fd]. cbv zeta. apply rel_let. intros [dc b1]. apply rel_let. intros [sc b2].
  apply rel_if; [apply r_stored; auto|]. apply rel_if; [apply r_static; auto|apply r_dynamic; auto].
Qed.
Lemma r_storeLoop fuel : forall w1 w2, R w1 w2 -> RR (compressStoreLoop env fuel w1) (compressStoreLoop env fuel w2).
Proof.
  induction fuel as [|f IH]; intros w1 w2 H; cbn [compressStoreLoop]; rewrite (r_lz H); destruct (lz_buf (w_lz w2)) eqn:E; try exact H; [exact I|].
  unfold inputBufferRead, lz_take. rewrite (r_lz H). set (l' := LZ _ _ _ _). set (p := firstn _ _).
  rewrite (r_in H).
  eapply rel_bind; [apply r_stored, r_setin, r_setlz; auto|]. intros x y HH. apply IH; auto.
Qed.
Lemma r_slowLoop fuel : forall w1 w2, R w1 w2 ->
  match compressSlowLoop env fuel w1, compressSlowLoop env fuel w2 with
  | Ok (x, d, t), Ok (y, d', t') => R x y /\ d = d' /\ t = t' | Panic p, Panic q => p = q | NoFuel, NoFuel => True | _, _ => False end.
Proof.
  induction fuel as [|f IH]; intros w1 w2 H; cbn [compressSlowLoop]; rewrite (r_lz H); destruct (lz_buf (w_lz w2)) eqn:E; try (cbn; auto; fail).
  unfold inputBufferAdvance, lz_take. cbv zeta. rewrite (r_lz H).
  set (m := e_match env _ _ _ _). set (l' := LZ _ _ _ _). set (p := firstn _ _).
  rewrite (r_in H).
  set (i := sum_bytes _ _). assert (HH : R (set_in (set_lz w1 l') i) (set_in (set_lz w2 l') i)) by (apply r_setin, r_setlz; auto).
  specialize (IH _ _ HH). set (x := set_in (set_lz w1 l') i) in *. set (y := set_in (set_lz w2 l') i) in *. clearbody x y.
  destruct m as [[dd len]|].
  - unfold assertb. destruct (3 <=? len)%N; [|reflexivity]. destruct (1 <=? dd)%N; [|reflexivity]. destruct (makeCopyToken _ _); cbn [rbind]; auto.
    destruct (compressSlowLoop env f x) as [[[? ?] ?]| |], (compressSlowLoop env f y) as [[[? ?] ?]| |]; cbn [rbind]; try contradiction; auto.
    destruct IH as [? [-> ->]]. auto.
  - destruct p; [reflexivity|].
    destruct (compressSlowLoop env f x) as [[[? ?] ?]| |], (compressSlowLoop env f y) as [[[? ?] ?]| |]; cbn [rbind]; try contradiction; auto.
    destruct IH as [? [-> ->]]. auto.
Qed.
Lemma r_store all w1 w2 : R w1 w2 -> RR (compressStore env w1 all) (compressStore env w2 all).
Proof. intros H. unfold compressStore. rewrite (r_lz H). destruct (_ && _)%bool; [exact H|apply r_storeLoop; auto]. Qed.
Lemma r_slow all w1 w2 : R w1 w2 -> RR (compressSlow env w1 all) (compressSlow env w2 all).
Proof.
  intros H. unfold compressSlow. rewrite (r_lz H). destruct (_ && _)%bool; [exact H|]. pose proof (r_slowLoop (length (lz_buf (w_lz w2))) H) as L.
  destruct (compressSlowLoop env _ w1) as [[[? ?] ?]| |], (compressSlowLoop env _ w2) as [[[? ?] ?]| |]; cbn [rbind]; try contradiction; auto.
  destruct L as [? [-> ->]]. apply r_tokens; auto.
Qed.
Lemma r_header w1 w2 : R w1 w2 -> RR (writeHeader env w1) (writeHeader env w2).
Proof.
  intros H. unfold writeHeader. cbv zeta.
  match goal with |- RR ?L ?Q => match L with context [match o_format (w_opt ?x) with _ => _ end] => match Q with context [match o_format (w_opt ?y) with _ => _ end] =>
    set (x1 := x); set (x2 := y); assert (HX : R x1 x2) end end end.
  { unfold x1, x2. apply r_sethdr, r_event. clear x1 x2. destruct H as [? ? ? ? ? ? ? ?]. destruct w1 as [o1 c1 l1 i1 u1 n1 h1 f1 s1 e1], w2 as [o2 c2 l2 i2 u2 n2 h2 f2 s2 e2].
    cbn in *. subst. destruct (o_dict o2); constructor; cbn; auto. }
  clearbody x1 x2. rewrite (r_opt HX). pose proof (r_fmt HX) as NG. rewrite (r_opt HX) in NG.
  eapply rel_bind with (R := R).
  - destruct (o_format (w_opt x2)); [reflexivity|exact HX|unfold writeHeaderZlib; rewrite (r_opt HX); apply r_buf; auto|congruence].
  - intros x y HH. pose proof (r_event (ev_header (w_hdr x)) (ev_header (w_hdr y)) HH) as H2. set (a := sendEvent x _) in *. set (b := sendEvent y _) in *. clearbody a b. cbn [rel].
    rewrite (r_in H2). apply r_setin; auto.
Qed.
Lemma r_footer w1 w2 : R w1 w2 -> RR (writeFooter env w1) (writeFooter env w2).
Proof.
  intros H. unfold writeFooter. eapply rel_bind; [apply r_flush; eauto|]. intros x y HH. cbv zeta. rewrite (r_in HH).
  pose proof (r_event (ev_footer (inAdler (w_in y)) (inCRC (w_in y))) (ev_footer (inAdler (w_in y)) (inCRC (w_in y))) HH) as HX. set (a := sendEvent x _) in *. set (b := sendEvent y _) in *. clearbody a b.
  rewrite (r_opt HX). pose proof (r_fmt HX) as NG. rewrite (r_opt HX) in NG.
  eapply rel_bind with (R := R).
  - destruct (o_format (w_opt b)); [reflexivity|exact HX|apply r_buf; auto|congruence].
  - intros. cbn [rel]. apply r_event; auto.
Qed.
Lemma R_state w1 w2 : R w1 w2 -> w_state w1 = w_state w2.
Proof. intros H. unfold w_state. rewrite (r_out H). reflexivity. Qed.
Lemma r_compress all w1 w2 : R w1 w2 -> RR (compressImpl env w1 all) (compressImpl env w2 all).
Proof.
  intros H. unfold compressImpl. rewrite (r_lz H). destruct (lz_buf (w_lz w2)); [exact H|]. rewrite (R_state H).
  eapply rel_bind with (R := R).
  { destruct (w_state w2); try exact H. eapply rel_bind; [apply r_footer; eauto|]. intros. cbn [rel]. apply r_state; auto. }
  intros x y HX. rewrite (R_state HX). eapply rel_bind with (R := R).
  { destruct (w_state y); try exact HX; (eapply rel_bind; [apply r_header; eauto|]; intros; cbn [rel]; apply r_state; auto). }
  intros a b HA. rewrite (r_cfg HA). apply rel_if; [apply r_store; auto|apply r_slow; auto].
Qed.
Lemma r_guts ft w1 w2 : R w1 w2 -> RR (flushGuts env w1 ft) (flushGuts env w2 ft).
Proof.
  intros H. unfold flushGuts. destruct ft; try exact H.
  - apply r_static; auto.
  - apply r_stored; auto.
  - eapply rel_bind; [apply r_stored; eauto|]. intros x y HX. cbn [rel]. rewrite (r_lz HX). apply r_setlz; auto.
  - eapply rel_bind; [apply r_stored; eauto|]. intros x y HX. cbn [rel]. rewrite (r_lz HX). apply r_state, r_setlz; auto.
Qed.
Lemma r_flushImpl ft w1 w2 : R w1 w2 -> RR (flushImpl env w1 ft) (flushImpl env w2 ft).
Proof.
  intros H. unfold flushImpl. eapply rel_bind; [apply r_compress; eauto|]. intros x1 y1 H1. eapply rel_bind with (R := R).
  { destruct (is_finish ft); [|exact H1]. rewrite (R_state H1). destruct (w_state y1); try exact H1. eapply rel_bind; [apply r_header; eauto|]. intros. cbn [rel]. apply r_state; auto. }
  intros x2 y2 H2. rewrite (R_state H2). eapply rel_bind with (R := R).
  { destruct (w_state y2); try exact H2. apply r_guts; auto. }
  intros x3 y3 H3. rewrite (R_state H3). eapply rel_bind with (R := R).
  { destruct (w_state y3); try exact H3. eapply rel_bind; [apply r_footer; eauto|]. intros. cbn [rel]. apply r_state; auto. }
  intros x4 y4 H4. cbv zeta. rewrite (r_fl H4), (r_sy H4).
  pose proof (r_calls (S (w_flushes y4)) (w_syncs y4) H4) as H5. destruct (e_flushw env _); [cbn [rel]; apply r_fail; auto|].
  set (a := set_calls x4 _ _) in *. set (b := set_calls y4 _ _) in *. clearbody a b. rewrite (r_fl H5), (r_sy H5). pose proof (r_calls (w_flushes b) (S (w_syncs b)) H5) as H6.
  destruct (e_syncw env _) as [[]|]; cbn [rel]; auto; apply r_fail; auto.
Qed.
Lemma r_writeLoop fuel : forall buf w1 w2, R w1 w2 -> RR (writeLoop env fuel w1 buf) (writeLoop env fuel w2 buf).
Proof.
  induction fuel as [|f IH]; intros buf w1 w2 H; cbn [writeLoop]; destruct buf as [|b buf]; try exact H; [exact I|]. rewrite (r_lz H).
  destruct (lz_write (w_lz w2) (b :: buf)) as [[l nn] full]. cbv zeta. eapply rel_bind; [apply r_compress, r_setlz; auto|]. intros x y HX. apply IH; auto.
Qed.

(** ** Calls *)
Definition rel_call (m1 m2 : res (writer * option goerr)) : Prop :=
  match m1, m2 with
  | Ok (x, e), Ok (y, f) => R x y /\ e = f
  | Panic p, Panic q => p = q
  | NoFuel, NoFuel => True
  | _, _ => False
  end.
Lemma c_write p w1 w2 : R w1 w2 -> rel_call (w_step env w1 (OWrite p)) (w_step env w2 (OWrite p)).
Proof.
  intros H. cbn [w_step]. unfold w_Write. rewrite (R_state H), (r_out H). pose proof (r_writeLoop (2 * length p + 2) p H) as L.
  destruct (w_state w2); cbn [rbind rel_call]; auto;
  (destruct (writeLoop env _ w1 p) as [[x []]| |], (writeLoop env _ w2 p) as [[y []]| |]; cbn [rel rbind rel_call] in *; try contradiction; auto; rewrite (r_out L); auto).
Qed.
Lemma c_flush ft w1 w2 : R w1 w2 -> rel_call (w_step env w1 (OFlush ft)) (w_step env w2 (OFlush ft)).
Proof.
  intros H. cbn [w_step]. unfold w_Flush. rewrite (R_state H), (r_out H). pose proof (r_flushImpl ft H) as L.
  destruct (w_state w2); cbn [rbind rel_call]; auto;
  (destruct (flushImpl env w1 ft) as [[x []]| |], (flushImpl env w2 ft) as [[y []]| |]; cbn [rel rbind rel_call] in *; try contradiction; auto; rewrite (r_out L); auto).
Qed.
Lemma c_close w1 w2 : R w1 w2 -> rel_call (w_Close env w1) (w_Close env w2).
Proof.
  intros H. unfold w_Close. rewrite (R_state H). pose proof (r_flushImpl FinishFlush H) as L.
  assert (HH : forall x y, R x y -> rel_call (Ok (close_helper x)) (Ok (close_helper y))).
  { intros x y HX. unfold close_helper. cbn [rel_call]. rewrite (r_out HX). split; auto. apply r_setout; auto. }
  destruct (w_state w2); cbn [rel_call]; auto;
  (destruct (flushImpl env w1 FinishFlush) as [[x []]| |], (flushImpl env w2 FinishFlush) as [[y []]| |]; cbn [rel rbind] in *; try contradiction; auto; try (cbn [rel_call]; split; auto; apply r_state; auto); apply HH; auto).
Qed.
Lemma c_set h w1 w2 : R w1 w2 -> R (fst (w_SetHeader w1 h)) w2.
Proof. intros H. unfold w_SetHeader. cbv zeta. destruct (Nat.eqb _ 0); cbn [fst]; auto. rr. Qed.
Lemma R_sym w1 w2 : R w1 w2 -> R w2 w1.
Proof. intros []. constructor; auto. congruence. Qed.
End NoHeader.
