(** The compressed data does not depend on the format: a raw, a zlib and a gzip
    Writer given the same calls write the same DEFLATE data, used for C79. *)
From Verif Require Import Base SpecHuffman SpecFormats MChecksum PChecksum MToken MCommon MWriter SpecEvents SpecSession MSession PBits PWriter PSession PInv PFormat PClient PWSim.

Section Body.
Variable env : wenv.
Hypothesis quiet : forall n b, e_sink env n b = None.
Notation bw := (bw_writer env).
Variable opt : options.
Hypothesis Hopt : wopt_ok opt.

Definition oraw (o : options) : options := match o with Options _ s c m w d t => Options RawFormat s c m w d t end.
Definition onorm (o1 o2 : wout) : Prop :=
  obBlock o1 = obBlock o2 /\ obLen o1 = obLen o2 /\ werr o1 = werr o2 /\ outBuf o1 = [] /\ outBuf o2 = [].
Definition osink (A B : list N) (st : writerstate) (o1 o2 : wout) : Prop :=
  onorm o1 o2 /\ wstate o1 = st /\ wstate o2 = st /\ exists cur, sink o1 = A ++ cur /\ sink o2 = B ++ cur.

Record R (A B : list N) (st : writerstate) (w1 w2 : writer) : Prop := Rc {
  r_opt : w_opt w1 = oraw (w_opt w2); r_cfg : w_cfg w1 = w_cfg w2; r_lz : w_lz w1 = w_lz w2; r_in : w_in w1 = w_in w2;
  r_fl : w_flushes w1 = w_flushes w2; r_sy : w_syncs w1 = w_syncs w2; r_ok : w_opt w2 = opt; r_hdr : header_ok (w_hdr w2);
  r_out : osink A B st (w_out w1) (w_out w2) }.
Ltac rr := match goal with H : R _ _ _ ?a ?b |- _ => destruct H as [? ? ? ? ? ? ? ? ?]; destruct a, b; cbn in *; subst; constructor; cbn; auto end.
Lemma r_setout A B st A' B' st' w1 w2 o1 o2 : R A B st w1 w2 -> osink A' B' st' o1 o2 -> R A' B' st' (set_out w1 o1) (set_out w2 o2). Proof. intros. rr. Qed.
Lemma r_setlz A B st w1 w2 o : R A B st w1 w2 -> R A B st (set_lz w1 o) (set_lz w2 o). Proof. intros. rr. Qed.
Lemma r_setin A B st w1 w2 o : R A B st w1 w2 -> R A B st (set_in w1 o) (set_in w2 o). Proof. intros. rr. Qed.
Lemma r_setnum A B st w1 w2 a b : R A B st w1 w2 -> R A B st (set_num w1 a) (set_num w2 b). Proof. intros. rr. Qed.
Lemma r_sethdr A B st w1 w2 a b : R A B st w1 w2 -> header_ok b -> R A B st (set_hdr w1 a) (set_hdr w2 b). Proof. intros. rr. Qed.
Lemma r_event A B st w1 w2 a b : R A B st w1 w2 -> R A B st (sendEvent w1 a) (sendEvent w2 b). Proof. intros. rr. Qed.
Lemma r_calls A B st w1 w2 a b : R A B st w1 w2 -> R A B st (set_calls w1 a b) (set_calls w2 a b). Proof. intros. rr. Qed.
Lemma os_state A B st st' o1 o2 e : osink A B st o1 o2 -> osink A B st' (set_state o1 st' e) (set_state o2 st' e).
Proof. intros ((a & b & c & d & f) & g & h & i). destruct o1, o2. cbn in *. repeat split; auto. Qed.
Lemma r_state A B st w1 w2 s : R A B st w1 w2 -> R A B s (w_setstate w1 s) (w_setstate w2 s).
Proof. intros H. unfold w_setstate. eapply r_setout; [exact H|]. destruct (r_out H) as ((_ & _ & E & _) & _). rewrite E. eapply os_state, H. Qed.
Lemma r_fail A B st w1 w2 s : R A B st w1 w2 -> R A B errorState (w_fail w1 s) (w_fail w2 s).
Proof. intros H. unfold w_fail. eapply r_setout; [exact H|]. eapply os_state, H. Qed.

(** what a write does when the underlying writer accepts everything *)
Lemma loop_app cap : (0 < cap)%N -> forall fuel o buf, outBuf o = [] -> length buf < fuel ->
  exists o', outputBufferLoop env fuel cap o buf = Ok (o', true) /\ obBlock o' = obBlock o /\ obLen o' = obLen o /\ outBuf o' = [] /\ wstate o' = wstate o /\ werr o' = werr o /\
    sink o' = sink o ++ buf /\ ((outCRC o < two32)%N -> bytes_ok buf -> outCRC o' = crc_update (outCRC o) buf).
Proof.
  intros Hc. induction fuel as [|f IH]; intros o buf E L; [lia|]. cbn [outputBufferLoop]. destruct buf as [|x buf].
  { exists o. split; [reflexivity|]. do 5 (split; [first [reflexivity|assumption]|]). split; [now rewrite app_nil_r|]. intros H _. rewrite crc_update_bytes by (auto; constructor). cbn [fold_left]. symmetry. apply not32_invol. }
  rewrite E. change (lenN []) with 0%N. rewrite N.sub_0_r. set (b := x :: buf) in *. set (nn := N.to_nat _).
  assert (NN : 0 < nn) by (unfold nn, lenN, b; cbn [length]; lia). destruct o as [a0 b0 ob snk n c t s0 st0 e0]. cbn in E. subst ob. cbn [app].
  unfold outputBufferFlush. rewrite quiet. cbn [app].
  match goal with |- context [outputBufferLoop env f cap ?oo ?bb] => destruct (IH oo bb) as (o' & X & X1 & X2 & X3 & X4 & X5 & X6 & X7) end; [reflexivity|rewrite skipn_length; unfold b in *; cbn [length] in *; lia|].
  exists o'. cbn [obBlock obLen outBuf sink outCRC wstate werr] in *. do 6 (split; [assumption|]). split.
  - rewrite X6, <- app_assoc, firstn_skipn. reflexivity.
  - intros HC HB. assert (HB2 := HB). rewrite <- (firstn_skipn nn b) in HB2. apply bytes_ok_app in HB2. destruct HB2 as [H1 H2].
    rewrite X7; auto using crc_update_lt. rewrite crc_update_app, firstn_skipn; auto.
Qed.
Lemma cap_pos o : (0 < out_cap o)%N.
Proof. unfold out_cap. apply pow2_pos. Qed.
Notation FF := (fun _ _ => False).
Notation RR A B st := (rel (R A B st) FF).
Notation OO A B st := (rel (osink A B st) FF).
Lemma o_loop A B st c fuel o1 o2 buf : (0 < c)%N -> length buf < fuel -> osink A B st o1 o2 -> OO A B st (outputBufferLoop env fuel c o1 buf) (outputBufferLoop env fuel c o2 buf).
Proof.
  intros Hc HL ((a & b & d & f & g) & h & i & cur & j & k).
  destruct (loop_app Hc f HL) as (p1 & P & P1 & P2 & P3 & P4 & P5 & P6 & _). destruct (loop_app Hc g HL) as (p2 & Q & Q1 & Q2 & Q3 & Q4 & Q5 & Q6 & _).
  rewrite P, Q. cbn [rel]. repeat split; try congruence. exists (cur ++ buf). rewrite P6, Q6, j, k, !app_assoc. auto.
Qed.
Lemma os_ob A B st o1 o2 x y : osink A B st o1 o2 -> osink A B st (set_ob o1 x y) (set_ob o2 x y).
Proof. intros ((a & b & d & f & g) & h & i & j). destruct o1, o2. cbn in *. repeat split; auto. Qed.
Lemma o_flush A B st c o1 o2 : (0 < c)%N -> osink A B st o1 o2 -> OO A B st (o_bitsFlush env c o1) (o_bitsFlush env c o2).
Proof.
  intros Hc H. assert (H' := H). destruct H' as ((a & b & _) & _). unfold o_bitsFlush. rewrite a, b. destruct (Nat.eqb _ 0); [exact H|]. apply o_loop; auto; [unfold out_fuel; lia|]. apply os_ob; auto.
Qed.
Lemma o_buf A B st c o1 o2 p : (0 < c)%N -> osink A B st o1 o2 -> OO A B st (o_bufferWrite env c o1 p) (o_bufferWrite env c o2 p).
Proof. intros Hc H. unfold o_bufferWrite. eapply rel_bind; [apply o_flush; eauto|]. intros. apply o_loop; auto. unfold out_fuel. lia. Qed.
Lemma o_bitsl A B st c fuel : (0 < c)%N -> forall o1 o2 n x, osink A B st o1 o2 -> OO A B st (o_bitsLoop env fuel c o1 n x) (o_bitsLoop env fuel c o2 n x).
Proof.
  intros Hc. induction fuel as [|f IH]; intros o1 o2 n x H; cbn [o_bitsLoop]; destruct n; try exact H; [exact I|].
  assert (H' := H). destruct H' as ((a & b & _) & _). rewrite a, b. cbv zeta. match goal with |- context [set_ob o1 ?u ?v] => pose proof (os_ob u v H) as HP; set (p1 := set_ob o1 _ _) in *; set (p2 := set_ob o2 _ _) in * end.
  assert (E3 : obLen p1 = obLen p2) by apply HP. rewrite E3. apply rel_if; [|apply IH; auto]. eapply rel_bind; [apply o_flush; eauto|]. intros. apply IH; auto.
Qed.
Lemma o_bits A B st c o1 o2 n x : (0 < c)%N -> osink A B st o1 o2 -> OO A B st (o_bitsWrite env c o1 n x) (o_bitsWrite env c o2 n x).
Proof. intros Hc H. unfold o_bitsWrite. assert (H' := H). destruct H' as ((_ & b & _) & _). rewrite b. apply rel_assert, rel_assert, o_bitsl; auto. Qed.
Lemma cap_raw o : out_cap (oraw o) = out_cap o. Proof. destruct o. reflexivity. Qed.
Lemma r_on A B st f w1 w2 : R A B st w1 w2 -> OO A B st (f (w_out w1)) (f (w_out w2)) -> RR A B st (on_out f w1) (on_out f w2).
Proof.
  intros H HF. unfold on_out. destruct (f (w_out w1)) as [[o1 []]| |], (f (w_out w2)) as [[o2 []]| |]; cbn [rbind rel] in *; try contradiction; auto; eapply r_setout; eauto.
Qed.
Lemma r_bits A B st n x w1 w2 : R A B st w1 w2 -> RR A B st (w_bitsWrite env w1 n x) (w_bitsWrite env w2 n x).
Proof. intros H. unfold w_bitsWrite. rewrite (r_opt H), cap_raw. apply r_on; auto. apply o_bits; [apply cap_pos|apply H]. Qed.
Lemma r_flush A B st w1 w2 : R A B st w1 w2 -> RR A B st (w_bitsFlush env w1) (w_bitsFlush env w2).
Proof. intros H. unfold w_bitsFlush. rewrite (r_opt H), cap_raw. apply r_on; auto. apply o_flush; [apply cap_pos|apply H]. Qed.
Lemma r_buf A B st p w1 w2 : R A B st w1 w2 -> RR A B st (w_bufferWrite env w1 p) (w_bufferWrite env w2 p).
Proof. intros H. unfold w_bufferWrite. rewrite (r_opt H), cap_raw. apply r_on; auto. apply o_buf; [apply cap_pos|apply H]. Qed.
Lemma r_stored A B st data fin w1 w2 : R A B st w1 w2 -> RR A B st (writeStoredBlock bw w1 data fin) (writeStoredBlock bw w2 data fin).
Proof.
  intros H. unfold writeStoredBlock. apply rel_assert. cbv zeta. cbn [bw_writer bw_bitsWrite bw_bitsFlush bw_writeU16le bw_bufferWrite bw_event].
  eapply rel_bind with (R := R A B st); [apply r_bits, r_event; eauto|]. intros x1 y1 H1. eapply rel_bind with (R := R A B st); [apply r_flush; eauto|]. intros x2 y2 H2.
  eapply rel_bind with (R := R A B st); [apply r_buf; eauto|]. intros x3 y3 H3. eapply rel_bind with (R := R A B st); [apply r_buf; eauto|]. intros x4 y4 H4.
  eapply rel_bind with (R := R A B st); [apply r_buf; eauto|]. intros x5 y5 H5. apply r_event; auto.
Qed.
Lemma r_optb A B st (b : bool) n x w1 w2 : R A B st w1 w2 -> RR A B st (if b then Ok (w1, true) else w_bitsWrite env w1 n x) (if b then Ok (w2, true) else w_bitsWrite env w2 n x).
Proof. intros H. destruct b; [exact H|apply r_bits; auto]. Qed.
Lemma r_lld A B st ll d t w1 w2 : R A B st w1 w2 -> RR A B st (encodeLLD bw ll d t w1) (encodeLLD bw ll d t w2).
Proof.
  intros H. unfold encodeLLD, bw_writeHC. cbn [bw_writer bw_bitsWrite]. apply rel_let. intros [[sl nl] xl]. apply rel_let. intros [[sd nd] xd]. destruct sl as [sl|]; [|exact H].
  eapply rel_bind with (R := R A B st); [apply r_bits; eauto|]. intros x1 y1 H1. eapply rel_bind with (R := R A B st); [apply r_optb; eauto|]. intros x2 y2 H2. destruct sd as [sd|]; [|exact H2].
  eapply rel_bind with (R := R A B st); [apply r_bits; eauto|]. intros x3 y3 H3. eapply rel_bind with (R := R A B st); [apply r_optb; eauto|]. intros x4 y4 H4. exact H4.
Qed.
Lemma r_x A B st hx t w1 w2 : R A B st w1 w2 -> RR A B st (encodeX bw hx t w1) (encodeX bw hx t w2).
Proof.
  intros H. unfold encodeX, bw_writeHC. cbn [bw_writer bw_bitsWrite]. destruct (symbolX t) as [[sx nx] xx]. destruct sx as [sx|]; [|exact H].
  eapply rel_bind with (R := R A B st); [apply r_bits; eauto|]. intros x1 y1 H1. eapply rel_bind with (R := R A B st); [apply r_optb; eauto|]. intros x2 y2 H2. exact H2.
Qed.
Lemma r_static A B st tokens fin w1 w2 : R A B st w1 w2 -> RR A B st (writeStaticBlock bw w1 tokens fin) (writeStaticBlock bw w2 tokens fin).
Proof.
  intros H. unfold writeStaticBlock. apply rel_assert. cbv zeta. cbn [bw_writer bw_bitsWrite bw_event]. eapply rel_bind with (R := R A B st); [apply r_bits, r_event; eauto|]. intros x1 y1 H1.
  eapply rel_bind with (R := R A B st); [apply rel_for; [intros; apply r_lld; eauto|apply r_event; eauto]|]. intros x2 y2 H2. apply r_event; auto.
Qed.
Lemma r_dynamic A B st ll d tokens fin w1 w2 : R A B st w1 w2 -> RR A B st (writeDynamicBlock env bw w1 ll d tokens fin) (writeDynamicBlock env bw w2 ll d tokens fin).
Proof.
  intros H. unfold writeDynamicBlock. apply rel_assert. cbv zeta. cbn [bw_writer bw_bitsWrite bw_event]. eapply rel_bind with (R := R A B st); [apply r_bits, r_event; eauto|]. intros x1 y1 H1.
  apply rel_let. intros [xt1 nll]. apply rel_let. intros [xt nd]. apply rel_let. intros fx.
  eapply rel_bind with (R := R A B st); [apply r_bits; eauto|]. intros x2 y2 H2. eapply rel_bind with (R := R A B st); [apply r_bits; eauto|]. intros x3 y3 H3.
  eapply rel_bind with (R := R A B st); [apply r_bits; eauto|]. intros x4 y4 H4.
  eapply rel_bind with (R := R A B st); [apply rel_for; [intros; apply r_bits; eauto|eauto]|]. intros x5 y5 H5.
  eapply rel_bind with (R := R A B st); [apply rel_for; [intros; apply r_x; eauto|eauto]|]. intros x6 y6 H6.
  eapply rel_bind with (R := R A B st); [apply rel_for; [intros; apply r_lld; eauto|apply r_event; eauto]|]. intros x7 y7 H7. apply r_event; auto.
Qed.
Lemma r_tokens A B st data tokens fin w1 w2 : R A B st w1 w2 -> RR A B st (compressTokens env bw w1 data tokens fin) (compressTokens env bw w2 data tokens fin).
Proof.
  intros H. unfold compressTokens. apply rel_let. intros [fll fd]. cbv zeta. apply rel_let. intros [dc b1]. apply rel_let. intros [sc b2].
  apply rel_if; [apply r_stored; auto|]. apply rel_if; [apply r_static; auto|apply r_dynamic; auto].
Qed.
Lemma r_storeLoop A B st fuel : forall w1 w2, R A B st w1 w2 -> RR A B st (compressStoreLoop env fuel w1) (compressStoreLoop env fuel w2).
Proof.
  induction fuel as [|f IH]; intros w1 w2 H; cbn [compressStoreLoop]; rewrite (r_lz H); destruct (lz_buf (w_lz w2)) eqn:E; try exact H; [exact I|].
  unfold inputBufferRead, lz_take. rewrite (r_lz H). set (l' := LZ _ _ _ _). set (p := firstn _ _).
  rewrite (r_in H).
  eapply rel_bind with (R := R A B st); [apply r_stored, r_setin, r_setlz; auto|]. intros x y HH. apply IH; auto.
Qed.
Lemma r_slowLoop A B st fuel : forall w1 w2, R A B st w1 w2 ->
  match compressSlowLoop env fuel w1, compressSlowLoop env fuel w2 with
  | Ok (x, d, t), Ok (y, d', t') => R A B st x y /\ d = d' /\ t = t' | Panic p, Panic q => p = q | NoFuel, NoFuel => True | _, _ => False end.
Proof.
  induction fuel as [|f IH]; intros w1 w2 H; cbn [compressSlowLoop]; rewrite (r_lz H); destruct (lz_buf (w_lz w2)) eqn:E; try (cbn; auto; fail).
  unfold inputBufferAdvance, lz_take. cbv zeta. rewrite (r_lz H).
  set (m := e_match env _ _ _ _). set (l' := LZ _ _ _ _). set (p := firstn _ _).
  rewrite (r_in H).
  set (i := sum_bytes _ _). assert (HH : R A B st (set_in (set_lz w1 l') i) (set_in (set_lz w2 l') i)) by (apply r_setin, r_setlz; auto).
  specialize (IH _ _ HH). set (x := set_in (set_lz w1 l') i) in *. set (y := set_in (set_lz w2 l') i) in *. clearbody x y.
  destruct m as [[dd len]|].
  - unfold assertb. destruct (3 <=? len)%N; [|reflexivity]. destruct (1 <=? dd)%N; [|reflexivity]. destruct (makeCopyToken _ _); cbn [rbind]; auto.
    destruct (compressSlowLoop env f x) as [[[? ?] ?]| |], (compressSlowLoop env f y) as [[[? ?] ?]| |]; cbn [rbind]; try contradiction; auto.
    destruct IH as [? [-> ->]]. auto.
  - destruct p; [reflexivity|].
    destruct (compressSlowLoop env f x) as [[[? ?] ?]| |], (compressSlowLoop env f y) as [[[? ?] ?]| |]; cbn [rbind]; try contradiction; auto.
    destruct IH as [? [-> ->]]. auto.
Qed.
Lemma r_store A B st all w1 w2 : R A B st w1 w2 -> RR A B st (compressStore env w1 all) (compressStore env w2 all).
Proof. intros H. unfold compressStore. rewrite (r_lz H). destruct (_ && _)%bool; [exact H|apply r_storeLoop; auto]. Qed.
Lemma r_slow A B st all w1 w2 : R A B st w1 w2 -> RR A B st (compressSlow env w1 all) (compressSlow env w2 all).
Proof.
  intros H. unfold compressSlow. rewrite (r_lz H). destruct (_ && _)%bool; [exact H|]. pose proof (r_slowLoop (length (lz_buf (w_lz w2))) H) as L.
  destruct (compressSlowLoop env _ w1) as [[[? ?] ?]| |], (compressSlowLoop env _ w2) as [[[? ?] ?]| |]; cbn [rbind]; try contradiction; auto.
  destruct L as [? [-> ->]]. apply r_tokens; auto.
Qed.

(** ** Header and footer *)
Record E (p : list N) (w w' : writer) : Prop := Ec {
  e_w : w' = set_out w (w_out w'); e_bb : obBlock (w_out w') = obBlock (w_out w); e_len : obLen (w_out w') = 0; e_buf : outBuf (w_out w') = [];
  e_st : wstate (w_out w') = wstate (w_out w); e_er : werr (w_out w') = werr (w_out w); e_si : sink (w_out w') = sink (w_out w) ++ p;
  e_crc : (outCRC (w_out w) < two32)%N -> bytes_ok p -> outCRC (w_out w') = crc_update (outCRC (w_out w)) p }.
Lemma e_write w p : outBuf (w_out w) = [] -> obLen (w_out w) = 0 -> exists w', w_bufferWrite env w p = Ok (w', true) /\ E p w w'.
Proof.
  intros H1 H2. unfold w_bufferWrite, on_out, o_bufferWrite, o_bitsFlush. rewrite H2. cbn [Nat.eqb rbind].
  destruct (loop_app (cap_pos (w_opt w)) H1 (fuel := out_fuel p) (buf := p)) as (o' & X & X1 & X2 & X3 & X4 & X5 & X6 & X7); [unfold out_fuel; lia|].
  rewrite X. cbn [rbind]. exists (set_out w o'). split; [reflexivity|]. constructor; destruct w; cbn in *; auto; congruence.
Qed.
Lemma e_trans p q w w1 w2 : E p w w1 -> E q w1 w2 -> bytes_ok p -> E (p ++ q) w w2.
Proof.
  intros [a b c d e f g h] [a' b' c' d' e' f' g' h'] HP. constructor; auto; try congruence.
  - rewrite a', a. destruct w, w1; reflexivity.
  - rewrite g', g, app_assoc. reflexivity.
  - intros HC HB. apply bytes_ok_app in HB. destruct HB as [_ HQ]. rewrite h'; rewrite ?h; auto using crc_update_lt. apply crc_update_app; auto.
Qed.
Lemma e_nil w : outBuf (w_out w) = [] -> obLen (w_out w) = 0 -> E [] w w.
Proof.
  intros. constructor; auto; [destruct w; reflexivity|now rewrite app_nil_r].
Qed.
Lemma checked0 h : header_checked h -> has_byte (h_name h) 0 = false /\ has_byte (h_comment h) 0 = false.
Proof.
  unfold header_checked, checkHeaderFileName, checkHeaderComment. destruct (has_byte (h_name h) 0), (has_byte (h_comment h) 0); cbn [b2nat]; try lia; auto.
Qed.
Lemma stringZ w s : has_byte s 0 = false -> writeStringZ env w s = w_bufferWrite env w (s ++ [0%N]).
Proof. unfold has_byte, writeStringZ. destruct (indexByte s 0); [discriminate|auto]. Qed.
Lemma e_gzip w : outBuf (w_out w) = [] -> obLen (w_out w) = 0 -> w_opt w = opt -> header_ok (w_hdr w) -> o_format opt = GZIPFormat ->
  exists w', writeHeaderGZIP env w = Ok (w', true) /\ E (hdr_bytes opt (w_hdr w)) (set_out w (set_outcrc (w_out w) crc_reset)) w'.
Proof.
  intros H1 H2 H3 Hh EF. unfold writeHeaderGZIP. cbv zeta. unfold hdr_bytes. rewrite EF. set (w0 := set_out w _).
  assert (F : outBuf (w_out w0) = [] /\ obLen (w_out w0) = 0 /\ outCRC (w_out w0) = crc_reset /\ w_opt w0 = opt /\ w_hdr w0 = w_hdr w) by (destruct w as [? ? ? ? [] ? ? ? ? ?]; cbn in *; auto).
  destruct F as (F1 & F2 & F3 & F4 & F5). rewrite F5, F4. set (h := w_hdr w) in *. clearbody w0.
  destruct Hh as [Ht Hk]. pose proof (gzip_body_ok opt Ht) as Hb. unfold gzip_body in Hb |- *. apply bytes_ok_app in Hb. destruct Hb as [B1 Hb]. apply bytes_ok_app in Hb. destruct Hb as [B2 Hb].
  apply bytes_ok_app in Hb. destruct Hb as [B3 B4]. destruct (checked0 Hk) as [Z1 Z2].
  destruct (@e_write w0 (gzipHeader10 opt h) F1 F2) as (w1 & X1 & E1). rewrite X1. cbn [rbind].
  set (x2 := match h_extra h with [] => [] | _ => _ end) in *. set (x3 := match h_name h with [] => [] | _ => _ end) in *. set (x4 := match h_comment h with [] => [] | _ => _ end) in *.
  assert (S2 : exists w2, match h_extra h with [] => Ok (w1, true) | _ => let? w := w_bufferWrite env w1 (le16 (lenN (extra_bytes (h_extra h)) mod two16)) in w_bufferWrite env w (extra_bytes (h_extra h)) end = Ok (w2, true) /\ E x2 w1 w2).
  { unfold x2. destruct (h_extra h) as [|r l] eqn:EX.
    - exists w1. split; auto. apply e_nil; apply E1.
    - destruct (@e_write w1 (le16 (lenN (extra_bytes (r :: l)) mod two16)) (e_buf E1) (e_len E1)) as (wa & Xa & Ea). rewrite Xa. cbn [rbind].
      destruct (@e_write wa (extra_bytes (r :: l)) (e_buf Ea) (e_len Ea)) as (wb & Xb & Eb). exists wb. split; auto. eapply e_trans; eauto. apply le16_bytes. }
  destruct S2 as (w2 & X2 & E2). rewrite X2. cbn [rbind].
  assert (S3 : exists w3, match h_name h with [] => Ok (w2, true) | _ => writeStringZ env w2 (h_name h) end = Ok (w3, true) /\ E x3 w2 w3).
  { unfold x3. destruct (h_name h) as [|r l] eqn:EX; [exists w2; split; auto; apply e_nil; apply E2|]. rewrite stringZ by auto. apply e_write; apply E2. }
  destruct S3 as (w3 & X3 & E3). rewrite X3. cbn [rbind].
  assert (S4 : exists w4, match h_comment h with [] => Ok (w3, true) | _ => writeStringZ env w3 (h_comment h) end = Ok (w4, true) /\ E x4 w3 w4).
  { unfold x4. destruct (h_comment h) as [|r l] eqn:EX; [exists w3; split; auto; apply e_nil; apply E3|]. rewrite stringZ by auto. apply e_write; apply E3. }
  destruct S4 as (w4 & X4 & E4). rewrite X4. cbn [rbind].
  assert (EA : E (gzipHeader10 opt h ++ x2 ++ x3 ++ x4) w0 w4) by (eapply e_trans; [exact E1| |exact B1]; eapply e_trans; [exact E2| |exact B2]; eapply e_trans; [exact E3|exact E4|exact B3]).
  destruct (@e_write w4 (le16 (outCRC (w_out w4) mod two16)) (e_buf E4) (e_len E4)) as (w5 & X5 & E5). exists w5. split; [exact X5|].
  assert (HB : bytes_ok (gzipHeader10 opt h ++ x2 ++ x3 ++ x4)) by (apply bytes_ok_app; split; auto; apply bytes_ok_app; split; auto; apply bytes_ok_app; auto).
  rewrite (e_crc EA) in E5 by (auto; rewrite F3; reflexivity). rewrite F3 in E5. eapply e_trans; eauto.
Qed.

Definition Hshape (h : list N) : Prop := exists hd, header_ok hd /\ StreamHeader opt hd h.
Definition Fshape (f : list N) : Prop := length f = match o_format opt with ZlibFormat => 4 | GZIPFormat => 8 | _ => 0 end.
(** everything written so far is accounted for and no bits are pending *)
Definition at_rest (A B : list N) (w1 w2 : writer) : Prop := sink (w_out w1) = A /\ sink (w_out w2) = B /\ obLen (w_out w2) = 0.
Definition prep := hdr_prep env.
Lemma prep_hdr w : hnorm (w_opt w) (w_hdr w) (w_hdr (prep w)).
Proof.
  unfold prep, hdr_prep. destruct w as [o cfg [lo lh lb lc] [ia ic it is] ou nu h fl sy ev].
  destruct (o_dict o) eqn:EO; cbn [w_opt w_cfg w_lz w_in w_out w_hdr w_num w_events set_in set_out set_num set_lz set_hdr sendEvent add_event lz_windowClear lz_setWindow lz_o lz_hist lz_buf lz_calls inTotal inStream];
    rewrite EO; cbn [w_opt w_cfg w_lz w_in w_out w_hdr w_num w_events set_in set_out set_num set_lz set_hdr sendEvent add_event lz_windowClear lz_setWindow lz_o lz_hist lz_buf lz_calls inTotal inStream]; apply hnorm_of; auto.
Qed.
Lemma r_prep A B st w1 w2 : R A B st w1 w2 -> at_rest A B w1 w2 -> R A B st (prep w1) (prep w2) /\ at_rest A B (prep w1) (prep w2).
Proof.
  intros H [T1 [T2 T3]]. assert (HO : header_ok (w_hdr (prep w2))) by (eapply hnorm_ok; [apply prep_hdr|apply H]).
  unfold prep, hdr_prep in *. cbv zeta in *. set (h1 := set_levels _ _ _). set (h2 := set_levels _ _ _) in *. clearbody h1 h2.
  destruct H as [a b c d e f g i ((j1 & j2 & j3 & j4 & j5) & k & l & cur & m & n)]. destruct w1 as [o1 c1 l1 i1 u1 n1 hh1 f1 s1 e1], w2 as [o2 c2 l2 i2 u2 n2 hh2 f2 s2 e2].
  cbn in a, b, c, d, e, f, g, i, j1, j2, j3, j4, j5, k, l, m, n, T1, T2, T3, HO |- *. assert (OD : o_dict o1 = o_dict o2) by (rewrite a; destruct o2; reflexivity). rewrite OD.
  subst c1 l1 i1 f1 s1. destruct u1, u2; cbn in *. subst.
  destruct (o_dict _); (split; [constructor; cbn; auto; repeat split; cbn; auto; exists cur; auto|repeat split; auto]).
Qed.
Lemma r_header A B st w1 w2 : R A B st w1 w2 -> at_rest A B w1 w2 ->
  exists x y h, writeHeader env w1 = Ok (x, true) /\ writeHeader env w2 = Ok (y, true) /\ Hshape h /\ R A (B ++ h) st x y.
Proof.
  intros H T. destruct (r_prep H T) as [HP [T1 [T2 T3]]]. pose proof (prep_hdr w2) as HN. rewrite (r_ok H) in HN.
  assert (D1 : forall w, writeHeader env w = let? w := (match o_format (w_opt (prep w)) with RawFormat => Ok (prep w, true) | ZlibFormat => writeHeaderZlib env (prep w) | GZIPFormat => writeHeaderGZIP env (prep w) | DefaultFormat => Panic PAssert end) in Ok (hdr_done w, true)) by reflexivity.
  rewrite !D1. clear D1. set (v1 := prep w1) in *. set (v2 := prep w2) in *. clearbody v1 v2.
  assert (F1 : o_format (w_opt v1) = RawFormat) by (rewrite (r_opt HP); destruct (w_opt v2); reflexivity). rewrite F1, (r_ok HP). cbn [rbind].
  assert (DN : forall a b b', R A b' st a b -> R A b' st (hdr_done a) (hdr_done b)).
  { intros a b b' HR. unfold hdr_done. cbv zeta. pose proof (r_event (ev_header (w_hdr a)) (ev_header (w_hdr b)) HR) as HE. set (p := sendEvent a _) in *. set (q := sendEvent b _) in *. clearbody p q. rewrite (r_in HE). apply r_setin. auto. }
  assert (X : exists y, (match o_format opt with RawFormat => Ok (v2, true) | ZlibFormat => writeHeaderZlib env v2 | GZIPFormat => writeHeaderGZIP env v2 | DefaultFormat => Panic PAssert end) = Ok (y, true) /\ R A (B ++ hdr_bytes opt (w_hdr v2)) st v1 y).
  { assert (EX : forall p y o, E p (set_out v2 o) y -> obBlock o = obBlock (w_out v2) -> obLen o = obLen (w_out v2) -> werr o = werr (w_out v2) -> wstate o = wstate (w_out v2) -> sink o = sink (w_out v2) -> R A (B ++ p) st v1 y).
    { intros p y o [a b c d e f g i] O1 O2 O3 O4 O5. assert (Q : set_out v2 o = set_out v2 o) by reflexivity. destruct (r_out HP) as ((j1 & j2 & j3 & j4 & j5) & k & l & cur & m & n).
      assert (W : w_out (set_out v2 o) = o) by (destruct v2; reflexivity). rewrite W in *. rewrite a. replace (set_out (set_out v2 o) (w_out y)) with (set_out v2 (w_out y)) by (destruct v2; reflexivity).
      assert (RW : forall z, R A (B ++ p) st v1 (set_out v2 z) <-> osink A (B ++ p) st (w_out v1) z).
      { intros z. split; [intros [? ? ? ? ? ? ? ? Z]; destruct v2; exact Z|]. intros Z. destruct HP as [? ? ? ? ? ? ? ? ?]. destruct v2. constructor; auto. }
      apply RW. repeat split; try congruence. exists []. rewrite !app_nil_r. split; auto. rewrite g, O5, T2. reflexivity. }
    unfold hdr_bytes. pose proof (wo_format Hopt) as NF. destruct (o_format opt) eqn:EF; [congruence| | |].
    - exists v2. split; auto. rewrite app_nil_r. auto.
    - unfold writeHeaderZlib. destruct (@e_write v2 (zlibHeaderBytes (w_opt v2))) as (y & Y1 & Y2); [apply HP|auto|]. rewrite (r_ok HP) in *. exists y. split; auto.
      apply (EX _ _ (w_out v2)); auto. replace (set_out v2 (w_out v2)) with v2 by (destruct v2; reflexivity). auto.
    - destruct (@e_gzip v2) as (y & Y1 & Y2); auto; try apply HP. exists y. split; auto. unfold hdr_bytes in Y2. rewrite EF in Y2. apply (EX _ _ _ Y2); destruct (w_out v2); reflexivity. }
  destruct X as (y & Y1 & Y2). rewrite Y1. cbn [rbind]. eexists _, _, _. split; [reflexivity|]. split; [reflexivity|]. split; [|apply DN; exact Y2].
  exists (w_hdr w2). split; [apply H|]. apply hdr_bytes_header; auto. apply HP.
Qed.

Lemma flush_ok w : outBuf (w_out w) = [] -> exists w', w_bitsFlush env w = Ok (w', true) /\ obLen (w_out w') = 0.
Proof.
  intros H. unfold w_bitsFlush, on_out, o_bitsFlush. destruct (Nat.eqb_spec (obLen (w_out w)) 0) as [E0|E0]; cbn [rbind].
  - exists (set_out w (w_out w)). split; auto. destruct w; auto.
  - set (p := firstn _ _). assert (H2 : outBuf (set_ob (w_out w) 0 0) = []) by (destruct (w_out w); auto).
    destruct (loop_app (cap_pos (w_opt w)) H2 (fuel := out_fuel p) (buf := p)) as (o' & X & X1 & X2 & _); [unfold out_fuel; lia|].
    rewrite X. cbn [rbind]. eexists. split; [reflexivity|]. destruct w as [? ? ? ? [] ? ? ? ? ?]; cbn in *; auto.
Qed.
Lemma r_footer A B st w1 w2 : R A B st w1 w2 ->
  exists x y cur f, writeFooter env w1 = Ok (x, true) /\ writeFooter env w2 = Ok (y, true) /\ Fshape f /\ R (A ++ cur) (B ++ cur ++ f) st x y /\ at_rest (A ++ cur) (B ++ cur ++ f) x y.
Proof.
  intros H. unfold writeFooter. pose proof (r_flush H) as HF.
  destruct (@flush_ok w1) as (u1 & U1 & U2); [apply H|]. destruct (@flush_ok w2) as (u2 & V1 & V2); [apply H|]. rewrite U1, V1 in *. cbn [rel rbind] in *. clear U1 V1 H.
  rewrite (r_in HF). cbv zeta. pose proof (r_event (ev_footer (inAdler (w_in u2)) (inCRC (w_in u2))) (ev_footer (inAdler (w_in u2)) (inCRC (w_in u2))) HF) as HE.
  set (c32 := inCRC _) in *. set (a32 := inAdler _) in *. clearbody c32 a32.
  assert (V3 : obLen (w_out (sendEvent u2 (ev_footer a32 c32))) = 0) by (destruct u2; exact V2).
  set (v1 := sendEvent u1 _) in *. set (v2 := sendEvent u2 _) in *. clearbody v1 v2. clear HF U2 V2 u1 u2.
  assert (F1 : o_format (w_opt v1) = RawFormat) by (rewrite (r_opt HE); destruct (w_opt v2); reflexivity). rewrite F1, (r_ok HE). cbn [rbind].
  assert (RO := r_out HE). destruct RO as ((j1 & j2 & j3 & j4 & j5) & k & l & cur & m & n).
  assert (X : exists y f, (match o_format opt with RawFormat => Ok (v2, true) | ZlibFormat => writeFooterZlib env v2 a32 | GZIPFormat => writeFooterGZIP env v2 c32 | DefaultFormat => Panic PAssert end) = Ok (y, true) /\ Fshape f /\
    R (A ++ cur) (B ++ cur ++ f) st v1 y /\ at_rest (A ++ cur) (B ++ cur ++ f) v1 y).
  { assert (EX : forall p y, E p v2 y -> R (A ++ cur) (B ++ cur ++ p) st v1 y /\ at_rest (A ++ cur) (B ++ cur ++ p) v1 y).
    { intros p y [a b c d e f g i]. assert (S1 : sink (w_out y) = B ++ cur ++ p) by (rewrite g, n, <- app_assoc; reflexivity). split; [|split; auto].
      destruct HE as [? ? ? ? ? ? ? ? ?]. rewrite a. constructor; try (destruct v2; assumption). assert (W : w_out (set_out v2 (w_out y)) = w_out y) by (destruct v2; reflexivity). rewrite W.
      repeat split; try congruence. exists []. rewrite !app_nil_r. auto. }
    unfold Fshape. pose proof (wo_format Hopt) as NF. destruct (o_format opt) eqn:EF; [congruence| | |].
    - exists v2, []. split; auto. split; auto. apply EX. apply e_nil; auto.
    - unfold writeFooterZlib. destruct (@e_write v2 (be32 a32) j5 V3) as (y & Y1 & Y2). exists y, (be32 a32). split; auto. 
    - unfold writeFooterGZIP. destruct (@e_write v2 (le32 c32) j5 V3) as (y1 & Y1 & Y2). rewrite Y1. cbn [rbind].
      destruct (@e_write y1 (le32 (inStream (w_in y1) mod two32)) (e_buf Y2) (e_len Y2)) as (y2 & Y3 & Y4). rewrite Y3. cbn [rbind andb].
      exists y2, (le32 c32 ++ le32 (inStream (w_in y1) mod two32)). split; auto. split; [reflexivity|]. apply EX. eapply e_trans; eauto. apply le32_bytes. }
  destruct X as (y & f & Y1 & Y2 & Y3 & Y4 & Y5 & Y6). rewrite Y1. cbn [rbind]. eexists _, _, cur, f. split; [reflexivity|]. split; [reflexivity|]. split; auto. split; [apply r_event; auto|].
  destruct v1, y; repeat split; auto.
Qed.

(** ** Calls *)
Definition seg : Type := list N * list N * list N.
Definition s_head (s : seg) := fst (fst s).
Definition s_body (s : seg) := snd (fst s).
Definition s_foot (s : seg) := snd s.
Definition bodies (l : list seg) : list N := concat (map s_body l).
Definition wholes (l : list seg) : list N := concat (map (fun s => s_head s ++ s_body s ++ s_foot s) l).
Definition Shapes (l : list seg) : Prop := Forall (fun s => Hshape (s_head s) /\ Fshape (s_foot s)) l.
Definition RO (st : writerstate) (w1 w2 : writer) : Prop := exists l h, Shapes l /\ Hshape h /\ R (bodies l) (wholes l ++ h) st w1 w2.
Definition RC (st : writerstate) (w1 w2 : writer) : Prop := exists l, Shapes l /\ R (bodies l) (wholes l) st w1 w2 /\ at_rest (bodies l) (wholes l) w1 w2.
Definition S (w1 w2 : writer) : Prop :=
  exists st, wstate (w_out w1) = st /\ wstate (w_out w2) = st /\ match st with
  | noStream | closedStream => RC st w1 w2 | openStream | closingStream => RO st w1 w2 | errorState | closedState => RC st w1 w2 \/ RO st w1 w2 end.
Lemma R_st A B st w1 w2 : R A B st w1 w2 -> wstate (w_out w1) = st /\ wstate (w_out w2) = st.
Proof. intros H. destruct (r_out H) as (_ & a & b & _). auto. Qed.
Lemma RO_S st w1 w2 : RO st w1 w2 -> st <> noStream -> st <> closedStream -> S w1 w2.
Proof. intros H H1 H2. exists st. assert (H' := H). destruct H' as (l & h & _ & _ & X). destruct (R_st X). destruct st; auto; congruence. Qed.
Lemma RC_S st w1 w2 : RC st w1 w2 -> st <> openStream -> st <> closingStream -> S w1 w2.
Proof. intros H H1 H2. exists st. assert (H' := H). destruct H' as (l & _ & X & _). destruct (R_st X). destruct st; auto; congruence. Qed.
Lemma rest_state A B w1 w2 s : at_rest A B w1 w2 -> at_rest A B (w_setstate w1 s) (w_setstate w2 s).
Proof. intros (a & b & c). destruct w1 as [? ? ? ? [] ? ? ? ? ?], w2 as [? ? ? ? [] ? ? ? ? ?]; repeat split; auto. Qed.
Lemma RC_header st w1 w2 : RC st w1 w2 -> exists x y, writeHeader env w1 = Ok (x, true) /\ writeHeader env w2 = Ok (y, true) /\ RO openStream (w_setstate x openStream) (w_setstate y openStream).
Proof.
  intros (l & HL & H & T). destruct (r_header H T) as (x & y & h & X & Y & HS & HR). exists x, y. split; auto. split; auto. exists l, h. split; auto. split; auto. eapply r_state; eauto.
Qed.
Lemma RO_footer st w1 w2 : RO st w1 w2 -> exists x y, writeFooter env w1 = Ok (x, true) /\ writeFooter env w2 = Ok (y, true) /\ RC closedStream (w_setstate x closedStream) (w_setstate y closedStream).
Proof.
  intros (l & h & HL & HS & H). destruct (r_footer H) as (x & y & cur & f & X & Y & F & HR & T). exists x, y. split; auto. split; auto. exists (l ++ [(h, cur, f)]).
  assert (E1 : bodies (l ++ [(h, cur, f)]) = bodies l ++ cur) by (unfold bodies; rewrite map_app, concat_app; cbn; now rewrite app_nil_r).
  assert (E2 : wholes (l ++ [(h, cur, f)]) = (wholes l ++ h) ++ cur ++ f) by (unfold wholes; rewrite map_app, concat_app; cbn; rewrite app_nil_r; unfold s_head, s_body, s_foot; cbn; now rewrite <- app_assoc).
  rewrite E1, E2. split; [apply Forall_app; split; auto|]. split; [eapply r_state; eauto|apply rest_state; auto].
Qed.
(** the calls that write blocks *)
Lemma lift_RO st (f : writer -> res (writer * bool)) w1 w2 : RO st w1 w2 ->
  (forall A B, R A B st w1 w2 -> RR A B st (f w1) (f w2)) -> rel (RO st) FF (f w1) (f w2).
Proof. intros (l & h & HL & HS & H) HF. eapply rel_impl; [apply HF; exact H| |]; [intros; exists l, h; auto|auto]. Qed.
Lemma R_eqs st w1 w2 : RO st w1 w2 \/ RC st w1 w2 -> w_lz w1 = w_lz w2 /\ w_cfg w1 = w_cfg w2 /\ w_flushes w1 = w_flushes w2 /\ w_syncs w1 = w_syncs w2 /\ werr (w_out w1) = werr (w_out w2).
Proof. intros [(l & h & _ & _ & H)|(l & _ & H & _)]; (repeat split; try apply H). Qed.
Lemma S_eqs w1 w2 : S w1 w2 -> w_lz w1 = w_lz w2 /\ w_cfg w1 = w_cfg w2 /\ w_flushes w1 = w_flushes w2 /\ w_syncs w1 = w_syncs w2 /\ werr (w_out w1) = werr (w_out w2).
Proof. intros (st & _ & _ & H). destruct st; eapply R_eqs; eauto; destruct H; eauto. Qed.
Lemma S_inv st w1 w2 : S w1 w2 -> w_state w2 = st -> match st with
  | noStream | closedStream => RC st w1 w2 | openStream | closingStream => RO st w1 w2 | errorState | closedState => RC st w1 w2 \/ RO st w1 w2 end.
Proof. intros (st' & a & b & H) E0. unfold w_state in E0. replace st with st' by congruence. exact H. Qed.
Lemma S_state w1 w2 : S w1 w2 -> w_state w1 = w_state w2.
Proof. intros (st & a & b & _). unfold w_state. congruence. Qed.
Definition live (w : writer) : Prop := w_state w <> errorState /\ w_state w <> closedState.
Definition SL (w1 w2 : writer) : Prop := S w1 w2 /\ live w2.
Lemma s_compress all w1 w2 : SL w1 w2 -> rel SL FF (compressImpl env w1 all) (compressImpl env w2 all).
Proof.
  intros [H [N1 N2]]. unfold compressImpl. destruct (S_eqs H) as (EL & _). rewrite EL. destruct (lz_buf (w_lz w2)); [split; [exact H|split; auto]|]. rewrite (S_state H).
  assert (G : forall x y, RO openStream x y -> rel SL FF (if isStoreConfig (w_cfg x) then compressStore env x all else compressSlow env x all) (if isStoreConfig (w_cfg y) then compressStore env y all else compressSlow env y all)).
  { intros x y HR. destruct (R_eqs (or_introl HR)) as (_ & EC & _). rewrite EC. eapply rel_impl.
    - apply lift_RO with (f := fun z => if isStoreConfig (w_cfg y) then compressStore env z all else compressSlow env z all); [exact HR|]. intros. apply rel_if; [apply r_store; auto|apply r_slow; auto].
    - intros a b HX. split; [eapply RO_S; eauto; discriminate|]. destruct HX as (l1 & h1 & _ & _ & HX). destruct (R_st HX) as [_ W]. unfold live, w_state. rewrite W. split; discriminate.
    - auto. }
  assert (G2 : forall st x y, RC st x y -> st = noStream \/ st = closedStream -> rel SL FF
    (let? w := match w_state x with noStream | closedStream => let? w := writeHeader env x in Ok (w_setstate w openStream, true) | _ => Ok (x, true) end in if isStoreConfig (w_cfg w) then compressStore env w all else compressSlow env w all)
    (let? w := match w_state y with noStream | closedStream => let? w := writeHeader env y in Ok (w_setstate w openStream, true) | _ => Ok (y, true) end in if isStoreConfig (w_cfg w) then compressStore env w all else compressSlow env w all)).
  { intros st x y HR Hst. assert (HR' := HR). destruct HR' as (l0 & _ & HR' & _). destruct (R_st HR') as [W1 W2]. unfold w_state. rewrite W1, W2. destruct (RC_header HR) as (a & b & X1 & X2 & X3). rewrite X1, X2.
    destruct Hst; subst st; cbn [rbind]; apply G; auto. }
  destruct H as (st & W1 & W2 & H). unfold w_state in N1, N2 |- *. rewrite W2. rewrite W2 in N1, N2. destruct st; try congruence; cbn [rbind].
  - apply (G2 noStream); auto.
  - unfold w_state. rewrite W1, W2. cbn [rbind]. apply G; auto.
  - destruct (RO_footer H) as (a & b & X1 & X2 & X3). rewrite X1, X2. cbn [rbind]. apply (G2 closedStream); auto.
  - apply (G2 closedStream); auto.
Qed.

Lemma RC_fail st x y e : RC st x y -> RC errorState (w_fail x e) (w_fail y e).
Proof. intros (l & HL & H & T). exists l. split; auto. split; [eapply r_fail; eauto|]. destruct T as (a & b & c). destruct x as [? ? ? ? [] ? ? ? ? ?], y as [? ? ? ? [] ? ? ? ? ?]; repeat split; auto. Qed.
Lemma RO_fail st x y e : RO st x y -> RO errorState (w_fail x e) (w_fail y e).
Proof. intros (l & h & HL & HS & H). exists l, h. split; auto. split; auto. eapply r_fail; eauto. Qed.
Lemma S_fail x y e : S x y -> S (w_fail x e) (w_fail y e).
Proof.
  intros (st & _ & _ & H). assert (G : RC st x y \/ RO st x y) by (destruct st; auto). destruct G as [G|G].
  - eapply RC_S; [eapply RC_fail; eauto|discriminate|discriminate].
  - eapply RO_S; [eapply RO_fail; eauto|discriminate|discriminate].
Qed.
Lemma S_closed x y : S x y -> S (w_setstate x closedState) (w_setstate y closedState).
Proof.
  intros (st & _ & _ & H). assert (G : RC st x y \/ RO st x y) by (destruct st; auto). destruct G as [G|G].
  - apply RC_S with (st := closedState); try discriminate. destruct G as (l & HL & H1 & T). exists l. split; auto. split; [eapply r_state; eauto|apply rest_state; auto].
  - apply RO_S with (st := closedState); try discriminate. destruct G as (l & h & HL & HS & H1). exists l, h. split; auto. split; auto. eapply r_state; eauto.
Qed.
Lemma S_calls x y a b : S x y -> S (set_calls x a b) (set_calls y a b).
Proof.
  intros (st & A1 & A2 & H). exists st. split; [destruct x; exact A1|]. split; [destruct y; exact A2|].
  assert (GC : RC st x y -> RC st (set_calls x a b) (set_calls y a b)).
  { intros (l & HL & H1 & T). exists l. split; auto. split; [eapply r_calls; eauto|]. destruct x, y; exact T. }
  assert (GO : RO st x y -> RO st (set_calls x a b) (set_calls y a b)) by (intros (l & h & HL & HS & H1); exists l, h; split; auto; split; auto; eapply r_calls; eauto).
  destruct st; auto; destruct H; auto.
Qed.
Lemma live_calls y a b : live y -> live (set_calls y a b). Proof. destruct y; auto. Qed.
Lemma s_guts ft w1 w2 : RO openStream w1 w2 -> rel (RO (if is_finish ft then closingStream else openStream)) FF (flushGuts env w1 ft) (flushGuts env w2 ft).
Proof.
  intros H. assert (ST : forall d f x y, RO openStream x y -> rel (RO openStream) FF (writeStoredBlock bw x d f) (writeStoredBlock bw y d f)).
  { intros d f x y HX. apply lift_RO with (f := fun z => writeStoredBlock bw z d f); auto. intros. apply r_stored; auto. }
  unfold flushGuts. destruct ft; cbn [is_finish].
  - exact H.
  - apply lift_RO with (f := fun z => writeStaticBlock bw z [makeStopToken] false); auto. intros. apply r_static; auto.
  - apply ST; auto.
  - eapply rel_bind; [apply ST; eauto|]. intros x y HX. cbn [rel]. rewrite (proj1 (R_eqs (or_introl HX))). destruct HX as (l & h & HL & HS & HX). exists l, h. split; auto. split; auto. apply r_setlz; auto.
  - eapply rel_bind; [apply ST; eauto|]. intros x y HX. cbn [rel]. rewrite (proj1 (R_eqs (or_introl HX))). destruct HX as (l & h & HL & HS & HX). exists l, h. split; auto. split; auto. eapply r_state, r_setlz; eauto.
Qed.
Definition Sf (x y : writer) : Prop := S x y /\ werr (w_out y) <> None.
Definition fin_ok (ft : flushtype) (y : writer) : Prop := is_finish ft = true -> w_state y = closedStream.
Lemma Sf_fail x y e : S x y -> Sf (w_fail x e) (w_fail y e).
Proof. intros H. split; [apply S_fail; auto|]. destruct y as [? ? ? ? [] ? ? ? ? ?]; discriminate. Qed.
Lemma s_flushImpl ft w1 w2 : SL w1 w2 -> rel (fun x y => SL x y /\ fin_ok ft y) Sf (flushImpl env w1 ft) (flushImpl env w2 ft).
Proof.
  intros H. unfold flushImpl. eapply rel_bind; [eapply rel_impl; [apply s_compress; eauto|intros x y HX; exact HX|contradiction]|]. intros x1 y1 [H1 L1].
  (* the header *)
  eapply rel_bind with (R := fun x y => SL x y /\ (is_finish ft = true -> w_state y <> noStream)).
  { destruct (is_finish ft); [|cbn [rel]; split; [split; auto|discriminate]]. rewrite (S_state H1). destruct (w_state y1) eqn:E1; try (cbn [rel]; split; [split; auto|congruence]).
    pose proof (S_inv H1 E1) as H1'. destruct (RC_header H1') as (a & b & X1 & X2 & X3). rewrite X1, X2. cbn [rbind rel].
    assert (WB : w_state (w_setstate b openStream) = openStream) by (destruct b as [? ? ? ? [] ? ? ? ? ?]; reflexivity).
    split; [split; [eapply RO_S; eauto; discriminate|unfold live; rewrite WB; split; discriminate]|congruence]. }
  intros x2 y2 [[H2 L2] NS]. rewrite (S_state H2).
  (* the last blocks *)
  eapply rel_bind with (R := fun x y => SL x y /\ (is_finish ft = true -> w_state y = closingStream \/ w_state y = closedStream)).
  { destruct (w_state y2) eqn:E2; try (cbn [rel]; split; [split; auto|intros F; rewrite E2; auto; destruct (NS F); auto]; fail).
    - pose proof (S_inv H2 E2) as H2'. eapply rel_impl; [apply s_guts; exact H2'| |].
      + intros x y HX. assert (HX' := HX). destruct HX' as (l & h & _ & _ & HX'). destruct (R_st HX') as [_ W]. split; [split|].
        * eapply RO_S; eauto; destruct (is_finish ft); discriminate.
        * unfold live, w_state. rewrite W. destruct (is_finish ft); split; discriminate.
        * intros F. unfold w_state. rewrite W, F. auto.
      + contradiction.
    - destruct L2; congruence.
    - destruct L2; congruence. }
  intros x3 y3 [[H3 L3] F3]. rewrite (S_state H3).
  eapply rel_bind with (R := fun x y => SL x y /\ fin_ok ft y).
  { destruct (w_state y3) eqn:E3; try (cbn [rel]; split; [split; auto|intros F; destruct (F3 F); congruence]; fail).
    pose proof (S_inv H3 E3) as H3'. destruct (RO_footer H3') as (a & b & X1 & X2 & X3). rewrite X1, X2. cbn [rbind rel].
    assert (WB : w_state (w_setstate b closedStream) = closedStream) by (destruct b as [? ? ? ? [] ? ? ? ? ?]; reflexivity).
    split; [split; [eapply RC_S; eauto; discriminate|unfold live; rewrite WB; split; discriminate]|intros _; auto]. }
  intros x4 y4 [[H4 L4] F4]. cbv zeta. destruct (S_eqs H4) as (_ & _ & EF & ES & _). rewrite EF, ES.
  pose proof (S_calls (1 + w_flushes y4) (w_syncs y4) H4) as H5. cbn [Nat.add] in H5. destruct (e_flushw env _); [cbn [rel]; apply Sf_fail; auto|].
  assert (L5 : live (set_calls y4 (Datatypes.S (w_flushes y4)) (w_syncs y4)) /\ fin_ok ft (set_calls y4 (Datatypes.S (w_flushes y4)) (w_syncs y4))) by (destruct y4; split; auto).
  set (a := set_calls x4 _ _) in *. set (b := set_calls y4 _ _) in *. clearbody a b. destruct L5 as [L5 F5]. destruct (S_eqs H5) as (_ & _ & EF5 & ES5 & _). rewrite EF5, ES5.
  pose proof (S_calls (w_flushes b) (1 + w_syncs b) H5) as H6. cbn [Nat.add] in H6.
  assert (L6 : live (set_calls b (w_flushes b) (Datatypes.S (w_syncs b))) /\ fin_ok ft (set_calls b (w_flushes b) (Datatypes.S (w_syncs b)))) by (destruct b; split; auto).
  destruct (e_syncw env _) as [[]|]; cbn [rel]; auto; try (apply Sf_fail; auto); destruct L6; split; auto; split; auto.
Qed.
Lemma s_writeLoop fuel : forall buf w1 w2, SL w1 w2 -> rel SL FF (writeLoop env fuel w1 buf) (writeLoop env fuel w2 buf).
Proof.
  induction fuel as [|f IH]; intros buf w1 w2 H; cbn [writeLoop]; destruct buf as [|b buf]; try exact H; [exact I|]. destruct (S_eqs (proj1 H)) as (EL & _). rewrite EL.
  destruct (lz_write (w_lz w2) (b :: buf)) as [[l nn] full]. cbv zeta. eapply rel_bind; [apply s_compress|intros x y HX; apply IH; auto].
  destruct H as [(st & W1 & W2 & H) L]. split; [|destruct w2; exact L]. exists st. split; [destruct w1; exact W1|]. split; [destruct w2; exact W2|].
  assert (GC : RC st w1 w2 -> RC st (set_lz w1 l) (set_lz w2 l)) by (intros (l0 & HL & H1 & T); exists l0; split; auto; split; [eapply r_setlz; eauto|destruct w1, w2; exact T]).
  assert (GO : RO st w1 w2 -> RO st (set_lz w1 l) (set_lz w2 l)) by (intros (l0 & h & HL & HS & H1); exists l0, h; split; auto; split; auto; eapply r_setlz; eauto).
  destruct st; auto; destruct H; auto.
Qed.
Definition rel_call (m1 m2 : res (writer * option goerr)) : Prop :=
  match m1, m2 with
  | Ok (x, e), Ok (y, f) => S x y /\ e = f
  | Panic p, Panic q => p = q
  | NoFuel, NoFuel => True
  | _, _ => False
  end.
Definition rel_step (m1 m2 : res (writer * option goerr)) : Prop :=
  match m1, m2 with
  | Ok (x, e), Ok (y, f) => S x y /\ e = f /\ (f = None -> live y)
  | Panic p, Panic q => p = q
  | NoFuel, NoFuel => True
  | _, _ => False
  end.
Lemma S_err x y : S x y -> werr (w_out x) = werr (w_out y). Proof. intros H. apply S_eqs; auto. Qed.
Lemma c_write p w1 w2 : SL w1 w2 -> rel_step (w_step env w1 (OWrite p)) (w_step env w2 (OWrite p)).
Proof.
  intros [H HL]. cbn [w_step]. unfold w_Write. rewrite (S_state H), (S_err H). destruct HL as [N1 N2]. assert (HS : SL w1 w2) by (split; auto; split; auto). pose proof (s_writeLoop (2 * length p + 2) p HS) as L.
  destruct (w_state w2) eqn:E2; try congruence; (destruct (writeLoop env _ w1 p) as [[x []]| |], (writeLoop env _ w2 p) as [[y []]| |]; cbn [rel rbind rel_step] in *; try contradiction; auto; split; [apply L|split; auto; intros; apply L]).
Qed.
Lemma c_flush ft w1 w2 : SL w1 w2 -> rel_step (w_step env w1 (OFlush ft)) (w_step env w2 (OFlush ft)).
Proof.
  intros [H HL]. cbn [w_step]. unfold w_Flush. rewrite (S_state H), (S_err H). destruct HL as [N1 N2]. assert (HS : SL w1 w2) by (split; auto; split; auto). pose proof (s_flushImpl ft HS) as L.
  destruct (w_state w2) eqn:E2; try congruence; (destruct (flushImpl env w1 ft) as [[x []]| |], (flushImpl env w2 ft) as [[y []]| |]; cbn [rel rbind rel_step] in *; try contradiction; auto;
   [split; [apply L|split; auto; intros; apply L]|destruct L as [L L2]; rewrite (S_err L); split; auto; split; auto; intros; congruence]).
Qed.
Lemma c_set h w1 w2 : header_bytes h -> SL w1 w2 -> rel_step (w_step env w1 (OSetHeader h)) (w_step env w2 (OSetHeader h)).
Proof.
  intros HB [H HL]. cbn [w_step]. unfold w_SetHeader. cbv zeta. destruct (Nat.eqb_spec (checkHeaderFileName h + checkHeaderComment h + checkHeaderLastModified h + checkHeaderOSType h + checkHeaderExtraData h) 0) as [E0|E0]; cbn [fst snd rel_step]; auto. split; [|split; [reflexivity|intros; destruct w2; exact HL]].
  assert (HK : header_ok h) by (split; auto; exact HB).
  destruct H as (st & W1 & W2 & H). exists st. split; [destruct w1; exact W1|]. split; [destruct w2; exact W2|].
  assert (GC : RC st w1 w2 -> RC st (set_hdr w1 h) (set_hdr w2 h)) by (intros (l0 & HL0 & H1 & T); exists l0; split; auto; split; [eapply r_sethdr; eauto|destruct w1, w2; exact T]).
  assert (GO : RO st w1 w2 -> RO st (set_hdr w1 h) (set_hdr w2 h)) by (intros (l0 & h0 & HL0 & HS & H1); exists l0, h0; split; auto; split; auto; eapply r_sethdr; eauto).
  destruct st; auto; destruct H; auto.
Qed.
Lemma c_close w1 w2 : SL w1 w2 -> rel_call (w_Close env w1) (w_Close env w2) /\
  match w_Close env w1, w_Close env w2 with Ok (x, None), Ok (y, None) => RC closedState x y | _, _ => True end.
Proof.
  intros [H HLV]. unfold w_Close. rewrite (S_state H).
  assert (HH : forall x y, S x y -> rel_call (Ok (close_helper x)) (Ok (close_helper y))).
  { intros x y HX. unfold close_helper. cbn [rel_call]. rewrite (S_err HX). split; auto. 
    assert (WY : w_state (w_setstate y closedState) = closedState) by (destruct y as [? ? ? ? [] ? ? ? ? ?]; reflexivity). pose proof (S_inv (S_closed HX) WY) as G.
    exists closedState. split; [destruct x as [? ? ? ? [] ? ? ? ? ?]; reflexivity|]. split; [destruct y as [? ? ? ? [] ? ? ? ? ?]; reflexivity|].
    assert (GG : forall A B, R A B closedState (w_setstate x closedState) (w_setstate y closedState) -> R A B closedState (set_out x (set_state (w_out x) closedState None)) (set_out y (set_state (w_out y) closedState None))).
    { intros A B HR. destruct HR as [a b c d e f g h ((i1 & i2 & i3 & i4 & i5) & j & k & l)]. destruct x as [? ? ? ? [] ? ? ? ? ?], y as [? ? ? ? [] ? ? ? ? ?]; cbn in *. constructor; auto; repeat split; auto. }
    destruct G as [(l & HL & G & T)|(l & h & HL & HS & G)]; [left; exists l|right; exists l, h]; auto. split; auto. split; auto.
    destruct x as [? ? ? ? [] ? ? ? ? ?], y as [? ? ? ? [] ? ? ? ? ?]; exact T. }
  assert (HS : SL w1 w2) by (split; auto). pose proof (s_flushImpl FinishFlush HS) as L. destruct HLV as [N1 N2].
  destruct (w_state w2) eqn:E2; try congruence;
  (destruct (flushImpl env w1 FinishFlush) as [[x []]| |], (flushImpl env w2 FinishFlush) as [[y []]| |]; cbn [rel rbind] in *; try contradiction; auto;
   [split; [cbn [rel_call]; split; auto; apply S_closed; apply L|]|split; [apply HH; apply L|]]).
  all: try (destruct L as [[G _] F]; specialize (F eq_refl); pose proof (S_inv G F) as G'; clear G; destruct G' as (l & HS' & G & T); hnf; exists l; split; [exact HS'|]; split; [eapply r_state; eauto|apply rest_state; auto]; fail).
  all: destruct L as [L L2]; unfold close_helper; rewrite (S_err L); destruct (werr (w_out y)) eqn:EY; auto; congruence.
Qed.
Lemma c_run ops : Forall op_ok ops -> forall w1 w2, SL w1 w2 -> rel_step (w_run env w1 ops) (w_run env w2 ops).
Proof.
  induction 1 as [|c ops HC HO IH]; intros w1 w2 H; cbn [w_run]; [cbn [rel_step]; split; [apply H|split; auto; intros; apply H]|].
  assert (X : rel_step (w_step env w1 c) (w_step env w2 c)) by (destruct c; [apply c_write|apply c_flush|apply c_set]; auto).
  destruct (w_step env w1 c) as [[x e]| |], (w_step env w2 c) as [[y f]| |]; cbn [rel_step rbind] in *; try contradiction; auto. destruct X as (X & -> & L). destruct f; [cbn [rel_step]; split; auto|]. apply IH. split; auto.
Qed.
Lemma c_session ops w1 w2 : Forall op_ok ops -> SL w1 w2 -> rel_call (w_session env w1 ops) (w_session env w2 ops) /\
  match w_session env w1 ops, w_session env w2 ops with Ok (x, None), Ok (y, None) => RC closedState x y | _, _ => True end.
Proof.
  intros HO H. unfold w_session. pose proof (c_run HO H) as X. destruct (w_run env w1 ops) as [[x e]| |], (w_run env w2 ops) as [[y f]| |]; cbn [rel_step rbind rel_call] in *; try contradiction; auto.
  destruct X as (X & -> & L). destruct f; [cbn [rel_call]; auto|]. apply c_close. split; auto.
Qed.
Lemma S_new o : opt = o -> S (Writer (oraw o) (compressConfig o) (lz_init (hybridOptions o) 0) (WSum 0 0 0 0) (WOut 0 0 [] [] 0 0 0 0 noStream None) 0 header0 0 0 [])
  (Writer o (compressConfig o) (lz_init (hybridOptions o) 0) (WSum 0 0 0 0) (WOut 0 0 [] [] 0 0 0 0 noStream None) 0 header0 0 0 []).
Proof.
  intros HO. exists noStream. split; [reflexivity|]. split; [reflexivity|]. exists []. split; [constructor|]. split; [|repeat split; auto].
  constructor; auto; [|repeat split; auto; exists []; auto]. split; [repeat split; constructor|reflexivity].
Qed.

End Body.
