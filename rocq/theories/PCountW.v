(** The counters carried by the events of a Writer: used for C82. *)
From Verif Require Import Base SpecHuffman MChecksum MToken MCommon MWriter MCalls SpecCount PWFrame.
Notation zero := (0%N, 0%N, 0%N).
Lemma add_both a t s n : since a t s -> since a (add64 t n) (add64 s n).
Proof. intros [-> H]. unfold since, add64. rewrite N.add_mod_idemp_l, N.add_mod_idemp_r, N.add_assoc by discriminate. split; [reflexivity|apply N.mod_lt; discriminate]. Qed.
Lemma counters_snoc evs e : forall s, Counters s evs -> fits (fold_left mark evs s) e -> Counters s (evs ++ [e]).
Proof. induction evs as [|x evs IH]; intros s H F; cbn [app Counters fold_left] in *; auto. destruct H as [H1 H2]. split; auto. Qed.

Section Count.
Variable env : wenv.
Notation bw := (bw_writer env).
(** the output side *)
Section Out.
Variable b : N.
Definition OC (o : wout) : Prop := since b (outTotal o) (outStream o).
Lemma oc_bufFlush o : OC o -> OC (fst (outputBufferFlush env o)).
Proof. destruct o. unfold outputBufferFlush. destruct (e_sink _ _ _) as [[? ?]|]; auto. Qed.
Lemma oc_loop cap : forall f o p, OC o -> ho OC OC (outputBufferLoop env f cap o p).
Proof.
  induction f as [|f IH]; intros o p H; destruct p as [|x p]; try exact H; [exact I|]. cbn [outputBufferLoop]. cbv zeta.
  match goal with |- context [N.to_nat ?q] => generalize (N.to_nat q) end. intros nn.
  match goal with |- context [outputBufferFlush env ?q] => assert (K : OC (fst (outputBufferFlush env q))); [apply oc_bufFlush|destruct (outputBufferFlush env q) as [o2 [|]]] end.
  - destruct o as [o1 o2 o3 o4 o5 o6 ot os o9 o10]. unfold OC in *. cbn [outTotal outStream] in *. apply add_both. exact H.
  - apply IH. exact K.
  - exact K.
Qed.
Lemma oc_bitsFlush cap o : OC o -> ho OC OC (o_bitsFlush env cap o).
Proof. intros H. unfold o_bitsFlush. destruct (Nat.eqb _ _); [exact H|]. apply oc_loop. destruct o; exact H. Qed.
Lemma oc_bufferWrite cap o p : OC o -> ho OC OC (o_bufferWrite env cap o p).
Proof. intros H. unfold o_bufferWrite. eapply ho_bind; [apply oc_bitsFlush; exact H|]. intros. apply oc_loop; auto. Qed.
Lemma oc_bitsLoop cap : forall f o n x, OC o -> ho OC OC (o_bitsLoop env f cap o n x).
Proof.
  induction f as [|f IH]; intros o n x H; destruct n as [|n]; try exact H; [exact I|]. cbn [o_bitsLoop]. cbv zeta.
  match goal with |- context [set_ob o ?q ?r] => assert (K : OC (set_ob o q r)) by (destruct o; exact H); revert K; generalize (set_ob o q r) end.
  intros o1 H1. destruct (Nat.eqb _ _); [|apply IH; exact H1]. eapply ho_bind; [apply oc_bitsFlush; exact H1|]. intros. apply IH; auto.
Qed.
Lemma oc_bitsWrite cap o n x : OC o -> ho OC OC (o_bitsWrite env cap o n x).
Proof. intros H. unfold o_bitsWrite. apply ho_assert, ho_assert, oc_bitsLoop, H. Qed.
End Out.

Definition counted (w : writer) (a b : N) : Prop :=
  Counters zero (w_events w) /\ fold_left mark (w_events w) zero = (w_num w, a, b).
Definition P (w : writer) : Prop :=
  exists a b, counted w a b /\ since a (inTotal (w_in w)) (inStream (w_in w)) /\ OC b (w_out w).
Lemma p_out w o : (forall b, OC b (w_out w) -> OC b o) -> P w -> P (set_out w o).
Proof. intros K [a [b [H1 [H2 H3]]]]. exists a, b. destruct w; split; [exact H1|split; [exact H2|apply K; exact H3]]. Qed.
Lemma p_state w s e : P w -> P (set_out w (set_state (w_out w) s e)).
Proof. apply p_out. intros b. destruct (w_out w); auto. Qed.
Lemma p_lz w l : P w -> P (set_lz w l). Proof. destruct w; auto. Qed.
Lemma p_calls w a b : P w -> P (set_calls w a b). Proof. destruct w; auto. Qed.
Lemma p_hdr w h : P w -> P (set_hdr w h). Proof. destruct w; auto. Qed.
Lemma p_sum w p : P w -> P (set_in w (sum_bytes (w_in w) p)).
Proof. intros [a [b [H1 [H2 H3]]]]. exists a, b. destruct w as [? ? ? [? ? t s] ? ? ? ? ? ?]. cbn in *. split; [exact H1|split; [apply add_both; exact H2|exact H3]]. Qed.
Lemma g_event w p : p_type p <> StreamBeginEvent -> P w -> P (sendEvent w p).
Proof.
  intros NB [a [b [[E1 E2] [H2 H3]]]]. exists a, b. destruct w as [op c l i o n h f s ev]. unfold sendEvent, counted, OC in *. cbn in *. split; [split|split; auto].
  - apply counters_snoc; auto. rewrite E2. unfold fits, mark. cbn [e_type]. destruct (p_type p); try contradiction; cbn; auto.
  - rewrite fold_left_app, E2. cbn [fold_left mark e_type]. destruct (p_type p); try contradiction; auto.
Qed.
Lemma g_on f w : (forall b o, OC b o -> ho (OC b) (OC b) (f o)) -> P w -> ho P P (on_out f w).
Proof.
  intros HF [a [b [H1 [H2 H3]]]]. unfold on_out. specialize (HF b _ H3). destruct (f (w_out w)) as [[o []]| |]; cbn [ho rbind] in *; auto;
  exists a, b; destruct w; (split; [exact H1|split; [exact H2|exact HF]]).
Qed.
Lemma g_bits w n x : P w -> ho P P (w_bitsWrite env w n x). Proof. apply g_on. intros. apply oc_bitsWrite; auto. Qed.
Lemma g_flush w : P w -> ho P P (w_bitsFlush env w). Proof. apply g_on. intros. apply oc_bitsFlush; auto. Qed.
Lemma g_buf w p : P w -> ho P P (w_bufferWrite env w p). Proof. apply g_on. intros. apply oc_bufferWrite; auto. Qed.
Lemma g_stored w data fin : P w -> ho P P (writeStoredBlock bw w data fin).
Proof.
  intros H. unfold writeStoredBlock. apply ho_assert. cbv zeta. cbn [bw_writer bw_bitsWrite bw_bitsFlush bw_writeU16le bw_bufferWrite bw_event].
  eapply ho_bind; [apply g_bits, g_event; [discriminate|eauto]|]. intros x1 H1. eapply ho_bind; [apply g_flush; eauto|]. intros x2 H2.
  eapply ho_bind; [apply g_buf; eauto|]. intros x3 H3. eapply ho_bind; [apply g_buf; eauto|]. intros x4 H4.
  eapply ho_bind; [apply g_buf; eauto|]. intros x5 H5. apply g_event; [discriminate|auto].
Qed.
Lemma g_opt (b : bool) w n x : P w -> ho P P (if b then Ok (w, true) else w_bitsWrite env w n x).
Proof. intros H. destruct b; [exact H|apply g_bits; auto]. Qed.
Lemma g_lld ll d t w : P w -> ho P P (encodeLLD bw ll d t w).
Proof.
  intros H. unfold encodeLLD, bw_writeHC. cbn [bw_writer bw_bitsWrite]. apply ho_let. intros [[sl nl] xl]. apply ho_let. intros [[sd nd] xd]. destruct sl as [sl|]; [|exact H].
  eapply ho_bind; [apply g_bits; eauto|]. intros x1 H1. eapply ho_bind; [apply g_opt; eauto|]. intros x2 H2. destruct sd as [sd|]; [|exact H2].
  eapply ho_bind; [apply g_bits; eauto|]. intros x3 H3. eapply ho_bind; [apply g_opt; eauto|]. intros x4 H4. exact H4.
Qed.
Lemma g_x hx t w : P w -> ho P P (encodeX bw hx t w).
Proof.
  intros H. unfold encodeX, bw_writeHC. cbn [bw_writer bw_bitsWrite]. destruct (symbolX t) as [[sx nx] xx]. destruct sx as [sx|]; [|exact H].
  eapply ho_bind; [apply g_bits; eauto|]. intros x1 H1. eapply ho_bind; [apply g_opt; eauto|]. intros x2 H2. exact H2.
Qed.
Lemma g_static w tokens fin : P w -> ho P P (writeStaticBlock bw w tokens fin).
Proof.
  intros H. unfold writeStaticBlock. apply ho_assert. cbv zeta. cbn [bw_writer bw_bitsWrite bw_event]. eapply ho_bind; [apply g_bits, g_event; [discriminate|eauto]|]. intros x1 H1.
  eapply ho_bind; [apply ho_for; [intros; apply g_lld; eauto|apply g_event; [discriminate|eauto]]|]. intros x2 H2. apply g_event; [discriminate|auto].
Qed.
Lemma g_dynamic w ll d tokens fin : P w -> ho P P (writeDynamicBlock env bw w ll d tokens fin).
Proof.
  intros H. unfold writeDynamicBlock. apply ho_assert. cbv zeta. cbn [bw_writer bw_bitsWrite bw_event]. eapply ho_bind; [apply g_bits, g_event; [discriminate|eauto]|]. intros x1 H1.
  apply ho_let. intros [xt1 nll]. apply ho_let. intros [xt nd]. apply ho_let. intros fx.
  eapply ho_bind; [apply g_bits; eauto|]. intros x2 H2. eapply ho_bind; [apply g_bits; eauto|]. intros x3 H3.
  eapply ho_bind; [apply g_bits; eauto|]. intros x4 H4.
  eapply ho_bind; [apply ho_for; [intros; apply g_bits; eauto|eauto]|]. intros x5 H5.
  eapply ho_bind; [apply ho_for; [intros; apply g_x; eauto|eauto]|]. intros x6 H6.
  eapply ho_bind; [apply ho_for; [intros; apply g_lld; eauto|apply g_event; [discriminate|eauto]]|]. intros x7 H7. apply g_event; [discriminate|auto].
Qed.
Lemma g_tokens w data tokens fin : P w -> ho P P (compressTokens env bw w data tokens fin).
Proof.
  intros H. unfold compressTokens. apply ho_let. intros [fll fd]. cbv zeta. apply ho_let. intros [dc b1]. apply ho_let. intros [sc b2].
  match goal with |- ho _ _ (if ?b then _ else _) => destruct b end; [apply g_stored; auto|].
  match goal with |- ho _ _ (if ?b then _ else _) => destruct b end; [apply g_static; auto|apply g_dynamic; auto].
Qed.

Lemma p_storeLoop fuel : forall w, P w -> ho P P (compressStoreLoop env fuel w).
Proof.
  induction fuel as [|f IH]; intros w H; cbn [compressStoreLoop]; destruct (lz_buf (w_lz w)) eqn:E; try exact H; [exact I|].
  unfold inputBufferRead, lz_take. match goal with |- context [set_in (set_lz w ?l) (sum_bytes (w_in w) ?p)] => assert (K : P (set_in (set_lz w l) (sum_bytes (w_in w) p))) end.
  { match goal with |- P (set_in (set_lz w ?l) (sum_bytes (w_in w) ?p)) => replace (w_in w) with (w_in (set_lz w l)) at 1 by (destruct w; reflexivity) end. apply p_sum, p_lz, H. }
  eapply ho_bind; [apply g_stored; exact K|]. intros x Hx. apply IH; auto.
Qed.
Lemma p_slowLoop fuel : forall w w1 d t, P w -> compressSlowLoop env fuel w = Ok (w1, d, t) -> P w1.
Proof.
  induction fuel as [|f IH]; intros w w1 d t H; cbn [compressSlowLoop]; destruct (lz_buf (w_lz w)) eqn:E; try discriminate; try (intros EQ; inversion EQ; subst; auto; fail).
  unfold inputBufferAdvance, lz_take. cbv zeta.
  set (m := e_match env _ _ _ _). set (l' := LZ _ _ _ _). set (p := firstn _ _). set (w2 := set_in _ _).
  assert (H2 : P w2). { unfold w2. replace (w_in w) with (w_in (set_lz w l')) at 1 by (destruct w; reflexivity). apply p_sum, p_lz, H. }
  clearbody w2. destruct m as [[dd len]|].
  - unfold assertb. destruct (3 <=? len)%N; [|discriminate]. destruct (1 <=? dd)%N; [|discriminate]. destruct (makeCopyToken _ _); cbn [rbind]; try discriminate.
    destruct (compressSlowLoop env f w2) as [[[w3 d3] t3]| |] eqn:E3; cbn [rbind]; try discriminate. intros EQ. inversion EQ; subst. eapply IH; eauto.
  - destruct p; [discriminate|]. destruct (compressSlowLoop env f w2) as [[[w3 d3] t3]| |] eqn:E3; cbn [rbind]; try discriminate. intros EQ. inversion EQ; subst. eapply IH; eauto.
Qed.
Lemma p_stringZ w p : P w -> ho P P (writeStringZ env w p).
Proof. intros H. unfold writeStringZ. destruct (indexByte p 0); [destruct (Nat.eqb _ _); [|exact I]|]; apply g_buf; auto. Qed.
Lemma p_gzip w : P w -> ho P P (writeHeaderGZIP env w).
Proof.
  intros H. unfold writeHeaderGZIP. cbv zeta. eapply ho_bind; [apply g_buf; apply p_out; [intros b; destruct (w_out w)|]; auto|]. intros x1 H1.
  eapply ho_bind with (P := P); [destruct (h_extra _); [exact H1|]; cbv zeta; eapply ho_bind; [apply g_buf; exact H1|]; intros; apply g_buf; auto|]. intros x2 H2.
  eapply ho_bind with (P := P); [destruct (h_name _); [exact H2|]; apply p_stringZ; auto|]. intros x3 H3.
  eapply ho_bind with (P := P); [destruct (h_comment _); [exact H3|]; apply p_stringZ; auto|]. intros x4 H4. apply g_buf; auto.
Qed.
Lemma p_begin w : P w ->
  let w := set_in w (match w_in w with WSum a c t _ => WSum a c t 0 end) in
  let w := set_out w (set_outstream (w_out w) 0) in
  let w := set_num w (w_num w + 1)%N in
  let w := set_lz w (lz_windowClear (w_lz w)) in
  let w := match o_dict (w_opt w) with Some d => set_lz w (lz_setWindow (w_lz w) d) | None => w end in
  P (sendEvent w (ev_simple StreamBeginEvent)).
Proof.
  intros [a [b [[E1 E2] [[H2 _] [H3 _]]]]]. exists (inTotal (w_in w)), (outTotal (w_out w)).
  destruct w as [op c l [ia ic it is] [oa ob oc od oe og ot os oj ok] n h f s ev]. unfold OC, counted in *. cbn in H2, H3, E1, E2.
  assert (A : since it it 0) by (split; [|reflexivity]; rewrite N.add_0_r, H2, N.mod_mod by discriminate; reflexivity).
  assert (B : since ot ot 0) by (split; [|reflexivity]; rewrite N.add_0_r, H3, N.mod_mod by discriminate; reflexivity).
  cbv zeta. cbn [w_opt set_in set_out set_num set_lz w_in w_out w_num w_lz set_outstream].
  destruct (o_dict op); unfold sendEvent; cbn [set_lz add_event w_opt w_in w_out w_num w_events inTotal inStream outTotal outStream]; (split; [split|split; auto]);
    try (apply counters_snoc; [exact E1|]; rewrite E2; unfold fits; cbn; auto); rewrite fold_left_app, E2; reflexivity.
Qed.
Lemma p_header w : P w -> ho P P (writeHeader env w).
Proof.
  intros H. unfold writeHeader. apply p_begin in H. cbv zeta in *. eapply ho_bind with (P := P).
  - match goal with |- context [set_hdr ?x ?h] => assert (K : P (set_hdr x h)) by (apply p_hdr; exact H); revert K; generalize (set_hdr x h) end. intros x K.
    destruct (o_format _); [exact I|exact K|apply g_buf; exact K|apply p_gzip; exact K].
  - intros x Hx. cbn [ho]. assert (K : P (sendEvent x (ev_header (w_hdr x)))) by (apply g_event; [discriminate|auto]). revert K. generalize (sendEvent x (ev_header (w_hdr x))).
    intros y K. destruct y as [? ? ? [? ? ? ?] ? ? ? ? ? ?]; exact K.
Qed.
Lemma p_footer w : P w -> ho P P (writeFooter env w).
Proof.
  intros H. unfold writeFooter. eapply ho_bind; [apply g_flush; exact H|]. intros x1 H1. cbv zeta.
  assert (H2 : P (sendEvent x1 (ev_footer (inAdler (w_in x1)) (inCRC (w_in x1))))) by (apply g_event; [discriminate|auto]). revert H2. generalize (sendEvent x1 (ev_footer (inAdler (w_in x1)) (inCRC (w_in x1)))). intros x2 H2.
  eapply ho_bind with (P := P).
  - destruct (o_format _); [exact I|exact H2|apply g_buf; exact H2|]. unfold writeFooterGZIP.
    pose proof (g_buf (le32 (inCRC (w_in x1))) H2) as K. destruct (w_bufferWrite env x2 _) as [[x3 b1]| |]; cbn [rbind]; try exact I.
    assert (K3 : P x3) by (destruct b1; exact K). pose proof (g_buf (le32 (inStream (w_in x3) mod two32)) K3) as K4.
    destruct (w_bufferWrite env x3 _) as [[x5 b2]| |]; cbn [rbind ho]; try exact I. destruct b1, b2; cbn; auto.
  - intros x3 H3. apply g_event; [discriminate|auto].
Qed.
Lemma p_setstate w s : P w -> P (w_setstate w s). Proof. apply p_state. Qed.
Lemma p_open w : P w -> ho P P (let? x := writeHeader env w in Ok (w_setstate x openStream, true)).
Proof. intros H. eapply ho_bind; [apply p_header; exact H|]. intros. apply p_setstate; auto. Qed.
Lemma p_shut w : P w -> ho P P (let? x := writeFooter env w in Ok (w_setstate x closedStream, true)).
Proof. intros H. eapply ho_bind; [apply p_footer; exact H|]. intros. apply p_setstate; auto. Qed.
Lemma p_compress w all : P w -> ho P P (compressImpl env w all).
Proof.
  intros H. unfold compressImpl. destruct (lz_buf (w_lz w)); [exact H|].
  eapply ho_bind with (P := P); [destruct (w_state w); try exact H; apply p_shut; exact H|]. intros x1 H1.
  eapply ho_bind with (P := P); [destruct (w_state x1); try exact H1; apply p_open; exact H1|]. intros x2 H2.
  destruct (isStoreConfig _).
  - unfold compressStore. match goal with |- ho _ _ (if ?b then _ else _) => destruct b end; [exact H2|apply p_storeLoop; exact H2].
  - unfold compressSlow. match goal with |- ho _ _ (if ?b then _ else _) => destruct b end; [exact H2|].
    destruct (compressSlowLoop env _ x2) as [[[x3 d] t]| |] eqn:E; cbn [rbind ho]; auto. apply g_tokens. eapply p_slowLoop; eauto.
Qed.
Lemma p_guts w ft : P w -> ho P P (flushGuts env w ft).
Proof.
  intros H. unfold flushGuts. destruct ft; try exact H; [apply g_static; exact H|apply g_stored; exact H| |]; (eapply ho_bind; [apply g_stored; exact H|]); intros x K; cbn [ho]; [apply p_lz|apply p_setstate, p_lz]; exact K.
Qed.
Lemma p_flush w ft : P w -> ho P P (flushImpl env w ft).
Proof.
  intros H. unfold flushImpl. eapply ho_bind; [apply p_compress; exact H|]. intros x1 H1.
  eapply ho_bind with (P := P); [destruct (is_finish ft); [|exact H1]; destruct (w_state x1); try exact H1; apply p_open; exact H1|]. intros x2 H2.
  eapply ho_bind with (P := P); [destruct (w_state x2); try exact H2; apply p_guts; exact H2|]. intros x3 H3.
  eapply ho_bind with (P := P); [destruct (w_state x3); try exact H3; apply p_shut; exact H3|]. intros x4 H4. cbv zeta.
  destruct (e_flushw env _); [apply p_state, p_calls; exact H4|].
  match goal with |- context [e_syncw env ?k] => destruct (e_syncw env k) as [[]|] end; cbn [ho]; unfold w_fail; auto using p_calls, p_state.
Qed.
Lemma p_writeLoop : forall f w p, P w -> ho P P (writeLoop env f w p).
Proof.
  induction f as [|f IH]; intros w p H; destruct p as [|x p]; try exact H; [exact I|]. cbn [writeLoop]. unfold lz_write. cbv zeta.
  eapply ho_bind; [apply p_compress, p_lz; exact H|]. intros. apply IH; auto.
Qed.
Lemma p_call w c w' x : P w -> w_call env w c = Ok (w', x) -> P w'.
Proof.
  intros H. destruct c as [p|ft|h| |opts]; cbn [w_call].
  - assert (K : forall w1 r, w_Write env w p = Ok (w1, r) -> P w1).
    { intros w1 r. unfold w_Write. pose proof (@p_writeLoop (2 * length p + 2) w p H) as K. destruct (w_state w); try (intros E; inversion E; subst; exact H);
      (destruct (writeLoop env _ w p) as [[w2 []]| |]; cbn [rbind]; intros E; inversion E; subst; exact K). }
    destruct (w_Write env w p) as [[w1 [n e]]| |]; cbn [rbind]; intros E; inversion E; subst. eapply K; eauto.
  - assert (K : forall w1 r, w_Flush env w ft = Ok (w1, r) -> P w1).
    { intros w1 r. unfold w_Flush. pose proof (@p_flush w ft H) as K. destruct (w_state w); try (intros E; inversion E; subst; exact H);
      (destruct (flushImpl env w ft) as [[w2 []]| |]; cbn [rbind]; intros E; inversion E; subst; exact K). }
    destruct (w_Flush env w ft) as [[w1 e]| |]; cbn [rbind]; intros E; inversion E; subst. eapply K; eauto.
  - unfold w_SetHeader. cbv zeta. match goal with |- context [if ?b then _ else _] => destruct b end; intros E; inversion E; subst; auto using p_hdr.
  - assert (K : forall w1 r, w_Close env w = Ok (w1, r) -> P w1).
    { intros w1 r. unfold w_Close, close_helper. pose proof (@p_flush w FinishFlush H) as K. destruct (w_state w); try (intros E; inversion E; subst; auto using p_state; fail);
      (destruct (flushImpl env w FinishFlush) as [[w2 []]| |]; cbn [rbind ho] in *; intros E; inversion E; subst; auto using p_state, p_setstate). }
    destruct (w_Close env w) as [[w1 e]| |]; cbn [rbind]; intros E; inversion E; subst. eapply K; eauto.
  - unfold w_Reset. assert (K : P (set_lz (set_out w (match w_out w with WOut a b _ _ n c t st _ _ => WOut a b [] [] n c t st noStream None end)) (lz_clear (w_lz w)))).
    { apply p_lz, p_out; [|exact H]. intros b. destruct (w_out w); auto. }
    assert (KL : w_lz (set_out w (match w_out w with WOut a b _ _ n c t st _ _ => WOut a b [] [] n c t st noStream None end)) = w_lz w) by (destruct w; reflexivity).
    cbv zeta. rewrite KL. revert K. match goal with |- P ?q -> _ => generalize q end. intros q K.
    destruct (w_state w); cbn [rbind]; try discriminate; (destruct opts; cbn [rbind]; [|destruct q]; intros E; inversion E; subst; exact K).
Qed.
Lemma p_session : forall cs w w' xs, P w -> w_calls env w cs = Ok (w', xs) -> P w'.
Proof.
  induction cs as [|c cs IH]; intros w w' xs H; cbn [w_calls]; [intros E; inversion E; subst; exact H|].
  destruct (w_call env w c) as [[w1 x]| |] eqn:E; cbn [rbind]; try discriminate. destruct (w_calls env w1 cs) as [[w2 ys]| |] eqn:E2; cbn [rbind]; intros Q; inversion Q; subst.
  eapply IH; [eapply p_call; eauto|eauto].
Qed.
Lemma p_new opts : P (newWriter opts).
Proof. exists 0%N, 0%N. repeat split. Qed.
End Count.
