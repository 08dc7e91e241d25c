(** Two Writers that agree in everything that matters behave alike: used for
    Reset (C08) and for options without effect (C23). *)
From Verif Require Import Base SpecHuffman MChecksum MToken MCommon MWriter SpecEvents SpecSession MSession MCalls.

(** Options with the same effect on a Writer. *)
Definition same_opt (o1 o2 : options) : Prop :=
  o_format o1 = o_format o2 /\ o_clevel o1 = o_clevel o2 /\ o_mlevel o1 = o_mlevel o2 /\ o_wbits o1 = o_wbits o2 /\ o_dict o1 = o_dict o2 /\
  lowLevel o1 = lowLevel o2 /\ hybridOptions o1 = hybridOptions o2 /\ compressConfig o1 = compressConfig o2.

Section Sim.
Variable env : wenv.
Variables ka kb kc kd : nat.
Variable ev0 : list pre_event.
(** what the first Writer had written before *)
Variable sk0 : list N.
Notation env2 := (shift_env env ka kb kc kd).

(** [c]: the running CRC of the output agrees; [z]: the state, if known. *)
Definition orel (c : bool) (z : option writerstate) (o1 o2 : wout) : Prop :=
  obBlock o1 = obBlock o2 /\ obLen o1 = obLen o2 /\ outBuf o1 = outBuf o2 /\ sink o1 = sk0 ++ sink o2 /\ sinkCalls o1 = sinkCalls o2 + kb /\
  werr o1 = werr o2 /\ (c = true -> outCRC o1 = outCRC o2) /\
  (forall v, z = Some v -> wstate o1 = v /\ wstate o2 = v).
Notation ERR := (Some errorState).
Definition lrel (l1 l2 : lz77) : Prop :=
  lz_o l1 = lz_o l2 /\ lz_hist l1 = lz_hist l2 /\ lz_buf l1 = lz_buf l2 /\ lz_calls l1 = lz_calls l2 + ka.
(** [s]: 0 nothing, 1 the counter of the stream agrees, 2 the checksums too. *)
Definition srel (s : nat) (s1 s2 : wsum) : Prop :=
  (1 <= s -> inStream s1 = inStream s2) /\ (2 <= s -> inAdler s1 = inAdler s2 /\ inCRC s1 = inCRC s2).
Record wrel (s : nat) (c : bool) (z : option writerstate) (w1 w2 : writer) : Prop := WRel {
  wr_opt : same_opt (w_opt w1) (w_opt w2);
  wr_cfg : w_cfg w1 = w_cfg w2;
  wr_lz : lrel (w_lz w1) (w_lz w2);
  wr_in : srel s (w_in w1) (w_in w2);
  wr_out : orel c z (w_out w1) (w_out w2);
  wr_hdr : w_hdr w1 = w_hdr w2;
  wr_fl : w_flushes w1 = w_flushes w2 + kc;
  wr_sy : w_syncs w1 = w_syncs w2 + kd;
  wr_ev : map pre_of (w_events w1) = ev0 ++ map pre_of (w_events w2) }.

Definition rel {A} (R R0 : A -> A -> Prop) (m1 m2 : res (A * bool)) : Prop :=
  match m1, m2 with
  | Ok (x, true), Ok (y, true) => R x y
  | Ok (x, false), Ok (y, false) => R0 x y
  | Panic p, Panic q => p = q
  | NoFuel, NoFuel => True
  | _, _ => False
  end.
Lemma rel_bind {A} (R R' R0 : A -> A -> Prop) m1 m2 k1 k2 : rel R R0 m1 m2 -> (forall x y, R x y -> rel R' R0 (k1 x) (k2 y)) ->
  rel R' R0 (let? x := m1 in k1 x) (let? y := m2 in k2 y).
Proof.
  intros H HK. destruct m1 as [[x []]| |], m2 as [[y []]| |]; cbn [rel rbind] in *; try contradiction; auto.
Qed.
Lemma rel_impl {A} (R R' R0 R0' : A -> A -> Prop) m1 m2 : rel R R0 m1 m2 -> (forall x y, R x y -> R' x y) -> (forall x y, R0 x y -> R0' x y) -> rel R' R0' m1 m2.
Proof. intros H H1 H2. destruct m1 as [[x []]| |], m2 as [[y []]| |]; cbn [rel] in *; auto. Qed.
Lemma rel_let {A C} (R R0 : A -> A -> Prop) (m : res C) k1 k2 : (forall x, rel R R0 (k1 x) (k2 x)) -> rel R R0 (rbind m k1) (rbind m k2).
Proof. intros H. destruct m; cbn [rbind rel]; auto. Qed.
Lemma rel_assert {A} (R R0 : A -> A -> Prop) b m1 m2 : rel R R0 m1 m2 -> rel R R0 (assertb b m1) (assertb b m2).
Proof. intros H. destruct b; cbn [assertb rel]; auto. Qed.
Lemma rel_if {A} (R R0 : A -> A -> Prop) (b : bool) m1 m2 n1 n2 : rel R R0 m1 m2 -> rel R R0 n1 n2 -> rel R R0 (if b then m1 else n1) (if b then m2 else n2).
Proof. destruct b; auto. Qed.
Lemma rel_for {A C} (R R0 : A -> A -> Prop) (f1 f2 : C -> A -> res (A * bool)) l : (forall c x y, R x y -> rel R R0 (f1 c x) (f2 c y)) ->
  forall x y, R x y -> rel R R0 (for_each f1 l x) (for_each f2 l y).
Proof. intros H. induction l as [|c l IH]; intros x y HR; cbn [for_each]; [exact HR|]. eapply rel_bind; eauto. Qed.

(** ** output side *)
Lemma orel_weak c z o1 o2 : orel c z o1 o2 -> orel false z o1 o2.
Proof. unfold orel. intuition; discriminate. Qed.
Lemma orel_flush c z o1 o2 : orel c z o1 o2 ->
  snd (outputBufferFlush env o1) = snd (outputBufferFlush env2 o2) /\
  orel c (if snd (outputBufferFlush env o1) then z else ERR) (fst (outputBufferFlush env o1)) (fst (outputBufferFlush env2 o2)).
Proof.
  destruct o1, o2. unfold orel. cbn [MWriter.obBlock MWriter.obLen MWriter.outBuf MWriter.sink MWriter.sinkCalls MWriter.wstate MWriter.werr MWriter.outCRC].
  intros [-> [-> [-> [-> [-> [-> [H H']]]]]]]. unfold outputBufferFlush. cbn [e_sink shift_env].
  destruct (e_sink env (sinkCalls0 + kb) outBuf0) as [[k e]|]; cbn; repeat split; auto; try (rewrite app_assoc; reflexivity); try (apply H'; auto; fail); congruence.
Qed.
Lemma orel_loop c z cap fuel : forall o1 o2 buf, orel c z o1 o2 -> rel (orel c z) (orel c ERR) (outputBufferLoop env fuel cap o1 buf) (outputBufferLoop env2 fuel cap o2 buf).
Proof.
  induction fuel as [|f IH]; intros o1 o2 buf H; cbn [outputBufferLoop]; destruct buf as [|x buf]; try exact H; [exact I|].
  assert (EB : outBuf o1 = outBuf o2) by apply H. rewrite EB. set (nn := N.to_nat _).
  set (p1 := match o1 with WOut _ _ _ _ _ _ _ _ _ _ => _ end). set (p2 := match o2 with WOut _ _ _ _ _ _ _ _ _ _ => _ end).
  assert (HP : orel c z p1 p2).
  { unfold p1, p2. destruct o1, o2. unfold orel in *. cbn in *. destruct H as [-> [-> [-> [-> [-> [-> [H H']]]]]]]. repeat split; auto; try (apply H'; auto; fail).
    intros E. rewrite (H E). reflexivity. }
  destruct (orel_flush HP) as [F1 F2]. destruct (outputBufferFlush env p1) as [q1 b1], (outputBufferFlush env2 p2) as [q2 b2]. cbn [fst snd] in *. subst b2.
  destruct b1; [apply IH; auto|exact F2].
Qed.
Lemma orel_set_ob c z o1 o2 b l : orel c z o1 o2 -> orel c z (set_ob o1 b l) (set_ob o2 b l).
Proof. destruct o1, o2. unfold orel. cbn. intuition. Qed.
Lemma orel_bitsFlush c z cap o1 o2 : orel c z o1 o2 -> rel (orel c z) (orel c ERR) (o_bitsFlush env cap o1) (o_bitsFlush env2 cap o2).
Proof.
  intros H. unfold o_bitsFlush. assert (E1 : obLen o1 = obLen o2) by apply H. assert (E2 : obBlock o1 = obBlock o2) by apply H. rewrite E1, E2.
  destruct (Nat.eqb (obLen o2) 0); [exact H|]. apply orel_loop, orel_set_ob. auto.
Qed.
Lemma orel_bufferWrite c z cap o1 o2 buf : orel c z o1 o2 -> rel (orel c z) (orel c ERR) (o_bufferWrite env cap o1 buf) (o_bufferWrite env2 cap o2 buf).
Proof. intros H. unfold o_bufferWrite. eapply rel_bind; [apply orel_bitsFlush; eauto|]. intros x y HR. apply orel_loop; auto. Qed.
Lemma orel_bitsLoop c z cap fuel : forall o1 o2 n x, orel c z o1 o2 -> rel (orel c z) (orel c ERR) (o_bitsLoop env fuel cap o1 n x) (o_bitsLoop env2 fuel cap o2 n x).
Proof.
  induction fuel as [|f IH]; intros o1 o2 n x H; cbn [o_bitsLoop]; destruct n; try exact H; [exact I|].
  assert (E1 : obLen o1 = obLen o2) by apply H. assert (E2 : obBlock o1 = obBlock o2) by apply H. rewrite E1, E2.
  change (bitsPerBlock env2) with (bitsPerBlock env). cbv zeta.
  set (p1 := set_ob o1 _ _). set (p2 := set_ob o2 _ _). assert (HP : orel c z p1 p2) by (apply orel_set_ob; auto).
  assert (E3 : obLen p1 = obLen p2) by apply HP. rewrite E3.
  apply rel_if; [|apply IH; auto]. eapply rel_bind; [apply orel_bitsFlush; eauto|]. intros a b HR. apply IH; auto.
Qed.
Lemma orel_bitsWrite c z cap o1 o2 n x : orel c z o1 o2 -> rel (orel c z) (orel c ERR) (o_bitsWrite env cap o1 n x) (o_bitsWrite env2 cap o2 n x).
Proof.
  intros H. unfold o_bitsWrite. assert (E1 : obLen o1 = obLen o2) by apply H. rewrite E1. change (bitsPerBlock env2) with (bitsPerBlock env).
  apply rel_assert, rel_assert, orel_bitsLoop. auto.
Qed.

(** ** lifting *)
Lemma wrel_out s c z c' z' w1 w2 o1 o2 : wrel s c z w1 w2 -> orel c' z' o1 o2 -> wrel s c' z' (set_out w1 o1) (set_out w2 o2).
Proof. intros [] H. destruct w1, w2. constructor; auto. Qed.
Lemma wrel_weak s c z w1 w2 : wrel s c z w1 w2 -> wrel 0 false z w1 w2.
Proof. intros []. constructor; auto; [split; lia|]. eapply orel_weak; eauto. Qed.
Lemma wrel_on s c z w1 w2 f1 f2 : wrel s c z w1 w2 -> rel (orel c z) (orel c ERR) (f1 (w_out w1)) (f2 (w_out w2)) -> rel (wrel s c z) (wrel s c ERR) (on_out f1 w1) (on_out f2 w2).
Proof.
  intros H HF. unfold on_out. destruct (f1 (w_out w1)) as [[o1 []]| |], (f2 (w_out w2)) as [[o2 []]| |]; cbn [rel rbind] in *; try contradiction; auto; eapply wrel_out; eauto.
Qed.
Lemma same_cap o1 o2 : same_opt o1 o2 -> out_cap o1 = out_cap o2.
Proof. intros [_ [_ [H _]]]. unfold out_cap. rewrite H. auto. Qed.
Lemma s_bufferWrite s c z w1 w2 p : wrel s c z w1 w2 -> rel (wrel s c z) (wrel s c ERR) (w_bufferWrite env w1 p) (w_bufferWrite env2 w2 p).
Proof. intros H. unfold w_bufferWrite. apply wrel_on; auto. rewrite (same_cap (wr_opt H)). apply orel_bufferWrite, H. Qed.
Lemma s_bitsWrite s c z w1 w2 n x : wrel s c z w1 w2 -> rel (wrel s c z) (wrel s c ERR) (w_bitsWrite env w1 n x) (w_bitsWrite env2 w2 n x).
Proof. intros H. unfold w_bitsWrite. apply wrel_on; auto. rewrite (same_cap (wr_opt H)). apply orel_bitsWrite, H. Qed.
Lemma s_bitsFlush s c z w1 w2 : wrel s c z w1 w2 -> rel (wrel s c z) (wrel s c ERR) (w_bitsFlush env w1) (w_bitsFlush env2 w2).
Proof. intros H. unfold w_bitsFlush. apply wrel_on; auto. rewrite (same_cap (wr_opt H)). apply orel_bitsFlush, H. Qed.
Lemma s_event s c z w1 w2 p : wrel s c z w1 w2 -> wrel s c z (sendEvent w1 p) (sendEvent w2 p).
Proof.
  intros [A B C D E F G H I]. destruct w1, w2. constructor; auto. cbn in *. rewrite !map_app, I, <- app_assoc. f_equal.
Qed.

(** ** blocks, generic in the two bit writers *)
Section Generic.
Variables (S1 : Type) (bw1 bw2 : bitwriter S1) (R R0 : S1 -> S1 -> Prop).
Hypothesis Hbits : forall x y n v, R x y -> rel R R0 (bw_bitsWrite bw1 x n v) (bw_bitsWrite bw2 y n v).
Hypothesis Hflush : forall x y, R x y -> rel R R0 (bw_bitsFlush bw1 x) (bw_bitsFlush bw2 y).
Hypothesis Hu16 : forall x y v, R x y -> rel R R0 (bw_writeU16le bw1 x v) (bw_writeU16le bw2 y v).
Hypothesis Hbuf : forall x y v, R x y -> rel R R0 (bw_bufferWrite bw1 x v) (bw_bufferWrite bw2 y v).
Hypothesis Hev : forall x y e, R x y -> R (bw_event bw1 x e) (bw_event bw2 y e).
Lemma g_stored x y data fin : R x y -> rel R R0 (writeStoredBlock bw1 x data fin) (writeStoredBlock bw2 y data fin).
Proof.
  intros H. unfold writeStoredBlock. apply rel_assert. cbv zeta.
  eapply rel_bind; [apply Hbits, Hev; auto|]. intros x1 y1 H1. eapply rel_bind; [apply Hflush; auto|]. intros x2 y2 H2.
  eapply rel_bind; [apply Hu16; auto|]. intros x3 y3 H3. eapply rel_bind; [apply Hu16; auto|]. intros x4 y4 H4.
  eapply rel_bind; [apply Hbuf; auto|]. intros x5 y5 H5. apply Hev; auto.
Qed.
Lemma g_opt (b : bool) x y n v : R x y -> rel R R0 (if b then Ok (x, true) else bw_bitsWrite bw1 x n v) (if b then Ok (y, true) else bw_bitsWrite bw2 y n v).
Proof. intros H. destruct b; [exact H|apply Hbits; auto]. Qed.
Lemma g_lld ll d t x y : R x y -> rel R R0 (encodeLLD bw1 ll d t x) (encodeLLD bw2 ll d t y).
Proof.
  intros H. unfold encodeLLD. apply rel_let. intros [[sl nl] xl]. apply rel_let. intros [[sd nd] xd]. destruct sl as [sl|]; [|exact H].
  eapply rel_bind; [apply Hbits; auto|]. intros x1 y1 H1. eapply rel_bind; [apply g_opt; auto|]. intros x2 y2 H2. destruct sd as [sd|]; [|exact H2].
  eapply rel_bind; [apply Hbits; auto|]. intros x3 y3 H3. eapply rel_bind; [apply g_opt; auto|]. intros x4 y4 H4. exact H4.
Qed.
Lemma g_x hx t x y : R x y -> rel R R0 (encodeX bw1 hx t x) (encodeX bw2 hx t y).
Proof.
  intros H. unfold encodeX. destruct (symbolX t) as [[sx nx] xx]. destruct sx as [sx|]; [|exact H].
  eapply rel_bind; [apply Hbits; auto|]. intros x1 y1 H1. eapply rel_bind; [apply g_opt; auto|]. intros x2 y2 H2. exact H2.
Qed.
Lemma g_static x y tokens fin : R x y -> rel R R0 (writeStaticBlock bw1 x tokens fin) (writeStaticBlock bw2 y tokens fin).
Proof.
  intros H. unfold writeStaticBlock. apply rel_assert. cbv zeta. eapply rel_bind; [apply Hbits, Hev; auto|]. intros x1 y1 H1.
  eapply rel_bind; [apply rel_for; [intros; apply g_lld; auto|apply Hev; auto]|]. intros x2 y2 H2. apply Hev; auto.
Qed.
Lemma g_dynamic x y ll d tokens fin : R x y -> rel R R0 (writeDynamicBlock env bw1 x ll d tokens fin) (writeDynamicBlock env2 bw2 y ll d tokens fin).
Proof.
  intros H. unfold writeDynamicBlock. apply rel_assert. cbv zeta. cbn [e_huff shift_env]. eapply rel_bind; [apply Hbits, Hev; auto|]. intros x1 y1 H1.
  apply rel_let. intros [xt1 nll]. apply rel_let. intros [xt nd]. apply rel_let. intros fx.
  eapply rel_bind; [apply Hbits; auto|]. intros x2 y2 H2. eapply rel_bind; [apply Hbits; auto|]. intros x3 y3 H3.
  eapply rel_bind; [apply Hbits; auto|]. intros x4 y4 H4.
  eapply rel_bind; [apply rel_for; [intros; apply Hbits; auto|auto]|]. intros x5 y5 H5.
  eapply rel_bind; [apply rel_for; [intros; apply g_x; auto|auto]|]. intros x6 y6 H6.
  eapply rel_bind; [apply rel_for; [intros; apply g_lld; auto|apply Hev; auto]|]. intros x7 y7 H7. apply Hev; auto.
Qed.
Lemma g_tokens x y data tokens fin : R x y -> rel R R0 (compressTokens env bw1 x data tokens fin) (compressTokens env2 bw2 y data tokens fin).
Proof.
  intros H. unfold compressTokens. cbn [e_huff shift_env]. apply rel_let. intros [fll fd]. cbv zeta.
  change (writeDynamicBlock env2 (bitcounter env2)) with (writeDynamicBlock env (bitcounter env)).
  change (bitcounter env2) with (bitcounter env).
  apply rel_let. intros [dc b1]. apply rel_let. intros [sc b2]. apply rel_if; [apply g_stored; auto|]. apply rel_if; [apply g_static; auto|apply g_dynamic; auto].
Qed.
End Generic.
Ltac gen := first [apply s_bitsWrite | apply s_bitsFlush | apply s_bufferWrite | apply s_event | idtac]; auto.
Lemma s_stored s c z x y data fin : wrel s c z x y -> rel (wrel s c z) (wrel s c ERR) (writeStoredBlock (bw_writer env) x data fin) (writeStoredBlock (bw_writer env2) y data fin).
Proof. apply g_stored; intros; gen. Qed.
Lemma s_static s c z x y t fin : wrel s c z x y -> rel (wrel s c z) (wrel s c ERR) (writeStaticBlock (bw_writer env) x t fin) (writeStaticBlock (bw_writer env2) y t fin).
Proof. apply g_static; intros; gen. Qed.
Lemma s_tokens s c z x y data t fin : wrel s c z x y -> rel (wrel s c z) (wrel s c ERR) (compressTokens env (bw_writer env) x data t fin) (compressTokens env2 (bw_writer env2) y data t fin).
Proof. apply g_tokens; intros; gen. Qed.

(** ** input side *)
Lemma wrel_take s c z w1 w2 n : wrel s c z w1 w2 ->
  wrel s c z (fst (inputBufferRead w1 n)) (fst (inputBufferRead w2 n)) /\ snd (inputBufferRead w1 n) = snd (inputBufferRead w2 n).
Proof.
  intros [A B C D E F G H I]. unfold inputBufferRead, lz_take. cbn [fst snd].
  destruct w1 as [o1 c1 l1 i1 u1 n1 h1 f1 y1 e1], w2 as [o2 c2 l2 i2 u2 n2 h2 f2 y2 e2]. cbn in *. destruct C as [C1 [C2 [C3 C4]]].
  rewrite C3. split; auto. constructor; cbn; auto.
  - unfold lrel. cbn. rewrite C1, C2, C4. auto.
  - destruct D as [D1 D2]. unfold srel, sum_bytes. cbn. split; intros Hs; [rewrite D1 by auto; auto|]. destruct (D2 Hs) as [-> ->]. auto.
Qed.
Lemma wrel_advance s c z w1 w2 : wrel s c z w1 w2 ->
  exists m p v1 v2, inputBufferAdvance env w1 = (v1, p, m) /\ inputBufferAdvance env2 w2 = (v2, p, m) /\ wrel s c z v1 v2.
Proof.
  intros H. pose proof (wr_lz H) as [C1 [C2 [C3 C4]]]. unfold inputBufferAdvance. cbn [e_match shift_env].
  rewrite <- C4, <- C1, <- C2, <- C3. set (m := e_match env _ _ _ _). set (n := match m with Some (_, len) => N.to_nat len | None => 1 end).
  destruct (wrel_take n H) as [T1 T2]. unfold inputBufferRead in T1, T2.
  destruct (lz_take (w_lz w1) n) as [l1 p1] eqn:E1. destruct (lz_take (w_lz w2) n) as [l2 p2] eqn:E2. cbn [fst snd] in *. subst p2.
  eexists m, p1, _, _. split; [reflexivity|]. split; [reflexivity|]. exact T1.
Qed.
Lemma s_storeLoop s c z fuel : forall x y, wrel s c z x y -> rel (wrel s c z) (wrel s c ERR) (compressStoreLoop env fuel x) (compressStoreLoop env2 fuel y).
Proof.
  induction fuel as [|f IH]; intros x y H; cbn [compressStoreLoop]; pose proof (wr_lz H) as [_ [_ [EB _]]]; rewrite EB; destruct (lz_buf (w_lz y)) as [|b l] eqn:EY; try exact H; [exact I|].
  destruct (wrel_take (N.to_nat storedBlockSize) H) as [T1 T2].
  destruct (inputBufferRead x (N.to_nat storedBlockSize)) as [x1 p1], (inputBufferRead y (N.to_nat storedBlockSize)) as [y1 p2]. cbn [fst snd] in *. subst p2.
  eapply rel_bind; [apply s_stored; eauto|]. intros a b' HR. apply IH; auto.
Qed.
Definition rel3 s c z (m1 m2 : res (writer * list N * list token)) : Prop :=
  match m1, m2 with
  | Ok (x, d, t), Ok (y, d', t') => wrel s c z x y /\ d = d' /\ t = t'
  | Panic p, Panic q => p = q
  | NoFuel, NoFuel => True
  | _, _ => False
  end.
Lemma rel3_bind s c z m1 m2 (f : list N -> list N) (g : list token -> list token) : rel3 s c z m1 m2 ->
  rel3 s c z (let* (w, d, t) := m1 in Ok (w, f d, g t)) (let* (w, d, t) := m2 in Ok (w, f d, g t)).
Proof. destruct m1 as [[[x d] t]| |], m2 as [[[y d'] t']| |]; cbn [rel3 rbind]; try contradiction; auto. intros [H1 [-> ->]]. auto. Qed.
Lemma s_slowLoop s c z fuel : forall x y, wrel s c z x y -> rel3 s c z (compressSlowLoop env fuel x) (compressSlowLoop env2 fuel y).
Proof.
  induction fuel as [|f IH]; intros x y H; cbn [compressSlowLoop]; pose proof (wr_lz H) as [_ [_ [EB _]]]; rewrite EB; destruct (lz_buf (w_lz y)) as [|b l] eqn:EY; cbn [rel3]; auto.
  destruct (wrel_advance H) as [m [p [v1 [v2 [E1 [E2 HV]]]]]]. rewrite E1, E2. destruct m as [[d len]|].
  - unfold assertb. destruct (3 <=? len)%N; [|reflexivity]. destruct (1 <=? d)%N; [|reflexivity].
    destruct (makeCopyToken _ _); cbn [rbind rel3]; auto. apply (@rel3_bind s c z _ _ (fun d => p ++ d) (fun t => a :: t)). apply IH; auto.
  - destruct p as [|ch p]; [reflexivity|]. apply (@rel3_bind s c z _ _ (fun d => ch :: d) (fun t => makeLiteralToken ch :: t)). apply IH; auto.
Qed.
Lemma s_isFull l1 l2 : lrel l1 l2 -> lz_isFull l1 = lz_isFull l2.
Proof. intros [H1 [_ [H2 _]]]. unfold lz_isFull, lz_cap. rewrite H1, H2. auto. Qed.
Lemma s_compress s c z x y all : wrel s c z x y -> rel (wrel s c z) (wrel s c ERR)
  (if isStoreConfig (w_cfg x) then compressStore env x all else compressSlow env x all)
  (if isStoreConfig (w_cfg y) then compressStore env2 y all else compressSlow env2 y all).
Proof.
  intros H. rewrite (wr_cfg H). pose proof (wr_lz H) as HZ. pose proof HZ as [_ [_ [EB _]]]. apply rel_if.
  - unfold compressStore. rewrite EB, (s_isFull HZ). apply rel_if; [exact H|apply s_storeLoop; auto].
  - unfold compressSlow. rewrite EB, (s_isFull HZ). apply rel_if; [exact H|].
    pose proof (s_slowLoop (length (lz_buf (w_lz y))) H) as R3.
    destruct (compressSlowLoop env _ x) as [[[x1 d] t]| |], (compressSlowLoop env2 _ y) as [[[y1 d'] t']| |]; cbn [rel3 rbind rel] in *; try contradiction; auto.
    destruct R3 as [R1 [-> ->]]. apply s_tokens; auto.
Qed.

(** ** headers and footers *)
Lemma wrel_intro s c z w1 w2 : same_opt (w_opt w1) (w_opt w2) -> w_cfg w1 = w_cfg w2 -> lrel (w_lz w1) (w_lz w2) -> srel s (w_in w1) (w_in w2) ->
  orel c z (w_out w1) (w_out w2) -> w_hdr w1 = w_hdr w2 -> w_flushes w1 = w_flushes w2 + kc -> w_syncs w1 = w_syncs w2 + kd ->
  map pre_of (w_events w1) = ev0 ++ map pre_of (w_events w2) -> wrel s c z w1 w2.
Proof. constructor; auto. Qed.
Definition w0rel := wrel 0 false None.
Definition erel := wrel 0 false ERR.
Lemma s_stringZ s c z x y p : wrel s c z x y -> rel (wrel s c z) (wrel s c ERR) (writeStringZ env x p) (writeStringZ env2 y p).
Proof.
  intros H. unfold writeStringZ. destruct (indexByte p 0); [|apply s_bufferWrite; auto]. destruct (Nat.eqb (S n) (length p)); [apply s_bufferWrite; auto|reflexivity].
Qed.
Lemma same_zlib o1 o2 : same_opt o1 o2 -> zlibHeaderBytes o1 = zlibHeaderBytes o2.
Proof. intros [H1 [H2 [H3 [H4 [H5 [H6 _]]]]]]. unfold zlibHeaderBytes. rewrite H6, H2, H4, H5. auto. Qed.
Lemma same_gzip o1 o2 h : same_opt o1 o2 -> gzipHeader10 o1 h = gzipHeader10 o2 h.
Proof. intros [H1 [H2 [H3 [H4 [H5 [H6 _]]]]]]. unfold gzipHeader10. rewrite H6, H2. auto. Qed.
Lemma s_gzip s c z x y : wrel s c z x y -> rel (wrel s true z) (wrel s true ERR) (writeHeaderGZIP env x) (writeHeaderGZIP env2 y).
Proof.
  intros H. unfold writeHeaderGZIP. cbv zeta.
  set (x1 := set_out x _). set (y1 := set_out y _).
  assert (H1 : wrel s true z x1 y1).
  { unfold x1, y1. eapply wrel_out; eauto. pose proof (wr_out H) as HO. destruct (w_out x), (w_out y). unfold orel in *. cbn in *. intuition. }
  assert (EO : w_opt x1 = w_opt x /\ w_opt y1 = w_opt y) by (unfold x1, y1; destruct x, y; auto). destruct EO as [EO1 EO2].
  rewrite (wr_hdr H1), (same_gzip (w_hdr y1) (wr_opt H1)). set (h := w_hdr y1). clearbody x1 y1 h.
  eapply rel_bind; [apply s_bufferWrite; eauto|]. intros x2 y2 H2.
  eapply rel_bind.
  { destruct (h_extra h); [exact H2|]. cbv zeta. eapply rel_bind; [apply s_bufferWrite; eauto|]. intros a b Hab. apply s_bufferWrite; auto. }
  intros x3 y3 H3. eapply rel_bind; [destruct (h_name h); [exact H3|apply s_stringZ; auto]|]. intros x4 y4 H4.
  eapply rel_bind; [destruct (h_comment h); [exact H4|apply s_stringZ; auto]|]. intros x5 y5 H5.
  pose proof (wr_out H5) as [_ [_ [_ [_ [_ [_ [EC _]]]]]]]. rewrite (EC eq_refl). apply s_bufferWrite; auto.
Qed.
Lemma weak0 s c z m1 m2 : rel (wrel s c z) (wrel s c ERR) m1 m2 -> rel (wrel s c z) erel m1 m2.
Proof. intros H. eapply rel_impl; eauto. intros x y. apply wrel_weak. Qed.
Lemma weak1 s c z m1 m2 : rel (wrel s c z) erel m1 m2 -> rel (wrel s false z) erel m1 m2.
Proof. intros H. eapply rel_impl; eauto. intros x y [A B C D E F G I J]. constructor; auto. unfold orel in *. intuition; discriminate. Qed.

(** writeHeader before and after the format specific part *)
Definition h_prep (e0 : wenv) (w : writer) : writer :=
  let w := set_in w (match w_in w with WSum a c t _ => WSum a c t 0 end) in
  let w := set_out w (set_outstream (w_out w) 0) in
  let w := set_num w (w_num w + 1)%N in
  let w := set_lz w (lz_windowClear (w_lz w)) in
  let w := match o_dict (w_opt w) with Some d => set_lz w (lz_setWindow (w_lz w) d) | None => w end in
  let w := sendEvent w (ev_simple StreamBeginEvent) in
  let h := w_hdr w in
  let h := match h_datatype h with
           | UnknownData =>
               let buf := firstn (Nat.min (e_peek e0 (lz_calls (w_lz w))) (N.to_nat 4096)) (lz_buf (w_lz w)) in
               set_datatype h (if isText buf then TextData else BinaryData)
           | _ => h end in
  let h := if (h_os h =? OSTypeUnknown)%N then set_os h OSTypeUnix else h in
  let h := set_levels h (o_wbits (w_opt w)) (o_clevel (w_opt w)) in
  set_hdr w h.
Definition h_done (w : writer) : writer :=
  let w := sendEvent w (ev_header (w_hdr w)) in
  set_in w (match w_in w with WSum _ _ t s => WSum adler_reset crc_reset t s end).
Lemma header_eq e0 w : writeHeader e0 w =
  let? w := (match o_format (w_opt (h_prep e0 w)) with
             | RawFormat => Ok (h_prep e0 w, true)
             | ZlibFormat => writeHeaderZlib e0 (h_prep e0 w)
             | GZIPFormat => writeHeaderGZIP e0 (h_prep e0 w)
             | DefaultFormat => Panic PAssert
             end) in Ok (h_done w, true).
Proof. reflexivity. Qed.
Lemma s_prep z x y : wrel 0 false z x y -> wrel 1 false z (h_prep env x) (h_prep env2 y).
Proof.
  intros H. unfold h_prep. cbv zeta.
  destruct H as [A B C D E F G H I]. destruct x as [o1 c1 l1 i1 u1 n1 h1 f1 s1 e1], y as [o2 c2 l2 i2 u2 n2 h2 f2 s2 e2].
  cbn [w_opt w_cfg w_lz w_in w_out w_num w_hdr w_flushes w_syncs w_events] in *.
  pose proof A as [A1 [A2 [A3 [A4 [A5 _]]]]]. destruct C as [C1 [C2 [C3 C4]]].
  destruct i1, i2, l1 as [p1 q1 r1 t1], l2 as [p2 q2 r2 t2]. cbn [lz_o lz_hist lz_buf lz_calls] in *. subst.
  cbn. rewrite A5. destruct (o_dict o2) as [dd|]; cbn; (apply wrel_intro; cbn; auto; [
    unfold lrel; cbn; repeat split; auto
  | split; [auto|lia]
  | destruct u1, u2; unfold orel in *; cbn in *; intuition
  | rewrite A2, A4; reflexivity
  | rewrite !map_app, I, <- app_assoc; reflexivity]).
Qed.
Lemma s_header z x y : wrel 0 false z x y -> rel (wrel 2 false z) erel (writeHeader env x) (writeHeader env2 y).
Proof.
  intros H. rewrite !header_eq. pose proof (s_prep H) as HW. set (x1 := h_prep env x) in *. set (y1 := h_prep env2 y) in *. clearbody x1 y1.
  eapply rel_bind with (R := wrel 1 false z).
  - assert (EF : o_format (w_opt x1) = o_format (w_opt y1)) by apply (wr_opt HW). rewrite EF. destruct (o_format (w_opt y1)).
    + reflexivity.
    + exact HW.
    + unfold writeHeaderZlib. rewrite (same_zlib (wr_opt HW)). apply weak0, s_bufferWrite. auto.
    + eapply weak1, weak0, s_gzip; eauto.
  - intros x2 y2 H2. unfold h_done. rewrite (wr_hdr H2). pose proof (s_event (ev_header (w_hdr y2)) H2) as [A B C D E F G H' I].
    set (x3 := sendEvent x2 _) in *. set (y3 := sendEvent y2 _) in *. clearbody x3 y3. destruct x3, y3. cbn in *. constructor; cbn; auto.
    destruct D as [D1 D2]. destruct w_in, w_in0. split; cbn in *; auto.
Qed.


Lemma wrel_le s s' c z w1 w2 : s' <= s -> wrel s c z w1 w2 -> wrel s' c z w1 w2.
Proof. intros L [A B C [D1 D2] E F G H I]. constructor; auto. split; intros; [apply D1|apply D2]; lia. Qed.
Lemma wrel_z s c z w1 w2 : wrel s c z w1 w2 -> wrel s c None w1 w2.
Proof. intros [A B C D E F G H I]. constructor; auto. unfold orel in *. intuition; discriminate. Qed.
Lemma wrel_st s c v w1 w2 : wrel s c (Some v) w1 w2 -> w_state w1 = v.
Proof. intros H. apply (wr_out H). auto. Qed.
Lemma s_footer x y : wrel 2 false None x y -> rel w0rel erel (writeFooter env x) (writeFooter env2 y).
Proof.
  intros H. unfold writeFooter. eapply rel_bind; [apply weak0, s_bitsFlush; eauto|]. intros x1 y1 H1. cbv zeta.
  destruct (wr_in H1) as [D1 D2]. destruct (D2 ltac:(lia)) as [-> ->].
  set (p := ev_footer _ _). pose proof (s_event p H1) as H2.
  set (x2 := sendEvent x1 p) in *. set (y2 := sendEvent y1 p) in *. clearbody x2 y2.
  eapply rel_bind with (R := wrel 2 false None).
  - assert (EF : o_format (w_opt x2) = o_format (w_opt y2)) by apply (wr_opt H2). rewrite EF. destruct (o_format (w_opt y2)).
    + reflexivity.
    + exact H2.
    + unfold writeFooterZlib. apply weak0, s_bufferWrite. auto.
    + unfold writeFooterGZIP. pose proof (s_bufferWrite (le32 (inCRC (w_in y1))) H2) as HA.
      destruct (w_bufferWrite env x2 _) as [[x3 [|]]| |], (w_bufferWrite env2 y2 _) as [[y3 [|]]| |]; cbn [rel rbind] in *; try contradiction; auto;
        (assert (ES : inStream (w_in x3) = inStream (w_in y3)) by (apply (wr_in HA); lia); rewrite ES; pose proof (s_bufferWrite (le32 (inStream (w_in y3) mod two32)) HA) as HC;
         destruct (w_bufferWrite env x3 _) as [[x4 [|]]| |], (w_bufferWrite env2 y3 _) as [[y4 [|]]| |]; cbn [rel rbind andb] in *; try contradiction; auto; eapply wrel_weak; eauto).
  - intros x3 y3 H3. cbn [rel]. eapply wrel_weak, s_event; eauto.
Qed.
Lemma s_setstate s c z x y st : wrel s c z x y -> wrel s c (Some st) (w_setstate x st) (w_setstate y st).
Proof.
  intros H. unfold w_setstate. pose proof (wr_out H) as HO. eapply wrel_out; eauto. destruct (w_out x), (w_out y). unfold orel in *. cbn in *. intuition congruence.
Qed.
Lemma s_fail x y e : w0rel x y -> erel (w_fail x e) (w_fail y e).
Proof.
  intros H. unfold w_fail. pose proof (wr_out H) as HO. eapply wrel_out; eauto. destruct (w_out x), (w_out y). unfold orel in *. cbn in *. intuition congruence.
Qed.
Definition lvl (st : writerstate) : nat := match st with openStream | closingStream => 2 | _ => 0 end.
(** the two Writers agree as far as their (common) state requires *)
Definition WR (x y : writer) : Prop := wrel (lvl (w_state x)) false (Some (w_state x)) x y.
Lemma WR_weak x y : WR x y -> w0rel x y.
Proof. intros H. eapply wrel_z, wrel_weak, H. Qed.
Lemma WR_state x y : WR x y -> w_state x = w_state y.
Proof. intros H. pose proof (wr_out H) as HO. unfold orel in HO. destruct HO as [_ [_ [_ [_ [_ [_ [_ HO]]]]]]]. destruct (HO _ eq_refl) as [A B]. unfold w_state in *. congruence. Qed.
Lemma WR_of s v x y : wrel s false (Some v) x y -> lvl v <= s -> WR x y.
Proof. intros H L. unfold WR. rewrite (wrel_st H). eapply wrel_le; eauto. Qed.
Lemma lvl_le st : lvl st <= 2.
Proof. destruct st; cbn; lia. Qed.
Lemma rel_WR s v m1 m2 : rel (wrel s false (Some v)) (wrel s false ERR) m1 m2 -> lvl v <= s -> rel WR erel m1 m2.
Proof. intros H L. eapply rel_impl; eauto; intros a b; [intros HH; eapply WR_of; eauto|apply wrel_weak]. Qed.
Lemma s_openHeader x y : w0rel x y -> rel WR erel
  (let? w := writeHeader env x in Ok (w_setstate w openStream, true)) (let? w := writeHeader env2 y in Ok (w_setstate w openStream, true)).
Proof.
  intros H. eapply rel_bind; [apply s_header; eauto|]. intros a b Hab. cbn [rel]. eapply WR_of; [eapply s_setstate; eauto|apply lvl_le].
Qed.
Lemma s_closeFooter x y : WR x y -> w_state x = closingStream -> rel WR erel
  (let? w := writeFooter env x in Ok (w_setstate w closedStream, true)) (let? w := writeFooter env2 y in Ok (w_setstate w closedStream, true)).
Proof.
  intros H E. unfold WR in H. rewrite E in H. eapply rel_bind; [apply s_footer; eapply wrel_z; eauto|]. intros a b Hab. cbn [rel].
  eapply WR_of; [eapply s_setstate; eauto|]. cbn. lia.
Qed.
Lemma s_footerStep x y : WR x y -> rel WR erel
  (match w_state x with closingStream => let? w := writeFooter env x in Ok (w_setstate w closedStream, true) | _ => Ok (x, true) end)
  (match w_state y with closingStream => let? w := writeFooter env2 y in Ok (w_setstate w closedStream, true) | _ => Ok (y, true) end).
Proof. intros H. rewrite <- (WR_state H). destruct (w_state x) eqn:E; try exact H. apply s_closeFooter; auto. Qed.
Lemma s_compressImpl x y all : WR x y -> rel WR erel (compressImpl env x all) (compressImpl env2 y all).
Proof.
  intros H. unfold compressImpl. pose proof (wr_lz H) as [_ [_ [EB _]]]. rewrite EB. destruct (lz_buf (w_lz y)) as [|b l] eqn:EY; [exact H|].
  eapply rel_bind; [apply s_footerStep; auto|]. intros x1 y1 H1.
  eapply rel_bind with (R := WR).
  - rewrite <- (WR_state H1). destruct (w_state x1) eqn:E; try exact H1; apply s_openHeader, WR_weak; auto.
  - intros x2 y2 H2. eapply rel_WR; [apply s_compress; exact H2|]. auto.
Qed.
Lemma s_lz s c z x y l1 l2 : wrel s c z x y -> lrel l1 l2 -> wrel s c z (set_lz x l1) (set_lz y l2).
Proof. intros [] H. destruct x, y. constructor; auto. Qed.
Lemma lrel_windowClear l1 l2 : lrel l1 l2 -> lrel (lz_windowClear l1) (lz_windowClear l2).
Proof. unfold lrel. cbn. intuition. Qed.
Lemma s_flushGuts x y ft : WR x y -> w_state x = openStream -> rel WR erel (flushGuts env x ft) (flushGuts env2 y ft).
Proof.
  intros H E. unfold WR in H. rewrite E in H. cbn [lvl] in H. destruct ft; cbn [flushGuts].
  - cbn [rel]. eapply WR_of; eauto.
  - eapply rel_WR; [apply s_static; exact H|]. auto.
  - eapply rel_WR; [apply s_stored; exact H|]. auto.
  - eapply rel_bind; [apply weak0, s_stored; exact H|]. intros a b Hab. cbn [rel]. eapply WR_of; [apply s_lz; [exact Hab|apply lrel_windowClear, Hab]|]. auto.
  - eapply rel_bind; [apply weak0, s_stored; exact H|]. intros a b Hab. cbn [rel]. eapply WR_of; [eapply s_setstate, s_lz; [exact Hab|apply lrel_windowClear, Hab]|]. auto.
Qed.
Lemma s_calls s c z x y f f' g g' : wrel s c z x y -> f = f' + kc -> g = g' + kd -> wrel s c z (set_calls x f g) (set_calls y f' g').
Proof. intros [] H1 H2. destruct x, y. constructor; auto. Qed.
Lemma WR_calls x y f f' g g' : WR x y -> f = f' + kc -> g = g' + kd -> WR (set_calls x f g) (set_calls y f' g').
Proof. intros H H1 H2. unfold WR. replace (w_state (set_calls x f g)) with (w_state x) by (destruct x; auto). apply s_calls; auto. Qed.
Lemma s_flushImpl x y ft : WR x y -> rel WR erel (flushImpl env x ft) (flushImpl env2 y ft).
Proof.
  intros H. unfold flushImpl. eapply rel_bind; [apply s_compressImpl; eauto|]. intros x1 y1 H1.
  eapply rel_bind with (R := WR).
  { apply rel_if; [|exact H1]. rewrite <- (WR_state H1). destruct (w_state x1) eqn:E; try exact H1. apply s_openHeader, WR_weak; auto. }
  intros x2 y2 H2. eapply rel_bind with (R := WR).
  { rewrite <- (WR_state H2). destruct (w_state x2) eqn:E; try exact H2. apply s_flushGuts; auto. }
  intros x3 y3 H3. eapply rel_bind; [apply s_footerStep; auto|]. intros x4 y4 H4. cbv zeta.
  pose proof (wr_fl H4) as F1. pose proof (wr_sy H4) as F2. cbn [e_flushw e_syncw shift_env]. rewrite <- F1.
  pose proof (@WR_calls x4 y4 (S (w_flushes x4)) (S (w_flushes y4)) (w_syncs x4) (w_syncs y4) H4 ltac:(lia) ltac:(lia)) as H5.
  set (x5 := set_calls x4 _ _) in *. set (y5 := set_calls y4 _ _) in *. clearbody x5 y5.
  destruct (e_flushw env (w_flushes x4)) as [e|]; [apply s_fail, WR_weak; auto|].
  pose proof (wr_fl H5) as G1. pose proof (wr_sy H5) as G2. rewrite <- G2.
  pose proof (@WR_calls x5 y5 (w_flushes x5) (w_flushes y5) (S (w_syncs x5)) (S (w_syncs y5)) H5 ltac:(lia) ltac:(lia)) as H6.
  set (x6 := set_calls x5 _ _) in *. set (y6 := set_calls y5 _ _) in *. clearbody x6 y6.
  destruct (e_syncw env (w_syncs x5)) as [e|]; [|exact H6]. destruct e; try (apply s_fail, WR_weak; auto; fail). exact H6.
Qed.
Lemma s_writeLoop fuel : forall x y buf, WR x y -> rel WR erel (writeLoop env fuel x buf) (writeLoop env2 fuel y buf).
Proof.
  induction fuel as [|f IH]; intros x y buf H; cbn [writeLoop]; destruct buf as [|b l]; try exact H; [exact I|].
  pose proof (wr_lz H) as [C1 [C2 [C3 C4]]]. unfold lz_write, lz_cap. rewrite C1, C3. cbn zeta.
  set (nn := N.to_nat _). eapply rel_bind with (R := WR); [|intros a c Hac; apply IH; auto].
  apply s_compressImpl. unfold WR. replace (w_state (set_lz x _)) with (w_state x) by (destruct x; auto). apply s_lz; auto.
  unfold lrel. cbn. rewrite C2, C4. auto.
Qed.

(** ** the API *)
Definition arel {A} (m1 m2 : res (writer * A)) : Prop :=
  match m1, m2 with
  | Ok (x, a), Ok (y, b) => a = b /\ WR x y
  | Panic p, Panic q => p = q
  | NoFuel, NoFuel => True
  | _, _ => False
  end.
Lemma erel_WR x y : erel x y -> WR x y.
Proof. intros H. eapply WR_of; [exact H|]. cbn. lia. Qed.
Lemma arel_ok {A} m1 m2 (f g : writer -> writer * A) : rel WR erel m1 m2 ->
  (forall x y, WR x y -> snd (f x) = snd (f y) /\ WR (fst (f x)) (fst (f y))) ->
  (forall x y, WR x y -> snd (g x) = snd (g y) /\ WR (fst (g x)) (fst (g y))) ->
  arel (let* (w, ok) := m1 in if ok then Ok (f w) else Ok (g w)) (let* (w, ok) := m2 in if ok then Ok (f w) else Ok (g w)).
Proof.
  intros H HF HG. destruct m1 as [[x []]| |], m2 as [[y []]| |]; cbn [rel rbind arel] in *; try contradiction; auto.
  - destruct (HF _ _ H). destruct (f x), (f y); auto.
  - destruct (HG _ _ (erel_WR H)). destruct (g x), (g y); auto.
Qed.
Lemma WR_err x y : WR x y -> werr (w_out x) = werr (w_out y).
Proof. intros H. apply (wr_out H). Qed.
Lemma s_Write x y p : WR x y -> arel (w_Write env x p) (w_Write env2 y p).
Proof.
  intros H. unfold w_Write. rewrite <- (WR_state H), <- (WR_err H). set (n := 2 * length p + 2).
  assert (K : arel (let* (w, ok) := writeLoop env n x p in if ok then Ok (w, (lenN p, None)) else Ok (w, (0%N, werr (w_out w))))
                   (let* (w, ok) := writeLoop env2 n y p in if ok then Ok (w, (lenN p, None)) else Ok (w, (0%N, werr (w_out w))))).
  { apply (@arel_ok _ _ _ (fun w => (w, (lenN p, None))) (fun w => (w, (0%N, werr (w_out w))))).
    - apply s_writeLoop; auto.
    - cbn [fst snd]. auto.
    - cbn [fst snd]. intros a b Hab. rewrite (WR_err Hab). auto. }
  destruct (w_state x); try exact K; cbn [arel]; auto.
Qed.
Lemma s_Flush x y ft : WR x y -> arel (w_Flush env x ft) (w_Flush env2 y ft).
Proof.
  intros H. unfold w_Flush. rewrite <- (WR_state H), <- (WR_err H).
  assert (K : arel (let* (w, ok) := flushImpl env x ft in if ok then Ok (w, None) else Ok (w, werr (w_out w)))
                   (let* (w, ok) := flushImpl env2 y ft in if ok then Ok (w, None) else Ok (w, werr (w_out w)))).
  { apply (@arel_ok _ _ _ (fun w => (w, None)) (fun w => (w, werr (w_out w)))).
    - apply s_flushImpl; auto.
    - cbn [fst snd]. auto.
    - cbn [fst snd]. intros a b Hab. rewrite (WR_err Hab). auto. }
  destruct (w_state x); try exact K; cbn [arel]; auto.
Qed.
Lemma s_close x y : WR x y -> snd (close_helper x) = snd (close_helper y) /\ WR (fst (close_helper x)) (fst (close_helper y)).
Proof.
  intros H. unfold close_helper. cbn [fst snd]. split; [apply WR_err; auto|]. unfold WR. pose proof (wrel_weak H) as H0.
  replace (w_state (set_out x _)) with closedState by (destruct x as [? ? ? ? [] ? ? ? ? ?]; reflexivity). cbn [lvl].
  eapply wrel_out; [exact H0|]. pose proof (wr_out H0) as HO. destruct (w_out x), (w_out y). unfold orel in *. cbn in *. intuition congruence.
Qed.
Lemma s_Close x y : WR x y -> arel (w_Close env x) (w_Close env2 y).
Proof.
  intros H. unfold w_Close. rewrite <- (WR_state H).
  assert (K : arel (let* (w, ok) := flushImpl env x FinishFlush in if ok then Ok (w_setstate w closedState, None) else Ok (close_helper w))
                   (let* (w, ok) := flushImpl env2 y FinishFlush in if ok then Ok (w_setstate w closedState, None) else Ok (close_helper w))).
  { apply (@arel_ok _ _ _ (fun w => (w_setstate w closedState, None)) close_helper).
    - apply s_flushImpl; auto.
    - cbn [fst snd]. intros a b Hab. split; auto. eapply WR_of; [eapply s_setstate, Hab|]. cbn. lia.
    - apply s_close. }
  destruct (w_state x); try exact K; cbn [arel]; auto.
  destruct (s_close H) as [S1 S2]. destruct (close_helper x), (close_helper y); auto.
Qed.
Lemma s_SetHeader x y h : WR x y -> snd (w_SetHeader x h) = snd (w_SetHeader y h) /\ WR (fst (w_SetHeader x h)) (fst (w_SetHeader y h)).
Proof.
  intros H. unfold w_SetHeader. cbv zeta. destruct (Nat.eqb _ 0); cbn [fst snd]; split; auto.
  unfold WR. replace (w_state (set_hdr x h)) with (w_state x) by (destruct x; auto). destruct H. destruct x, y. constructor; auto.
Qed.
End Sim.
