(** The bytes a Writer produces do not depend on the size of a machine word nor
    on the underlying writer (C64): simulation of two Writers that run on
    different machines. *)
From Verif Require Import Base SpecHuffman SpecDeflate MChecksum MToken MCommon MWriter SpecEvents SpecSession MSession MCalls PBits PWriter PInst.

Section Sim.
Variables e1 e2 : wenv.
Hypothesis Hb1 : bytesPerBlock e1 = 4 \/ bytesPerBlock e1 = 8.
Hypothesis Hb2 : bytesPerBlock e2 = 4 \/ bytesPerBlock e2 = 8.
Hypothesis Hmatch : e_match e1 = e_match e2.
Hypothesis Hpeek : e_peek e1 = e_peek e2.
Hypothesis Hhuff : e_huff e1 = e_huff e2.

(** related if both succeed *)
Definition rel {A} (R : A -> A -> Prop) (m1 m2 : res (A * bool)) : Prop :=
  forall x y, m1 = Ok (x, true) -> m2 = Ok (y, true) -> R x y.
Lemma rel_ok {A} (R : A -> A -> Prop) x y : R x y -> rel R (Ok (x, true)) (Ok (y, true)).
Proof. intros H a b E1 E2. congruence. Qed.
Lemma rel_bind {A} (R R' : A -> A -> Prop) m1 m2 k1 k2 : rel R m1 m2 -> (forall x y, R x y -> rel R' (k1 x) (k2 y)) ->
  rel R' (let? x := m1 in k1 x) (let? y := m2 in k2 y).
Proof.
  intros H HK a b E1 E2. destruct m1 as [[x []]| |], m2 as [[y []]| |]; cbn [rbind] in *; try discriminate. eapply HK; eauto.
Qed.
Lemma rel_impl {A} (R R' : A -> A -> Prop) m1 m2 : rel R m1 m2 -> (forall x y, R x y -> R' x y) -> rel R' m1 m2.
Proof. unfold rel. auto. Qed.
Lemma rel_let {A C} (R : A -> A -> Prop) (m : res C) k1 k2 : (forall x, rel R (k1 x) (k2 x)) -> rel R (rbind m k1) (rbind m k2).
Proof. intros H. destruct m; cbn [rbind]; auto; intros a b; discriminate. Qed.
Lemma rel_assert {A} (R : A -> A -> Prop) b b' m1 m2 : rel R m1 m2 -> rel R (assertb b m1) (assertb b' m2).
Proof. intros H. destruct b, b'; cbn [assertb]; auto; intros x y; discriminate. Qed.
Lemma rel_if {A} (R : A -> A -> Prop) (b : bool) m1 m2 n1 n2 : rel R m1 m2 -> rel R n1 n2 -> rel R (if b then m1 else n1) (if b then m2 else n2).
Proof. destruct b; auto. Qed.
Lemma rel_for {A C} (R : A -> A -> Prop) (f1 f2 : C -> A -> res (A * bool)) l : (forall c x y, R x y -> rel R (f1 c x) (f2 c y)) ->
  forall x y, R x y -> rel R (for_each f1 l x) (for_each f2 l y).
Proof. intros H. induction l as [|c l IH]; intros x y HR; cbn [for_each]; [apply rel_ok; auto|]. eapply rel_bind; eauto. Qed.

Section State.
Variable st : writerstate.
(** ** output side: the same bits, cut into words and handed on in different places *)
Record orel (o1 o2 : wout) : Prop := {
  or_ok1 : out_ok e1 o1; or_ok2 : out_ok e2 o2; or_c1 : counters_ok o1; or_c2 : counters_ok o2;
  or_bits : obits o1 = obits o2; or_state1 : wstate o1 = st; or_state2 : wstate o2 = st }.
(** ... with nothing pending, and the same running CRC if [c] *)
Definition flat (c : bool) (o1 o2 : wout) : Prop := orel o1 o2 /\ obLen o1 = 0 /\ obLen o2 = 0 /\ (c = true -> outCRC o1 = outCRC o2).
Lemma orel_bitsWrite cap o1 o2 n v : (0 < cap)%N -> orel o1 o2 -> rel orel (o_bitsWrite e1 cap o1 n v) (o_bitsWrite e2 cap o2 n v).
Proof.
  intros HC [A B C D E F F'] x y E1 E2.
  assert (N1 : n <= bitsPerBlock e1). { unfold o_bitsWrite, assertb in E1. destruct (_ <=? _) in E1; [|discriminate]. destruct (Nat.leb_spec n (bitsPerBlock e1)); [auto|discriminate]. }
  assert (N2 : n <= bitsPerBlock e2). { unfold o_bitsWrite, assertb in E2. destruct (_ <=? _) in E2; [|discriminate]. destruct (Nat.leb_spec n (bitsPerBlock e2)); [auto|discriminate]. }
  destruct (o_bitsWrite_ok Hb1 v HC A C N1) as (x' & ok & X & Y). rewrite X in E1. injection E1 as -> ->. destruct Y as [[p [_ Y0]] [Y1 [Y2 Y3]]].
  destruct (o_bitsWrite_ok Hb2 v HC B D N2) as (y' & ok' & X' & Z). rewrite X' in E2. injection E2 as -> ->. destruct Z as [[q [_ Z0]] [Z1 [Z2 Z3]]].
  constructor; auto; [congruence|rewrite (oe_state Y0); auto|rewrite (oe_state Z0); auto].
Qed.
Lemma orel_bufferWrite c cap o1 o2 buf : (0 < cap)%N -> bytes_ok buf -> orel o1 o2 -> (c = true -> flat true o1 o2) ->
  rel (flat c) (o_bufferWrite e1 cap o1 buf) (o_bufferWrite e2 cap o2 buf).
Proof.
  intros HC HB [A B C D E F F'] HF x y E1 E2.
  destruct (o_bufferWrite_ok Hb1 HC A C HB) as (x' & ok & X & L1 & _ & Y). rewrite X in E1. injection E1 as -> ->. destruct Y as [Y0 [Y1 [Y2 Y3]]].
  destruct (o_bufferWrite_ok Hb2 HC B D HB) as (y' & ok' & X' & L2 & _ & Z). rewrite X' in E2. injection E2 as -> ->. destruct Z as [Z0 [Z1 [Z2 Z3]]].
  split; [constructor; auto; [congruence|rewrite (oe_state Y0); auto|rewrite (oe_state Z0); auto]|]. split; auto. split; auto.
  intros K. destruct (HF K) as (_ & G1 & G2 & G3). rewrite (oe_crc Y0), (oe_crc Z0), G1, G2, (G3 eq_refl). reflexivity.
Qed.
Lemma orel_bitsFlush cap o1 o2 : (0 < cap)%N -> orel o1 o2 -> rel (flat false) (o_bitsFlush e1 cap o1) (o_bitsFlush e2 cap o2).
Proof.
  intros HC [A B C D E F F'] x y E1 E2.
  destruct (o_bitsFlush_ok Hb1 HC A C) as (x' & ok & X & L1 & _ & Y). rewrite X in E1. injection E1 as -> ->. destruct Y as [Y0 [Y1 [Y2 Y3]]].
  destruct (o_bitsFlush_ok Hb2 HC B D) as (y' & ok' & X' & L2 & _ & Z). rewrite X' in E2. injection E2 as -> ->. destruct Z as [Z0 [Z1 [Z2 Z3]]].
  split; [constructor; auto; [congruence|rewrite (oe_state Y0); auto|rewrite (oe_state Z0); auto]|]. split; auto. split; auto. discriminate.
Qed.
(** With nothing pending the bytes are the same. *)
Lemma flat_sink c o1 o2 : flat c o1 o2 -> sink o1 = sink o2.
Proof.
  intros [[A B C D E F F'] [L1 [L2 _]]]. unfold obits in E. rewrite L1, L2 in E. destruct A as [A1 [_ [_ [A2 _]]]], B as [B1 [_ [_ [B2 _]]]].
  rewrite A1, B1 in E. cbn [bits_of_N] in E. rewrite !app_nil_r in E.
  apply bits_of_bytes_inj in E; auto.
Qed.

(** ** the Writer *)
Record wrel (w1 w2 : writer) : Prop := {
  wr_opt : w_opt w1 = w_opt w2; wr_cfg : w_cfg w1 = w_cfg w2; wr_lz : w_lz w1 = w_lz w2; wr_in : w_in w1 = w_in w2;
  wr_hdr : w_hdr w1 = w_hdr w2; wr_num : w_num w1 = w_num w2; wr_buf : bytes_ok (lz_buf (w_lz w1)); wr_hb : header_bytes (w_hdr w1);
  wr_out : orel (w_out w1) (w_out w2) }.
Definition wflat (c : bool) (w1 w2 : writer) : Prop := wrel w1 w2 /\ flat c (w_out w1) (w_out w2).
Lemma wrel_out w1 w2 o1 o2 : wrel w1 w2 -> orel o1 o2 -> wrel (set_out w1 o1) (set_out w2 o2).
Proof. intros [] H. destruct w1, w2. constructor; auto. Qed.
Lemma cap_pos o : (0 < out_cap o)%N.
Proof. unfold out_cap. apply N.neq_0_lt_0, N.pow_nonzero. discriminate. Qed.
Lemma on_rel (R : wout -> wout -> Prop) w1 w2 f1 f2 : wrel w1 w2 -> (forall a b, R a b -> orel a b) -> rel R (f1 (w_out w1)) (f2 (w_out w2)) ->
  rel (fun x y => wrel x y /\ R (w_out x) (w_out y)) (on_out f1 w1) (on_out f2 w2).
Proof.
  intros H HR HF x y E1 E2. unfold on_out in *. destruct (f1 (w_out w1)) as [[o1 k1]| |] eqn:F1; try discriminate. destruct (f2 (w_out w2)) as [[o2 k2]| |] eqn:F2; try discriminate.
  cbn [rbind] in *. injection E1 as <- ->. injection E2 as <- ->. pose proof (HF _ _ eq_refl eq_refl) as K. split; [apply wrel_out; auto|]. destruct w1, w2; exact K.
Qed.
Lemma flat_orel c a b : flat c a b -> orel a b.
Proof. intros [H _]; auto. Qed.
Lemma s_bufferWrite c w1 w2 p : bytes_ok p -> wrel w1 w2 -> (c = true -> wflat true w1 w2) -> rel (wflat c) (w_bufferWrite e1 w1 p) (w_bufferWrite e2 w2 p).
Proof.
  intros HB H HF. unfold w_bufferWrite. rewrite (wr_opt H). eapply (@on_rel (flat c)); auto; [apply flat_orel|].
  apply orel_bufferWrite; auto; [apply cap_pos|apply H|]. intros K. apply HF; auto.
Qed.
Lemma s_bitsWrite w1 w2 n x : wrel w1 w2 -> rel wrel (w_bitsWrite e1 w1 n x) (w_bitsWrite e2 w2 n x).
Proof.
  intros H. unfold w_bitsWrite. rewrite (wr_opt H). eapply rel_impl; [eapply (@on_rel orel); auto; apply orel_bitsWrite; [apply cap_pos|apply H]|]. cbn beta. tauto.
Qed.
Lemma s_bitsFlush w1 w2 : wrel w1 w2 -> rel (wflat false) (w_bitsFlush e1 w1) (w_bitsFlush e2 w2).
Proof.
  intros H. unfold w_bitsFlush. rewrite (wr_opt H). eapply (@on_rel (flat false)); auto; [apply flat_orel|]. apply orel_bitsFlush; [apply cap_pos|apply H].
Qed.
Lemma s_event w1 w2 p : wrel w1 w2 -> wrel (sendEvent w1 p) (sendEvent w2 p).
Proof. intros []. destruct w1, w2. constructor; auto. Qed.
Lemma f_event c w1 w2 p : wflat c w1 w2 -> wflat c (sendEvent w1 p) (sendEvent w2 p).
Proof. intros [A B]. split; [apply s_event; auto|]. destruct w1, w2; exact B. Qed.
Lemma wflat_rel c x y : wflat c x y -> wrel x y.
Proof. intros [H _]; auto. Qed.

(** ** blocks, generic in the two bit writers *)
Section Generic.
Variables (S1 : Type) (bw1 bw2 : bitwriter S1) (R F : S1 -> S1 -> Prop).
Hypothesis HFR : forall x y, F x y -> R x y.
Hypothesis Hbits : forall x y n v, R x y -> rel R (bw_bitsWrite bw1 x n v) (bw_bitsWrite bw2 y n v).
Hypothesis Hflush : forall x y, R x y -> rel R (bw_bitsFlush bw1 x) (bw_bitsFlush bw2 y).
Hypothesis Hu16 : forall x y v, R x y -> rel R (bw_writeU16le bw1 x v) (bw_writeU16le bw2 y v).
Hypothesis Hbuf : forall x y v, bytes_ok v -> R x y -> rel F (bw_bufferWrite bw1 x v) (bw_bufferWrite bw2 y v).
Hypothesis Hev : forall x y e, R x y -> R (bw_event bw1 x e) (bw_event bw2 y e).
Hypothesis HevF : forall x y e, F x y -> F (bw_event bw1 x e) (bw_event bw2 y e).
Lemma g_stored x y data fin : bytes_ok data -> R x y -> rel F (writeStoredBlock bw1 x data fin) (writeStoredBlock bw2 y data fin).
Proof.
  intros HB H. unfold writeStoredBlock. apply rel_assert. cbv zeta.
  eapply rel_bind; [apply Hbits, Hev; auto|]. intros x1 y1 H1. eapply rel_bind; [apply Hflush; auto|]. intros x2 y2 H2.
  eapply rel_bind; [apply Hu16; auto|]. intros x3 y3 H3. eapply rel_bind; [apply Hu16; auto|]. intros x4 y4 H4.
  eapply rel_bind; [apply Hbuf; auto|]. intros x5 y5 H5. apply rel_ok, HevF; auto.
Qed.
Lemma g_opt (b : bool) x y n v : R x y -> rel R (if b then Ok (x, true) else bw_bitsWrite bw1 x n v) (if b then Ok (y, true) else bw_bitsWrite bw2 y n v).
Proof. intros H. destruct b; [apply rel_ok; exact H|apply Hbits; auto]. Qed.
Lemma g_lld ll d t x y : R x y -> rel R (encodeLLD bw1 ll d t x) (encodeLLD bw2 ll d t y).
Proof.
  intros H. unfold encodeLLD. apply rel_let. intros [[sl nl] xl]. apply rel_let. intros [[sd nd] xd]. destruct sl as [sl|]; [|apply rel_ok; exact H].
  eapply rel_bind; [apply Hbits; auto|]. intros x1 y1 H1. eapply rel_bind; [apply g_opt; auto|]. intros x2 y2 H2. destruct sd as [sd|]; [|apply rel_ok; exact H2].
  eapply rel_bind; [apply Hbits; auto|]. intros x3 y3 H3. eapply rel_bind; [apply g_opt; auto|]. intros x4 y4 H4. apply rel_ok; exact H4.
Qed.
Lemma g_x hx t x y : R x y -> rel R (encodeX bw1 hx t x) (encodeX bw2 hx t y).
Proof.
  intros H. unfold encodeX. destruct (symbolX t) as [[sx nx] xx]. destruct sx as [sx|]; [|apply rel_ok; exact H].
  eapply rel_bind; [apply Hbits; auto|]. intros x1 y1 H1. eapply rel_bind; [apply g_opt; auto|]. intros x2 y2 H2. apply rel_ok; exact H2.
Qed.
Lemma g_static x y tokens fin : R x y -> rel R (writeStaticBlock bw1 x tokens fin) (writeStaticBlock bw2 y tokens fin).
Proof.
  intros H. unfold writeStaticBlock. apply rel_assert. cbv zeta. eapply rel_bind; [apply Hbits, Hev; auto|]. intros x1 y1 H1.
  eapply rel_bind; [apply rel_for; [intros; apply g_lld; auto|apply Hev; auto]|]. intros x2 y2 H2. apply rel_ok, Hev; auto.
Qed.
Lemma g_dynamic x y ll d tokens fin : R x y -> rel R (writeDynamicBlock e1 bw1 x ll d tokens fin) (writeDynamicBlock e2 bw2 y ll d tokens fin).
Proof.
  intros H. unfold writeDynamicBlock. apply rel_assert. cbv zeta. rewrite Hhuff. eapply rel_bind; [apply Hbits, Hev; auto|]. intros x1 y1 H1.
  apply rel_let. intros [xt1 nll]. apply rel_let. intros [xt nd]. apply rel_let. intros fx.
  eapply rel_bind; [apply Hbits; auto|]. intros x2 y2 H2. eapply rel_bind; [apply Hbits; auto|]. intros x3 y3 H3.
  eapply rel_bind; [apply Hbits; auto|]. intros x4 y4 H4.
  eapply rel_bind; [apply rel_for; [intros; apply Hbits; auto|auto]|]. intros x5 y5 H5.
  eapply rel_bind; [apply rel_for; [intros; apply g_x; auto|auto]|]. intros x6 y6 H6.
  eapply rel_bind; [apply rel_for; [intros; apply g_lld; auto|apply Hev; auto]|]. intros x7 y7 H7. apply rel_ok, Hev; auto.
Qed.
End Generic.

(** the dry run never reports failure *)
Definition allT {A} (m : res (A * bool)) : Prop := forall x b, m = Ok (x, b) -> b = true.
Lemma allT_bind {A} (m : res (A * bool)) k : allT m -> (forall x, allT (k x)) -> allT (let? x := m in k x).
Proof. intros H HK x b E. destruct m as [[y c]| |] eqn:EM; cbn [rbind] in E; try discriminate. rewrite (H _ _ eq_refl) in E. eapply HK; eauto. Qed.
Lemma allT_let {A C} (m : res C) (k : C -> res (A * bool)) : (forall x, allT (k x)) -> allT (rbind m k).
Proof. intros H. destruct m; cbn [rbind]; auto; intros a b; discriminate. Qed.
Lemma allT_ok {A} (x : A) : allT (Ok (x, true)).
Proof. intros a b E. congruence. Qed.
Lemma allT_for {A C} (f : C -> A -> res (A * bool)) l : (forall c x, allT (f c x)) -> forall x, allT (for_each f l x).
Proof. intros H. induction l as [|c l IH]; intros x; cbn [for_each]; [apply allT_ok|]. apply allT_bind; auto. Qed.
Lemma allT_assert {A} c (m : res (A * bool)) : allT m -> allT (assertb c m).
Proof. intros H. destruct c; cbn [assertb]; auto. intros a b; discriminate. Qed.
Section Dry.
Variable e : wenv.
Notation bc := (bitcounter e).
Lemma d_bits n k v : allT (bw_bitsWrite bc n k v).
Proof. cbn. apply allT_assert, allT_ok. Qed.
Lemma d_opt (b : bool) n k v : allT (if b then Ok (n, true) else bw_bitsWrite bc n k v).
Proof. destruct b; [apply allT_ok|apply d_bits]. Qed.
Lemma d_lld ll d t n : allT (encodeLLD bc ll d t n).
Proof.
  unfold encodeLLD. apply allT_let. intros [[sl nl] xl]. apply allT_let. intros [[sd nd] xd]. destruct sl as [sl|]; [|apply allT_ok].
  apply allT_bind; [apply d_bits|]. intros x1. apply allT_bind; [apply d_opt|]. intros x2. destruct sd as [sd|]; [|apply allT_ok].
  apply allT_bind; [apply d_bits|]. intros x3. apply allT_bind; [apply d_opt|]. intros x4. apply allT_ok.
Qed.
Lemma d_x hx t n : allT (encodeX bc hx t n).
Proof.
  unfold encodeX. destruct (symbolX t) as [[sx nx] xx]. destruct sx as [sx|]; [|apply allT_ok].
  apply allT_bind; [apply d_bits|]. intros x1. apply allT_bind; [apply d_opt|]. intros x2. apply allT_ok.
Qed.
Lemma d_static n tokens fin : allT (writeStaticBlock bc n tokens fin).
Proof.
  unfold writeStaticBlock. apply allT_assert. cbv zeta. apply allT_bind; [apply d_bits|]. intros x1.
  apply allT_bind; [apply allT_for; intros; apply d_lld|]. intros x2. apply allT_ok.
Qed.
Lemma d_dynamic n ll d tokens fin : allT (writeDynamicBlock e bc n ll d tokens fin).
Proof.
  unfold writeDynamicBlock. apply allT_assert. cbv zeta. apply allT_bind; [apply d_bits|]. intros x1.
  apply allT_let. intros [xt1 nll]. apply allT_let. intros [xt nd]. apply allT_let. intros fx.
  apply allT_bind; [apply d_bits|]. intros x2. apply allT_bind; [apply d_bits|]. intros x3. apply allT_bind; [apply d_bits|]. intros x4.
  apply allT_bind; [apply allT_for; intros; apply d_bits|]. intros x5. apply allT_bind; [apply allT_for; intros; apply d_x|]. intros x6.
  apply allT_bind; [apply allT_for; intros; apply d_lld|]. intros x7. apply allT_ok.
Qed.
End Dry.
Lemma c_bits (x y : N) n v : x = y -> rel eq (bw_bitsWrite (bitcounter e1) x n v) (bw_bitsWrite (bitcounter e2) y n v).
Proof. intros ->. cbn. apply rel_assert, rel_ok. auto. Qed.
Lemma c_static tokens fin : rel eq (writeStaticBlock (bitcounter e1) 0%N tokens fin) (writeStaticBlock (bitcounter e2) 0%N tokens fin).
Proof. apply g_static; auto; intros; apply c_bits; auto. Qed.
Lemma c_dynamic ll d tokens fin : rel eq (writeDynamicBlock e1 (bitcounter e1) 0%N ll d tokens fin) (writeDynamicBlock e2 (bitcounter e2) 0%N ll d tokens fin).
Proof. apply g_dynamic; auto; intros; apply c_bits; auto. Qed.
Lemma bits_w x y n v : wrel x y -> rel wrel (bw_bitsWrite (bw_writer e1) x n v) (bw_bitsWrite (bw_writer e2) y n v).
Proof. apply s_bitsWrite. Qed.
Lemma flat_to c m1 m2 : rel (wflat c) m1 m2 -> rel wrel m1 m2.
Proof. intros H. eapply rel_impl; eauto. intros x y. apply wflat_rel. Qed.
Lemma le16_ok v : bytes_ok (le16 v).
Proof. unfold le16. repeat constructor; apply N.mod_lt; discriminate. Qed.
Lemma s_stored x y data fin : bytes_ok data -> wrel x y -> rel (wflat false) (writeStoredBlock (bw_writer e1) x data fin) (writeStoredBlock (bw_writer e2) y data fin).
Proof.
  apply g_stored with (R := wrel); intros.
  - apply s_bitsWrite; auto.
  - eapply flat_to, s_bitsFlush; auto.
  - eapply flat_to. apply (@s_bufferWrite false); auto; [apply le16_ok|discriminate].
  - apply s_bufferWrite; auto. discriminate.
  - apply s_event; auto.
  - apply f_event; auto.
Qed.
Lemma s_static x y t fin : wrel x y -> rel wrel (writeStaticBlock (bw_writer e1) x t fin) (writeStaticBlock (bw_writer e2) y t fin).
Proof. apply g_static; intros; [apply s_bitsWrite; auto|apply s_event; auto]. Qed.
Lemma s_tokens x y data t fin : bytes_ok data -> wrel x y -> rel wrel (compressTokens e1 (bw_writer e1) x data t fin) (compressTokens e2 (bw_writer e2) y data t fin).
Proof.
  intros HB H. unfold compressTokens. rewrite Hhuff. apply rel_let. intros [fll fd]. cbv zeta. set (hll := e_huff e2 _ _). set (hd := e_huff e2 _ _).
  pose proof (@c_dynamic hll hd t fin) as CD. pose proof (@c_static t fin) as CS.
  pose proof (@d_dynamic e1 0%N hll hd t fin) as D1. pose proof (@d_dynamic e2 0%N hll hd t fin) as D2.
  pose proof (@d_static e1 0%N t fin) as D3. pose proof (@d_static e2 0%N t fin) as D4.
  destruct (writeDynamicBlock e1 (bitcounter e1) 0%N hll hd t fin) as [[n1 b1]| |]; cbn [rbind]; try (intros a b; discriminate).
  destruct (writeDynamicBlock e2 (bitcounter e2) 0%N hll hd t fin) as [[n2 b2]| |]; cbn [rbind]; try (intros a b; discriminate).
  destruct (writeStaticBlock (bitcounter e1) 0%N t fin) as [[n3 b3]| |]; cbn [rbind]; try (intros a b; discriminate).
  destruct (writeStaticBlock (bitcounter e2) 0%N t fin) as [[n4 b4]| |]; cbn [rbind]; try (intros a b; discriminate).
  rewrite (D1 _ _ eq_refl), (D2 _ _ eq_refl) in CD. rewrite (D3 _ _ eq_refl), (D4 _ _ eq_refl) in CS.
  rewrite (CD _ _ eq_refl eq_refl), (CS _ _ eq_refl eq_refl).
  apply rel_if; [eapply flat_to, s_stored; auto|]. apply rel_if; [apply s_static; auto|]. apply g_dynamic; auto; intros; [apply s_bitsWrite; auto|apply s_event; auto].
Qed.

(** ** input side *)
Lemma wrel_take w1 w2 n : wrel w1 w2 ->
  wrel (fst (inputBufferRead w1 n)) (fst (inputBufferRead w2 n)) /\ snd (inputBufferRead w1 n) = snd (inputBufferRead w2 n) /\ bytes_ok (snd (inputBufferRead w1 n)).
Proof.
  intros [A B C D E F G H I]. unfold inputBufferRead, lz_take. cbn [fst snd].
  destruct w1 as [o1 c1 l1 i1 u1 n1 h1 f1 y1 v1], w2 as [o2 c2 l2 i2 u2 n2 h2 f2 y2 v2]. cbn in *. subst.
  assert (KS : bytes_ok (firstn n (lz_buf l2)) /\ bytes_ok (skipn n (lz_buf l2))) by (apply bytes_ok_app; now rewrite firstn_skipn).
  split; [|tauto]. constructor; cbn; auto. tauto.
Qed.
Lemma wrel_advance w1 w2 : wrel w1 w2 ->
  exists m p v1 v2, inputBufferAdvance e1 w1 = (v1, p, m) /\ inputBufferAdvance e2 w2 = (v2, p, m) /\ wrel v1 v2 /\ bytes_ok p.
Proof.
  intros H. unfold inputBufferAdvance. rewrite Hmatch, <- (wr_lz H). set (m := e_match e2 _ _ _ _). set (n := match m with Some (_, len) => N.to_nat len | None => 1 end).
  destruct (wrel_take n H) as [T1 [T2 T3]]. unfold inputBufferRead in T1, T2, T3. rewrite <- (wr_lz H) in T1, T2.
  destruct (lz_take (w_lz w1) n) as [l1 p1] eqn:E1. cbn [fst snd] in *.
  eexists m, p1, _, _. split; [reflexivity|]. split; [reflexivity|]. split; [exact T1|exact T3].
Qed.
Lemma s_storeLoop fuel : forall x y, wrel x y -> rel wrel (compressStoreLoop e1 fuel x) (compressStoreLoop e2 fuel y).
Proof.
  induction fuel as [|f IH]; intros x y H; cbn [compressStoreLoop]; rewrite <- (wr_lz H); destruct (lz_buf (w_lz x)) as [|b l] eqn:EY; try (apply rel_ok; exact H); [intros p q; discriminate|].
  destruct (wrel_take (N.to_nat storedBlockSize) H) as [T1 [T2 T3]].
  destruct (inputBufferRead x (N.to_nat storedBlockSize)) as [x1 p1], (inputBufferRead y (N.to_nat storedBlockSize)) as [y1 p2]. cbn [fst snd] in *. subst p2.
  eapply rel_bind; [eapply flat_to, s_stored; auto|]. intros a b' HR. apply IH; auto.
Qed.
Definition rel3 (m1 m2 : res (writer * list N * list token)) : Prop :=
  forall x d t y d' t', m1 = Ok (x, d, t) -> m2 = Ok (y, d', t') -> wrel x y /\ d = d' /\ t = t' /\ bytes_ok d.
Lemma rel3_bind m1 m2 (f : list N -> list N) (g : list token -> list token) : rel3 m1 m2 -> (forall d, bytes_ok d -> bytes_ok (f d)) ->
  rel3 (let* (w, d, t) := m1 in Ok (w, f d, g t)) (let* (w, d, t) := m2 in Ok (w, f d, g t)).
Proof.
  intros H HF x d t y d' t' E1 E2. destruct m1 as [[[x0 d0] t0]| |], m2 as [[[y0 d0'] t0']| |]; cbn [rbind] in *; try discriminate.
  destruct (H _ _ _ _ _ _ eq_refl eq_refl) as (A & -> & -> & B). injection E1 as <- <- <-. injection E2 as <- <- <-. auto.
Qed.
Lemma s_slowLoop fuel : forall x y, wrel x y -> rel3 (compressSlowLoop e1 fuel x) (compressSlowLoop e2 fuel y).
Proof.
  induction fuel as [|f IH]; intros x y H; cbn [compressSlowLoop]; rewrite <- (wr_lz H); destruct (lz_buf (w_lz x)) as [|b l] eqn:EY;
    try (intros a b' c d e' g; discriminate); try (intros a b' c d e' g E1 E2; injection E1 as <- <- <-; injection E2 as <- <- <-; split; [exact H|split; [reflexivity|split; [reflexivity|constructor]]]).
  destruct (wrel_advance H) as [m [p [v1 [v2 [E1 [E2 [HV HB]]]]]]]. rewrite E1, E2. destruct m as [[d len]|].
  - unfold assertb. destruct (3 <=? len)%N; [|intros ? ? ? ? ? ?; discriminate]. destruct (1 <=? d)%N; [|intros ? ? ? ? ? ?; discriminate].
    destruct (makeCopyToken _ _) as [a| |]; cbn [rbind]; try (intros ? ? ? ? ? ?; discriminate).
    apply (@rel3_bind _ _ (fun d => p ++ d) (fun t => a :: t)); [apply IH; auto|]. intros d0 H0. apply bytes_ok_app. auto.
  - destruct p as [|ch p]; [intros ? ? ? ? ? ?; discriminate|]. apply (@rel3_bind _ _ (fun d => ch :: d) (fun t => makeLiteralToken ch :: t)); [apply IH; auto|].
    intros d0 H0. constructor; auto. now inversion HB.
Qed.
Lemma s_compress x y all : wrel x y -> rel wrel
  (if isStoreConfig (w_cfg x) then compressStore e1 x all else compressSlow e1 x all)
  (if isStoreConfig (w_cfg y) then compressStore e2 y all else compressSlow e2 y all).
Proof.
  intros H. rewrite (wr_cfg H). apply rel_if.
  - unfold compressStore. rewrite <- (wr_lz H). apply rel_if; [apply rel_ok; exact H|apply s_storeLoop; auto].
  - unfold compressSlow. rewrite <- (wr_lz H). apply rel_if; [apply rel_ok; exact H|].
    pose proof (@s_slowLoop (length (lz_buf (w_lz x))) _ _ H) as R3.
    destruct (compressSlowLoop e1 _ x) as [[[x1 d] t]| |], (compressSlowLoop e2 _ y) as [[[y1 d'] t']| |]; cbn [rbind]; try (intros ? ?; discriminate).
    destruct (R3 _ _ _ _ _ _ eq_refl eq_refl) as (A & -> & -> & B). apply s_tokens; auto.
Qed.

(** ** headers and footers *)
Lemma s_stringZ c x y p : bytes_ok p -> wrel x y -> (c = true -> wflat true x y) -> rel (wflat c) (writeStringZ e1 x p) (writeStringZ e2 y p).
Proof.
  intros HB H HC. unfold writeStringZ. destruct (indexByte p 0); [|apply s_bufferWrite; auto; apply bytes_ok_app; split; auto; apply zero_byte].
  destruct (Nat.eqb (S n) (length p)); [apply s_bufferWrite; auto|]. intros a b; discriminate.
Qed.
Lemma flat_bufferWrite x y p : bytes_ok p -> wflat true x y -> rel (wflat true) (w_bufferWrite e1 x p) (w_bufferWrite e2 y p).
Proof. intros HB H. apply s_bufferWrite; auto. apply H. Qed.
Lemma s_gzip x y : wflat false x y -> rel (wflat true) (writeHeaderGZIP e1 x) (writeHeaderGZIP e2 y).
Proof.
  intros [H HF]. unfold writeHeaderGZIP. cbv zeta.
  set (x1 := set_out x _). set (y1 := set_out y _).
  assert (H1 : wflat true x1 y1).
  { unfold x1, y1. destruct HF as (O & L1 & L2 & _).
    assert (OO : orel (set_outcrc (w_out x) crc_reset) (set_outcrc (w_out y) crc_reset)).
    { destruct O as [A B C D E F F']. destruct (w_out x), (w_out y). destruct A as (A1 & A2 & A3 & A4 & A5), B as (B1 & B2 & B3 & B4 & B5). cbn in *.
      constructor; cbn; auto; unfold out_ok; cbn; repeat split; auto; reflexivity. }
    split; [apply wrel_out; auto|]. destruct x, y; cbn. split; [exact OO|]. destruct w_out, w_out0. cbn in *. auto. }
  pose proof (wr_hdr (proj1 H1)) as EH. pose proof (wr_hb (proj1 H1)) as (HB1 & HB2 & HB3). pose proof (wr_opt (proj1 H1)) as EO.
  rewrite <- EH, <- EO. set (h := w_hdr x1) in *. set (op := w_opt x1) in *. clearbody x1 y1 h op.
  eapply rel_bind; [apply flat_bufferWrite; [apply gzip10_ok|eauto]|]. intros x2 y2 H2.
  eapply rel_bind with (R := wflat true).
  { destruct (h_extra h) as [|r l] eqn:EX; [apply rel_ok; exact H2|]. cbv zeta. eapply rel_bind; [apply flat_bufferWrite; [apply le16_ok|eauto]|]. intros a b Hab. apply flat_bufferWrite; auto.
    apply extra_bytes_ok. auto. }
  intros x3 y3 H3. eapply rel_bind with (R := wflat true); [destruct (h_name h); [apply rel_ok; exact H3|apply s_stringZ; auto; apply H3]|]. intros x4 y4 H4.
  eapply rel_bind with (R := wflat true); [destruct (h_comment h); [apply rel_ok; exact H4|apply s_stringZ; auto; apply H4]|]. intros x5 y5 H5.
  destruct H5 as [H5 (O5 & L5 & L6 & EC)]. rewrite (EC eq_refl). apply flat_bufferWrite; [apply le16_ok|]. split; auto. split; auto.
Qed.
Definition h_prep (e0 : wenv) (w : writer) : writer :=
  let w := set_in w (match w_in w with WSum a c t _ => WSum a c t 0 end) in
  let w := set_out w (set_outstream (w_out w) 0) in
  let w := set_num w (w_num w + 1)%N in
  let w := set_lz w (lz_windowClear (w_lz w)) in
  let w := match o_dict (w_opt w) with Some d => set_lz w (lz_setWindow (w_lz w) d) | None => w end in
  let w := sendEvent w (ev_simple StreamBeginEvent) in
  let h := w_hdr w in
  let h := match h_datatype h with
           | UnknownData =>
               let buf := firstn (Nat.min (e_peek e0 (lz_calls (w_lz w))) (N.to_nat 4096)) (lz_buf (w_lz w)) in
               set_datatype h (if isText buf then TextData else BinaryData)
           | _ => h end in
  let h := if (h_os h =? OSTypeUnknown)%N then set_os h OSTypeUnix else h in
  let h := set_levels h (o_wbits (w_opt w)) (o_clevel (w_opt w)) in
  set_hdr w h.
Definition h_done (w : writer) : writer :=
  let w := sendEvent w (ev_header (w_hdr w)) in
  set_in w (match w_in w with WSum _ _ t s => WSum adler_reset crc_reset t s end).
Lemma header_eq e0 w : writeHeader e0 w =
  let? w := (match o_format (w_opt (h_prep e0 w)) with
             | RawFormat => Ok (h_prep e0 w, true)
             | ZlibFormat => writeHeaderZlib e0 (h_prep e0 w)
             | GZIPFormat => writeHeaderGZIP e0 (h_prep e0 w)
             | DefaultFormat => Panic PAssert
             end) in Ok (h_done w, true).
Proof. reflexivity. Qed.
Lemma orel_stream o1 o2 : orel o1 o2 -> orel (set_outstream o1 0) (set_outstream o2 0).
Proof.
  intros [A B C D E F F']. destruct o1, o2. destruct C, D. constructor; auto; split; cbn in *; auto; reflexivity.
Qed.
Lemma hb_levels h a b : header_bytes h -> header_bytes (set_levels h a b).
Proof. destruct h; auto. Qed.
Lemma hb_os h a : header_bytes h -> header_bytes (set_os h a).
Proof. destruct h; auto. Qed.
Lemma hb_dt h a : header_bytes h -> header_bytes (set_datatype h a).
Proof. destruct h; auto. Qed.
Lemma s_prep x y : wflat false x y -> wflat false (h_prep e1 x) (h_prep e2 y).
Proof.
  intros [H HF]. unfold h_prep. cbv zeta. rewrite Hpeek.
  destruct H as [A B C D E F G H I]. destruct x as [o1 c1 l1 i1 u1 n1 h1 f1 s1 v1], y as [o2 c2 l2 i2 u2 n2 h2 f2 s2 v2].
  cbn [w_opt w_cfg w_lz w_in w_out w_num w_hdr w_flushes w_syncs w_events] in *. subst o2 c2 l2 i2 h2 n2.
  assert (FF : flat false (set_outstream u1 0) (set_outstream u2 0)).
  { destruct HF as (O & L1 & L2 & _). split; [apply orel_stream; auto|]. destruct u1, u2; cbn in *. split; auto. split; auto. discriminate. }
  cbn. destruct l1 as [p1 q1 r1 t1]. cbn in G.
  destruct (o_dict o1) as [dd|]; cbn; (split; [|exact FF]); (constructor; cbn; auto; [|apply FF]); apply hb_levels; destruct (_ =? _)%N; try apply hb_os; destruct (h_datatype h1); auto; apply hb_dt; auto.
Qed.
Lemma s_header x y : wflat false x y -> rel wrel (writeHeader e1 x) (writeHeader e2 y).
Proof.
  intros H. rewrite !header_eq. pose proof (s_prep H) as HW. set (x1 := h_prep e1 x) in *. set (y1 := h_prep e2 y) in *. clearbody x1 y1.
  eapply rel_bind with (R := wrel).
  - rewrite <- (wr_opt (proj1 HW)). destruct (o_format (w_opt x1)).
    + intros a b; discriminate.
    + apply rel_ok, HW.
    + unfold writeHeaderZlib. rewrite <- (wr_opt (proj1 HW)). eapply flat_to. apply (@s_bufferWrite false); [apply zlib_hdr_ok|apply HW|discriminate].
    + eapply flat_to, s_gzip; eauto.
  - intros x2 y2 H2. apply rel_ok. unfold h_done. rewrite (wr_hdr H2). pose proof (s_event (ev_header (w_hdr y2)) H2) as [A B C D E F G H' I].
    set (x3 := sendEvent x2 _) in *. set (y3 := sendEvent y2 _) in *. clearbody x3 y3. destruct x3, y3. cbn in *. constructor; cbn; auto. rewrite D. reflexivity.
Qed.
Lemma be32_ok v : bytes_ok (be32 v).
Proof. unfold be32. repeat constructor; apply N.mod_lt; discriminate. Qed.
Lemma le32_ok v : bytes_ok (le32 v).
Proof. unfold le32. repeat constructor; apply N.mod_lt; discriminate. Qed.
Lemma s_footer x y : wrel x y -> rel (wflat false) (writeFooter e1 x) (writeFooter e2 y).
Proof.
  intros H. unfold writeFooter. eapply rel_bind; [apply s_bitsFlush; eauto|]. intros x1 y1 H1. cbv zeta.
  rewrite <- (wr_in (proj1 H1)). set (p := ev_footer _ _). pose proof (f_event p H1) as H2. set (a32 := inAdler _). set (c32 := inCRC _). clearbody a32 c32.
  set (x2 := sendEvent x1 p) in *. set (y2 := sendEvent y1 p) in *. clearbody x2 y2.
  eapply rel_bind with (R := wflat false); [|intros x3 y3 H3; apply rel_ok, f_event; auto].
  rewrite <- (wr_opt (proj1 H2)). destruct (o_format (w_opt x2)).
  - intros a b; discriminate.
  - apply rel_ok; auto.
  - unfold writeFooterZlib. apply s_bufferWrite; [apply be32_ok|apply H2|discriminate].
  - unfold writeFooterGZIP. intros a b E1 E2.
    assert (HA : rel (wflat false) (w_bufferWrite e1 x2 (le32 c32)) (w_bufferWrite e2 y2 (le32 c32))) by (apply s_bufferWrite; [apply le32_ok|apply H2|discriminate]).
    destruct (w_bufferWrite e1 x2 _) as [[x3 k3]| |]; cbn [rbind] in E1; try discriminate.
    destruct (w_bufferWrite e1 x3 _) as [[x4 k4]| |] eqn:X4; cbn [rbind] in E1; try discriminate. injection E1 as -> E1. apply andb_true_iff in E1. destruct E1 as [-> ->].
    destruct (w_bufferWrite e2 y2 _) as [[y3 k3]| |]; cbn [rbind] in E2; try discriminate.
    destruct (w_bufferWrite e2 y3 _) as [[y4 k4]| |] eqn:Y4; cbn [rbind] in E2; try discriminate. injection E2 as -> E2. apply andb_true_iff in E2. destruct E2 as [-> ->].
    pose proof (HA _ _ eq_refl eq_refl) as H3. rewrite <- (wr_in (proj1 H3)) in Y4.
    refine (@s_bufferWrite false x3 y3 _ (le32_ok _) (proj1 H3) _ a b X4 Y4). discriminate.
Qed.
End State.
Lemma s_setstate s x y st : wrel s x y -> wrel st (w_setstate x st) (w_setstate y st).
Proof.
  intros [A B C D E F G H I]. destruct x, y. cbn in *. constructor; auto. destruct I as [J K L M N O P]. cbn in *. destruct w_out, w_out0. constructor; auto.
Qed.
Lemma f_setstate s c x y st : wflat s c x y -> wflat st c (w_setstate x st) (w_setstate y st).
Proof. intros [H (O & L)]. pose proof (s_setstate st H) as K. split; auto. split; [apply K|]. destruct x, y, w_out, w_out0. exact L. Qed.

(** between streams nothing is pending *)
Definition idle (st : writerstate) : bool := match st with noStream | closedStream => true | _ => false end.
Definition live (st : writerstate) : bool := match st with errorState | closedState => false | _ => true end.
Definition WR (x y : writer) : Prop := exists st, live st = true /\ wrel st x y /\ (idle st = true -> wflat st false x y).
Lemma WR_flat s c x y : wflat s c x y -> live s = true -> WR x y.
Proof. intros [H (A & B & C & _)] V. exists s. split; auto. split; auto. intros _. split; auto. split; auto. split; auto. split; auto. discriminate. Qed.
Lemma WR_open s x y : wrel s x y -> live s = true -> idle s = false -> WR x y.
Proof. intros H V E. exists s. split; auto. split; auto. congruence. Qed.
Lemma wst1 s x y : wrel s x y -> w_state x = s.
Proof. intros H. apply (wr_out H). Qed.
Lemma wst2 s x y : wrel s x y -> w_state y = s.
Proof. intros H. apply (wr_out H). Qed.
Lemma WR_state x y : WR x y -> w_state x = w_state y.
Proof. intros [s [_ [H _]]]. rewrite (wst1 H), (wst2 H). auto. Qed.
Lemma WR_at x y : WR x y -> wrel (w_state x) x y /\ (idle (w_state x) = true -> wflat (w_state x) false x y) /\ live (w_state x) = true.
Proof. intros [s [V [H K]]]. rewrite (wst1 H). auto. Qed.
Lemma s_openHeader x y : WR x y -> idle (w_state x) = true -> rel WR
  (let? w := writeHeader e1 x in Ok (w_setstate w openStream, true)) (let? w := writeHeader e2 y in Ok (w_setstate w openStream, true)).
Proof.
  intros H E. destruct (WR_at H) as [_ [HF _]]. specialize (HF E). eapply rel_bind; [apply s_header; eauto|]. intros a b Hab. apply rel_ok. eapply WR_open; [eapply s_setstate; eauto| |]; auto.
Qed.
Lemma s_footerStep x y : WR x y -> rel WR
  (match w_state x with closingStream => let? w := writeFooter e1 x in Ok (w_setstate w closedStream, true) | _ => Ok (x, true) end)
  (match w_state y with closingStream => let? w := writeFooter e2 y in Ok (w_setstate w closedStream, true) | _ => Ok (y, true) end).
Proof.
  intros H. rewrite <- (WR_state H). destruct (w_state x) eqn:E; try (apply rel_ok; exact H).
  destruct (WR_at H) as [H0 _]. eapply rel_bind with (R := wflat closingStream false); [apply s_footer; rewrite E in H0; exact H0|]. intros a b Hab. apply rel_ok. eapply WR_flat; [eapply f_setstate; eauto|]; auto.
Qed.
Lemma s_compressImpl x y all : WR x y -> rel WR (compressImpl e1 x all) (compressImpl e2 y all).
Proof.
  intros H. unfold compressImpl. destruct (WR_at H) as [H0 _]. rewrite <- (wr_lz H0). destruct (lz_buf (w_lz x)) as [|b l]; [apply rel_ok; exact H|].
  eapply rel_bind with (R := WR); [apply s_footerStep; auto|]. intros x1 y1 H1.
  eapply rel_bind with (R := fun a b => WR a b /\ idle (w_state a) = false).
  - rewrite <- (WR_state H1). assert (OP : rel (fun a b => WR a b /\ idle (w_state a) = false)
      (let? w := writeHeader e1 x1 in Ok (w_setstate w openStream, true)) (let? w := writeHeader e2 y1 in Ok (w_setstate w openStream, true)) \/ idle (w_state x1) = false).
    { destruct (idle (w_state x1)) eqn:E; auto. left. intros a c A C. split; [exact (s_openHeader H1 E A C)|].
      destruct (writeHeader e1 x1) as [[a0 []]| |]; cbn [rbind] in A; try discriminate. injection A as <-. destruct a0, w_out. reflexivity. }
    destruct (w_state x1) eqn:E; try (destruct OP as [OP|OP]; [exact OP|discriminate]); apply rel_ok; split; auto; rewrite E; reflexivity.
  - intros x2 y2 [H2 E2]. destruct (WR_at H2) as [H3 [_ V3]]. eapply rel_impl; [apply s_compress; exact H3|]. intros a c K. eapply WR_open; eauto.
Qed.
Lemma s_lz s x y l : wrel s x y -> bytes_ok (lz_buf l) -> wrel s (set_lz x l) (set_lz y l).
Proof. intros [] H. destruct x, y. constructor; auto. Qed.
Lemma s_flushGuts x y ft : WR x y -> w_state x = openStream -> rel WR (flushGuts e1 x ft) (flushGuts e2 y ft).
Proof.
  intros H E. destruct (WR_at H) as [H0 _]. rewrite E in H0. assert (BN : bytes_ok []) by constructor. destruct ft; cbn [flushGuts].
  - apply rel_ok; auto.
  - eapply rel_impl; [apply s_static; exact H0|]. intros a b K. eapply WR_open; eauto.
  - eapply rel_impl; [apply s_stored; [exact BN|exact H0]|]. intros a b K. eapply WR_flat; eauto.
  - eapply rel_bind; [apply s_stored; [exact BN|exact H0]|]. intros a b [K _]. apply rel_ok. rewrite <- (wr_lz K). eapply WR_open; [apply s_lz; [exact K|apply K]| |]; auto.
  - eapply rel_bind; [apply s_stored; [exact BN|exact H0]|]. intros a b [K _]. apply rel_ok. rewrite <- (wr_lz K). eapply WR_open; [eapply s_setstate, s_lz; [exact K|apply K]| |]; auto.
Qed.
Lemma WR_calls x y f f' g g' : WR x y -> WR (set_calls x f g) (set_calls y f' g').
Proof.
  intros [s [V [H HF]]]. exists s. split; auto. assert (K : wrel s (set_calls x f g) (set_calls y f' g')) by (destruct H; destruct x, y; constructor; auto).
  split; auto. intros E. destruct (HF E) as [_ HH]. split; auto. destruct x, y. exact HH.
Qed.
(** what follows the last write of a Flush *)
Lemma s_tail (e0 : wenv) x z : (let fl := e_flushw e0 (w_flushes x) in
  let w := set_calls x (S (w_flushes x)) (w_syncs x) in
  match fl with
  | Some e => Ok (w_fail w e, false)
  | None =>
    let sy := e_syncw e0 (w_syncs w) in
    let w := set_calls w (w_flushes w) (S (w_syncs w)) in
    match sy with None => Ok (w, true) | Some EINVAL => Ok (w, true) | Some e => Ok (w_fail w e, false) end
  end) = Ok (z, true) -> exists f g, z = set_calls x f g.
Proof.
  cbv zeta. destruct (e_flushw e0 _); [discriminate|]. intros H.
  exists (S (w_flushes x)), (S (w_syncs x)). destruct (e_syncw e0 _) as [e|]; [destruct e; try discriminate|]; injection H as <-; destruct x; reflexivity.
Qed.
(** flushes that leave nothing pending *)
Definition flushed (ft : flushtype) : bool := match ft with SyncFlush | FullFlush | FinishFlush => true | _ => false end.
Lemma s_flushGuts' x y ft : WR x y -> w_state x = openStream -> rel (fun a b => WR a b /\ (flushed ft = true -> flat (w_state a) false (w_out a) (w_out b)) /\ (ft = FinishFlush -> w_state a <> openStream)) (flushGuts e1 x ft) (flushGuts e2 y ft).
Proof.
  intros H E. destruct (WR_at H) as [H0 _]. rewrite E in H0. assert (BN : bytes_ok []) by constructor. intros a b A B. split; [exact (s_flushGuts H E A B)|]. revert A B.
  destruct ft; cbn [flushGuts flushed]; intros A B; (split; [|discriminate || (intros _)]); try discriminate.
  - intros _. pose proof (@s_stored _ _ _ _ false BN H0 _ _ A B) as [K K']. rewrite (wst1 K). exact K'.
  - intros _. assert (KK : rel (fun a b => flat (w_state a) false (w_out a) (w_out b)) (let? w := writeStoredBlock (bw_writer e1) x [] false in Ok (set_lz w (lz_windowClear (w_lz w)), true)) (let? w := writeStoredBlock (bw_writer e2) y [] false in Ok (set_lz w (lz_windowClear (w_lz w)), true))).
    { eapply rel_bind; [apply s_stored; [exact BN|exact H0]|]. intros u v [K K']. apply rel_ok. pose proof (wst1 K) as Z. destruct u, v. unfold w_state in *. cbn in *. rewrite Z. exact K'. }
    apply KK; auto.
  - intros _. assert (KK : rel (fun a b => flat (w_state a) false (w_out a) (w_out b)) (let? w := writeStoredBlock (bw_writer e1) x [] true in Ok (w_setstate (set_lz w (lz_windowClear (w_lz w))) closingStream, true)) (let? w := writeStoredBlock (bw_writer e2) y [] true in Ok (w_setstate (set_lz w (lz_windowClear (w_lz w))) closingStream, true))).
    { eapply rel_bind; [apply s_stored; [exact BN|exact H0]|]. intros u v K. apply rel_ok. pose proof (f_setstate closingStream K) as [_ Z]. destruct u, v. unfold w_setstate, w_state in *. cbn in *. destruct w_out, w_out0. exact Z. }
    apply KK; auto.
  - destruct (writeStoredBlock (bw_writer e1) x [] true) as [[u []]| |]; cbn [rbind] in A; try discriminate. injection A as <-. destruct u, w_out. discriminate.
Qed.
Lemma s_flushImpl x y ft : WR x y -> rel (fun a b => WR a b /\ (flushed ft = true -> flat (w_state a) false (w_out a) (w_out b))) (flushImpl e1 x ft) (flushImpl e2 y ft).
Proof.
  intros H. unfold flushImpl. eapply rel_bind; [apply s_compressImpl; eauto|]. intros x1 y1 H1.
  eapply rel_bind with (R := WR).
  { apply rel_if; [|apply rel_ok; exact H1]. rewrite <- (WR_state H1). destruct (w_state x1) eqn:E; try (apply rel_ok; exact H1). apply s_openHeader; auto. rewrite E. auto. }
  intros x2 y2 H2. eapply rel_bind with (R := fun a b => WR a b /\ (flushed ft = true -> w_state a = closingStream \/ flat (w_state a) false (w_out a) (w_out b))).
  { rewrite <- (WR_state H2). destruct (WR_at H2) as [W2 [I2 V2]]. destruct (w_state x2) eqn:E; try (apply rel_ok; split; [exact H2|]; intros _; rewrite E; auto; right; apply I2; reflexivity); try discriminate.
    eapply rel_impl; [apply s_flushGuts'; auto|]. cbn beta. intros a b [K1 [K2 _]]. auto. }
  intros x3 y3 [H3 F3]. eapply rel_bind with (R := fun a b => WR a b /\ (flushed ft = true -> flat (w_state a) false (w_out a) (w_out b))).
  { intros a b A B. pose proof (s_footerStep H3 A B) as K. split; auto. intros FT. rewrite <- (WR_state H3) in B.
    destruct (w_state x3) eqn:E; try (injection A as <-; injection B as <-; destruct (F3 FT) as [X|X]; [congruence|rewrite E; exact X]).
    destruct (WR_at K) as [_ [Z _]]. assert (ST : w_state a = closedStream).
    { destruct (writeFooter e1 x3) as [[u []]| |]; cbn [rbind] in A; try discriminate. injection A as <-. destruct u, w_out; reflexivity. }
    rewrite ST in *. apply Z. reflexivity. }
  intros x4 y4 [H4 F4] a b E1 E2.
  apply s_tail in E1. apply s_tail in E2. destruct E1 as (f & g & ->), E2 as (f' & g' & ->). split; [apply WR_calls; auto|].
  intros FT. specialize (F4 FT). destruct x4, y4. exact F4.
Qed.
Lemma s_writeLoop fuel : forall x y buf, bytes_ok buf -> WR x y -> rel WR (writeLoop e1 fuel x buf) (writeLoop e2 fuel y buf).
Proof.
  induction fuel as [|f IH]; intros x y buf HB H; cbn [writeLoop]; destruct buf as [|b l]; try (apply rel_ok; exact H); [intros p q; discriminate|].
  destruct H as [s [V [H HF]]]. unfold lz_write, lz_cap. rewrite <- (wr_lz H). cbn zeta.
  set (nn := N.to_nat _). assert (BB : bytes_ok (firstn nn (b :: l)) /\ bytes_ok (skipn nn (b :: l))) by (apply bytes_ok_app; rewrite firstn_skipn; auto).
  eapply rel_bind with (R := WR); [|intros a c Hac; apply IH; tauto].
  apply s_compressImpl. exists s. split; auto. assert (K : forall v, bytes_ok (lz_buf v) -> wrel s (set_lz x v) (set_lz y v)) by (intros; apply s_lz; auto).
  assert (B3 : bytes_ok (lz_buf (w_lz x) ++ firstn nn (b :: l))) by (apply bytes_ok_app; split; [apply H|tauto]).
  split; [apply K; exact B3|]. intros E. destruct (HF E) as [_ HH]. split; [apply K; exact B3|]. destruct x, y. exact HH.
Qed.

End Sim.
