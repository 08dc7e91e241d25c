(** What a Writer's methods never change, and when its bit buffer is empty:
    used for Reset (C08). *)
From Verif Require Import Base SpecHuffman MChecksum MToken MCommon MWriter SpecEvents SpecSession MSession.

Section Frame.
Variable env : wenv.
Hypothesis Hbpb : bytesPerBlock env = 4 \/ bytesPerBlock env = 8.
Variable op : options.
(** whether to keep track of the bit buffer between streams *)
Variable qb : bool.
(** the underlying writer's own Flush and Sync methods do not fail *)
Definition quiet : Prop := forall n, e_flushw env n = None /\ (e_syncw env n = None \/ e_syncw env n = Some EINVAL).

(** [k]: no pending bits; [v]: the state *)
Definition OU (k : bool) (v : writerstate) (o : wout) : Prop :=
  (obLen o = 0 -> obBlock o = 0%N) /\ (k = true -> obLen o = 0) /\ wstate o = v /\ (qb = true -> v <> errorState -> outBuf o = [] /\ werr o = None).
Definition OF (o : wout) : Prop := obLen o = 0 /\ obBlock o = 0%N /\ wstate o = errorState /\ werr o <> None.
Definition Fr (w : writer) : Prop := w_opt w = op /\ w_cfg w = compressConfig op /\ lz_o (w_lz w) = hybridOptions op.
Definition U k v w := Fr w /\ OU k v (w_out w).
Definition F w := Fr w /\ OF (w_out w).

Definition ho {A} (P P0 : A -> Prop) (m : res (A * bool)) : Prop :=
  match m with Ok (x, true) => P x | Ok (x, false) => P0 x | _ => True end.
Lemma ho_bind {A} (P Q P0 : A -> Prop) m k : ho P P0 m -> (forall x, P x -> ho Q P0 (k x)) -> ho Q P0 (let? x := m in k x).
Proof. intros H K. destruct m as [[x []]| |]; cbn [ho rbind] in *; auto. Qed.
Lemma ho_let {A C} (P P0 : A -> Prop) (m : res C) k : (forall x, ho P P0 (k x)) -> ho P P0 (rbind m k).
Proof. intros H. destruct m; cbn [rbind ho]; auto. Qed.
Lemma ho_assert {A} (P P0 : A -> Prop) b m : ho P P0 m -> ho P P0 (assertb b m).
Proof. destruct b; cbn [assertb ho]; auto. Qed.
Lemma ho_impl {A} (P Q P0 Q0 : A -> Prop) m : ho P P0 m -> (forall x, P x -> Q x) -> (forall x, P0 x -> Q0 x) -> ho Q Q0 m.
Proof. destruct m as [[x []]| |]; cbn [ho]; auto. Qed.
Lemma ho_for {A C} (P P0 : A -> Prop) (f : C -> A -> res (A * bool)) l : (forall c x, P x -> ho P P0 (f c x)) -> forall x, P x -> ho P P0 (for_each f l x).
Proof. intros H. induction l as [|c l IH]; intros x HP; cbn [for_each]; [exact HP|]. eapply ho_bind; eauto. Qed.

Lemma u_weak k v o : OU k v o -> OU false v o.
Proof. unfold OU. intuition discriminate. Qed.
Lemma U_weak k v w : U k v w -> U false v w.
Proof. intros [A B]. split; auto. eapply u_weak; eauto. Qed.
Lemma u_loop v cap fuel : forall o buf, OU true v o -> ho (OU true v) OF (outputBufferLoop env fuel cap o buf).
Proof.
  induction fuel as [|f IH]; intros o buf H; cbn [outputBufferLoop]; destruct buf as [|x buf]; try exact H; [exact I|].
  set (nn := N.to_nat _). set (p := match o with WOut _ _ _ _ _ _ _ _ _ _ => _ end).
  assert (HP : (obLen p = 0 -> obBlock p = 0%N) /\ (true = true -> obLen p = 0) /\ wstate p = v /\ (qb = true -> v <> errorState -> werr p = None)).
  { unfold p. destruct o. unfold OU in H. cbn in *. intuition. } clearbody p. destruct p as [a b bf sk n c t st s e]. unfold outputBufferFlush.
  cbn in HP. destruct HP as [H1 [H2 [H3 H4]]].
  destruct (e_sink env n bf) as [[k e']|]; cbn [ho].
  - unfold OF. cbn. rewrite H2, H1 by auto. repeat split; auto. discriminate.
  - apply IH. unfold OU. cbn. repeat (split; auto).
Qed.
Lemma u_bitsFlush k v cap o : OU k v o -> ho (OU true v) OF (o_bitsFlush env cap o).
Proof.
  intros H. unfold o_bitsFlush. destruct (Nat.eqb (obLen o) 0) eqn:E.
  - apply Nat.eqb_eq in E. cbn [ho]. unfold OU in *. intuition.
  - apply u_loop. destruct o. unfold OU in *. cbn in *. intuition.
Qed.
Lemma u_bufferWrite k v cap o p : OU k v o -> ho (OU true v) OF (o_bufferWrite env cap o p).
Proof. intros H. unfold o_bufferWrite. eapply ho_bind; [eapply u_bitsFlush; eauto|]. intros x HX. apply u_loop; auto. Qed.
Lemma u_bitsLoop v cap fuel : bitsPerBlock env <> 0 -> forall o n x, OU false v o -> obLen o <= bitsPerBlock env -> ho (OU false v) OF (o_bitsLoop env fuel cap o n x).
Proof.
  intros HB. induction fuel as [|f IH]; intros o n x H HL; cbn [o_bitsLoop]; destruct n as [|n]; try exact H; [exact I|]. cbv zeta.
  set (sh := if _ <? _ then _ else _).
  destruct (Nat.eqb_spec (obLen o) (bitsPerBlock env)) as [EF|EF].
  - (* full on entry: flushed *)
    assert (sh = 0) by (unfold sh; rewrite EF, Nat.sub_diag; reflexivity).
    set (o1 := set_ob o _ _). assert (HO : OU false v o1).
    { unfold o1. destruct o. unfold OU in *. cbn in *. intuition lia. }
    replace (obLen o1) with (bitsPerBlock env) by (unfold o1; destruct o; cbn in *; lia). rewrite Nat.eqb_refl.
    eapply ho_bind; [eapply u_bitsFlush; eauto|]. intros y HY. apply IH; [eapply u_weak; eauto|]. destruct HY as [_ [HY _]]. rewrite HY by auto. lia.
  - assert (0 < sh <= bitsPerBlock env - obLen o).
    { unfold sh. destruct (S n <? _) eqn:E1; [apply Nat.ltb_lt in E1; lia|lia]. }
    set (o1 := set_ob o _ _). assert (HO : OU false v o1 /\ obLen o1 = obLen o + sh).
    { unfold o1. destruct o. unfold OU in *. cbn in *. intuition lia. }
    clearbody o1 sh. destruct HO as [HO HO']. destruct (Nat.eqb (obLen o1) (bitsPerBlock env)).
    + eapply ho_bind; [eapply u_bitsFlush; eauto|]. intros y HY. apply IH; [eapply u_weak; eauto|]. destruct HY as [_ [HY _]]. rewrite HY by auto. lia.
    + apply IH; auto. lia.
Qed.
Lemma u_bitsWrite k v cap o n x : OU k v o -> ho (OU false v) OF (o_bitsWrite env cap o n x).
Proof.
  intros H. unfold o_bitsWrite. destruct (obLen o <=? bitsPerBlock env) eqn:E1; cbn [assertb]; [|exact I]. apply Nat.leb_le in E1.
  apply ho_assert. apply u_bitsLoop; auto; [unfold bitsPerBlock; lia|eapply u_weak; eauto].
Qed.

Lemma on (k k' : bool) v w f : (forall o, OU k v o -> ho (OU k' v) OF (f o)) -> U k v w -> ho (U k' v) F (on_out f w).
Proof.
  intros HF [[A1 [A2 A3]] B]. unfold on_out. pose proof (HF _ B) as H. destruct (f (w_out w)) as [[o []]| |]; cbn [ho rbind] in *; auto;
  (split; [destruct w; repeat split; auto|destruct w; auto]).
Qed.
Lemma v_bufferWrite k v w p : U k v w -> ho (U true v) F (w_bufferWrite env w p).
Proof. apply on. intros. eapply u_bufferWrite; eauto. Qed.
Lemma v_bitsWrite k v w n x : U k v w -> ho (U false v) F (w_bitsWrite env w n x).
Proof. apply on. intros. eapply u_bitsWrite; eauto. Qed.
Lemma v_bitsFlush k v w : U k v w -> ho (U true v) F (w_bitsFlush env w).
Proof. apply on. intros. eapply u_bitsFlush; eauto. Qed.
Lemma v_event k v w e : U k v w -> U k v (sendEvent w e).
Proof. destruct w. auto. Qed.
Notation X v := (U false v).
Lemma x_bits v w n x : X v w -> ho (X v) F (w_bitsWrite env w n x).
Proof. apply v_bitsWrite. Qed.
Lemma x_flush v w : X v w -> ho (X v) F (w_bitsFlush env w).
Proof. intros H. eapply ho_impl; [eapply v_bitsFlush; eauto| |auto]. intros. eapply U_weak; eauto. Qed.
Lemma x_buf v w p : X v w -> ho (X v) F (w_bufferWrite env w p).
Proof. intros H. eapply ho_impl; [eapply v_bufferWrite; eauto| |auto]. intros. eapply U_weak; eauto. Qed.

Notation bw := (bw_writer env).
Lemma x_stored v w data fin : X v w -> ho (X v) F (writeStoredBlock bw w data fin).
Proof.
  intros H. unfold writeStoredBlock. apply ho_assert. cbv zeta. cbn [bw_writer bw_bitsWrite bw_bitsFlush bw_writeU16le bw_bufferWrite bw_event].
  eapply ho_bind; [apply x_bits, v_event; eauto|]. intros x1 H1. eapply ho_bind; [apply x_flush; eauto|]. intros x2 H2.
  eapply ho_bind; [apply x_buf; eauto|]. intros x3 H3. eapply ho_bind; [apply x_buf; eauto|]. intros x4 H4.
  eapply ho_bind; [apply x_buf; eauto|]. intros x5 H5. apply v_event; auto.
Qed.
Lemma x_opt v (b : bool) w n x : X v w -> ho (X v) F (if b then Ok (w, true) else w_bitsWrite env w n x).
Proof. intros H. destruct b; [exact H|apply x_bits; auto]. Qed.
Lemma x_lld v ll d t w : X v w -> ho (X v) F (encodeLLD bw ll d t w).
Proof.
  intros H. unfold encodeLLD, bw_writeHC. cbn [bw_writer bw_bitsWrite]. apply ho_let. intros [[sl nl] xl]. apply ho_let. intros [[sd nd] xd]. destruct sl as [sl|]; [|exact H].
  eapply ho_bind; [apply x_bits; eauto|]. intros x1 H1. eapply ho_bind; [apply x_opt; eauto|]. intros x2 H2. destruct sd as [sd|]; [|exact H2].
  eapply ho_bind; [apply x_bits; eauto|]. intros x3 H3. eapply ho_bind; [apply x_opt; eauto|]. intros x4 H4. exact H4.
Qed.
Lemma x_x v hx t w : X v w -> ho (X v) F (encodeX bw hx t w).
Proof.
  intros H. unfold encodeX, bw_writeHC. cbn [bw_writer bw_bitsWrite]. destruct (symbolX t) as [[sx nx] xx]. destruct sx as [sx|]; [|exact H].
  eapply ho_bind; [apply x_bits; eauto|]. intros x1 H1. eapply ho_bind; [apply x_opt; eauto|]. intros x2 H2. exact H2.
Qed.
Lemma x_static v w tokens fin : X v w -> ho (X v) F (writeStaticBlock bw w tokens fin).
Proof.
  intros H. unfold writeStaticBlock. apply ho_assert. cbv zeta. cbn [bw_writer bw_bitsWrite bw_event]. eapply ho_bind; [apply x_bits, v_event; eauto|]. intros x1 H1.
  eapply ho_bind; [apply ho_for; [intros; apply x_lld; eauto|apply v_event; eauto]|]. intros x2 H2. apply v_event; auto.
Qed.
Lemma x_dynamic v w ll d tokens fin : X v w -> ho (X v) F (writeDynamicBlock env bw w ll d tokens fin).
Proof.
  intros H. unfold writeDynamicBlock. apply ho_assert. cbv zeta. cbn [bw_writer bw_bitsWrite bw_event]. eapply ho_bind; [apply x_bits, v_event; eauto|]. intros x1 H1.
  apply ho_let. intros [xt1 nll]. apply ho_let. intros [xt nd]. apply ho_let. intros fx.
  eapply ho_bind; [apply x_bits; eauto|]. intros x2 H2. eapply ho_bind; [apply x_bits; eauto|]. intros x3 H3.
  eapply ho_bind; [apply x_bits; eauto|]. intros x4 H4.
  eapply ho_bind; [apply ho_for; [intros; apply x_bits; eauto|eauto]|]. intros x5 H5.
  eapply ho_bind; [apply ho_for; [intros; apply x_x; eauto|eauto]|]. intros x6 H6.
  eapply ho_bind; [apply ho_for; [intros; apply x_lld; eauto|apply v_event; eauto]|]. intros x7 H7. apply v_event; auto.
Qed.
Lemma x_tokens v w data tokens fin : X v w -> ho (X v) F (compressTokens env bw w data tokens fin).
Proof.
  intros H. unfold compressTokens. apply ho_let. intros [fll fd]. cbv zeta. apply ho_let. intros [dc b1]. apply ho_let. intros [sc b2].
  match goal with |- ho _ _ (if ?b then _ else _) => destruct b end; [apply x_stored; auto|].
  match goal with |- ho _ _ (if ?b then _ else _) => destruct b end; [apply x_static; auto|apply x_dynamic; auto].
Qed.
Lemma v_lz k v w l : U k v w -> lz_o l = lz_o (w_lz w) -> U k v (set_lz w l).
Proof. intros [[A [B C]] D] E. destruct w. split; auto. repeat split; auto. cbn in *. congruence. Qed.
Lemma v_in k v w i : U k v w -> U k v (set_in w i).
Proof. destruct w. auto. Qed.
Lemma x_take k v w n : U k v w -> U k v (fst (inputBufferRead w n)).
Proof. intros H. unfold inputBufferRead, lz_take. cbn [fst]. apply v_in, v_lz; auto. Qed.
Lemma x_storeLoop v fuel : forall w, X v w -> ho (X v) F (compressStoreLoop env fuel w).
Proof.
  induction fuel as [|f IH]; intros w H; cbn [compressStoreLoop]; destruct (lz_buf (w_lz w)) eqn:E; try exact H; [exact I|].
  pose proof (x_take (N.to_nat storedBlockSize) H) as T. destruct (inputBufferRead w _) as [w1 p]. cbn [fst] in T.
  eapply ho_bind; [apply x_stored; eauto|]. intros x Hx. apply IH; auto.
Qed.
Lemma x_slowLoop k v fuel : forall w w1 d t, U k v w -> compressSlowLoop env fuel w = Ok (w1, d, t) -> U k v w1.
Proof.
  induction fuel as [|f IH]; intros w w1 d t H; cbn [compressSlowLoop]; destruct (lz_buf (w_lz w)) eqn:E; try discriminate; try (intros EQ; inversion EQ; subst; exact H).
  unfold inputBufferAdvance, lz_take. cbv zeta.
  set (m := e_match env _ _ _ _). set (l' := LZ _ _ _ _). set (p := firstn _ _). set (w2 := set_in _ _).
  assert (H2 : U k v w2) by (apply v_in, v_lz; auto). clearbody w2. destruct m as [[dd len]|].
  - unfold assertb. destruct (3 <=? len)%N; [|discriminate]. destruct (1 <=? dd)%N; [|discriminate]. destruct (makeCopyToken _ _); cbn [rbind]; try discriminate.
    destruct (compressSlowLoop env f w2) as [[[w3 d3] t3]| |] eqn:E3; cbn [rbind]; try discriminate. intros EQ. inversion EQ; subst. eapply IH; eauto.
  - destruct p; [discriminate|]. destruct (compressSlowLoop env f w2) as [[[w3 d3] t3]| |] eqn:E3; cbn [rbind]; try discriminate. intros EQ. inversion EQ; subst. eapply IH; eauto.
Qed.
Lemma x_compress v w all : X v w -> ho (X v) F (if isStoreConfig (w_cfg w) then compressStore env w all else compressSlow env w all).
Proof.
  intros H. destruct (isStoreConfig _).
  - unfold compressStore. destruct (_ && _)%bool; [exact H|apply x_storeLoop; auto].
  - unfold compressSlow. destruct (_ && _)%bool; [exact H|]. destruct (compressSlowLoop env _ w) as [[[w1 d] t]| |] eqn:E; cbn [rbind ho]; auto.
    apply x_tokens. eapply x_slowLoop; eauto.
Qed.
(** headers and footers *)
Lemma v_stringZ k v w p : U k v w -> ho (U true v) F (writeStringZ env w p).
Proof.
  intros H. unfold writeStringZ. destruct (indexByte p 0); [|eapply v_bufferWrite; eauto]. destruct (Nat.eqb _ _); [eapply v_bufferWrite; eauto|exact I].
Qed.
Lemma v_out k v w o : U k v w -> OU k v o -> U k v (set_out w o).
Proof. intros [A B] H. destruct w. split; auto. Qed.
Lemma v_gzip k v w : U k v w -> ho (U true v) F (writeHeaderGZIP env w).
Proof.
  intros H. unfold writeHeaderGZIP. cbv zeta. set (x := set_out w _).
  assert (H1 : U k v x) by (apply v_out; auto; destruct H as [_ H]; destruct (w_out w); exact H). clearbody x. set (h := w_hdr x). clearbody h.
  eapply ho_bind; [eapply v_bufferWrite; eauto|]. intros x2 H2. eapply ho_bind with (P := U true v).
  { destruct (h_extra h); [exact H2|]. cbv zeta. eapply ho_bind; [eapply v_bufferWrite; eauto|]. intros a Ha. eapply v_bufferWrite; eauto. }
  intros x3 H3. eapply ho_bind with (P := U true v); [destruct (h_name h); [exact H3|eapply v_stringZ; eauto]|]. intros x4 H4.
  eapply ho_bind with (P := U true v); [destruct (h_comment h); [exact H4|eapply v_stringZ; eauto]|]. intros x5 H5. eapply v_bufferWrite; eauto.
Qed.
Lemma v_header k v w : U k v w -> ho (U false v) F (writeHeader env w).
Proof.
  intros H. unfold writeHeader. cbv zeta.
  set (h := set_levels _ _ _). set (w1 := set_hdr _ _).
  assert (H1 : U k v w1).
  { unfold w1. clearbody h. clear w1. destruct H as [[A [B C]] D]. destruct w as [o c l i u n hh f s e]. cbn in *.
    assert (D' : OU k v (set_outstream u 0)) by (destruct u; exact D). destruct (o_dict o); (split; [repeat split; auto|exact D']). }
  clearbody w1. clearbody h. clear h. eapply ho_bind with (P := U false v).
  - destruct (o_format (w_opt w1)); [exact I|eapply U_weak; exact H1|eapply ho_impl; [eapply v_bufferWrite; eauto|intros ?; apply U_weak|auto]|eapply ho_impl; [eapply v_gzip; eauto|intros ?; apply U_weak|auto]].
  - intros x Hx. cbn [ho]. apply v_in, v_event; auto.
Qed.
Lemma F_write w p : F w -> match w_bufferWrite env w p with Ok (x, _) => F x | _ => True end.
Proof.
  intros [A [B1 [B2 [B3 B4]]]]. assert (H : U true errorState w) by (split; auto; unfold OU; repeat split; auto; contradiction).
  pose proof (v_bufferWrite p H) as HH.
  assert (KE : forall fuel o buf, werr o <> None -> match outputBufferLoop env fuel (out_cap (w_opt w)) o buf with Ok (o', _) => werr o' <> None | _ => True end).
  { induction fuel as [|f IH]; intros o buf HE; cbn [outputBufferLoop]; destruct buf; auto. set (nn := N.to_nat _). destruct o as [a b bf sk n' c t st s e]. unfold outputBufferFlush.
    destruct (e_sink env n' _) as [[k e']|]; [cbn; discriminate|]. apply IH. exact HE. }
  unfold w_bufferWrite, on_out, o_bufferWrite, o_bitsFlush in *. rewrite B1 in *. cbn [Nat.eqb rbind] in *.
  pose proof (KE (out_fuel p) (w_out w) p B4) as K2.
  destruct (outputBufferLoop env _ _ _ _) as [[o []]| |]; cbn [ho rbind] in *; auto.
  destruct HH as [HA [H1 [H2 [H3 _]]]]. split; auto. destruct w. cbn in *. unfold OF. auto.
Qed.
Lemma v_footer k v w : U k v w -> ho (U true v) F (writeFooter env w).
Proof.
  intros H. unfold writeFooter. eapply ho_bind; [eapply v_bitsFlush; eauto|]. intros x1 H1. cbv zeta. set (p := ev_footer _ _). pose proof (v_event p H1) as H2.
  set (x2 := sendEvent x1 p) in *. clearbody x2. eapply ho_bind with (P := U true v).
  - destruct (o_format (w_opt x2)); [exact I|exact H2|eapply v_bufferWrite; eauto|]. unfold writeFooterGZIP.
    pose proof (v_bufferWrite (le32 (inCRC (w_in x1))) H2) as HA. destruct (w_bufferWrite env x2 _) as [[x3 [|]]| |]; cbn [ho rbind] in *; auto.
    + pose proof (v_bufferWrite (le32 (inStream (w_in x3) mod two32)) HA) as HC. destruct (w_bufferWrite env x3 _) as [[x4 [|]]| |]; cbn [ho rbind andb] in *; auto.
    + pose proof (F_write (le32 (inStream (w_in x3) mod two32)) HA) as HC. destruct (w_bufferWrite env x3 _) as [[x4 b4]| |]; cbn [ho rbind andb] in *; auto.
  - intros x3 H3. cbn [ho]. apply v_event; auto.
Qed.
Lemma v_setstate k v w st : U k v w -> v <> errorState -> U k st (w_setstate w st).
Proof. intros [A [B [C [D E]]]] N. unfold w_setstate. destruct w as [a b c d [] f g h i j]. split; auto. repeat (split; auto). Qed.
(** ** the invariant between calls *)
Definition kst (st : writerstate) : bool := match st with noStream | closedStream => qb | _ => false end.
Definition J (w : writer) : Prop :=
  Fr w /\ (obLen (w_out w) = 0 -> obBlock (w_out w) = 0%N) /\
  match w_state w with
  | noStream | closedStream => qb = true -> obLen (w_out w) = 0 /\ outBuf (w_out w) = [] /\ werr (w_out w) = None
  | openStream => qb = true -> outBuf (w_out w) = [] /\ werr (w_out w) = None
  | closingStream => False
  | errorState => werr (w_out w) <> None /\ (quiet -> qb = true -> obLen (w_out w) = 0)
  | closedState => quiet -> qb = true -> obLen (w_out w) = 0
  end.
Definition live (st : writerstate) : Prop := st = noStream \/ st = openStream \/ st = closedStream.
Definition A (w : writer) : Prop := exists v, live v /\ U (kst v) v w.
Definition A' (w : writer) : Prop := exists v, (live v \/ v = closingStream) /\ U (kst v) v w.
Lemma A_J w : A w -> J w.
Proof. intros [v [L [HF [H1 [H2 [H3 H4]]]]]]. unfold J, w_state. rewrite H3. split; auto. split; auto. destruct L as [->|[->| ->]]; cbn in *; intros Q; (split; [auto; fail|]) || idtac; apply H4; auto; discriminate. Qed.
Lemma v_state k v w : U k v w -> w_state w = v.
Proof. intros [_ [_ [_ [H _]]]]. exact H. Qed.
Lemma F_J w : F w -> J w.
Proof. intros [HF [H1 [H2 [H3 H4]]]]. unfold J, w_state. rewrite H3. auto. Qed.
Lemma J_A w : J w -> live (w_state w) -> A w.
Proof.
  intros [HF [H1 H2]] L. exists (w_state w). split; auto. split; auto. unfold OU. split; auto. destruct L as [L|[L|L]]; rewrite L in *; cbn; unfold w_state in L; clear Hbpb; (split; [intros Q; try discriminate Q; apply H2; auto|split; [exact L|intros Q _; apply H2; auto]]).
Qed.
Lemma a_header k w : U k (w_state w) w -> w_state w <> errorState -> ho (U false openStream) F (let? w := writeHeader env w in Ok (w_setstate w openStream, true)).
Proof. intros H NE. eapply ho_bind; [eapply v_header; eauto|]. intros x Hx. cbn [ho]. eapply v_setstate; eauto. Qed.
Lemma open_A w : U false openStream w -> A w.
Proof. intros H. exists openStream. split; [unfold live; auto|exact H]. Qed.
Lemma a_compressImpl w all : A w -> ho A F (compressImpl env w all).
Proof.
  intros H. unfold compressImpl. destruct (lz_buf (w_lz w)); [exact H|]. destruct H as [v [L H]]. pose proof (v_state H) as EV.
  assert (E1 : match w_state w with closingStream => let? w := writeFooter env w in Ok (w_setstate w closedStream, true) | _ => Ok (w, true) end = Ok (w, true)).
  { rewrite EV. destruct L as [->|[->| ->]]; auto. }
  rewrite E1. cbn [rbind]. eapply ho_bind with (P := U false openStream).
  2:{ intros x Hx. eapply ho_impl; [eapply x_compress; eauto|apply open_A|auto]. }
  destruct L as [->|[->| ->]]; rewrite EV.
  - eapply a_header; rewrite EV; [exact H|discriminate].
  - exact H.
  - eapply a_header; rewrite EV; [exact H|discriminate].
Qed.
(** after FinishFlush no stream is open *)
Definition fin_ok (ft : flushtype) (w : writer) : Prop := ft = FinishFlush -> w_state w = closedStream.
Lemma a_guts ft w : U false openStream w -> ho (fun x => if is_finish ft then U false closingStream x else U false openStream x) F (flushGuts env w ft).
Proof.
  intros H. destruct ft; cbn [flushGuts is_finish].
  - exact H.
  - apply x_static; auto.
  - apply x_stored; auto.
  - eapply ho_bind; [apply x_stored; eauto|]. intros x Hx. cbn [ho]. apply v_lz; auto.
  - eapply ho_bind; [apply x_stored; eauto|]. intros x Hx. cbn [ho]. eapply v_setstate; [apply v_lz; eauto|discriminate].
Qed.
Lemma a_close v w : U false v w -> v <> errorState -> ho (U true closedStream) F (let? w := writeFooter env w in Ok (w_setstate w closedStream, true)).
Proof. intros H NE. eapply ho_bind; [eapply v_footer; eauto|]. intros x Hx. cbn [ho]. eapply v_setstate; eauto. Qed.
Lemma kst_A v w : live v -> U (kst v) v w -> A w.
Proof. intros; exists v; auto. Qed.
Lemma v_calls k v w a b : U k v w -> U k v (set_calls w a b).
Proof. destruct w. auto. Qed.
Definition EF (w : writer) : Prop := Fr w /\ w_state w = errorState /\ werr (w_out w) <> None /\ (obLen (w_out w) = 0 -> obBlock (w_out w) = 0%N) /\ (quiet -> qb = true -> obLen (w_out w) = 0).
Lemma F_EF w : F w -> EF w.
Proof. intros [HF [H1 [H2 [H3 H4]]]]. unfold EF, w_state. auto. Qed.
Lemma EF_J w : EF w -> J w.
Proof. intros [HF [H1 [H2 [H3 H4]]]]. unfold J. rewrite H1. auto. Qed.
Definition Fin (ft : flushtype) (x : writer) : Prop := A x /\ (ft = FinishFlush -> U qb closedStream x).
Definition fl_tail (w : writer) : res (writer * bool) :=
  let fl := e_flushw env (w_flushes w) in
  let w := set_calls w (S (w_flushes w)) (w_syncs w) in
  match fl with
  | Some e => Ok (w_fail w e, false)
  | None =>
    let sy := e_syncw env (w_syncs w) in
    let w := set_calls w (w_flushes w) (S (w_syncs w)) in
    match sy with
    | None => Ok (w, true)
    | Some EINVAL => Ok (w, true)
    | Some e => Ok (w_fail w e, false)
    end
  end.
Lemma flush_eq w ft : flushImpl env w ft =
  (let? w := compressImpl env w true in
   let? w := (if is_finish ft then match w_state w with noStream => let? w := writeHeader env w in Ok (w_setstate w openStream, true) | _ => Ok (w, true) end else Ok (w, true)) in
   let? w := (match w_state w with openStream => flushGuts env w ft | _ => Ok (w, true) end) in
   let? w := (match w_state w with closingStream => let? w := writeFooter env w in Ok (w_setstate w closedStream, true) | _ => Ok (w, true) end) in
   fl_tail w).
Proof. reflexivity. Qed.
Lemma A_calls w a b : A w -> A (set_calls w a b).
Proof. intros [v [L H]]. exists v. split; auto. apply v_calls; auto. Qed.
Lemma A_fail w e : A w -> (quiet -> False) -> EF (w_fail w e).
Proof.
  intros [v [L [[H1 [H2 H3]] [H4 [H5 [H6 _]]]]]] Q. unfold w_fail. destruct w as [a b c d [] f g h i j]. cbn in *. unfold EF. cbn.
  repeat split; auto; try discriminate; contradiction.
Qed.
Lemma a_tail ft w : Fin ft w -> ho (Fin ft) EF (fl_tail w).
Proof.
  intros [H1 H2]. unfold fl_tail. cbv zeta. destruct (e_flushw env (w_flushes w)) as [e|] eqn:E1.
  { cbn [ho]. apply A_fail; [apply A_calls; auto|]. intros Q. destruct (Q (w_flushes w)) as [Q1 _]. congruence. }
  destruct (e_syncw env _) as [e|] eqn:E2; [|split; [apply A_calls, A_calls; auto|intros E; apply v_calls, v_calls; auto]].
  assert (K : e <> EINVAL -> EF (w_fail (set_calls (set_calls w (S (w_flushes w)) (w_syncs w)) (w_flushes (set_calls w (S (w_flushes w)) (w_syncs w))) (S (w_syncs (set_calls w (S (w_flushes w)) (w_syncs w))))) e)).
  { intros NE. apply A_fail; [apply A_calls, A_calls; auto|]. intros Q. destruct (Q (w_syncs (set_calls w (S (w_flushes w)) (w_syncs w)))) as [_ [Q1|Q1]]; congruence. }
  destruct e; cbn [ho]; try (apply K; discriminate). split; [apply A_calls, A_calls; auto|intros E; apply v_calls, v_calls; auto].
Qed.
Lemma a_flushImpl w ft : A w -> ho (Fin ft) EF (flushImpl env w ft).
Proof.
  intros H. rewrite flush_eq. eapply ho_bind; [eapply ho_impl; [apply a_compressImpl; auto|intros ? HH; exact HH|apply F_EF]|]. intros x Hx.
  eapply ho_bind with (P := fun x => A x /\ (ft = FinishFlush -> w_state x <> noStream)).
  { destruct (is_finish ft) eqn:EF1; [|cbn [ho]; split; auto; intros ->; discriminate]. destruct Hx as [v [L Hx]]. pose proof (v_state Hx) as EV.
    destruct L as [->|[->| ->]]; rewrite EV.
    - eapply ho_impl; [eapply a_header; rewrite EV; [exact Hx|discriminate]| |apply F_EF]. intros y Hy. split; [apply open_A; auto|]. rewrite (v_state Hy). discriminate.
    - cbn [ho]. split; [apply open_A; exact Hx|]. rewrite EV. discriminate.
    - cbn [ho]. split; [eapply kst_A; [|exact Hx]; unfold live; auto|]. rewrite EV. discriminate. }
  intros y [Hy HN]. destruct Hy as [v [L Hy]]. pose proof (v_state Hy) as EV.
  destruct L as [->|[->| ->]]; rewrite EV; cbn [rbind].
  - rewrite EV. cbn [rbind]. apply a_tail. split; [eapply kst_A; [|exact Hy]; unfold live; auto|]. intros E. exfalso. apply (HN E). auto.
  - eapply ho_bind; [eapply ho_impl; [apply a_guts; exact Hy|intros ? HH; exact HH|apply F_EF]|]. intros z Hz. cbn beta in Hz. destruct (is_finish ft) eqn:EF1.
    + rewrite (v_state Hz). eapply ho_bind; [eapply ho_impl; [eapply a_close; eauto; discriminate|intros ? HH; exact HH|apply F_EF]|]. intros u Hu. apply a_tail.
      assert (Hu' : U qb closedStream u) by (destruct qb; auto; eapply U_weak; eauto). split; auto. apply (@kst_A closedStream); [unfold live; auto|exact Hu'].
    + rewrite (v_state Hz). cbn [rbind]. apply a_tail. split; [apply open_A; auto|]. intros ->. discriminate.
  - rewrite EV. cbn [rbind]. apply a_tail. split; [eapply kst_A; [|exact Hy]; unfold live; auto|]. auto.
Qed.
Lemma A_lz w l : A w -> lz_o l = lz_o (w_lz w) -> A (set_lz w l).
Proof. intros [v [L H]] E. exists v. split; auto. apply v_lz; auto. Qed.
Lemma a_writeLoop fuel : forall w buf, A w -> ho A F (writeLoop env fuel w buf).
Proof.
  induction fuel as [|f IH]; intros w buf H; cbn [writeLoop]; destruct buf as [|b l]; try exact H; [exact I|].
  unfold lz_write. cbn zeta. eapply ho_bind; [apply a_compressImpl, A_lz; eauto|]. intros x Hx. apply IH; auto.
Qed.
(** ** every call keeps the invariant *)
Lemma J_dead w : J w -> w_state w = closedState \/ w_state w = errorState \/ A w.
Proof.
  intros H. destruct (w_state w) eqn:E; auto; try (right; right; apply J_A; auto; rewrite E; unfold live; auto; fail).
  destruct H as [_ [_ H]]. rewrite E in H. contradiction.
Qed.
Lemma j_Write w p : J w -> match w_Write env w p with Ok (w', _) => J w' | _ => True end.
Proof.
  intros H. unfold w_Write. destruct (J_dead H) as [E|[E|HA]]; try (rewrite E; exact H).
  assert (K : match (let* (w, ok) := writeLoop env (2 * length p + 2) w p in if ok then Ok (w, (lenN p, None)) else Ok (w, (0%N, werr (w_out w)))) with Ok (w', _) => J w' | _ => True end).
  { pose proof (a_writeLoop (2 * length p + 2) p HA) as R. destruct (writeLoop _ _ _ _) as [[x []]| |]; cbn [ho rbind] in *; auto; [apply A_J; auto|apply F_J; auto]. }
  destruct (w_state w); auto.
Qed.
Lemma j_Flush w ft : J w -> match w_Flush env w ft with Ok (w', _) => J w' | _ => True end.
Proof.
  intros H. unfold w_Flush. destruct (J_dead H) as [E|[E|HA]]; try (rewrite E; exact H).
  assert (K : match (let* (w, ok) := flushImpl env w ft in if ok then Ok (w, None) else Ok (w, werr (w_out w))) with Ok (w', _) => J w' | _ => True end).
  { pose proof (a_flushImpl ft HA) as R. destruct (flushImpl _ _ _) as [[x []]| |]; cbn [ho rbind] in *; auto; [apply A_J, R|apply EF_J; auto]. }
  destruct (w_state w); auto.
Qed.
Lemma j_helper w : Fr w -> (obLen (w_out w) = 0 -> obBlock (w_out w) = 0%N) -> (quiet -> qb = true -> obLen (w_out w) = 0) -> J (fst (close_helper w)).
Proof. intros HF H1 H2. unfold close_helper, J. destruct w as [a b c d [] f g h i j]. cbn in *. auto. Qed.
Lemma j_Close w : J w -> match w_Close env w with
  | Ok (w', e) => J w' /\ w_state w' = closedState /\ (e = None -> qb = true -> obLen (w_out w') = 0)
  | _ => True end.
Proof.
  intros H. unfold w_Close. destruct (J_dead H) as [E|[E|HA]].
  - rewrite E. split; auto. split; auto. discriminate.
  - rewrite E. destruct H as [H1 [H2 H3]]. rewrite E in H3. destruct H3 as [H3 H4]. pose proof (j_helper H1 H2 H4) as HJ.
    destruct (close_helper w) as [w' e] eqn:EC. cbn [fst] in HJ. split; auto. unfold close_helper in EC. inversion EC; subst. split; [destruct w as [a b c d [] f g h i j]; reflexivity|].
    intros E2. contradiction.
  - assert (K : match (let* (w, ok) := flushImpl env w FinishFlush in if ok then Ok (w_setstate w closedState, None) else Ok (close_helper w)) with
       | Ok (w', e) => J w' /\ w_state w' = closedState /\ (e = None -> qb = true -> obLen (w_out w') = 0) | _ => True end).
    { pose proof (a_flushImpl FinishFlush HA) as R. destruct (flushImpl _ _ _) as [[x []]| |]; cbn [ho rbind] in *; auto.
      - destruct R as [_ R]. specialize (R eq_refl). pose proof (v_setstate closedState R ltac:(discriminate)) as [S1 [S2 [S3 [S4 _]]]].
        split; [|split; auto]. unfold J, w_state. rewrite S4. auto.
      - destruct R as [R1 [R2 [R3 [R4 R5]]]]. pose proof (j_helper R1 R4 R5) as HJ. destruct (close_helper x) as [w' e] eqn:EC. cbn [fst] in HJ. split; auto.
        unfold close_helper in EC. inversion EC; subst. split; [destruct x as [a b c d [] f g h i j]; reflexivity|]. intros E2. contradiction. }
    destruct HA as [v [L HA]]. rewrite (v_state HA). destruct L as [->|[->| ->]]; exact K.
Qed.
Lemma j_SetHeader w h : J w -> J (fst (w_SetHeader w h)).
Proof. intros H. unfold w_SetHeader. cbv zeta. destruct (Nat.eqb _ 0); cbn [fst]; auto. destruct w. exact H. Qed.
End Frame.
Lemma J_new env qb opts : J env (populateWriterDefaults (opt_apply options_reset opts)) qb (newWriter opts).
Proof. unfold J, Fr, newWriter. cbn. auto. Qed.
Lemma populate_merge o l : populateWriterDefaults (opt_apply (populateWriterDefaults o) l) = populateWriterDefaults (opt_apply o l).
Proof.
  revert o. induction l as [|x l IH]; intros o; cbn [opt_apply fold_left].
  - destruct o as [f s c m w d t]. cbn. f_equal; [destruct f; auto|destruct (c =? -1)%Z eqn:E; [reflexivity|rewrite E; auto]|destruct (m =? 0)%N eqn:E; [reflexivity|rewrite E; auto]|destruct (w =? 0)%N eqn:E; [reflexivity|rewrite E; auto]].
  - unfold opt_apply in IH. rewrite <- (IH (opt_apply1 o x)). rewrite <- (IH (opt_apply1 (populateWriterDefaults o) x)). f_equal. f_equal.
    destruct o as [f s c m w d t]. destruct x as [f'| |s'|c'|m'|w'|d'|t']; cbn; f_equal;
    repeat match goal with
    | |- (if format_eqb (if format_eqb ?f _ then _ else _) _ then _ else _) = _ => destruct f; auto
    | |- (if ((if (?c =? ?k)%Z then _ else _) =? _)%Z then _ else _) = _ => let E := fresh in destruct (c =? k)%Z eqn:E; [reflexivity|rewrite E; auto]
    | |- (if ((if (?c =? ?k)%N then _ else _) =? _)%N then _ else _) = _ => let E := fresh in destruct (c =? k)%N eqn:E; [reflexivity|rewrite E; auto]
    end.
Qed.
Lemma j_Reset env op qb w opts : quiet env \/ qb = false -> op = populateWriterDefaults op -> J env op qb w ->
  match w_Reset w opts with Ok w' => J env (populateWriterDefaults (opt_apply op opts)) qb w' /\ w_state w' = noStream | _ => True end.
Proof.
  intros Q EP [[F1 [F2 F3]] [H1 H2]]. unfold w_Reset.
  assert (HB : w_state w <> openStream -> qb = true -> obLen (w_out w) = 0).
  { intros NO EQ. destruct Q as [Q|Q]; [|congruence]. destruct (w_state w); try congruence; try contradiction; apply H2; auto. }
  assert (K : w_state w <> openStream -> match (match opts with
    | [] => Ok (set_lz (set_out w (match w_out w with WOut a b _ _ n c t st _ _ => WOut a b [] [] n c t st noStream None end)) (lz_clear (w_lz w)))
    | _ => Ok (Writer (populateWriterDefaults (opt_apply (w_opt w) opts)) (compressConfig (populateWriterDefaults (opt_apply (w_opt w) opts)))
           (lz_init (hybridOptions (populateWriterDefaults (opt_apply (w_opt w) opts))) (lz_calls (w_lz w))) (w_in w)
           (match w_out w with WOut a b _ _ n c t st _ _ => WOut a b [] [] n c t st noStream None end) (w_num w) (w_hdr w) (w_flushes w) (w_syncs w) (w_events w)) end) with
    | Ok w' => J env (populateWriterDefaults (opt_apply op opts)) qb w' /\ w_state w' = noStream | _ => True end).
  { intros NO. specialize (HB NO). destruct w as [o c l i u n h f s e]. cbn in *. subst o. destruct opts as [|x r].
    - cbn [opt_apply fold_left]. rewrite <- EP. destruct u. unfold J, Fr. cbn in *. auto 8.
    - destruct u. unfold J, Fr. cbn in *. auto 8. }
  destruct (w_state w) eqn:EW; try exact I; specialize (K ltac:(discriminate));
    (destruct opts as [|x r]; destruct w as [o c l i u n h f s e]; exact K).
Qed.
