(** What the Writer's output costs, in bits: a bound by the data written, the
    blocks, the headers and the footers (C57).  Independent of the grammar. *)
From Verif Require Import Base SpecHuffman MChecksum MToken MCommon MWriter SpecLib SpecEvents SpecSession MSession
  PWriter PBits PActs PropBits PSession PInst.

Definition ekey (e : event) : eventtype * option header := (e_type e, e_header e).
Definition hob {A} (P : A -> Prop) (m : res (A * bool)) : Prop :=
  match m with Ok (x, true) => P x | _ => True end.
Lemma hob_bind {A} (P Q : A -> Prop) m k : hob P m -> (forall x, P x -> hob Q (k x)) -> hob Q (let? x := m in k x).
Proof. intros H K. destruct m as [[x []]| |]; cbn [hob rbind] in *; auto. Qed.
Lemma hob_let {A C} (P : A -> Prop) (m : res C) k : (forall x, m = Ok x -> hob P (k x)) -> hob P (rbind m k).
Proof. intros H. destruct m; cbn [rbind hob]; auto. Qed.
Lemma hob_assert {A} (P : A -> Prop) b m : (b = true -> hob P m) -> hob P (assertb b m).
Proof. destruct b; cbn [assertb hob]; auto. Qed.
Lemma hob_impl {A} (P Q : A -> Prop) m : hob P m -> (forall x, P x -> Q x) -> hob Q m.
Proof. destruct m as [[x []]| |]; cbn [hob]; auto. Qed.

Section Cost.
Variable env : wenv.
Hypothesis Hbpb : bytesPerBlock env = 4 \/ bytesPerBlock env = 8.
Hypothesis Hhuff : huff_ok env.
Variable op : options.

(** [b] bounds the bits written so far; [al]: aligned to a byte; [ks]: the events
    sent so far; [l]: the input buffer; [hd]: the header; [st]: the state *)
Record C (al : bool) (b : N) (ks : list (eventtype * option header)) (l : lz77) (hd : header) (st : writerstate) (w : writer) : Prop := CC {
  c_opt : w_opt w = op; c_cfg : w_cfg w = compressConfig op;
  c_out : out_ok env (w_out w); c_cnt : counters_ok (w_out w);
  c_al : al = true -> obLen (w_out w) = 0;
  c_bits : (N.of_nat (bits_out w) <= b)%N;
  c_evs : map ekey (w_events w) = ks; c_lz : w_lz w = l; c_hdr : w_hdr w = hd; c_st : w_state w = st }.

Lemma C_weak al b b' ks l hd st w : C al b ks l hd st w -> (b <= b')%N -> C false b' ks l hd st w.
Proof. intros [] L. constructor; auto; [discriminate|eapply N.le_trans; eauto]. Qed.
Lemma C_le al b b' ks l hd st w : C al b ks l hd st w -> (b <= b')%N -> C al b' ks l hd st w.
Proof. intros [] L. constructor; auto. eapply N.le_trans; eauto. Qed.
Lemma C_event al b ks l hd st w e : C al b ks l hd st w -> C al b (ks ++ [(p_type e, p_header e)]) l hd st (sendEvent w e).
Proof.
  intros [A1 A2 A3 A4 A5 A6 A7 A8 A9 A10]. destruct w. cbn in *.
  constructor; auto. cbn. rewrite map_app. cbn. rewrite A7. reflexivity.
Qed.
Lemma on_C al al' b b' ks l hd st w f : C al b ks l hd st w ->
  (exists o ok, f (w_out w) = Ok (o, ok) /\ (ok = true -> out_ok env o /\ counters_ok o /\ (al' = true -> obLen o = 0) /\
     (N.of_nat (8 * length (sink o) + obLen o) <= b')%N /\ wstate o = st)) ->
  hob (C al' b' ks l hd st) (on_out f w).
Proof.
  intros [A1 A2 A3 A4 A5 A6 A7 A8 A9 A10] [o [ok [E H]]]. unfold on_out. rewrite E. cbn [rbind]. destruct ok; cbn [hob]; auto.
  destruct H as [B1 [B2 [B3 [B4 B5]]]]; auto. destruct w. cbn in *. constructor; cbn; auto.
Qed.
Lemma o_st o o' p : o_ext o o' p -> wstate o' = wstate o.
Proof. intros []. auto. Qed.
Lemma C_bits al b ks l hd st w n x : C al b ks l hd st w ->
  hob (fun w' => C false (b + N.of_nat n) ks l hd st w' /\ n <= 64) (w_bitsWrite env w n x).
Proof.
  intros H. destruct (Nat.leb_spec n (bitsPerBlock env)) as [L|L].
  - assert (L64 : n <= 64) by (unfold bitsPerBlock in L; lia).
    eapply hob_impl; [|intros w' H'; split; [exact H'|exact L64]].
    unfold w_bitsWrite. eapply on_C; [exact H|]. destruct H as [A1 A2 A3 A4 A5 A6 A7 A8 A9 A10].
    destruct (@o_bitsWrite_ok env Hbpb (out_cap (w_opt w)) (w_out w) n x (PActs.cap_pos w) A3 A4 L) as [o [ok [E R]]].
    exists o, ok. split; auto. intros ->. destruct R as [[p [_ R0]] [R1 [R2 R3]]]. split; auto. split; auto. split; [discriminate|]. split.
    + assert (EL : length (obits o) = length (obits (w_out w)) + n) by (rewrite R3, app_length, length_bits_of_N; auto).
      rewrite !obits_len in EL by (apply R2 || apply A3). unfold bits_out in A6. rewrite EL. lia.
    + rewrite (o_st R0). exact A10.
  - unfold w_bitsWrite, on_out, o_bitsWrite, assertb. destruct (obLen (w_out w) <=? bitsPerBlock env); [|exact I].
    destruct (Nat.leb_spec n (bitsPerBlock env)) as [L'|_]; [lia|exact I].
Qed.
Lemma C_flush al b ks l hd st w : C al b ks l hd st w -> hob (C true (b + 7) ks l hd st) (w_bitsFlush env w).
Proof.
  intros H. unfold w_bitsFlush. eapply on_C; [exact H|]. destruct H as [A1 A2 A3 A4 A5 A6 A7 A8 A9 A10].
  destruct (@o_bitsFlush_ok env Hbpb (out_cap (w_opt w)) (w_out w) (PActs.cap_pos w) A3 A4) as [o [ok [E [L0 [L1 R]]]]].
  exists o, ok. split; auto. intros ->. destruct R as [R0 [R1 [R2 R3]]]. split; auto. split; auto. split; auto. split.
  + assert (EL : length (obits o) = length (obits (w_out w)) + pad8 (length (obits (w_out w)))) by (rewrite R3, app_length, repeat_length; auto).
    rewrite !obits_len in EL by (apply R2 || apply A3). unfold bits_out in A6. rewrite EL.
    match goal with |- context [pad8 ?z] => assert (pad8 z <= 7) by (unfold pad8; pose proof (Nat.mod_upper_bound (8 - z mod 8) 8); lia) end. lia.
  + rewrite (o_st R0). exact A10.
Qed.
Lemma C_buf al b ks l hd st w p : C al b ks l hd st w -> bytes_ok p ->
  hob (C true (b + (if al then 0 else 7) + 8 * lenN p) ks l hd st) (w_bufferWrite env w p).
Proof.
  intros H HB. unfold w_bufferWrite. eapply on_C; [exact H|]. destruct H as [A1 A2 A3 A4 A5 A6 A7 A8 A9 A10].
  destruct (@o_bufferWrite_ok env Hbpb (out_cap (w_opt w)) (w_out w) p (PActs.cap_pos w) A3 A4 HB) as [o [ok [E [L0 [L1 R]]]]].
  exists o, ok. split; auto. intros ->. destruct R as [R0 [R1 [R2 R3]]]. split; auto. split; auto. split; auto. split.
  + assert (EL : length (obits o) = length (obits (w_out w)) + pad8 (length (obits (w_out w))) + 8 * length p)
      by (rewrite R3, !app_length, repeat_length, length_bits_of_bytes; lia).
    rewrite !obits_len in EL by (apply R2 || apply A3). unfold bits_out in A6. rewrite EL.
    match goal with |- context [pad8 ?z] => assert (pad8 z <= if al then 0 else 7) end.
    { unfold pad8. destruct al.
      - rewrite A5 by auto. rewrite Nat.add_0_r, (Nat.mul_comm 8), Nat.mod_mul by lia. reflexivity.
      - match goal with |- (8 - ?z mod 8) mod 8 <= _ => pose proof (Nat.mod_upper_bound (8 - z mod 8) 8) end. lia. }
    unfold lenN. destruct al; lia.
  + rewrite (o_st R0). exact A10.
Qed.

(** ** Blocks *)
Notation bw := (bw_writer env).
Lemma C_bitsn al b ks l hd st w n x : C al b ks l hd st w -> hob (C false (b + N.of_nat n) ks l hd st) (w_bitsWrite env w n x).
Proof. intros H. eapply hob_impl; [eapply C_bits; eauto|]. tauto. Qed.
Lemma C_bits64 al b ks l hd st w n x : C al b ks l hd st w -> hob (C false (b + 64) ks l hd st) (w_bitsWrite env w n x).
Proof. intros H. eapply hob_impl; [eapply C_bits; eauto|]. intros w' [H1 H2]. eapply C_le; [exact H1|]. lia. Qed.
Lemma C_opt64 (z : bool) b ks l hd st w n x : C false b ks l hd st w ->
  hob (C false (b + 64) ks l hd st) (if z then Ok (w, true) else w_bitsWrite env w n x).
Proof. intros H. destruct z; [|eapply C_bits64; eauto]. cbn [hob]. eapply C_le; [exact H|]. lia. Qed.
Lemma C_lld ll d t b ks l hd st w : C false b ks l hd st w -> hob (C false (b + 256) ks l hd st) (encodeLLD bw ll d t w).
Proof.
  intros H. unfold encodeLLD, bw_writeHC. cbn [bw_writer bw_bitsWrite]. apply hob_let. intros [[sl nl] xl] _. apply hob_let. intros [[sd nd] xd] _.
  destruct sl as [sl|]; [|cbn [hob]; eapply C_le; [exact H|lia]].
  eapply hob_bind; [eapply C_bits64; eauto|]. intros x1 H1. eapply hob_bind; [eapply C_opt64; eauto|]. intros x2 H2.
  destruct sd as [sd|]; [|cbn [hob]; eapply C_le; [exact H2|lia]].
  eapply hob_bind; [eapply C_bits64; eauto|]. intros x3 H3. eapply hob_bind; [eapply C_opt64; eauto|]. intros x4 H4.
  cbn [hob]. eapply C_le; [exact H4|lia].
Qed.
Lemma C_x hx t b ks l hd st w : C false b ks l hd st w -> hob (C false (b + 128) ks l hd st) (encodeX bw hx t w).
Proof.
  intros H. unfold encodeX, bw_writeHC. cbn [bw_writer bw_bitsWrite]. destruct (symbolX t) as [[sx nx] xx].
  destruct sx as [sx|]; [|cbn [hob]; eapply C_le; [exact H|lia]].
  eapply hob_bind; [eapply C_bits64; eauto|]. intros x1 H1. eapply hob_bind; [eapply C_opt64; eauto|]. intros x2 H2.
  cbn [hob]. eapply C_le; [exact H2|lia].
Qed.
Lemma C_for {A} c (f : A -> writer -> res (writer * bool)) ks l hd st :
  (forall a b w, C false b ks l hd st w -> hob (C false (b + c) ks l hd st) (f a w)) ->
  forall ls b w, C false b ks l hd st w -> hob (C false (b + c * lenN ls) ks l hd st) (for_each f ls w).
Proof.
  intros HF. induction ls as [|a ls IH]; intros b w H; cbn [for_each].
  - cbn [hob]. eapply C_le; [exact H|lia].
  - eapply hob_bind; [apply HF; eauto|]. intros x Hx. eapply hob_impl; [apply IH; eauto|]. intros y Hy. eapply C_le; [exact Hy|].
    unfold lenN. cbn [length]. lia.
Qed.
Definition evb (t : eventtype) : eventtype * option header := (t, None).
Lemma C_static tokens fin al b ks l hd st w : C al b ks l hd st w ->
  hob (C false (b + 3 + 256 * lenN tokens) (ks ++ map evb [BlockBeginEvent; BlockTreesEvent; BlockEndEvent]) l hd st) (writeStaticBlock bw w tokens fin).
Proof.
  intros H. unfold writeStaticBlock. apply hob_assert. intros _. cbv zeta. cbn [bw_writer bw_bitsWrite bw_event].
  eapply hob_bind; [eapply C_bitsn, C_event; eauto|]. intros x1 H1.
  eapply hob_bind; [eapply (@C_for _ 256 (encodeLLD bw fixedSizesLL fixedSizesD)); [intros; apply C_lld; eauto|apply C_event; exact H1]|].
  intros x2 H2. cbn [hob]. pose proof (C_event (ev_block BlockEndEvent StaticBlock fin) H2) as H3.
  rewrite <- !app_assoc in H3. cbn [app p_type p_header ev_block ev_trees] in H3. exact H3.
Qed.
Lemma tl_dup fuel : forall size run acc r, dup_tokens fuel size run acc = Ok r -> length r <= length acc + run.
Proof.
  assert (RT : forall (k : nat) (t : res token) (acc r : list token), rep_tok k t acc = Ok r -> length r <= length acc + k).
  { induction k as [|k IH]; intros t acc r; cbn [rep_tok]; [intros E; inversion E; subst; lia|].
    destruct t; cbn [rbind]; try discriminate. intros E. apply IH in E. rewrite app_length in E. cbn [length] in E. lia. }
  induction fuel as [|f IH]; intros size run acc r; cbn [dup_tokens]; [discriminate|].
  destruct (9 <=? run) eqn:E9.
  - apply Nat.leb_le in E9. destruct (makeTreeDupToken 6); cbn [rbind]; try discriminate. intros E. apply IH in E. rewrite app_length in E. cbn [length] in E. lia.
  - destruct (6 <? run) eqn:E6.
    + apply Nat.ltb_lt in E6. destruct (makeTreeDupToken 4); cbn [rbind]; try discriminate.
      destruct (2 <? run - 4) eqn:E2; [destruct (makeTreeDupToken (run - 4)); cbn [rbind]; try discriminate|cbn [rbind]];
      intros E; apply RT in E; rewrite ?app_length in E; cbn [length] in E; lia.
    + cbn [rbind]. destruct (2 <? run) eqn:E2; [apply Nat.ltb_lt in E2; destruct (makeTreeDupToken run); cbn [rbind]; try discriminate|cbn [rbind]];
      intros E; apply RT in E; rewrite ?app_length in E; cbn [length] in E; lia.
Qed.
Lemma tl_zero fuel : forall run acc r, zero_tokens fuel run acc = Ok r -> length r <= length acc + run.
Proof.
  assert (RT : forall (k : nat) (t : res token) (acc r : list token), rep_tok k t acc = Ok r -> length r <= length acc + k).
  { induction k as [|k IH]; intros t acc r; cbn [rep_tok]; [intros E; inversion E; subst; lia|].
    destruct t; cbn [rbind]; try discriminate. intros E. apply IH in E. rewrite app_length in E. cbn [length] in E. lia. }
  induction fuel as [|f IH]; intros run acc r; cbn [zero_tokens]; [discriminate|].
  destruct (141 <=? run) eqn:E9.
  - apply Nat.leb_le in E9. destruct (makeTreeZeroRunToken 138); cbn [rbind]; try discriminate. intros E. apply IH in E. rewrite app_length in E. cbn [length] in E. lia.
  - destruct (138 <? run) eqn:E6.
    + apply Nat.ltb_lt in E6. destruct (makeTreeZeroRunToken 136); cbn [rbind]; try discriminate.
      destruct (3 <? run - 136) eqn:E2; [destruct (makeTreeZeroRunToken (run - 136)); cbn [rbind]; try discriminate|cbn [rbind]];
      intros E; apply RT in E; rewrite ?app_length in E; cbn [length] in E; lia.
    + cbn [rbind]. destruct (3 <? run) eqn:E2; [apply Nat.ltb_lt in E2; destruct (makeTreeZeroRunToken run); cbn [rbind]; try discriminate|cbn [rbind]];
      intros E; apply RT in E; rewrite ?app_length in E; cbn [length] in E; lia.
Qed.
Lemma tl_run s : forall l, sizeRunLength l s <= length l.
Proof. induction l as [|x l IH]; cbn [sizeRunLength length]; [lia|]. destruct (Nat.eqb _ _); lia. Qed.
Lemma tl_loop M fuel : forall acc rem i mn r n, length rem <= M -> mn <= M ->
  encode_tree_loop fuel acc rem i mn = Ok (r, n) -> length r <= length acc + fuel * S M.
Proof.
  induction fuel as [|f IH]; intros acc rem i mn r n HR HM; destruct rem as [|size rem]; cbn [encode_tree_loop]; try discriminate;
    try (intros E; inversion E; subst; lia).
  destruct ((mn <=? i) && _)%bool; [intros E; inversion E; subst; lia|].
  destruct (negb (Nat.eqb size 0)).
  - destruct (makeTreeLenToken size); cbn [rbind]; try discriminate. set (run := sizeRunLength rem size). pose proof (tl_run size rem) as RL. fold run in RL.
    destruct (dup_tokens (S run) size run _) as [a'| |] eqn:ED; cbn [rbind]; try discriminate. apply tl_dup in ED. rewrite app_length in ED. cbn [length] in *.
    intros E. apply IH in E; auto; [|rewrite skipn_length; lia]. lia.
  - set (run0 := sizeRunLength (size :: rem) 0). pose proof (tl_run 0 (size :: rem)) as RL. fold run0 in RL.
    set (run := if ((mn <? i + run0) && sizesAllZeroes (size :: rem))%bool then mn else run0). assert (run <= M) by (unfold run; destruct ((mn <? i + run0) && _)%bool; lia). clearbody run.
    destruct (zero_tokens (S run) run acc) as [a'| |] eqn:ED; cbn [rbind]; try discriminate. apply tl_zero in ED. cbn [length] in *.
    intros E. apply IH in E; auto; [|rewrite skipn_length; cbn [length]; lia]. lia.
Qed.
Lemma trim_le sX : forall n, trim_numX n sX <= n.
Proof. induction n as [|n IH]; cbn [trim_numX]; [lia|]. destruct (_ && _)%bool; lia. Qed.
(** a crude bound, only used to see that the counters do not wrap *)
Lemma C_dynamic ll d tokens fin al b ks l hd st w : length ll <= 288 -> length d <= 288 -> C al b ks l hd st w ->
  hob (C false (b + 100000000 + 256 * lenN tokens) (ks ++ map evb [BlockBeginEvent; BlockTreesEvent; BlockEndEvent]) l hd st) (writeDynamicBlock env bw w ll d tokens fin).
Proof.
  intros L1 L2 H. unfold writeDynamicBlock. apply hob_assert. intros _. cbv zeta. cbn [bw_writer bw_bitsWrite bw_event].
  eapply hob_bind; [eapply C_bitsn, C_event; eauto|]. intros x1 H1.
  apply hob_let. intros [xt1 nll] E1. apply hob_let. intros [xt nd] E2. apply hob_let. intros fx _.
  assert (LX : (lenN xt <= 200000)%N).
  { unfold encodeTreeTokens in E1, E2. apply (@tl_loop 288) in E1; try lia. apply (@tl_loop 288) in E2; try lia. cbn [length] in E1.
    assert (A1 : S (length ll) * 289 <= 289 * 289) by (apply Nat.mul_le_mono_r; lia).
    assert (A2 : S (length d) * 289 <= 289 * 289) by (apply Nat.mul_le_mono_r; lia).
    unfold lenN. lia. }
  clear E1 E2. set (sX := e_huff env physicalNumXCodes fx). pose proof (trim_le sX physicalNumXCodes) as TN. set (nX := trim_numX physicalNumXCodes sX) in *.
  assert (LN : (lenN (seq 0 nX) <= 19)%N) by (unfold lenN; rewrite seq_length; change physicalNumXCodes with 19 in TN; lia). clearbody nX sX.
  eapply hob_bind; [eapply C_bitsn; eauto|]. intros x2 H2. eapply hob_bind; [eapply C_bitsn; eauto|]. intros x3 H3.
  eapply hob_bind; [eapply C_bitsn; eauto|]. intros x4 H4.
  eapply hob_bind; [eapply (@C_for _ 64); [intros; eapply C_bits64; eauto|exact H4]|]. intros x5 H5.
  eapply hob_bind; [eapply (@C_for _ 128); [intros; apply C_x; eauto|exact H5]|]. intros x6 H6.
  eapply hob_bind; [eapply (@C_for _ 256 (encodeLLD bw ll d)); [intros; apply C_lld; eauto|apply C_event; exact H6]|]. intros x7 H7.
  cbn [hob]. pose proof (C_event (ev_block BlockEndEvent DynamicBlock fin) H7) as H8.
  rewrite <- !app_assoc in H8. cbn [app p_type p_header ev_block ev_trees] in H8. eapply C_le; [exact H8|].
  clear - LX LN. lia.
Qed.
Lemma C_stored data fin al b ks l hd st w : bytes_ok data -> C al b ks l hd st w ->
  hob (C true (b + 42 + 8 * lenN data) (ks ++ map evb [BlockBeginEvent; BlockEndEvent]) l hd st) (writeStoredBlock bw w data fin).
Proof.
  intros HD H. unfold writeStoredBlock. apply hob_assert. intros _. cbv zeta. cbn [bw_writer bw_bitsWrite bw_bitsFlush bw_writeU16le bw_bufferWrite bw_event].
  eapply hob_bind; [eapply C_bitsn, C_event; eauto|]. intros x1 H1. eapply hob_bind; [eapply C_flush; eauto|]. intros x2 H2.
  eapply hob_bind; [eapply C_buf; eauto; apply le16_bytes|]. intros x3 H3. eapply hob_bind; [eapply C_buf; eauto; apply le16_bytes|]. intros x4 H4.
  eapply hob_bind; [eapply C_buf; eauto|]. intros x5 H5. cbn [hob].
  pose proof (C_event (ev_block BlockEndEvent StoredBlock fin) H5) as H6. rewrite <- !app_assoc in H6. cbn [app p_type p_header ev_block] in H6.
  eapply C_le; [exact H6|]. assert (E : forall z, lenN (le16 z) = 2%N) by reflexivity. rewrite !E. lia.
Qed.

Lemma wrap_le k n X : (n = N.of_nat k mod 2 ^ 64)%N -> (N.of_nat k < 2 ^ 64)%N -> (n <= X)%N -> (N.of_nat k <= X)%N.
Proof. intros -> L H. rewrite N.mod_small in H by exact L. exact H. Qed.
Lemma bump_len f s r : bumpsym f s = Ok r -> length r = length f.
Proof.
  unfold bumpsym. destruct s as [s|]; [|intros E; inversion E; auto].
  destruct (_ <? _); [|discriminate]. intros E. inversion E. generalize (N.to_nat s). clear. revert f.
  induction f as [|x f IH]; intros [|n]; cbn [bump length]; auto.
Qed.
Lemma study_len tokens : forall fl fd a b, study_lld tokens fl fd = Ok (a, b) -> length a = length fl /\ length b = length fd.
Proof.
  induction tokens as [|t ts IH]; intros fl fd a b; cbn [study_lld]; [intros E; inversion E; auto|].
  destruct (symbolLL t) as [[[sl ?] ?]| |]; cbn [rbind]; try discriminate. destruct (bumpsym fl sl) eqn:E1; cbn [rbind]; try discriminate.
  destruct (symbolD t) as [[[sd ?] ?]| |]; cbn [rbind]; try discriminate. destruct (bumpsym fd sd) eqn:E2; cbn [rbind]; try discriminate.
  intros E. apply IH in E. apply bump_len in E1, E2. intuition congruence.
Qed.
(** the choice of writer.go:996-1019 never costs more than storing *)
Lemma C_tokens data tokens fin b ks l hd st w : bytes_ok data -> (lenN tokens <= 1000000)%N -> C false b ks l hd st w ->
  hob (fun w' => exists x, C false (b + 42 + 8 * lenN data) (ks ++ map evb (BlockBeginEvent :: x ++ [BlockEndEvent])) l hd st w' /\
        (x = [] \/ x = [BlockTreesEvent])) (compressTokens env bw w data tokens fin).
Proof.
  intros HD HT H. unfold compressTokens. apply hob_let. intros [fll fd] EF. cbv zeta.
  assert (L1 : length (e_huff env physicalNumLLCodes fll) <= 288 /\ length (e_huff env physicalNumDCodes fd) <= 288).
  { apply study_len in EF. rewrite !repeat_length in EF. destruct EF as [F1 F2].
    destruct (@Hhuff 288 fll ltac:(lia) F1) as [A1 _]. destruct (@Hhuff 32 fd ltac:(lia) F2) as [A2 _].
    change physicalNumLLCodes with 288 in *. change physicalNumDCodes with 32 in *. rewrite A1, A2, F1, F2. lia. }
  destruct L1 as [L1 L2]. set (hLL := e_huff env physicalNumLLCodes fll) in *. set (hD := e_huff env physicalNumDCodes fd) in *. clearbody hLL hD.
  apply hob_let. intros [dc b1] ED. apply hob_let. intros [sc b2] ES.
  destruct (lenN data * 8 + 35 <? dc)%N eqn:C1.
  - eapply hob_impl; [eapply C_stored; eauto|]. intros w' H'. exists []. split; auto. eapply C_weak; [exact H'|lia].
  - apply N.ltb_ge in C1.
    assert (KEY : forall (m1 : res (N * bool)) m2 n bb (B : N), m1 = Ok (n, bb) -> predicts m1 w m2 -> (n <= lenN data * 8 + 35)%N ->
       (B < 2 ^ 64)%N -> hob (C false (N.of_nat (bits_out w) + B) (ks ++ map evb [BlockBeginEvent; BlockTreesEvent; BlockEndEvent]) l hd st) m2 ->
       hob (fun w' => exists x, C false (b + 42 + 8 * lenN data) (ks ++ map evb (BlockBeginEvent :: x ++ [BlockEndEvent])) l hd st w' /\
        (x = [] \/ x = [BlockTreesEvent])) m2).
    { intros m1 m2 n bb B E P Hn HB HC. destruct P as [[w' ->]|P]; [exact I|]. rewrite E in P. destruct P as [_ [w' [-> [k [P1 P2]]]]].
      cbn [hob] in *. exists [BlockTreesEvent]. split; auto.
      destruct HC as [A1 A2 A3 A4 A5 A6 A7 A8 A9 A10]. constructor; auto.
      rewrite P1. rewrite P1 in A6.
      assert (K1 : (N.of_nat k < 2 ^ 64)%N) by (eapply N.le_lt_trans; [|exact HB]; clear - A6; lia).
      pose proof (wrap_le P2 K1 Hn) as K2. pose proof (c_bits H) as K3. clear - K2 K3. lia. }
    assert (H0 : C false (N.of_nat (bits_out w)) ks l hd st w) by (destruct H; constructor; auto; reflexivity).
    destruct (sc <=? dc)%N eqn:C2.
    + apply N.leb_le in C2. eapply (KEY _ _ _ _ (3 + 256 * lenN tokens)%N ES); [apply C21_static_prediction_exact; auto; apply H| | |].
      * lia.
      * eapply N.le_lt_trans with (m := 300000000%N); [lia|reflexivity].
      * eapply hob_impl; [eapply C_static; exact H0|]. intros w' H'. eapply C_le; [exact H'|]. lia.
    + eapply (KEY _ _ _ _ (100000000 + 256 * lenN tokens)%N ED); [apply C21_dynamic_prediction_exact; auto; apply H| | |].
      * lia.
      * eapply N.le_lt_trans with (m := 400000000%N); [lia|reflexivity].
      * eapply hob_impl; [eapply C_dynamic; [| |exact H0]; auto|]. intros w' H'. eapply C_le; [exact H'|]. lia.
Qed.
End Cost.
