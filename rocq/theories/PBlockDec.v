(** Decoding of blocks and of sequences of blocks by the Reader. *)
From Verif Require Import Base SpecChecksum SpecHuffman SpecDeflate SpecBlocks PAt SpecEvents MChecksum PChecksum MToken MCommon MWriter MReader SpecLib PToken PHuffman PBits PActs PGram PInput POutput PDecode PDynamic.

(** ** Sequences of blocks, from the left *)
Section DefR.
Variable B : blockpred.
Inductive DefR (pos : nat) (hist : list N) : list bool -> list N -> Prop :=
| dr_last w h' : B pos hist true w h' -> DefR pos hist w h'
| dr_cons w h ws h' : B pos hist false w h -> DefR (pos + length w) h ws h' -> DefR pos hist (w ++ ws) h'.
Lemma Blocks_cons pos hist w h : B pos hist false w h -> forall ws h', Blocks B (pos + length w) h ws h' -> Blocks B pos hist (w ++ ws) h'.
Proof.
  intros H ws h'. induction 1 as [|w1 h1 w2 h2 _ IH H2].
  - rewrite app_nil_r. change w with ([] ++ w). eapply blocks_snoc; [constructor|]. cbn. rewrite Nat.add_0_r. auto.
  - rewrite app_assoc. eapply blocks_snoc; eauto. rewrite app_length, Nat.add_assoc. auto.
Qed.
Lemma DefR_blocks pos hist w h' : DefR pos hist w h' -> exists w1 h w2, Blocks B pos hist w1 h /\ B (pos + length w1) h true w2 h' /\ w = w1 ++ w2.
Proof.
  induction 1 as [pos hist w h' H|pos hist w h ws h' H _ [w1 [h1 [w2 [I1 [I2 I3]]]]]].
  - exists [], hist, w. split; [constructor|]. cbn. rewrite Nat.add_0_r. auto.
  - exists (w ++ w1), h1, w2. split; [eapply Blocks_cons; eauto|]. rewrite app_length, Nat.add_assoc, <- app_assoc. split; auto. congruence.
Qed.
Lemma blocks_DefR pos hist w h : Blocks B pos hist w h -> forall w2 h', DefR (pos + length w) h w2 h' -> DefR pos hist (w ++ w2) h'.
Proof.
  induction 1 as [|w1 h1 w' h2 _ IH H2]; intros w2 h' D.
  - cbn in *. rewrite Nat.add_0_r in D. auto.
  - rewrite <- app_assoc. apply IH. eapply dr_cons; eauto. rewrite app_length, Nat.add_assoc in D. auto.
Qed.
Lemma Deflate_DefR hist w h' : Deflate B hist w h' <-> DefR 0 hist w h'.
Proof.
  split.
  - intros [w1 [h [w2 [H1 [H2 ->]]]]]. eapply blocks_DefR; eauto. apply dr_last. auto.
  - intros H. destruct (DefR_blocks H) as [w1 [h [w2 H']]]. exists w1, h, w2. auto.
Qed.
End DefR.

Lemma Block_ext acc lk pos hist f w h' : Block acc lk pos hist f w h' -> exists q, h' = rev q ++ hist.
Proof. intros H. destruct H; eauto using expand_ext. Qed.
Lemma DefR_ext acc lk pos hist w h' : DefR (Block acc lk) pos hist w h' -> exists q, h' = rev q ++ hist.
Proof.
  induction 1 as [pos hist w h' H|pos hist w h ws h' H _ [q IH]].
  - eapply Block_ext; eauto.
  - destruct (Block_ext H) as [q1 ->]. exists (q1 ++ q). rewrite IH, rev_app_distr, app_assoc. auto.
Qed.

(** ** Alignment *)
Definition aligned (pos : nat) (i : ist) : Prop := (pos + ibl i) mod 8 = 0.
Lemma aligned_step pos i w i' : aligned pos i -> av i = w ++ av i' -> length (i_all i') <= length (i_all i) -> aligned (pos + length w) i'.
Proof.
  intros H E L. apply (f_equal (@length _)) in E. rewrite app_length, !av_length in E. unfold aligned in *.
  replace (pos + length w + ibl i') with (pos + ibl i + (length (i_all i) - length (i_all i')) * 8) by lia.
  rewrite Nat.mod_add by lia. auto.
Qed.
Lemma irel_all i i' : irel i i' -> length (i_all i') <= length (i_all i).
Proof. intros [q X]. rewrite (ix_all X), app_length. lia. Qed.
Lemma pad_unique pos n m : n < 8 -> m < 8 -> (pos + n) mod 8 = 0 -> (pos + m) mod 8 = 0 -> n = m.
Proof.
  intros H1 H2 E1 E2. apply Nat.mod_divides in E1; [|lia]. apply Nat.mod_divides in E2; [|lia]. destruct E1 as [a Ea], E2 as [b Eb]. lia.
Qed.
Lemma av_discard i i' p : iext i i' p -> ibl i' = 0 -> av i = bits_of_N (ibl i) (ib i) ++ bits_of_bytes p ++ av i'.
Proof.
  intros X L. unfold av. rewrite L. cbn [bits_of_N app]. rewrite (ix_all X), bits_of_bytes_app. auto.
Qed.
Lemma bits_unle16 p : bytes_ok p -> length p = 2 -> bits_of_bytes p = bits_of_N 16 (unle16 p) /\ (unle16 p < 65536)%N.
Proof.
  intros H L. destruct p as [|a [|b [|? ?]]]; try discriminate. inversion H as [|? ? Ha H']; subst. inversion H' as [|? ? Hb _]; subst.
  unfold is_byte in *. unfold unle16, nthN. cbn [nth]. split; [|lia].
  rewrite <- bits_le16. f_equal. unfold le16. f_equal; [|f_equal]; lia.
Qed.
Lemma bits_of_bytes_inj p : forall q r1 r2, bytes_ok p -> bytes_ok q -> length p = length q -> bits_of_bytes p ++ r1 = bits_of_bytes q ++ r2 -> p = q /\ r1 = r2.
Proof.
  induction p as [|a p IH]; intros [|b q] r1 r2 H1 H2 L E; cbn in L; try discriminate; auto.
  inversion H1; subst. inversion H2; subst. rewrite !bits_of_bytes_cons, <- !app_assoc in E. unfold is_byte in *.
  apply bits_app_inj in E; auto. destruct E as [-> E]. destruct (IH _ _ _ H4 H6 ltac:(lia) E) as [-> ->]. auto.
Qed.

Lemma cons3 {A} (a b c a' b' c' : A) x y : a :: b :: c :: x = a' :: b' :: c' :: y -> a = a' /\ b = b' /\ c = c' /\ x = y.
Proof. intros E. inversion E. auto. Qed.

Lemma fixed_ll_ok : sizes_le 15 fixed_ll /\ not_oversubscribed fixed_ll.
Proof. split; [apply Forall_forall; intros x Hx; unfold fixed_ll in Hx; repeat (apply in_app_or in Hx; destruct Hx as [Hx|Hx]; [apply repeat_spec in Hx; lia|]); apply repeat_spec in Hx; lia|]. red. vm_compute. discriminate. Qed.
Lemma fixed_d_ok : sizes_le 15 fixed_d /\ not_oversubscribed fixed_d.
Proof. split; [apply Forall_forall; intros x Hx; apply repeat_spec in Hx; lia|]. red. vm_compute. discriminate. Qed.

Section Dec.
Variable env : renv.
Hypothesis Hlib : rlib_ok env.
Variable cap win : N.
Hypothesis Hcap : (0 < cap)%N.
Notation ook := (ook cap).
Notation oext := (oext cap).
Notation dfail := (dfail cap).
Notation bad := (bad cap).
Notation ow := (ow cap).
Notation racc := (racc env).
Notation wlk := (wlk env win).
Let Hbpb := rl_bpb Hlib.


Lemma Block_inj pos hist f1 w1 h1 f2 w2 h2 r1 r2 :
  Block racc wlk pos hist f1 w1 h1 -> Block racc wlk pos hist f2 w2 h2 -> w1 ++ r1 = w2 ++ r2 -> f1 = f2 /\ w1 = w2 /\ h1 = h2 /\ r1 = r2.
Proof.
  intros A B E. destruct fixed_ll_ok as [FL1 FL2], fixed_d_ok as [FD1 FD2].
  destruct A as [pad1 dat1 P1 P2 P3 P4|ts1 v1 g1 P1 P2|ll1 d1 ts1 wt1 v1 g1 P1 P2 P3]; destruct B as [pad2 dat2 Q1 Q2 Q3 Q4|ts2 v2 g2 Q1 Q2|ll2 d2 ts2 wt2 v2 g2 Q1 Q2 Q3];
    cbn [app] in E; apply cons3 in E; destruct E as [EF [E1 [E2 EV]]]; try discriminate; subst f2; split; auto.
  - assert (LP : length pad1 = length pad2) by (apply (@pad_unique (pos + 3)); auto).
    rewrite <- !app_assoc in EV. apply app_inj_length in EV; auto. destruct EV as [<- EV].
    apply bits_app_inj in EV; [|change (2 ^ N.of_nat 16)%N with 65536%N; lia..]. destruct EV as [EL EV].
    apply bits_app_inj in EV; [|change (2 ^ N.of_nat 16)%N with 65536%N; lia..]. destruct EV as [_ EV].
    apply bits_of_bytes_inj in EV; auto; [|unfold lenN in EL; lia]. destruct EV as [-> ->]. auto.
  - destruct (TokensEnc_inj FL1 FL2 FD1 FD2 P1 Q1 EV) as [-> [-> ->]]. rewrite P2 in Q2. inversion Q2. auto.
  - rewrite <- !app_assoc in EV. destruct (trees_inj Hlib Hcap P1 Q1 EV) as [-> [-> [-> EW]]].
    destruct (trees_sizes Hlib Hcap Q1) as [T1 [T2 [T3 T4]]]. destruct (TokensEnc_inj T1 T3 T2 T4 P2 Q2 EW) as [-> [-> ->]]. rewrite P3 in Q3. inversion Q3. auto.
Qed.
Lemma DefR_inj pos hist w1 h1 : DefR (Block racc wlk) pos hist w1 h1 -> forall w2 h2 r1 r2,
  DefR (Block racc wlk) pos hist w2 h2 -> w1 ++ r1 = w2 ++ r2 -> w1 = w2 /\ h1 = h2 /\ r1 = r2.
Proof.
  induction 1 as [pos hist w h' H|pos hist w h ws h' H _ IH]; intros w2 h2 r1 r2 D E; destruct D as [w2 h2 D|w2 g ws2 h2 D1 D2].
  - destruct (Block_inj H D E) as [_ ?]. auto.
  - rewrite <- app_assoc in E. destruct (Block_inj H D1 E) as [? _]. discriminate.
  - rewrite <- app_assoc in E. destruct (Block_inj H D E) as [? _]. discriminate.
  - rewrite <- !app_assoc in E. destruct (Block_inj H D1 E) as [_ [<- [<- E1]]]. destruct (IH _ _ _ _ D2 E1) as [-> [-> ->]]. auto.
Qed.

(** ** Stored blocks *)
Definition StoredP (pos : nat) (hist : list N) (w : list bool) (h' : list N) : Prop :=
  exists pad data, length pad < 8 /\ (pos + length pad) mod 8 = 0 /\ (lenN data <= 65535)%N /\ bytes_ok data /\
    w = pad ++ bits_of_N 16 (lenN data) ++ bits_of_N 16 (65535 - lenN data)%N ++ bits_of_bytes data /\ h' = rev data ++ hist.
Lemma readStored_spec pos d : iok (d_in d) -> bok (d_in d) -> ibl (d_in d) < 8 -> ook (d_out d) -> aligned pos (d_in d) ->
  exists d' ok, readFlateBlockStored cap d = Ok (d', ok) /\
  if ok : bool then irel (d_in d) (d_in d') /\ bok (d_in d') /\ ibl (d_in d') < 8 /\
    exists w p, StoredP pos (o_hist (d_out d)) w (rev p ++ o_hist (d_out d)) /\ av (d_in d) = w ++ av (d_in d') /\
      oext (d_out d) (d_out d') p /\ bytes_ok p
  else exists e, dfail d d' [] e /\ Fail (StoredP pos (o_hist (d_out d))) (av (d_in d)) (o_hist (d_out d)) (d_in d') (i_end (d_in d)) [] e.
Proof.
  intros H HB H8 HO HA. unfold readFlateBlockStored. assert (HN : bytes_ok []) by constructor. pose proof (oext_refl_ Hcap HO) as O0.
  set (pad := bits_of_N (ibl (d_in d)) (ib (d_in d))). assert (LP : length pad = ibl (d_in d)) by apply length_bits_of_N.
  assert (PP : forall x w r h', StoredP pos (o_hist (d_out d)) w h' -> av (d_in d) ++ x = w ++ r -> exists data,
     (lenN data <= 65535)%N /\ bytes_ok data /\ w = pad ++ bits_of_N 16 (lenN data) ++ bits_of_N 16 (65535 - lenN data)%N ++ bits_of_bytes data /\
     h' = rev data ++ o_hist (d_out d) /\
     bits_of_bytes (i_all (d_in d)) ++ x = bits_of_N 16 (lenN data) ++ bits_of_N 16 (65535 - lenN data)%N ++ bits_of_bytes data ++ r).
  { intros x w r h' [pad' [data [P1 [P2 [P3 [P4 [-> ->]]]]]]] EA. unfold av in EA. fold pad in EA. rewrite <- !app_assoc in EA.
    apply app_inj_length in EA; [|rewrite LP; apply (@pad_unique pos); auto]. destruct EA as [<- EA]. exists data. auto. }
  unfold readU16le. destruct (readU_spec unle16 2 H) as [i1 [out [E1 [X1 [B1 [L1 R1]]]]]]. rewrite E1. pose proof (irel_iok H X1) as K1.
  destruct out as [len0|].
  2:{ destruct R1 as [R1 [R2 R3]]. eexists; exists false; split; [reflexivity|]. eexists; split; [apply dfail_propagate; auto|].
    intros x w r h' P EA. destruct (PP _ _ _ _ P EA) as [data [Q1 [Q2 [-> [-> Q3]]]]]. rewrite av_length, !app_length, !length_bits_of_N. split; [lia|].
    unfold propagateError. cbn [d_in]. rewrite R3. cbn [d_in]. split; [apply trunc_eof; auto|]. exists data. auto. }
  destruct R1 as [p1 [Y1 [LP1 ->]]]. destruct (iext_iok H Y1) as [_ BP1]. destruct (bits_unle16 BP1 LP1) as [U1 U1'].
  set (len0 := unle16 p1) in *. clearbody len0.
  destruct (readU_spec unle16 2 K1) as [i2 [out [E2 [X2 [B2 [L2 R2]]]]]]. cbn [d_in d_out]. rewrite E2.
  pose proof (irel_iok K1 X2) as K2. pose proof (irel_trans H X1 X2) as X12. pose proof (irel_end X1) as EN1.
  assert (A1 : bits_of_bytes (i_all (d_in d)) = bits_of_N 16 len0 ++ bits_of_bytes (i_all i1)) by (rewrite (ix_all Y1), bits_of_bytes_app, U1; auto).
  destruct out as [len1|].
  2:{ destruct R2 as [R2 [R3 R4]]. rewrite EN1 in R4. eexists; exists false; split; [reflexivity|]. eexists; split; [apply dfail_propagate; auto|].
    intros x w r h' P EA. destruct (PP _ _ _ _ P EA) as [data [Q1 [Q2 [-> [-> Q3]]]]]. rewrite av_length, !app_length, !length_bits_of_N.
    assert (length (i_all (d_in d)) = 2 + length (i_all i1)) by (rewrite (ix_all Y1), app_length; lia). split; [lia|].
    unfold propagateError. cbn [d_in]. rewrite R4. cbn [d_in]. split; [apply trunc_eof; auto|]. exists data. auto. }
  destruct R2 as [p2 [Y2 [LP2 ->]]]. destruct (iext_iok K1 Y2) as [_ BP2]. destruct (bits_unle16 BP2 LP2) as [U2 U2'].
  set (len1 := unle16 p2) in *. clearbody len1.
  assert (A2 : bits_of_bytes (i_all i1) = bits_of_N 16 len1 ++ bits_of_bytes (i_all i2)) by (rewrite (ix_all Y2), bits_of_bytes_app, U2; auto).
  assert (PQ : forall x w r h', StoredP pos (o_hist (d_out d)) w h' -> av (d_in d) ++ x = w ++ r -> exists data,
     bytes_ok data /\ lenN data = len0 /\ (len1 = 65535 - len0)%N /\ (len0 <= 65535)%N /\
     w = pad ++ bits_of_N 16 len0 ++ bits_of_N 16 len1 ++ bits_of_bytes data /\
     h' = rev data ++ o_hist (d_out d) /\ bits_of_bytes (i_all i2) ++ x = bits_of_bytes data ++ r).
  { intros x w r h' P EA. destruct (PP _ _ _ _ P EA) as [data [Q1 [Q2 [-> [-> Q3]]]]]. rewrite A1, A2, <- !app_assoc in Q3.
    apply bits_app_inj in Q3; [|change (2 ^ N.of_nat 16)%N with 65536%N; lia..]. destruct Q3 as [-> Q3].
    apply bits_app_inj in Q3; [|change (2 ^ N.of_nat 16)%N with 65536%N; lia..]. destruct Q3 as [-> Q3]. exists data. auto 10. }
  destruct (N.eqb_spec len1 (65535 - len0)) as [EL|EL]; cbn [negb].
  2:{ eexists; exists false; split; [reflexivity|]. eexists; split; [apply dfail_corrupt; auto|].
    intros x w r h' P EA. exfalso. destruct (PQ _ _ _ _ P EA) as [data [_ [_ [Q _]]]]. auto. }
  cbn [d_in d_out]. destruct (readN_spec (N.to_nat len0) K2) as [i3 [out [E3 [X3 [B3 [L3 R3]]]]]]. rewrite E3.
  pose proof (irel_trans H X12 X3) as X13. pose proof (irel_end X12) as EN2.
  assert (LA : length (i_all (d_in d)) = 4 + length (i_all i2)) by (rewrite (ix_all Y1), (ix_all Y2), !app_length; lia).
  destruct out as [p|].
  2:{ destruct R3 as [R3 [R4 R5]]. rewrite EN2 in R5. eexists; exists false; split; [reflexivity|]. eexists; split; [apply dfail_propagate; auto|].
    intros x w r h' P EA. destruct (PQ _ _ _ _ P EA) as [data [Q1 [Q2 [_ [_ [-> [-> Q3]]]]]]]. rewrite av_length, !app_length, !length_bits_of_N, length_bits_of_bytes.
    unfold lenN in Q2. split; [lia|]. unfold propagateError. cbn [d_in]. rewrite R5. cbn [d_in]. split; [apply trunc_eof; auto|]. exists data. auto. }
  destruct R3 as [Y3 LP3]. destruct (iext_iok K2 Y3) as [K3 BP3]. cbn [d_in d_out].
  destruct (decodeBufferWrite_spec Hcap HO BP3) as [o [W1 W2]]. rewrite W1. cbn [rbind]. eexists; exists true; split; [reflexivity|]. cbn [d_in d_out].
  split; auto. split; auto. split; [lia|]. exists (pad ++ bits_of_N 16 len0 ++ bits_of_N 16 len1 ++ bits_of_bytes p), p.
  assert (LN : lenN p = len0) by (unfold lenN; lia). split.
  { exists pad, p. rewrite LN, EL. repeat split; auto; try lia; try (rewrite LP; auto). }
  split; auto. unfold av at 1. fold pad. rewrite A1, A2, (ix_all Y3), bits_of_bytes_app, <- !app_assoc. unfold av. rewrite L3. cbn. auto.
Qed.

(** ** The bodies of the other kinds of block *)
Definition Good (d d' : dst) (P : list bool -> list N -> Prop) : Prop :=
  irel (d_in d) (d_in d') /\ bok (d_in d') /\ ibl (d_in d') < 8 /\
  exists w p, P w (rev p ++ o_hist (d_out d)) /\ av (d_in d) = w ++ av (d_in d') /\ oext (d_out d) (d_out d') p /\ bytes_ok p.
Definition FailD (d d' : dst) (P : list bool -> list N -> Prop) (p : list N) (e : goerr) : Prop :=
  Fail P (av (d_in d)) (o_hist (d_out d)) (d_in d') (i_end (d_in d)) p e.

Lemma huff_spec sll sd d : sizes_le 15 sll -> not_oversubscribed sll -> sizes_le 15 sd -> not_oversubscribed sd ->
  iok (d_in d) -> bok (d_in d) -> ibl (d_in d) < 8 -> ook (d_out d) ->
  exists d' ok, decodeHuffmanBlock env cap win (mk_decoder sll) (mk_decoder sd) d = Ok (d', ok) /\
  if ok : bool then Good d d' (Data env win sll sd (o_hist (d_out d)))
  else exists p e, dfail d d' p e /\ FailD d d' (Data env win sll sd (o_hist (d_out d))) p e.
Proof.
  intros A1 A2 A3 A4 H HB H8 HO. apply huffLoop_spec; auto. pose proof (av_le_left (d_in d)). lia.
Qed.
Definition DynP (hist : list N) (w : list bool) (h' : list N) : Prop :=
  exists ll d wt w2, DynTrees racc ll d wt /\ Data env win ll d hist w2 h' /\ w = wt ++ w2.

Lemma good_ow d d' P : ook (d_out d) -> Good d d' P -> ow (d_out d) (d_out d').
Proof. intros H [_ [_ [_ [w [p [_ [_ [X B]]]]]]]]. eapply ow_oext; eauto. Qed.

Definition DynE (t : trees) (hist : list N) (w : list bool) (h' : list N) : Prop :=
  exists wt w2, TreesAt racc t wt /\ Data env win (t_lls t) (t_ds t) hist w2 h' /\ w = wt ++ w2.

(** After the trees. *)
Lemma dyn_huff_spec d d1 t :
  iok (d_in d) -> ook (d_out d) ->
  irel (d_in d) (d_in d1) -> bok (d_in d1) -> ibl (d_in d1) < 8 -> length (av (d_in d1)) <= length (av (d_in d)) ->
      sizes_le 15 (t_lls t) -> sizes_le 15 (t_ds t) -> racc (t_lls t) -> racc (t_ds t) ->
      ((d_out d1 = d_out d /\ exists w, TreesAt racc t w /\ av (d_in d) = w ++ av (d_in d1)) \/
       exists e, bad d d1 [] e true /\ forall x w r t, TreesP env w t -> av (d_in d) ++ x <> w ++ r) ->
  exists d' ok, decodeHuffmanBlock env cap win (mk_decoder (t_lls t)) (mk_decoder (t_ds t)) d1 = Ok (d', ok) /\
   ((ok = true /\ Good d d' (DynE t (o_hist (d_out d)))) \/
    exists p e z, bad d d' p e z /\ FailD d d' (DynP (o_hist (d_out d))) p e /\
      (ok = true -> z = true /\ bok (d_in d') /\ ibl (d_in d') < 8 /\ length (av (d_in d')) <= length (av (d_in d)) /\
        forall x w r h', DynP (o_hist (d_out d)) w h' -> av (d_in d) ++ x <> w ++ r)).
Proof.
  intros H HO X1 B1 L1 LA S1 S2 R1 R2 Z.
  pose proof (rl_acc_sound Hlib S1 R1) as N1. pose proof (rl_acc_sound Hlib S2 R2) as N2.
  pose proof (irel_iok H X1) as K1.
  assert (HO1 : ook (d_out d1)).
  { destruct Z as [[-> _]|[e [Z _]]]; auto. apply (bad_ow HO Z). }
  destruct (huff_spec S1 N1 S2 N2 K1 B1 L1 HO1) as [d' [ok [E R]]]. exists d', ok. split; auto.
  destruct Z as [[EO [wt [T A]]]|[e [Z1 Z2]]].
  - destruct ok.
    + left. split; auto. destruct R as [R1' [R2' [R3 [w [p [R4 [R5 [R6 R7]]]]]]]]. rewrite EO in *.
      split; [exact (irel_trans H X1 R1')|]. split; auto. split; auto. exists (wt ++ w), p. split; [exists wt, w; auto|].
      split; [rewrite A, R5, app_assoc; auto|]. auto.
    + right. destruct R as [p [e [F1 F2]]]. exists p, e, false. split.
      { apply bad_dfail; auto. change p with ([] ++ p). eapply dfail_trans; [..|exact F1]; auto; try constructor. rewrite EO. apply oext_refl_; auto. }
      split; [|discriminate]. unfold FailD in *. rewrite EO in F2.
      intros x w r h' [ll2 [d2 [wt2 [w2 [T2 [D2 ->]]]]]] EA. rewrite A, <- !app_assoc in EA.
      destruct (trees_inj Hlib Hcap (at_trees T) T2 EA) as [<- [<- [<- EB]]]. destruct (F2 x w2 r h' D2 EB) as [G1 [G2 G3]].
      rewrite (irel_end X1) in G2. split; [rewrite A, !app_length; lia|]. auto.
  - right. exists [], e, true.
    assert (W : irel (d_in d1) (d_in d') /\ ow (d_out d1) (d_out d')).
    { destruct ok; [split; [apply R|eapply good_ow; eauto]|]. destruct R as [p [e' [F1 _]]]. split; [apply F1|]. eapply ow_dfail; eauto. }
    assert (NC : forall x w r h', DynP (o_hist (d_out d)) w h' -> av (d_in d) ++ x <> w ++ r).
    { intros x w r h' [ll2 [d2 [wt2 [w2 [T2 [D2 ->]]]]]] EA. rewrite <- app_assoc in EA. eapply (Z2 x wt2 (w2 ++ r) (ll2, d2)); eauto. }
    split; [eapply bad_more; eauto; apply W|]. split.
    { intros x w r h' D EA. exfalso. eapply NC; eauto. }
    intros ->. split; auto. destruct R as [_ [R2' [R3 [w [p [_ [R5 _]]]]]]]. split; auto. split; auto. split; auto. rewrite R5, app_length in LA. lia.
Qed.
End Dec.

(** ** Blocks *)
Definition rsame (r r' : reader) : Prop := r_opt r' = r_opt r /\ r_num r' = r_num r /\ r_hdr r' = r_hdr r /\ r_fmt r' = r_fmt r.
Lemma rsame_refl r : rsame r r. Proof. repeat split. Qed.
Lemma rsame_trans a b c : rsame a b -> rsame b c -> rsame a c.
Proof. unfold rsame. intros [? [? [? ?]]] [? [? [? ?]]]. repeat split; congruence. Qed.
Lemma rsame_set_d r d : rsame r (set_d r d). Proof. destruct r; repeat split. Qed.
Lemma rsame_ev r p : rsame r (r_sendEvent r p). Proof. destruct r; repeat split. Qed.
Lemma d_set_d r d : r_d (set_d r d) = d. Proof. destruct r; auto. Qed.
Lemma ev_set_d r d : r_events (set_d r d) = r_events r. Proof. destruct r; auto. Qed.
Lemma d_sendEvent r p : r_d (r_sendEvent r p) = r_d r. Proof. destruct r; auto. Qed.
Definition mk_event (r : reader) (p : pre_event) : event :=
  Event (p_type p) (i_total (r_in r)) (i_stream (r_in r)) (o_total (r_out r)) (o_stream (r_out r)) (r_num r) (r_fmt r)
    (p_header p) (p_block p) (p_trees p) (p_footer p).
Lemma ev_sendEvent r p : r_events (r_sendEvent r p) = r_events r ++ [mk_event r p]. Proof. destruct r; auto. Qed.
Lemma pre_mk_event r p : pre_of (mk_event r p) = p. Proof. destruct p; auto. Qed.

(** The counters tell the truth: [n] is the length of the whole input. *)
Record RC (n : nat) (r : reader) : Prop := MkRC {
  rc_le : length (i_all (r_in r)) <= n;
  rc_in : i_total (r_in r) = (N.of_nat (n - length (i_all (r_in r))) mod two64)%N;
  rc_out : o_total (r_out r) = (lenN (log_data (o_log (r_out r))) mod two64)%N;
  rc_ev : EvCnt (r_events r) (N.of_nat (n - length (i_all (r_in r)))) (lenN (log_data (o_log (r_out r)))) }.
Definition iw (i i' : ist) : Prop := exists q, i_all i = q ++ i_all i' /\ i_total i' = add64 (i_total i) (lenN q).
Lemma iw_irel i i' : irel i i' -> iw i i'.
Proof. intros [q X]. exists q. split; apply X. Qed.
Definition owl (o o' : ost) : Prop := exists s, o_log o' = o_log o ++ s /\ o_total o' = add64 (o_total o) (lenN (log_data s)).
Lemma RC_d n r i o : RC n r -> iw (r_in r) i -> owl (r_out r) o -> RC n (set_d r (DST i o)).
Proof.
  intros [H1 H2 H3 H4] [q [Q1 Q2]] [s [S1 S2]]. rewrite Q1, app_length in *. unfold r_in, r_out in *.
  constructor; unfold r_in, r_out; rewrite ?d_set_d, ?ev_set_d; cbn [d_in d_out].
  - lia.
  - rewrite Q2, H2. unfold add64, lenN. rewrite N.add_mod_idemp_l by discriminate. f_equal. lia.
  - rewrite S2, H3, S1, log_data_app, lenN_app. unfold add64. rewrite N.add_mod_idemp_l by discriminate. auto.
  - eapply ec_weaken; eauto; [lia|]. rewrite S1, log_data_app, lenN_app. lia.
Qed.
Lemma RC_ev n r p : RC n r -> RC n (r_sendEvent r p).
Proof.
  intros [H1 H2 H3 H4]. constructor; unfold r_in, r_out in *; rewrite ?d_sendEvent; auto.
  rewrite ev_sendEvent. eapply ec_snoc; eauto; lia.
Qed.

Section Blk.
Variable env : renv.
Hypothesis Hlib : rlib_ok env.
Variable opt : options.
Notation cap := (dec_cap opt).
Notation win := (win_size opt).
Notation ook := (ook cap).
Notation oext := (oext cap).
Notation dfail := (dfail cap).
Notation bad := (bad cap).
Notation ow := (ow cap).
Notation racc := (racc env).
Notation wlk := (wlk env win).
Let Hbpb := rl_bpb Hlib.
Lemma cap_pos : (0 < cap)%N.
Proof. unfold dec_cap. pose proof (N.pow_nonzero 2 (o_mlevel opt + 6) ltac:(discriminate)). lia. Qed.
Let Hcap := cap_pos.
Notation BlockP pos hist := (fun w h' => exists f, Block racc wlk pos hist f w h').
Lemma ow_owl o o' : ow o o' -> owl o o'. Proof. intros W. apply W. Qed.

Lemma hdr3 v : (v < 8)%N -> exists f, negb (N.land v 1 =? 0)%N = f /\ bits_of_N 3 v =
  match blockTypeOf v with StoredBlock => [f; false; false] | StaticBlock => [f; true; false] | DynamicBlock => [f; false; true] | InvalidBlock => [f; true; true] end.
Proof.
  intros H. eexists; split; [reflexivity|].
  assert (C : (v = 0 \/ v = 1 \/ v = 2 \/ v = 3 \/ v = 4 \/ v = 5 \/ v = 6 \/ v = 7)%N) by lia.
  repeat (destruct C as [->|C]; [reflexivity|]). subst v. reflexivity.
Qed.

Lemma BlockE_Block acc lk pos hist f w h' es : BlockE acc lk pos hist f w h' es -> Block acc lk pos hist f w h'.
Proof. intros []; [apply block_stored|eapply block_static|eapply block_dynamic; [apply at_trees|..]]; eauto. Qed.
Lemma BlockE_evs acc lk pos hist f w h' es : BlockE acc lk pos hist f w h' es -> block_evs f es.
Proof. intros []; [apply be_stored|apply be_huff|apply be_huff]; auto. Qed.
(** The result of a step of the block loop. *)
Definition blk_good (pos : nat) (r r' : reader) (more : bool) : Prop :=
  exists f evs, more = negb f /\ Good cap (r_d r) (r_d r') (Block racc wlk pos (o_hist (r_out r)) f) /\
    r_events r' = r_events r ++ evs /\ block_evs f (map pre_of evs) /\
    exists w, av (r_in r) = w ++ av (r_in r') /\ BlockE racc wlk pos (o_hist (r_out r)) f w (o_hist (r_out r')) (map pre_of evs).
Definition blk_bad (pos : nat) (r r' : reader) (more : bool) : Prop :=
  exists p e z, bad (r_d r) (r_d r') p e z /\ FailD (r_d r) (r_d r') (BlockP pos (o_hist (r_out r))) p e /\
    (more = true -> z = true /\ bok (r_in r') /\ ibl (r_in r') < 8 /\ length (av (r_in r')) < length (av (r_in r)) /\
      forall x w s h', BlockP pos (o_hist (r_out r)) w h' -> av (r_in r) ++ x <> w ++ s).

Definition progress (r r' : reader) : Prop := ibl (r_in r) = 0 -> i_all (r_in r) <> [] -> length (i_all (r_in r')) < length (i_all (r_in r)).
Lemma readFlateBlock_spec pos r : r_opt r = opt -> iok (r_in r) -> bok (r_in r) -> ibl (r_in r) < 8 -> ook (r_out r) -> aligned pos (r_in r) ->
  exists r' more, readFlateBlock env r = Ok (r', more) /\ rsame r r' /\ (forall n, RC n r -> RC n r') /\ progress r r' /\
    (blk_good pos r r' more \/ blk_bad pos r r' more).
Proof.
  intros EOpt H HB H8 HO HA. unfold readFlateBlock.
  assert (HN : bytes_ok []) by constructor. pose proof (oext_refl_ Hcap HO) as O0. pose proof (ow_refl HO) as W0.
  destruct (getBits_spec Hbpb H HB H8 (n := 3)) as [i1 [out [G1 [G2 [G3 G4]]]]]; [destruct (r_bits_cases Hbpb); lia|].
  rewrite G1. cbn [rbind]. pose proof (irel_iok H G2) as K1.
  set (r1 := set_rin r i1).
  assert (E1 : r_d r1 = DST i1 (r_out r)) by apply d_set_d.
  assert (V1 : r_events r1 = r_events r) by apply ev_set_d.
  assert (S1 : rsame r r1) by apply rsame_set_d.
  assert (C1 : forall n, RC n r -> RC n r1).
  { intros n C. apply RC_d; auto; [apply iw_irel; auto|apply ow_owl; auto]. }
  clearbody r1.
  destruct out as [v|].
  2:{ destruct G4 as [G4 [G5 G6]]. eexists; exists false; split; [reflexivity|]. unfold r_propagate. split; [eapply rsame_trans; [exact S1|apply rsame_set_d]|].
    pose proof (@dfail_propagate cap (r_d r) i1 (r_out r) [] H G2 G6 O0 HN) as F. rewrite <- E1 in F.
    split; [|split; [intros L0 NE; exfalso; rewrite av_length in G4; destruct (i_all (r_in r)); [congruence|cbn in G4; lia]|]].
    { intros n C. apply C1 in C. destruct (propagateError (r_d r1) true) as [i' o'] eqn:EP. apply RC_d; auto.
      - apply iw_irel. unfold r_in. rewrite E1 in *. unfold propagateError in EP. cbn [d_in d_out] in *. rewrite G6 in EP. inversion EP; subst. apply irel_refl; auto.
      - apply ow_owl. unfold r_out. rewrite E1 in *. unfold propagateError in EP. cbn [d_in d_out] in *. rewrite G6 in EP. inversion EP; subst. apply ow_close; auto. }
    right. red. rewrite d_set_d. exists [], (eof_is_error (i_end (r_in r))), false. split; [apply bad_dfail; auto|].
    split; [|discriminate]. intros x w s h' [f P] EA. unfold propagateError. rewrite E1. cbn [d_in]. rewrite G6. cbn [d_in].
    split; [|split; [apply trunc_eof; auto|]].
    - change (d_in (r_d r)) with (r_in r). destruct P; cbn [length app]; lia.
    - destruct (Block_ext P) as [q ->]. exists q. auto. }
  destruct G4 as [G4 [G5 G6]]. destruct (hdr3 G5) as [f [EF EB]]. rewrite EF. set (bt := blockTypeOf v) in *. clearbody bt. rewrite EB in G6. clear EF EB.
  set (r2 := r_sendEvent r1 (ev_block BlockBeginEvent bt f)).
  assert (E2 : r_d r2 = DST i1 (r_out r)) by (unfold r2; rewrite d_sendEvent; auto).
  assert (V2 : exists ev1, r_events r2 = r_events r ++ [ev1] /\ pre_of ev1 = ev_block BlockBeginEvent bt f).
  { eexists. unfold r2. rewrite ev_sendEvent, V1. split; [reflexivity|apply pre_mk_event]. }
  assert (S2 : rsame r r2) by (eapply rsame_trans; [exact S1|apply rsame_ev]).
  assert (C2 : forall n, RC n r -> RC n r2) by (intros n C; apply RC_ev; auto).
  clearbody r2. clear E1 V1 S1 C1 r1.
  assert (A3 : aligned (pos + 3) i1).
  { replace 3 with (length (match bt with StoredBlock => [f; false; false] | StaticBlock => [f; true; false] | DynamicBlock => [f; false; true] | InvalidBlock => [f; true; true] end)) by (destruct bt; auto).
    eapply aligned_step; eauto. apply irel_all. auto. }
  set (d1 := DST i1 (r_out r)) in *.
  assert (L1 : length (av (r_in r)) = 3 + length (av i1)) by (rewrite G6, app_length; destruct bt; auto).
  (* lifting the result of the body *)
  assert (DONE : forall (P PE : list bool -> list N -> Prop) hdr r3 d' ok,
    (forall x w s h', BlockP pos (o_hist (r_out r)) w h' -> (hdr ++ av i1) ++ x = w ++ s -> exists w', w = hdr ++ w' /\ P w' h') ->
    av (r_in r) = hdr ++ av i1 -> length hdr = 3 ->
    rsame r r3 -> (forall n, RC n r -> RC n r3) -> irel i1 (r_in r3) -> ow (r_out r) (r_out r3) ->
    irel (r_in r3) (d_in d') -> ow (r_out r3) (d_out d') ->
    (ok = true -> exists evs, r_events r3 = r_events r ++ evs /\ forall w h', PE w h' -> BlockE racc wlk pos (o_hist (r_out r)) f (hdr ++ w) h' (map pre_of evs ++ [ev_block BlockEndEvent bt f])) ->
    ((ok = true /\ Good cap d1 d' PE) \/
     exists p e z, bad d1 d' p e z /\ FailD d1 d' P p e /\ (ok = true -> z = true /\ bok (d_in d') /\ ibl (d_in d') < 8 /\ length (av (d_in d')) <= length (av i1) /\
       forall x w r h', P w h' -> av i1 ++ x <> w ++ r)) ->
    exists r' more, Ok (if ok then r_sendEvent (set_d r3 d') (ev_block BlockEndEvent bt f) else set_d r3 d', ok && negb f) = Ok (r', more) /\
      rsame r r' /\ (forall n, RC n r -> RC n r') /\ progress r r' /\ (blk_good pos r r' more \/ blk_bad pos r r' more)).
  { intros P PE hdr r3 d' ok HP2 HH LH S3 C3 X3 W3 X4 W4 V3 RES.
    exists (if ok then r_sendEvent (set_d r3 d') (ev_block BlockEndEvent bt f) else set_d r3 d'), (ok && negb f). split; auto.
    assert (ED : r_d (if ok then r_sendEvent (set_d r3 d') (ev_block BlockEndEvent bt f) else set_d r3 d') = d') by (destruct ok; rewrite ?d_sendEvent, d_set_d; auto).
    split. { eapply rsame_trans; [exact S3|]. destruct ok; [eapply rsame_trans; [apply rsame_set_d|apply rsame_ev]|apply rsame_set_d]. }
    split. { intros n C. assert (RC n (set_d r3 d')) by (destruct d'; apply RC_d; auto; [apply iw_irel|apply ow_owl]; auto). destruct ok; auto. apply RC_ev. auto. }
    split. { intros L0 NE. unfold r_in at 1. rewrite ED. pose proof (irel_all X3). pose proof (irel_all X4). rewrite !av_length in L1. lia. }
    destruct RES as [[-> R]|[p [e [z [R1 [R2 R3]]]]]].
    - left. exists f. destruct V3 as [evs [V3 V4]]; auto. exists (evs ++ [mk_event (set_d r3 d') (ev_block BlockEndEvent bt f)]). split; auto.
      rewrite ED. destruct R as [Q1 [Q2 [Q3 [w [p [Q4 [Q5 [Q6 Q7]]]]]]]]. specialize (V4 _ _ Q4). cbn [d_in d1] in Q5.
      assert (EVP : map pre_of (evs ++ [mk_event (set_d r3 d') (ev_block BlockEndEvent bt f)]) = map pre_of evs ++ [ev_block BlockEndEvent bt f]) by (rewrite map_app; cbn [map]; rewrite pre_mk_event; auto).
      assert (EAV : av (r_in r) = (hdr ++ w) ++ av (d_in d')) by (rewrite HH, Q5, app_assoc; auto).
      split.
      { split; [exact (irel_trans H G2 Q1)|]. split; auto. split; auto.
        exists (hdr ++ w), p. split; [eapply BlockE_Block; exact V4|]. split; [exact EAV|auto]. }
      rewrite ev_sendEvent, ev_set_d, V3, <- app_assoc. split; auto. rewrite EVP. split; [eapply BlockE_evs; exact V4|].
      exists (hdr ++ w). unfold r_in at 2, r_out at 2. rewrite ED. split; [exact EAV|]. replace (o_hist (d_out d')) with (rev p ++ o_hist (d_out d1)); [exact V4|]. destruct Q6 as [s6 Q6]. symmetry. apply (ox_hist Q6).
    - right. exists p, e, z. rewrite ED. split.
      { destruct R1 as [Q1 [Q2 [Q3 Q4]]]. split; [exact (irel_trans H G2 Q1)|]. split; auto. split; auto. cbn [d_in d1] in Q3. rewrite (irel_end G2) in Q3. auto. }
      split.
      { intros x w s h' BP EA. change (d_in (r_d r)) with (r_in r) in *. rewrite HH in EA. destruct (HP2 _ _ _ _ BP EA) as [w' [-> PW]].
        rewrite <- !app_assoc in EA. apply app_inv_head in EA. destruct (R2 x w' s h' PW EA) as [T1 [T2 T3]]. cbn [d_in d1] in *. rewrite (irel_end G2) in T2.
        split; [rewrite HH, !app_length; lia|]. auto. }
      intros EM. apply Bool.andb_true_iff in EM. destruct EM as [EM _]. destruct (R3 EM) as [T1 [T2 [T3 [T4 T5]]]]. unfold r_in at 1 2 3. rewrite ED. split; auto. split; auto. split; auto. split; [lia|].
      intros x w s h' BP EA. rewrite HH in EA. destruct (HP2 _ _ _ _ BP EA) as [w' [-> PW]]. rewrite <- !app_assoc in EA. apply app_inv_head in EA. eapply T5; eauto. }
  assert (WW2 : ow (r_out r) (r_out r2)) by (unfold r_out at 2; rewrite E2; auto).
  assert (XX2 : irel i1 (r_in r2)) by (unfold r_in; rewrite E2; apply irel_refl; auto).
  assert (OPT2 : r_opt r2 = opt) by (destruct S2; congruence).
  assert (K1' : iok (d_in d1)) by auto. assert (HO1 : ook (d_out d1)) by auto.
  unfold readBlockBody. rewrite OPT2. destruct bt.
  - (* reserved *)
    cbn [rbind]. unfold r_corrupt. rewrite E2.
    apply (DONE (fun _ _ => False) (fun _ _ => False) [f; true; true] r2 (corruptf d1 CReservedBlock) false); auto; try discriminate.
    + intros x w s h' [f' BP] EA. destruct BP; cbn [app] in EA; apply cons3 in EA; destruct EA as [_ [? [? _]]]; discriminate.
    + unfold r_in. rewrite E2. cbn. apply irel_refl; auto.
    + unfold r_out. rewrite E2. cbn. apply ow_close. auto.
    + right. exists [], (corr i1 CReservedBlock), false. split; [apply bad_dfail; auto; apply dfail_corrupt; auto; apply irel_refl; auto|]. split; [|discriminate]. intros ? ? ? ? [].
  - (* stored *)
    rewrite E2. destruct (readStored_spec Hlib Hcap (pos := pos + 3) K1' G3 G4 HO1 A3) as [d' [ok [ES RS]]]. unfold on_d. fold d1. rewrite ES. cbn [rbind].
    apply (DONE (StoredP (pos + 3) (o_hist (r_out r))) (StoredP (pos + 3) (o_hist (r_out r))) [f; false; false] r2 d' ok); auto.
    + intros x w s h' [f' BP] EA. destruct BP as [pad data P1 P2 P3 P4|ts vv h' P1 P2|ll dd ts wt vv h' P1 P2 P3]; cbn [app] in EA; apply cons3 in EA; destruct EA as [EF [? [? _]]]; try discriminate.
      subst f'. eexists. split; [reflexivity|]. exists pad, data. auto 10.
    + unfold r_in. rewrite E2. destruct ok; [apply RS|]. destruct RS as [e [F _]]. apply F.
    + unfold r_out. rewrite E2. destruct ok; [apply (good_ow HO1 RS)|]. destruct RS as [e [F _]]. apply (ow_dfail HO1 F).
    + intros _. destruct V2 as [ev1 [V2 V3]]. exists [ev1]. split; auto. cbn [map app]. rewrite V3.
      intros w h' [pad [data [P1 [P2 [P3 [P4 [-> ->]]]]]]]. apply blockE_stored; auto.
    + destruct ok; [left; auto|right]. destruct RS as [e [F1 F2]]. exists [], e, false. split; [apply bad_dfail; auto|]. split; auto. discriminate.
  - (* static *)
    destruct fixed_ll_ok as [FL1 FL2], fixed_d_ok as [FD1 FD2].
    rewrite fixedLL_eq, fixedD_eq. set (ev2 := ev_trees StaticBlock f _).
    set (r3 := r_sendEvent r2 ev2). assert (E3 : r_d r3 = d1) by (unfold r3; rewrite d_sendEvent; auto). rewrite E3.
    destruct (huff_spec Hlib win Hcap FL1 FL2 FD1 FD2 K1' G3 G4 HO1) as [d' [ok [ES RS]]]. unfold on_d. rewrite ES. cbn [rbind].
    apply (DONE (Data env win fixed_ll fixed_d (o_hist (r_out r))) (Data env win fixed_ll fixed_d (o_hist (r_out r))) [f; true; false] r3 d' ok); auto.
    + intros x w s h' [f' BP] EA. destruct BP as [pad data P1 P2 P3 P4|ts vv h' P1 P2|ll dd ts wt vv h' P1 P2 P3]; cbn [app] in EA; apply cons3 in EA; destruct EA as [EF [? [? _]]]; try discriminate.
      subst f'. eexists. split; [reflexivity|]. exists ts. auto.
    + eapply rsame_trans; [exact S2|apply rsame_ev].
    + intros n C. apply RC_ev. auto.
    + unfold r_in. rewrite E3. apply irel_refl; auto.
    + unfold r_out. rewrite E3. auto.
    + unfold r_in. rewrite E3. destruct ok; [apply RS|]. destruct RS as [p [e [F _]]]. apply F.
    + unfold r_out. rewrite E3. destruct ok; [apply (good_ow HO1 RS)|]. destruct RS as [p [e [F _]]]. apply (ow_dfail HO1 F).
    + intros _. destruct V2 as [ev1 [V2 V3]]. exists [ev1; mk_event r2 ev2]. unfold r3. rewrite ev_sendEvent, V2, <- app_assoc. split; auto.
      cbn [map app]. rewrite V3, pre_mk_event. intros w h' [ts [P1 P2]]. unfold ev2. eapply blockE_static; eauto.
    + destruct ok; [left; auto|right]. destruct RS as [p [e [F1 F2]]]. exists p, e, false. split; [apply bad_dfail; auto|]. split; auto. discriminate.
  - (* dynamic *)
    assert (HPB : forall x w s h', BlockP pos (o_hist (r_out r)) w h' -> ([f; false; true] ++ av i1) ++ x = w ++ s -> exists w', w = [f; false; true] ++ w' /\ DynP env win (o_hist (r_out r)) w' h').
    { intros x w s h' [f' BP] EA. destruct BP as [pad data P1 P2 P3 P4|ts vv h' P1 P2|ll dd ts wt vv h' P1 P2 P3]; cbn [app] in EA; apply cons3 in EA; destruct EA as [EF [? [? _]]]; try discriminate.
      subst f'. eexists. split; [reflexivity|]. exists ll, dd, wt, vv. split; auto. split; auto. exists ts. auto. }
    rewrite E2. fold d1. destruct (readDynamicTrees_spec Hlib Hcap K1' G3 G4 HO1) as [d2 [t [ET RT]]]. rewrite ET. cbn [rbind]. destruct t as [t|].
    + destruct RT as [T1 [T2 [T3 [T4 [T5 [T6 [T7 [T8 T9]]]]]]]].
      set (ev2 := ev_trees DynamicBlock f t). set (r3 := r_sendEvent (set_d r2 d2) ev2).
      assert (E3 : r_d r3 = d2) by (unfold r3; rewrite d_sendEvent, d_set_d; auto). rewrite E3.
      assert (WD2 : ow (r_out r) (d_out d2)).
      { destruct T9 as [[-> _]|[e [Z _]]]; auto. apply (bad_ow HO1 Z). }
      destruct (dyn_huff_spec Hlib win Hcap K1' HO1 T1 T2 T3 T4 T5 T6 T7 T8 T9) as [d' [ok [ES RS]]]. unfold on_d. rewrite ES. cbn [rbind].
      assert (WX : irel (d_in d2) (d_in d') /\ ow (d_out d2) (d_out d')).
      { pose proof (irel_iok K1' T1) as K2. pose proof (rl_acc_sound Hlib T5 T7) as N1. pose proof (rl_acc_sound Hlib T6 T8) as N2.
        destruct (huff_spec Hlib win Hcap T5 N1 T6 N2 K2 T2 T3 (ow_ook WD2)) as [d'' [ok' [ES' RS']]]. rewrite ES in ES'. inversion ES'; subst d'' ok'.
        destruct ok; [split; [apply RS'|apply (good_ow (ow_ook WD2) RS')]|]. destruct RS' as [p [e [F _]]]. split; [apply F|apply (ow_dfail (ow_ook WD2) F)]. }
      apply (DONE (DynP env win (o_hist (r_out r))) (DynE env win t (o_hist (r_out r))) [f; false; true] r3 d' ok); auto; try (unfold r_in; rewrite E3; auto; apply WX); try (unfold r_out; rewrite E3; auto; apply WX).
      * eapply rsame_trans; [exact S2|]. eapply rsame_trans; [apply rsame_set_d|apply rsame_ev].
      * intros n C. apply RC_ev. destruct d2. apply RC_d; auto; [apply iw_irel|apply ow_owl]; [unfold r_in|unfold r_out]; rewrite E2; auto.
      * intros _. destruct V2 as [ev1 [V2 V3]]. exists [ev1; mk_event (set_d r2 d2) ev2]. unfold r3. rewrite ev_sendEvent, ev_set_d, V2, <- app_assoc. split; auto.
        cbn [map app]. rewrite V3, pre_mk_event. intros w h' [wt [w2 [P1 [[ts [P2 P3]] ->]]]]. unfold ev2. eapply blockE_dynamic; eauto.
    + destruct RT as [e [z [T1 T2]]]. cbn [rbind].
      apply (DONE (DynP env win (o_hist (r_out r))) (fun _ _ => False) [f; false; true] r2 d2 false); auto; try discriminate.
      * unfold r_in. rewrite E2. apply T1.
      * unfold r_out. rewrite E2. apply (bad_ow HO1 T1).
      * right. exists [], e, z. split; auto. split; [|discriminate].
        intros x w s h' [ll [d [wt [w2 [P1 [[ts [P2 P3]] ->]]]]]] EA. rewrite <- app_assoc in EA. destruct (T2 x wt (w2 ++ s) (ll, d) P1 EA) as [Q1 Q2].
        split; [rewrite app_length; lia|]. split; auto. destruct (expand_ext P3) as [q ->]. exists q. auto.
Qed.

(** ** reader.go:340-342 *)
Notation Def pos hist := (DefR (Block racc wlk) pos hist).
Lemma blocksLoop_spec : forall fuel pos r, r_opt r = opt -> iok (r_in r) -> bok (r_in r) -> ibl (r_in r) < 8 -> ook (r_out r) -> aligned pos (r_in r) ->
  length (av (r_in r)) < fuel ->
  exists r', blocksLoop env fuel r = Ok r' /\ rsame r r' /\ (forall n, RC n r -> RC n r') /\ progress r r' /\
    ((Good cap (r_d r) (r_d r') (Def pos (o_hist (r_out r))) /\
      exists evs, r_events r' = r_events r ++ evs /\ (forall ds es, SEvs ds EvOpen es -> SEvs ds EvLast (es ++ map pre_of evs)) /\
        exists w, av (r_in r) = w ++ av (r_in r') /\ DeflateE racc wlk pos (o_hist (r_out r)) w (o_hist (r_out r')) (map pre_of evs)) \/
     exists p e z, bad (r_d r) (r_d r') p e z /\ FailD (r_d r) (r_d r') (Def pos (o_hist (r_out r))) p e).
Proof.
  induction fuel as [|fu IH]; intros pos r EOpt H HB H8 HO HA Hf; [lia|]. cbn [blocksLoop].
  destruct (readFlateBlock_spec EOpt H HB H8 HO HA) as [r1 [more [E1 [S1 [C1 [PG1 R1]]]]]]. rewrite E1. cbn [rbind].
  assert (EOpt1 : r_opt r1 = opt) by (destruct S1; congruence).
  destruct R1 as [[f [evs [-> [G [V1 [V2 [wE [VA VE]]]]]]]]|[p [e [z [B1 [F1 M1]]]]]].
  - pose proof G as G0. destruct G as [X1 [B1 [L1 [w [p [P1 [A1 [O1 BP]]]]]]]].
    destruct f; cbn [negb].
    + exists r1. split; auto. split; auto. split; auto. split; auto. left. split.
      * split; auto. split; auto. split; auto. exists w, p. split; [apply dr_last; auto|auto].
      * exists evs. split; auto. split; [intros ds es HE; eapply (@se_block _ _ _ true); eauto|]. exists wE. split; [exact VA|]. apply de_last. exact VE.
    + change (d_in (r_d r)) with (r_in r) in *. change (d_in (r_d r1)) with (r_in r1) in *.
      assert (EW : wE = w) by (rewrite A1 in VA; apply app_inv_tail in VA; auto). subst wE.
      assert (LW : 0 < length w) by (destruct P1; cbn; lia).
      assert (HO1 : ook (r_out r1)) by exact (oext_ook HO BP O1).
      assert (EH : o_hist (r_out r1) = rev p ++ o_hist (r_out r)) by (destruct O1 as [s O1]; apply O1).
      assert (LA1 : length (av (r_in r1)) < fu) by (apply (f_equal (@length _)) in A1; rewrite app_length in A1; lia).
      assert (HA1 : aligned (pos + length w) (r_in r1)) by (eapply aligned_step; eauto; apply irel_all; auto).
      destruct (IH (pos + length w) r1 EOpt1 (irel_iok H X1) B1 L1 HO1 HA1 LA1) as [r' [E2 [S2 [C2 [_ R2]]]]]. rewrite E2. exists r'. split; auto.
      split; [eapply rsame_trans; eauto|]. split; auto.
      assert (XR : irel (r_in r1) (r_in r')) by (destruct R2 as [[G2 _]|[p2 [e2 [z2 [B2 _]]]]]; [apply G2|apply B2]).
      split; [intros L0 NE; pose proof (irel_all XR); specialize (PG1 L0 NE); lia|]. rewrite EH in R2.
      assert (PD : forall x w' s h', Def pos (o_hist (r_out r)) w' h' -> av (r_in r) ++ x = w' ++ s ->
         exists w2, w' = w ++ w2 /\ Def (pos + length w) (rev p ++ o_hist (r_out r)) w2 h' /\ av (r_in r1) ++ x = w2 ++ s).
      { intros x w' s h' D EA. rewrite A1, <- app_assoc in EA. destruct D as [w' h' D|w' g w2 h' D1 D2].
        - destruct (Block_inj Hlib Hcap P1 D EA) as [? _]. discriminate.
        - rewrite <- app_assoc in EA. destruct (Block_inj Hlib Hcap P1 D1 EA) as [_ [<- [<- EB]]]. exists w2. auto. }
      destruct R2 as [[G2 [evs2 [V3 [V4 [w2E [VA2 VE2]]]]]]|[p2 [e2 [z2 [B2 F2]]]]].
      * left. split.
        -- destruct G2 as [X2 [B2 [L2 [w2 [p2 [P2 [A2 [O2 BP2]]]]]]]]. change (d_in (r_d r1)) with (r_in r1) in *.
           split; [exact (irel_trans H X1 X2)|]. split; auto. split; auto. exists (w ++ w2), (p ++ p2). split.
           { eapply dr_cons; eauto. change (d_out (r_d r1)) with (r_out r1) in P2. rewrite ?EH in P2. rewrite rev_app_distr, <- app_assoc. auto. }
           split; [change (d_in (r_d r)) with (r_in r); rewrite A1, A2, app_assoc; auto|]. split; [exact (oext_trans HO BP BP2 O1 O2)|apply bytes_ok_app; auto].
        -- exists (evs ++ evs2). rewrite V3, V1, <- app_assoc. split; auto. split; [intros ds es HE; rewrite map_app, app_assoc; apply V4; apply (@se_block _ _ _ false); auto|].
           exists (w ++ w2E). split; [rewrite A1, VA2, app_assoc; auto|]. rewrite map_app. eapply de_more; [exact VE|]. rewrite EH. exact VE2.
      * right. exists (p ++ p2), e2, z2. split; [exact (bad_trans H HO X1 O1 BP B2)|].
        intros x w' s h' D EA. destruct (PD _ _ _ _ D EA) as [w2 [-> [D2 EB]]].
        unfold FailD in F2. change (d_out (r_d r1)) with (r_out r1) in F2. rewrite EH in F2.
        destruct (F2 x w2 s h' D2 EB) as [T1 [T2 [q T3]]]. change (d_in (r_d r)) with (r_in r). change (d_in (r_d r1)) with (r_in r1) in *.
        rewrite (irel_end X1) in T2. split; [rewrite A1, !app_length; lia|]. split; auto. exists q. rewrite T3, rev_app_distr, <- !app_assoc. auto.
  - assert (FB : forall x w' s h', Def pos (o_hist (r_out r)) w' h' -> av (r_in r) ++ x = w' ++ s ->
      exists w1 g s1, (exists f, Block racc wlk pos (o_hist (r_out r)) f w1 g) /\ av (r_in r) ++ x = w1 ++ s1 /\ length w1 <= length w' /\ exists q', h' = rev q' ++ g).
    { intros x w' s h' D EA. destruct D as [w' h' D|w' g w2 h' D1 D2].
      - exists w', h', s. split; [eauto|]. split; auto. split; auto. exists []. auto.
      - exists w', g, (w2 ++ s). split; [eauto|]. split; [rewrite EA, <- app_assoc; auto|]. split; [rewrite app_length; lia|]. eapply DefR_ext; eauto. }
    destruct more.
    + destruct M1 as [-> [M2 [M3 [M4 M5]]]]; auto.
      assert (X1 : irel (r_in r) (r_in r1)) by apply B1.
      pose proof (bad_ow HO B1) as W1.
      (* the position no longer matters, but must be aligned *)
      set (pos1 := 8 - ibl (r_in r1)).
      assert (HA1 : aligned pos1 (r_in r1)) by (unfold aligned, pos1; replace (8 - ibl (r_in r1) + ibl (r_in r1)) with 8 by lia; auto).
      destruct (IH pos1 r1 EOpt1 (irel_iok H X1) M2 M3 (ow_ook W1) HA1 ltac:(lia)) as [r' [E2 [S2 [C2 [_ R2]]]]]. rewrite E2. exists r'. split; auto.
      split; [eapply rsame_trans; eauto|]. split; auto.
      assert (XR : irel (r_in r1) (r_in r')) by (destruct R2 as [[G2 _]|[p2 [e2 [z2 [B2 _]]]]]; [apply G2|apply B2]).
      split; [intros L0 NE; pose proof (irel_all XR); specialize (PG1 L0 NE); lia|]. right. exists p, e, true.
      assert (WX : irel (d_in (r_d r1)) (d_in (r_d r')) /\ ow (d_out (r_d r1)) (d_out (r_d r'))).
      { destruct R2 as [[G2 _]|[p2 [e2 [z2 [B2 _]]]]]; [split; [apply G2|apply (good_ow (ow_ook W1) G2)]|split; [apply B2|apply (bad_ow (ow_ook W1) B2)]]. }
      split; [eapply bad_more; eauto; apply WX|].
      intros x w' s h' D EA. exfalso. destruct (FB _ _ _ _ D EA) as [w1 [g [s1 [FB1 [FB2 _]]]]]. eapply M5; eauto.
    + exists r1. split; auto. split; auto. split; auto. split; auto. right. exists p, e, z. split; auto.
      intros x w' s h' D EA. destruct (FB _ _ _ _ D EA) as [w1 [g [s1 [FB1 [FB2 [FB3 [q' ->]]]]]]]. destruct (F1 x w1 s1 g FB1 FB2) as [T1 [T2 [q ->]]].
      split; [lia|]. split; auto. exists (q ++ q'). rewrite rev_app_distr, <- app_assoc. auto.
Qed.
End Blk.
