(** Sessions and the cost of their output (C57). *)
From Verif Require PWFrame.
From Verif Require Import Base SpecHuffman MChecksum MToken MCommon MWriter SpecLib SpecEvents SpecSession MSession
  PWriter PBits PActs PropBits PSession PInst SpecCost PCost PCost2.

Section Cost.
Variable env : wenv.
Hypothesis Hbpb : bytesPerBlock env = 4 \/ bytesPerBlock env = 8.
Hypothesis Hhuff : huff_ok env.
Variable op : options.
Hypothesis Hopt : wopt_ok op.
Notation C := (C env op).
Notation L := (L op).
Notation cap := (cap op).
Notation msize := (msize op).

Variable PH : header -> Prop.   (* any property of headers that the Writer's own additions respect *)
Hypothesis PHnorm : forall h h', hnorm op h h' -> PH h -> PH h'.
Definition hgood (hd : header) (ks : list key) : Prop := header_ok hd /\ PH hd /\ Forall PH (hdrs ks).
Lemma hgood_app hd a b : hgood hd a -> hdrs b = [] -> hgood hd (a ++ b).
Proof. intros [A1 [A2 A3]] B. split; auto. split; auto. rewrite hdrs_app, B, app_nil_r. auto. Qed.

Definition al (st : writerstate) : bool := match st with openStream => false | _ => true end.
Definition op1 (st : writerstate) : N := match st with openStream | closingStream => 1 | _ => 0 end%N.
Definition live (st : writerstate) : Prop := st = noStream \/ st = openStream \/ st = closedStream.
(** [D] bytes written so far; at most [F] flush-induced blocks, [G] footers *)
Record I (D F G : N) (l : lz77) (st : writerstate) (w : writer) : Prop := II {
  i_c : exists b ks hd, C (al st) b ks l hd st w /\ hgood hd ks /\
    (b + 8 * lenN (lz_buf l) <= 8 * D + 42 * nblk ks + 8 * (sum (map (header_size op) (hdrs ks)) + footer_size op * nftr ks))%N /\
    (msize * nblk ks + 2 * lenN (lz_buf l) <= 2 * D + msize * F)%N /\ (nftr ks <= G)%N /\ lenN (hdrs ks) = (nftr ks + op1 st)%N;
  i_l : L l }.
Lemma I_le D F G F' G' l st w : I D F G l st w -> (F <= F')%N -> (G <= G')%N -> I D F' G' l st w.
Proof.
  intros [[b [ks [hd [H1 [H2 [H3 [H4 [H5 H6]]]]]]]] HL] LF LG. constructor; auto. exists b, ks, hd. split; auto. split; auto. split; auto.
  split; [|split; [lia|auto]]. assert (msize * F <= msize * F')%N by (apply N.mul_le_mono_l; auto). lia.
Qed.
Lemma I_w D F G l st w : I D F G l st w -> w_lz w = l /\ w_state w = st.
Proof. intros [[b [ks [hd [[] _]]]] _]. auto. Qed.

Lemma I_header D F G l st w : st = noStream \/ st = closedStream -> I D F G l st w ->
  hob (fun w' => exists l', I D F G l' openStream w' /\ lz_buf l' = lz_buf l) (let? w := writeHeader env w in Ok (w_setstate w openStream, true)).
Proof.
  intros Hs [[b [ks [hd [H1 [H2 [H3 [H4 [H5 H6]]]]]]]] HL].
  assert (A : al st = true /\ op1 st = 0%N) by (destruct Hs as [-> | ->]; auto). destruct A as [A1 A2]. rewrite A1 in H1. rewrite A2 in H6.
  eapply hob_bind; [eapply C_header; eauto; apply H2|]. intros x [hd' [l' [G1 [G2 [G3 [G4 G5]]]]]]. cbn [hob]. exists l'. split; auto. constructor; auto.
  eexists _, _, hd'. split; [eapply C_setstate, C_weak; [exact G1|reflexivity]|].
  split. { destruct H2 as [J1 [J2 J3]]. assert (PH hd') by (eapply PHnorm; eauto). split; auto. split; auto. rewrite hdrs_app. apply Forall_app. split; auto. repeat constructor. auto. }
  rewrite nblk_app, nftr_app, hdrs_app, map_app, sum_app, G4.
  change (nblk [evb StreamBeginEvent; (StreamHeaderEvent, Some hd')]) with 0%N. change (nftr [evb StreamBeginEvent; (StreamHeaderEvent, Some hd')]) with 0%N.
  change (hdrs [evb StreamBeginEvent; (StreamHeaderEvent, Some hd')]) with [hd']. cbn [map sum fold_right op1].
  split; [lia|]. split; [lia|]. split; [lia|]. unfold lenN in *. rewrite app_length. cbn [length]. lia.
Qed.

(** compressing, in an open stream *)
Lemma I_compress D F G l w (all : bool) : I D F G l openStream w ->
  hob (fun w' => exists l', I D (if all then if lenN (lz_buf l) <? msize then F + 1 else F else F)%N G l' openStream w' /\
        ((all = true \/ (cap <= lenN (lz_buf l))%N) -> lz_buf l' = []))
    (if isStoreConfig (w_cfg w) then compressStore env w all else compressSlow env w all).
Proof.
  intros [[b [ks [hd [H1 [H2 [H3 [H4 [H5 H6]]]]]]]] HL]. cbn [al op1] in *.
  eapply hob_impl; [eapply C_compress; eauto|]. intros w' [[K|[n [ks' [l' [K1 [[K2 [K3 K3']] [K4 [K5 K6]]]]]]]] [E1 E2]].
  - exists l. split.
    + apply (@I_le D F G _ G); [constructor; [exists b, ks, hd; split; [exact K|]; auto 8|auto]| |reflexivity].
      destruct all; [match goal with |- context [if ?z then _ else _] => destruct z end|]; lia.
    + intros Z. destruct (E1 Z) as [l' [Z1 [Z2 Z3]]]. rewrite (c_lz K) in Z3. subst l'. auto.
  - exists l'. split; auto. constructor; auto. eexists _, _, hd. split; [exact K1|]. split; [apply hgood_app; auto|].
    rewrite nblk_app, nftr_app, hdrs_app, K2, K3, K3', K5, app_nil_r. change (lenN (@nil N)) with 0%N. cbn [op1].
    split; [lia|]. split; [|split; lia].
    destruct all.
    + destruct (N.ltb_spec (lenN (lz_buf l)) msize); lia.
    + destruct (E2 eq_refl) as [K|K].
      * rewrite <- (c_lz K), (c_lz K1), K5 in *. change (lenN (@nil N)) with 0%N in *.
        assert (nblk (ks ++ ks') = nblk ks) by (rewrite <- (c_evs K1), (c_evs K); reflexivity).
        rewrite nblk_app, K2 in H. assert (n = 0%N) by lia. subst n. lia.
      * lia.
Qed.
Lemma I_compressImpl D F G l st w (all : bool) : live st -> I D F G l st w ->
  hob (fun w' => exists l' st', live st' /\ (lz_buf l = [] -> l' = l /\ st' = st) /\ (lz_buf l <> [] -> st' = openStream) /\
        I D (if all then if lenN (lz_buf l) <? msize then F + 1 else F else F)%N G l' st' w' /\
        ((all = true \/ (cap <= lenN (lz_buf l))%N) -> lz_buf l' = []))
    (compressImpl env w all).
Proof.
  intros Hl H. destruct (I_w H) as [E1 E2]. unfold compressImpl. rewrite E1. destruct (lz_buf l) as [|x0 bf] eqn:EB.
  - cbn [hob]. exists l, st. split; auto. split; auto. split; [congruence|]. split; auto. apply (@I_le D F G _ G); [exact H| |reflexivity].
    destruct all; [match goal with |- context [if ?z then _ else _] => destruct z end|]; lia.
  - rewrite <- EB. rewrite E2.
    assert (EQ1 : match st with closingStream => let? w := writeFooter env w in Ok (w_setstate w closedStream, true) | _ => Ok (w, true) end = Ok (w, true)).
    { destruct Hl as [-> | [-> | ->]]; reflexivity. }
    rewrite EQ1. cbn [rbind]. rewrite E2.
    eapply hob_bind with (P := fun w' => exists l', I D F G l' openStream w' /\ lz_buf l' = lz_buf l).
    { destruct Hl as [-> | [-> | ->]].
      - eapply I_header; [|exact H]; auto.
      - cbn [hob]. exists l. auto.
      - eapply I_header; [|exact H]; auto. }
    intros x [l1 [HI EL]]. eapply hob_impl; [eapply I_compress; eauto|]. intros y [l2 [HI2 EL2]]. rewrite EL in *.
    exists l2, openStream. split; [unfold live; auto|]. split; [rewrite EB; discriminate|]. split; [auto|]. split; auto.
Qed.
Lemma I_block D F G l st w fin (m : res (writer * bool)) :
  (forall b ks hd, C false b ks l hd st w -> hob (fun w' => exists x, C fin (b + 42) (ks ++ map evb (BlockBeginEvent :: x ++ [BlockEndEvent])) l hd st w' /\ (x = [] \/ x = [BlockTreesEvent])) m) ->
  st = openStream -> I D F G l st w ->
  hob (fun w' => exists b ks hd, C fin b ks l hd st w' /\ hgood hd ks /\
    (b + 8 * lenN (lz_buf l) <= 8 * D + 42 * nblk ks + 8 * (sum (map (header_size op) (hdrs ks)) + footer_size op * nftr ks))%N /\
    (msize * nblk ks + 2 * lenN (lz_buf l) <= 2 * D + msize * (F + 1))%N /\ (nftr ks <= G)%N /\ lenN (hdrs ks) = (nftr ks + op1 st)%N) m.
Proof.
  intros Hm -> [[b [ks [hd [H1 [H2 [H3 [H4 [H5 H6]]]]]]]] HL]. cbn [al op1] in *.
  eapply hob_impl; [eapply Hm; eauto|]. intros w' [x [K1 K2]]. assert (B : bks 1 (map evb (BlockBeginEvent :: x ++ [BlockEndEvent]))) by (destruct K2 as [-> | ->]; repeat split).
  eexists _, _, hd. split; [exact K1|]. split; [apply hgood_app; auto; apply B|].
  destruct B as [B1 [B2 B3]]. rewrite nblk_app, nftr_app, hdrs_app, B1, B2, B3, app_nil_r. split; [lia|]. split; [lia|]. split; lia.
Qed.
Lemma I_setlz D F G l st w : I D F G l st w -> I D F G (lz_windowClear l) st (set_lz w (lz_windowClear l)).
Proof.
  intros [[b [ks [hd [H1 H2]]]] HL]. constructor; [|destruct HL; constructor; auto]. exists b, ks, hd. split; [|exact H2].
  destruct H1. destruct w. constructor; auto.
Qed.
Lemma C_stop b ks l hd st w : C false b ks l hd st w ->
  hob (fun w' => exists x, C false (b + 42) (ks ++ map evb (BlockBeginEvent :: x ++ [BlockEndEvent])) l hd st w' /\ (x = [] \/ x = [BlockTreesEvent]))
    (writeStaticBlock (bw_writer env) w [makeStopToken] false).
Proof.
  intros H. assert (H0 : C false (N.of_nat (bits_out w)) ks l hd st w) by (destruct H; constructor; auto; reflexivity).
  pose proof (@C_static env Hbpb op [makeStopToken] false _ _ _ _ _ _ _ H0) as HS.
  pose proof (@C21_static_prediction_exact env w [makeStopToken] false Hbpb (c_out H) (c_cnt H)) as P.
  assert (E10 : writeStaticBlock (bitcounter env) 0%N [makeStopToken] false = Ok (10%N, true)).
  { unfold writeStaticBlock. cbn [lastIsStop rev app isStopToken makeStopToken]. cbn [bitcounter bw_bitsWrite bw_event].
    assert (B : forall n, n <= 32 -> (n <=? bitsPerBlock env) = true).
    { intros n Hn. apply Nat.leb_le. unfold bitsPerBlock. destruct Hbpb as [-> | ->]; lia. }
    change (isStopToken makeStopToken) with true. cbn [assertb]. rewrite B by lia. cbn [assertb rbind for_each].
    unfold encodeLLD, bw_writeHC. cbn [bitcounter bw_bitsWrite]. 
    change (symbolLL makeStopToken) with (Ok (Some 256%N, 0, 0%N)). change (symbolD makeStopToken) with (Ok (@None N, 0, 0%N)). cbn [rbind Nat.eqb].
    rewrite B by (vm_compute; lia). cbn [assertb rbind]. vm_compute. reflexivity. }
  destruct P as [[w' ->]|P]; [exact Logic.I|]. rewrite E10 in P. destruct P as [_ [w' [EW [k [P1 P2]]]]]. rewrite EW in *. cbn [hob] in *.
  exists [BlockTreesEvent]. split; auto. destruct HS as [A1 A2 A3 A4 A5 A6 A7 A8 A9 A10]. constructor; auto.
  rewrite P1 in A6 |- *. change (lenN [makeStopToken]) with 1%N in A6.
  assert (K1 : (N.of_nat k < 2 ^ 64)%N) by (eapply N.le_lt_trans with (m := 259%N); [clear - A6; lia|reflexivity]).
  assert (K2 : (N.of_nat k <= 10)%N) by (eapply wrap_le; eauto; reflexivity).
  pose proof (c_bits H). clear - K2 H1. lia.
Qed.
Lemma C_stored0 fin b ks l hd st w : C false b ks l hd st w ->
  hob (fun w' => exists x, C true (b + 42) (ks ++ map evb (BlockBeginEvent :: x ++ [BlockEndEvent])) l hd st w' /\ (x = [] \/ x = [BlockTreesEvent]))
    (writeStoredBlock (bw_writer env) w [] fin).
Proof.
  intros H. eapply hob_impl; [eapply C_stored; [exact Hbpb|apply Forall_nil|exact H]|]. intros w' H'. exists []. split; auto.
  eapply C_le; [exact H'|]. change (lenN (@nil N)) with 0%N. lia.
Qed.
Definition fin1 (ft : flushtype) : N := if is_finish ft then 1%N else 0%N.
Lemma I_guts D F G l w ft : I D F G l openStream w ->
  hob (fun w' => exists l', lz_buf l' = lz_buf l /\ I D (F + 1) G l' (if is_finish ft then closingStream else openStream) w') (flushGuts env w ft).
Proof.
  intros H. destruct ft; cbn [flushGuts is_finish].
  - cbn [hob]. exists l. split; auto. apply (@I_le D F G _ G); auto; lia.
  - eapply hob_impl; [eapply I_block with (fin := false); [intros; apply C_stop; eauto|reflexivity|exact H]|].
    intros w' K. exists l. split; auto. constructor; [exact K|apply (i_l H)].
  - eapply hob_impl; [eapply I_block with (fin := true); [intros; apply C_stored0; eauto|reflexivity|exact H]|].
    intros w' [b [ks [hd [K1 K2]]]]. exists l. split; auto. constructor; [|apply (i_l H)]. exists b, ks, hd. split; auto. cbn [al]. eapply C_weak; [exact K1|reflexivity].
  - eapply hob_bind; [eapply I_block with (fin := true); [intros; apply C_stored0; eauto|reflexivity|exact H]|].
    intros w' [b [ks [hd [K1 K2]]]]. cbn [hob]. exists (lz_windowClear l). split; [reflexivity|]. rewrite (c_lz K1). apply I_setlz.
    constructor; [|apply (i_l H)]. exists b, ks, hd. split; auto. cbn [al]. eapply C_weak; [exact K1|reflexivity].
  - eapply hob_bind; [eapply I_block with (fin := true); [intros; apply C_stored0; eauto|reflexivity|exact H]|].
    intros w' [b [ks [hd [K1 K2]]]]. cbn [hob]. exists (lz_windowClear l). split; [reflexivity|]. rewrite (c_lz K1).
    assert (K3 : I D (F + 1) G l closingStream (w_setstate w' closingStream)).
    { constructor; [|apply (i_l H)]. exists b, ks, hd. split; [eapply C_setstate; exact K1|exact K2]. }
    apply I_setlz in K3. destruct w'. exact K3.
Qed.
Lemma I_footer D F G l w : I D F G l closingStream w ->
  hob (I D F (G + 1) l closedStream) (let? w := writeFooter env w in Ok (w_setstate w closedStream, true)).
Proof.
  intros [[b [ks [hd [H1 [H2 [H3 [H4 [H5 H6]]]]]]]] HL]. cbn [al op1] in *.
  eapply hob_bind; [eapply C_footer; eauto|]. intros x Hx. cbn [hob]. constructor; auto. eexists _, _, hd. split; [eapply C_setstate; exact Hx|]. split; [apply hgood_app; auto|].
  rewrite nblk_app, nftr_app, hdrs_app. change (nblk (map evb [StreamEndEvent; StreamCloseEvent])) with 0%N.
  change (nftr (map evb [StreamEndEvent; StreamCloseEvent])) with 1%N. change (hdrs (map evb [StreamEndEvent; StreamCloseEvent])) with (@nil header).
  rewrite app_nil_r. cbn [op1]. split; [lia|]. split; [lia|]. split; lia.
Qed.
Lemma I_calls D F G l st w a b : I D F G l st w -> I D F G l st (set_calls w a b).
Proof.
  intros [[b' [ks [hd [H1 H2]]]] HL]. constructor; auto. exists b', ks, hd. split; auto. destruct H1. destruct w. constructor; auto.
Qed.
Lemma I_flushImpl D F G l st w ft : live st -> I D F G l st w ->
  hob (fun w' => exists l' st', live st' /\ lz_buf l' = [] /\ (is_finish ft = true -> st' = closedStream) /\ I D (F + 2) (G + fin1 ft) l' st' w') (flushImpl env w ft).
Proof.
  intros Hl H. unfold flushImpl. eapply hob_bind; [eapply I_compressImpl; eauto|]. intros w1 [l1 [st1 [L1 [_ [_ [H1 E1]]]]]].
  apply (@I_le _ _ _ (F + 1) G) in H1; [|match goal with |- context [if ?z then _ else _] => destruct z end; lia|reflexivity].
  specialize (E1 (or_introl eq_refl)). clear H.
  eapply hob_bind with (P := fun w' => exists l' st', live st' /\ lz_buf l' = [] /\ (is_finish ft = true -> st' <> noStream) /\ I D (F + 1) G l' st' w').
  { destruct (is_finish ft) eqn:EF.
    - destruct (I_w H1) as [_ ES]. rewrite ES. destruct L1 as [-> | [-> | ->]].
      + eapply hob_impl; [eapply I_header; [|exact H1]; auto|]. intros x [l' [HI EB]]. exists l', openStream. split; [unfold live; auto|]. split; [congruence|]. split; [discriminate|auto].
      + cbn [hob]. exists l1, openStream. split; [unfold live; auto|]. split; auto. split; [discriminate|auto].
      + cbn [hob]. exists l1, closedStream. split; [unfold live; auto|]. split; auto. split; [discriminate|auto].
    - cbn [hob]. exists l1, st1. split; auto. split; auto. split; [discriminate|auto]. }
  intros w2 [l2 [st2 [L2 [E2 [N2 H2]]]]]. clear w1 l1 st1 L1 H1 E1.
  eapply hob_bind with (P := fun w' => exists l' st', (live st' \/ is_finish ft = true /\ st' = closingStream) /\ (is_finish ft = true -> st' = closingStream \/ st' = closedStream) /\ lz_buf l' = [] /\ I D (F + 2) G l' st' w').
  { destruct (I_w H2) as [_ ES]. rewrite ES. destruct L2 as [-> | [-> | ->]].
    - cbn [hob]. exists l2, noStream. split; [left; unfold live; auto|]. split; [intros Z; exfalso; apply (N2 Z); auto|]. split; auto. apply (@I_le D (F + 1) G _ G); auto; lia.
    - eapply hob_impl; [eapply I_guts; eauto|]. intros x [l' [EB HI]]. exists l', (if is_finish ft then closingStream else openStream).
      split; [destruct (is_finish ft); [right; auto|left; unfold live; auto]|]. split; [intros ->; auto|]. split; [congruence|].
      replace (F + 2)%N with (F + 1 + 1)%N by lia. exact HI.
    - cbn [hob]. exists l2, closedStream. split; [left; unfold live; auto|]. split; [auto|]. split; auto. apply (@I_le D (F + 1) G _ G); auto; lia. }
  intros w3 [l3 [st3 [L3 [N3 [E3 H3]]]]]. clear w2 l2 st2 L2 H2 E2 N2.
  eapply hob_bind with (P := fun w' => exists l' st', live st' /\ lz_buf l' = [] /\ (is_finish ft = true -> st' = closedStream) /\ I D (F + 2) (G + fin1 ft) l' st' w').
  { destruct (I_w H3) as [_ ES]. rewrite ES. destruct L3 as [L3|[EF ->]].
    - assert (EQ : match st3 with closingStream => let? w := writeFooter env w3 in Ok (w_setstate w closedStream, true) | _ => Ok (w3, true) end = Ok (w3, true)).
      { destruct L3 as [-> | [-> | ->]]; reflexivity. }
      rewrite EQ. cbn [hob]. exists l3, st3. split; auto. split; auto. split.
      + intros Z. destruct (N3 Z) as [-> | ->]; auto. destruct L3 as [L3|[L3|L3]]; discriminate.
      + apply (@I_le D (F + 2) G _ _); auto; lia.
    - eapply hob_impl; [eapply I_footer; eauto|]. intros x HX. exists l3, closedStream. split; [unfold live; auto|]. split; auto. split; auto.
      unfold fin1. rewrite EF. exact HX. }
  intros w4 [l4 [st4 [L4 [E4 [N4 H4]]]]]. clear w3 l3 st3 L3 H3 E3 N3.
  destruct (e_flushw env (w_flushes w4)); [exact Logic.I|].
  assert (R : forall a b c d, I D (F + 2) (G + fin1 ft) l4 st4 (set_calls (set_calls w4 a b) c d)) by (intros; apply I_calls, I_calls; auto).
  destruct (e_syncw env _) as [[]|]; try exact Logic.I; cbn [hob]; exists l4, st4; auto.
Qed.
Lemma I_writeLoop fuel : forall D F G l st w buf, live st -> bytes_ok buf -> I D F G l st w ->
  hob (fun w' => exists l' st', live st' /\ I (D + lenN buf) F G l' st' w') (writeLoop env fuel w buf).
Proof.
  induction fuel as [|f IH]; intros D F G l st w buf Hl HB H; cbn [writeLoop]; destruct buf as [|x0 bf] eqn:EB; try exact Logic.I.
  1,2: cbn [hob]; exists l, st; split; auto; change (lenN (@nil N)) with 0%N; rewrite N.add_0_r; auto.
  rewrite <- EB in *. destruct (I_w H) as [E1 E2]. unfold lz_write. rewrite E1. rewrite (lz_cap_eq (i_l H)). cbv zeta.
  set (nn := N.to_nat (N.min (lenN buf) (cap - lenN (lz_buf l)))). set (l' := LZ _ _ _ _).
  assert (LN : (N.of_nat nn = N.min (lenN buf) (cap - lenN (lz_buf l)))%N) by (unfold nn; lia). clearbody nn.
  pose proof (l_cap (i_l H)) as LC.
  assert (SB : bytes_ok (firstn nn buf) /\ bytes_ok (skipn nn buf)) by (apply bytes_ok_app; rewrite firstn_skipn; exact HB).
  assert (FL : length (firstn nn buf) = nn) by (rewrite firstn_length; unfold lenN in LN; lia).
  assert (H1 : I (D + N.of_nat nn) F G l' st (set_lz w l')).
  { destruct H as [[b [ks [hd [K1 [K2 [K3 [K4 [K5 K6]]]]]]]] HL]. constructor.
    - exists b, ks, hd. split; [destruct K1; destruct w; constructor; auto|]. split; auto.
      unfold l'. cbn [lz_buf]. unfold lenN in *. rewrite app_length, FL. split; [lia|]. split; [lia|]. auto.
    - destruct HL as [Q1 Q2 Q3]. constructor; unfold l'; cbn [lz_buf lz_o]; auto.
      + apply bytes_ok_app. split; auto. apply (proj1 SB).
      + unfold lenN in *. rewrite app_length, FL. lia. }
  assert (BL : lenN (lz_buf l') = (lenN (lz_buf l) + N.of_nat nn)%N) by (unfold l', lenN; cbn [lz_buf]; rewrite app_length, FL; lia).
  clearbody l'. eapply hob_bind; [eapply I_compressImpl; eauto|]. intros w2 [l2 [st2 [L2 [_ [_ [H2 _]]]]]].
  assert (FC : (if (Nat.eqb nn 0 || (nn <? length buf))%bool then if (lenN (lz_buf l') <? msize)%N then (F + 1)%N else F else F) = F).
  { destruct (Nat.eqb nn 0 || (nn <? length buf))%bool eqn:EC; auto.
    assert (cap <= lenN (lz_buf l'))%N.
    { rewrite BL. assert (0 < lenN buf)%N by (rewrite EB; reflexivity). unfold lenN in *. apply orb_prop in EC. destruct EC as [EC|EC]; [apply Nat.eqb_eq in EC|apply Nat.ltb_lt in EC]; lia. }
    destruct (N.ltb_spec (lenN (lz_buf l')) msize) as [Z|]; auto. exfalso. unfold PCost2.msize in Z. lia. }
  rewrite FC in H2. eapply hob_impl; [apply (@IH (D + N.of_nat nn)%N F G l2 st2 w2 (skipn nn buf)); [exact L2|apply (proj2 SB)|exact H2]|].
  intros w3 [l3 [st3 [L3 H3]]]. exists l3, st3. split; auto.
  replace (D + lenN buf)%N with (D + N.of_nat nn + lenN (skipn nn buf))%N; auto. unfold lenN in *. rewrite skipn_length. lia.
Qed.
Lemma I_A D F G l st w : live st -> I D F G l st w -> PWFrame.A op false w.
Proof.
  intros Hl [[b [ks [hd [H1 _]]]] HL]. exists st. split; [destruct Hl as [-> | [-> | ->]]; unfold PWFrame.live; auto|]. split.
  - split; [apply (c_opt H1)|]. split; [apply (c_cfg H1)|]. rewrite (c_lz H1). apply (l_o HL).
  - split; [|split; [destruct st; discriminate|split; [apply (c_st H1)|discriminate]]]. destruct (c_out H1) as [_ [O _]]. intros E. rewrite E in O. cbn in O. lia.
Qed.
Definition op_PH (o : wop) : Prop := match o with OSetHeader h => PH h | _ => True end.
Lemma I_step D F G l st w o w' : live st -> op_ok o -> op_PH o -> I D F G l st w -> w_step env w o = Ok (w', None) ->
  exists l' st', live st' /\ I (D + lenN (op_data o)) (F + 2 * flushes [o]) (G + finishes [o]) l' st' w'.
Proof.
  intros Hl Ho HP H E. assert (ES : live (w_state w)) by (destruct (I_w H) as [_ ->]; auto). destruct o as [p|ft|h]; cbn [w_step op_data] in *.
  - unfold w_Write in E. pose proof (@I_writeLoop (2 * length p + 2) D F G l st w p Hl Ho H) as P.
    assert (EQ : exists n, (let* (w, ok) := writeLoop env (2 * length p + 2) w p in
       if ok then Ok (w, (lenN p, None)) else Ok (w, (0%N, werr (w_out w)))) = Ok (w', (n, None)) ).
    { destruct ES as [ES|[ES|ES]]; rewrite ES in E;
      (match type of E with (let* (_, _) := ?m in _) = _ => destruct m as [[x [n e]]| |] end; cbn [rbind] in E; try discriminate; inversion E; subst; eauto). }
    destruct EQ as [n EQ]. destruct (writeLoop env (2 * length p + 2) w p) as [[x []]| |] eqn:EW; cbn [rbind hob] in *; try discriminate.
    + inversion EQ. subst. destruct P as [l' [st' [P1 P2]]]. exists l', st'. split; auto. apply (@I_le _ F G); auto; lia.
    + exfalso. inversion EQ as [[E1 E2]]. subst. pose proof (@PWFrame.a_writeLoop env Hbpb op false (2 * length p + 2) w p (I_A Hl H)) as Q. rewrite EW in Q. cbn [PWFrame.ho] in Q. destruct Q as [_ [_ [_ [_ Q]]]]. auto.
  - unfold w_Flush in E. pose proof (@I_flushImpl D F G l st w ft Hl H) as P.
    assert (EQ : (let* (w, ok) := flushImpl env w ft in if ok then Ok (w, None) else Ok (w, werr (w_out w))) = Ok (w', None)).
    { destruct ES as [ES|[ES|ES]]; rewrite ES in E; exact E. }
    destruct (flushImpl env w ft) as [[x []]| |] eqn:EW; cbn [rbind hob] in *; try discriminate.
    + inversion EQ. subst. destruct P as [l' [st' [P1 [_ [_ P2]]]]]. exists l', st'. split; auto. change (lenN (@nil N)) with 0%N. rewrite N.add_0_r.
      apply (@I_le _ _ _ _ _ _ _ _ P2); [change (flushes [OFlush ft]) with 1%N; lia|]. unfold fin1. destruct ft; reflexivity.
    + exfalso. inversion EQ as [[E1 E2]]. subst. pose proof (@PWFrame.a_flushImpl env Hbpb op false w ft (I_A Hl H)) as Q. rewrite EW in Q. cbn [PWFrame.ho] in Q. destruct Q as [_ [_ [Q _]]]. auto.
  - inversion E. subst. exists l, st. split; auto. change (lenN (@nil N)) with 0%N. rewrite N.add_0_r. apply (@I_le _ F G); try lia.
    unfold w_SetHeader. destruct (Nat.eqb _ 0) eqn:EZ; [|exact H]. apply Nat.eqb_eq in EZ. cbn [fst].
    destruct H as [[b [ks [hd [K1 [K2 K3]]]]] HL]. constructor; auto. exists b, ks, h. split; [destruct K1; destruct w; constructor; auto|]. split; [|exact K3].
    destruct K3 as [K3 _]. split; [split; [exact Ho|exact EZ]|]. split; [exact HP|apply K2].
Qed.
End Cost.
