(** The Writer's methods and the cost of their output (C57). *)
From Verif Require Import Base SpecHuffman MChecksum MToken MCommon MWriter SpecLib SpecEvents SpecSession MSession
  PWriter PBits PActs PropBits PSession PInst SpecCost PCost.

Notation key := (eventtype * option header)%type.
Definition nblk (ks : list key) : N := lenN (filter (fun k => match fst k with BlockBeginEvent => true | _ => false end) ks).
Definition nftr (ks : list key) : N := lenN (filter (fun k => match fst k with StreamEndEvent => true | _ => false end) ks).
Definition hdrs (ks : list key) : list header := flat_map (fun k => match snd k with Some h => [h] | None => [] end) ks.
Lemma nblk_app a b : nblk (a ++ b) = (nblk a + nblk b)%N.
Proof. unfold nblk, lenN. rewrite filter_app, app_length. lia. Qed.
Lemma nftr_app a b : nftr (a ++ b) = (nftr a + nftr b)%N.
Proof. unfold nftr, lenN. rewrite filter_app, app_length. lia. Qed.
Lemma hdrs_app a b : hdrs (a ++ b) = hdrs a ++ hdrs b.
Proof. apply flat_map_app. Qed.
Lemma sum_app a b : sum (a ++ b) = (sum a + sum b)%N.
Proof. unfold sum. induction a as [|x a IH]; cbn [app fold_right]; [reflexivity|]. rewrite IH. lia. Qed.

Section Cost.
Variable env : wenv.
Hypothesis Hbpb : bytesPerBlock env = 4 \/ bytesPerBlock env = 8.
Hypothesis Hhuff : huff_ok env.
Variable op : options.
Hypothesis Hopt : wopt_ok op.
Notation C := (C env op).
Notation store := (isStoreConfig (compressConfig op)).
Definition cap : N := (2 ^ (o_mlevel op + 8))%N.
Definition msize : N := N.min (if store then storedBlockSize else compressedBlockSize) cap.
Lemma cap_le : (512 <= cap <= 131072)%N.
Proof.
  unfold cap. pose proof (wo_mlevel Hopt). change 512%N with (2 ^ 9)%N. change 131072%N with (2 ^ 17)%N.
  split; apply N.pow_le_mono_r; lia.
Qed.
(** only events of blocks, [n] of them opening one *)
Definition bks (n : N) (ks : list key) : Prop := nblk ks = n /\ nftr ks = 0%N /\ hdrs ks = [].
Lemma bks_app n m a b : bks n a -> bks m b -> bks (n + m) (a ++ b).
Proof. intros [A1 [A2 A3]] [B1 [B2 B3]]. unfold bks. rewrite nblk_app, nftr_app, hdrs_app, A1, A2, A3, B1, B2, B3. auto. Qed.

Record L (l : lz77) : Prop := LL { l_o : lz_o l = hybridOptions op; l_bytes : bytes_ok (lz_buf l); l_cap : (lenN (lz_buf l) <= cap)%N }.
Lemma lz_cap_eq l : L l -> lz_cap l = cap.
Proof. intros [E _ _]. unfold lz_cap. rewrite E. unfold hybridOptions, cap. destruct (o_strategy op); reflexivity. Qed.
Lemma C_setlz al b ks l hd st w l' i : C al b ks l hd st w -> C al b ks l' hd st (set_in (set_lz w l') i).
Proof. intros []. destruct w. constructor; auto. Qed.

Lemma C_slowLoop fuel : forall al b ks l hd st w w1 d t, C al b ks l hd st w -> L l -> compressSlowLoop env fuel w = Ok (w1, d, t) ->
  exists l', C al b ks l' hd st w1 /\ L l' /\ lz_buf l' = [] /\ lenN d = lenN (lz_buf l) /\ bytes_ok d /\ (lenN t <= lenN (lz_buf l))%N.
Proof.
  induction fuel as [|f IH]; intros al b ks l hd st w w1 d t H HL; cbn [compressSlowLoop]; rewrite (c_lz H);
    destruct (lz_buf l) as [|x0 bf] eqn:EB; try discriminate;
    try (intros EQ; injection EQ as <- <- <-; exists l; split; [exact H|]; split; [exact HL|]; split; [exact EB|]; split; [reflexivity|]; split; [apply Forall_nil|reflexivity]).
  unfold inputBufferAdvance, lz_take. cbv zeta. rewrite (c_lz H).
  set (m := e_match env _ _ _ _). set (k := match m with Some (_, len) => N.to_nat len | None => 1 end).
  set (l' := LZ _ _ _ _). set (p := firstn k (lz_buf l)). set (w2 := set_in _ _).
  assert (H2 : C al b ks l' hd st w2) by (eapply C_setlz; exact H).
  assert (BP : bytes_ok p /\ bytes_ok (skipn k (lz_buf l))).
  { pose proof (l_bytes HL) as HB. rewrite <- (firstn_skipn k (lz_buf l)) in HB. apply bytes_ok_app in HB. exact HB. }
  assert (LP : (lenN p + lenN (skipn k (lz_buf l)) = lenN (lz_buf l))%N).
  { unfold lenN, p. rewrite firstn_length, skipn_length. lia. }
  assert (HL' : L l').
  { constructor; [exact (l_o HL)|exact (proj2 BP)|]. unfold l'. cbn [lz_buf]. pose proof (l_cap HL). lia. }
  assert (NP : 1 <= k -> (1 <= lenN p)%N).
  { intros K. unfold lenN, p. rewrite EB, firstn_length. cbn [length]. lia. }
  destruct BP as [BP1 BP2]. rewrite <- EB. 
  assert (LB : lz_buf l' = skipn k (lz_buf l)) by reflexivity.
  assert (PS : forall d3 t3 tt dd, (exists l3, C al b ks l3 hd st w1 /\ L l3 /\ lz_buf l3 = [] /\ lenN d3 = lenN (lz_buf l') /\ bytes_ok d3 /\ (lenN t3 <= lenN (lz_buf l'))%N) ->
     dd = p ++ d3 -> 1 <= k -> d = dd -> t = tt :: t3 -> exists l3, C al b ks l3 hd st w1 /\ L l3 /\ lz_buf l3 = [] /\ lenN d = lenN (lz_buf l) /\ bytes_ok d /\ (lenN t <= lenN (lz_buf l))%N).
  { intros d3 t3 tt dd [l3 [G1 [G2 [G3 [G4 [G5 G6]]]]]] -> K -> ->. exists l3. rewrite LB in *. split; auto. split; auto. split; auto.
    specialize (NP K). split; [unfold lenN in *; rewrite app_length; lia|]. split; [apply bytes_ok_app; auto|]. unfold lenN in *. cbn [length]. lia. }
  clearbody w2 l'. destruct m as [[dd len]|] eqn:EM.
  - unfold assertb. destruct (N.leb_spec 3 len) as [L3|L3]; [|discriminate]. destruct (1 <=? dd)%N; [|discriminate].
    destruct (makeCopyToken _ _); cbn [rbind]; try discriminate.
    destruct (compressSlowLoop env f w2) as [[[w3 d3] t3]| |] eqn:E3; cbn [rbind]; try discriminate. intros EQ. inversion EQ; subst w3 d t.
    eapply PS; [eapply IH; eauto|reflexivity| |reflexivity|reflexivity]. unfold k. lia.
  - assert (EP : p = [x0]) by (unfold p, k; rewrite EB; reflexivity). rewrite EP in *.
    destruct (compressSlowLoop env f w2) as [[[w3 d3] t3]| |] eqn:E3; cbn [rbind]; try discriminate. intros EQ. inversion EQ; subst w3 d t.
    eapply PS; [eapply IH; eauto|reflexivity| |reflexivity|reflexivity]. unfold k. lia.
Qed.

(** result of compressing: nothing happened, or everything was consumed *)
Definition squeezed al b ks l hd st (w : writer) : Prop :=
  C al b ks l hd st w \/
  exists n ks' l', C false (b + 8 * lenN (lz_buf l) + 42 * n) (ks ++ ks') l' hd st w /\ bks n ks' /\ L l' /\ lz_buf l' = [] /\
    (msize * n <= lenN (lz_buf l) + msize)%N.

Lemma C_storeLoop fuel : forall b ks l hd st w, C false b ks l hd st w -> L l ->
  hob (fun w' => exists n ks' l', C false (b + 8 * lenN (lz_buf l) + 42 * n) (ks ++ ks') l' hd st w' /\ bks n ks' /\ L l' /\ lz_buf l' = [] /\
    (storedBlockSize * n <= lenN (lz_buf l) + (if lenN (lz_buf l) =? 0 then 0 else storedBlockSize - 1))%N) (compressStoreLoop env fuel w).
Proof.
  induction fuel as [|f IH]; intros b ks l hd st w H HL; cbn [compressStoreLoop]; rewrite (c_lz H);
    destruct (lz_buf l) as [|x0 bf] eqn:EB; try exact I.
  1,2: cbn [hob]; exists 0%N, [], l; rewrite app_nil_r; split; [eapply C_le; [exact H|lia]|]; split; [split; [|split]; reflexivity|]; split; [exact HL|]; split; [exact EB|]; reflexivity.
  rewrite <- EB. unfold inputBufferRead, lz_take. rewrite (c_lz H).
  set (k := N.to_nat storedBlockSize). set (p := firstn k (lz_buf l)). set (l' := LZ _ _ _ _). set (w2 := set_in _ _).
  assert (H2 : C false b ks l' hd st w2) by (eapply C_setlz; exact H).
  assert (BP : bytes_ok p /\ bytes_ok (skipn k (lz_buf l))).
  { pose proof (l_bytes HL) as HB. rewrite <- (firstn_skipn k (lz_buf l)) in HB. apply bytes_ok_app in HB. exact HB. }
  assert (LP : (lenN p + lenN (skipn k (lz_buf l)) = lenN (lz_buf l))%N).
  { unfold lenN, p. rewrite firstn_length, skipn_length. lia. }
  assert (HL' : L l').
  { constructor; [exact (l_o HL)|exact (proj2 BP)|]. unfold l'. cbn [lz_buf]. pose proof (l_cap HL). lia. }
  assert (LB : lz_buf l' = skipn k (lz_buf l)) by reflexivity.
  assert (LS : (lenN (skipn k (lz_buf l)) = lenN (lz_buf l) - storedBlockSize)%N).
  { unfold lenN. rewrite skipn_length. unfold k. lia. }
  assert (NZ : lenN (lz_buf l) <> 0%N) by (rewrite EB; discriminate).
  clearbody w2 l' p k. eapply hob_bind; [eapply C_stored; eauto; apply BP|]. intros x Hx.
  eapply hob_impl; [apply IH; [eapply C_weak; [exact Hx|reflexivity]|exact HL']|].
  intros y [n [ks' [l3 [G1 [G2 [G3 [G4 G5]]]]]]]. rewrite LB in *.
  exists (1 + n)%N, (map evb [BlockBeginEvent; BlockEndEvent] ++ ks'), l3. split.
  { rewrite app_assoc. eapply C_le; [exact G1|]. lia. }
  split; [apply bks_app; auto; repeat split|]. split; auto. split; auto.
  destruct (N.eqb_spec (lenN (lz_buf l)) 0) as [Z|_]; [contradiction|].
  rewrite LS in G5. unfold storedBlockSize in *. destruct (N.eqb_spec (lenN (lz_buf l) - 61440) 0); lia.
Qed.
Lemma C_compress b ks l hd st w all : C false b ks l hd st w -> L l ->
  hob (fun w' => squeezed false b ks l hd st w' /\ ((all = true \/ (cap <= lenN (lz_buf l))%N) -> exists l', L l' /\ lz_buf l' = [] /\ w_lz w' = l') /\
       (all = false -> C false b ks l hd st w' \/ (msize <= lenN (lz_buf l))%N))
    (if isStoreConfig (w_cfg w) then compressStore env w all else compressSlow env w all).
Proof.
  intros H HL. rewrite (c_cfg H). unfold msize. pose proof cap_le as CL. destruct store eqn:ES.
  - unfold compressStore. rewrite (c_lz H). destruct ((lenN (lz_buf l) <? storedBlockSize)%N && negb all && negb (lz_isFull l))%bool eqn:EQ.
    + cbn [hob]. split; [left; exact H|]. apply andb_prop in EQ. destruct EQ as [EQ1 EQ3]. apply andb_prop in EQ1. destruct EQ1 as [EQ1 EQ2].
      split; [|intros _; left; exact H]. intros [->|F]; [discriminate|]. unfold lz_isFull in EQ3. rewrite (lz_cap_eq HL) in EQ3.
      destruct (N.leb_spec cap (lenN (lz_buf l))); [discriminate|lia].
    + eapply hob_impl; [eapply C_storeLoop; eauto|]. intros w' [n [ks' [l' [G1 [G2 [G3 [G4 G5]]]]]]]. split.
      { right. exists n, ks', l'. split; auto. split; auto. split; auto. split; auto. unfold msize. rewrite ES.
        destruct (N.le_ge_cases storedBlockSize cap) as [K|K].
        - rewrite N.min_l by exact K. unfold storedBlockSize in *. destruct (N.eqb_spec (lenN (lz_buf l)) 0); lia.
        - rewrite N.min_r by exact K. assert (N1 : (n <= 1)%N).
          { pose proof (l_cap HL). unfold storedBlockSize in *. destruct (N.eqb_spec (lenN (lz_buf l)) 0); lia. }
          assert (n = 0 \/ n = 1)%N as [-> | ->] by lia; lia. }
      split; [intros _; exists l'; split; auto; split; auto; apply (c_lz G1)|].
      intros ->. right. cbn [negb] in EQ. rewrite andb_true_r in EQ. unfold lz_isFull in EQ. rewrite (lz_cap_eq HL) in EQ.
      destruct (N.ltb_spec (lenN (lz_buf l)) storedBlockSize); destruct (N.leb_spec cap (lenN (lz_buf l))); try discriminate; lia.
  - unfold compressSlow. rewrite (c_lz H). destruct ((lenN (lz_buf l) <? compressedBlockSize)%N && negb all && negb (lz_isFull l))%bool eqn:EQ.
    + cbn [hob]. split; [left; exact H|]. apply andb_prop in EQ. destruct EQ as [EQ1 EQ3]. apply andb_prop in EQ1. destruct EQ1 as [EQ1 EQ2].
      split; [|intros _; left; exact H]. intros [->|F]; [discriminate|]. unfold lz_isFull in EQ3. rewrite (lz_cap_eq HL) in EQ3.
      destruct (N.leb_spec cap (lenN (lz_buf l))); [discriminate|lia].
    + apply hob_let. intros [[w1 d] t] E1. destruct (@C_slowLoop _ _ _ _ _ _ _ _ _ _ _ H HL E1) as [l' [G1 [G2 [G3 [G4 [G5 G6]]]]]].
      eapply hob_impl; [eapply C_tokens; eauto|].
      { pose proof (l_cap HL). unfold lenN in *. rewrite app_length. cbn [length]. lia. }
      intros w' [x [H' Hx]]. split.
      { right. exists 1%N, (map evb (BlockBeginEvent :: x ++ [BlockEndEvent])), l'. rewrite G4 in H'. split; [eapply C_le; [exact H'|lia]|].
        split; [destruct Hx as [-> | ->]; repeat split|]. split; auto. split; auto. lia. }
      split; [intros _; exists l'; split; auto; split; auto; apply (c_lz H')|].
      intros ->. right. cbn [negb] in EQ. rewrite andb_true_r in EQ. unfold lz_isFull in EQ. rewrite (lz_cap_eq HL) in EQ.
      destruct (N.ltb_spec (lenN (lz_buf l)) compressedBlockSize); destruct (N.leb_spec cap (lenN (lz_buf l))); try discriminate; lia.
Qed.

(** ** Headers and footers *)
Lemma C_out al b ks l hd st w : C al b ks l hd st w -> out_ok env (w_out w) /\ counters_ok (w_out w) /\ (al = true -> obLen (w_out w) = 0).
Proof. intros []. auto. Qed.
Lemma C_setout al b ks l hd st w o : C al b ks l hd st w -> out_ok env o -> counters_ok o -> obLen o = obLen (w_out w) -> sink o = sink (w_out w) ->
  wstate o = wstate (w_out w) -> C al b ks l hd st (set_out w o).
Proof.
  intros [A1 A2 A3 A4 A5 A6 A7 A8 A9 A10] B1 B2 B3 B4 B5. destruct w. unfold bits_out, w_state in *. cbn in *.
  constructor; auto; unfold bits_out, w_state; cbn.
  - rewrite B3. auto.
  - rewrite B3, B4. auto.
  - congruence.
Qed.
Lemma extra_size_eq l : l <> [] -> (2 + lenN (extra_bytes l) = extra_size l)%N.
Proof.
  intros H. unfold extra_size. destruct l as [|r l]; [congruence|]. f_equal. generalize (r :: l). clear.
  induction l as [|r l IH]; [reflexivity|]. cbn [fold_right extra_bytes flat_map]. fold (extra_bytes l). rewrite <- IH.
  unfold lenN. rewrite !app_length. cbn [length]. unfold lenN. cbn [length le16 app]. lia.
Qed.
Lemma C_gzip b ks l hd st w : C true b ks l hd st w -> header_ok hd -> o_format op = GZIPFormat ->
  hob (C true (b + 8 * header_size op hd) ks l hd st) (writeHeaderGZIP env w).
Proof.
  intros H [Ht Hk] EF. unfold writeHeaderGZIP. destruct (checked_zero Hbpb Hk) as [Z1 Z2]. cbv zeta. set (w0 := set_out w _).
  assert (H0 : C true b ks l hd st w0).
  { unfold w0. destruct (C_out H) as [O1 [O2 _]]. apply C_setout; auto; destruct (w_out w); auto.
    unfold out_ok in *. cbn in *. intuition reflexivity. }
  clearbody w0. rewrite (c_hdr H0), (c_opt H0). pose proof (gzip_body_ok op Ht) as Hb. unfold gzip_body in Hb.
  apply bytes_ok_app in Hb. destruct Hb as [B1 Hb]. apply bytes_ok_app in Hb. destruct Hb as [B2 Hb]. apply bytes_ok_app in Hb. destruct Hb as [B3 B4].
  assert (E10 : lenN (gzipHeader10 op hd) = 10%N).
  { unfold gzipHeader10, lenN. rewrite !app_length. destruct (h_mtime hd); reflexivity. }
  eapply hob_bind; [apply C_buf; [exact Hbpb|exact H0|exact B1]|]. intros x1 H1.
  eapply hob_bind with (P := C true (b + 80 + 8 * extra_size (h_extra hd)) ks l hd st).
  { rewrite E10 in H1. destruct (h_extra hd) as [|r ls] eqn:EX; [cbn [hob]; eapply C_le; [exact H1|unfold extra_size; lia]|]. rewrite <- EX in *.
    apply bytes_ok_app in B2. destruct B2 as [B2a B2b]. eapply hob_bind; [apply C_buf; [exact Hbpb|exact H1|exact B2a]|]. intros x2 H2.
    eapply hob_impl; [apply C_buf; [exact Hbpb|exact H2|exact B2b]|]. intros x3 H3. eapply C_le; [exact H3|].
    rewrite <- extra_size_eq by congruence. change (lenN (le16 (lenN (extra_bytes (h_extra hd)) mod two16))) with 2%N. clear. lia. }
  intros x2 H2. eapply hob_bind with (P := C true (b + 80 + 8 * extra_size (h_extra hd) + 8 * field_size (h_name hd)) ks l hd st).
  { destruct (h_name hd) as [|c ls] eqn:EX; [cbn [hob]; eapply C_le; [exact H2|unfold field_size; lia]|]. rewrite <- EX in *.
    rewrite writeStringZ_ok by auto. eapply hob_impl; [apply C_buf; [exact Hbpb|exact H2|exact B3]|]. intros x3 H3. eapply C_le; [exact H3|].
    unfold field_size. rewrite EX. rewrite <- EX. unfold lenN. rewrite app_length. cbn [length]. clear. lia. }
  intros x3 H3. eapply hob_bind with (P := C true (b + 80 + 8 * extra_size (h_extra hd) + 8 * field_size (h_name hd) + 8 * field_size (h_comment hd)) ks l hd st).
  { destruct (h_comment hd) as [|c ls] eqn:EX; [cbn [hob]; eapply C_le; [exact H3|unfold field_size; lia]|]. rewrite <- EX in *.
    rewrite writeStringZ_ok by auto. eapply hob_impl; [apply C_buf; [exact Hbpb|exact H3|exact B4]|]. intros x4 H4. eapply C_le; [exact H4|].
    unfold field_size. rewrite EX. rewrite <- EX. unfold lenN. rewrite app_length. cbn [length]. clear. lia. }
  intros x4 H4. eapply hob_impl; [apply C_buf; [exact Hbpb|exact H4|apply le16_bytes]|]. intros x5 H5. eapply C_le; [exact H5|].
  unfold header_size. rewrite EF. match goal with |- context [lenN (le16 ?z)] => change (lenN (le16 z)) with 2%N end. clear. lia.
Qed.
Lemma C_header b ks l hd st w : C true b ks l hd st w -> L l -> header_ok hd ->
  hob (fun w' => exists hd' l', C true (b + 8 * header_size op hd') (ks ++ [evb StreamBeginEvent; (StreamHeaderEvent, Some hd')]) l' hd' st w' /\
        header_ok hd' /\ L l' /\ lz_buf l' = lz_buf l /\ hnorm op hd hd') (writeHeader env w).
Proof.
  intros H HL Hh. rewrite PInv.writeHeader_eq.
  assert (P : exists hd' l', C true b (ks ++ [evb StreamBeginEvent]) l' hd' st (PInv.hdr_prep env w) /\ hnorm op hd hd' /\ L l' /\ lz_buf l' = lz_buf l).
  { destruct H as [A1 A2 A3 A4 A5 A6 A7 A8 A9 A10]. unfold PInv.hdr_prep. destruct w as [o cfg lz [ia ic it is] ou nu h fl sy ev].
    cbn in A1, A2, A3, A4, A5, A6, A7, A8, A9, A10. subst o cfg lz h. cbv zeta. cbn [w_opt set_in set_out set_num set_lz].
    eexists _, _. split; [constructor; cbn [w_opt w_cfg w_out w_lz w_hdr w_events w_in set_in set_out set_num set_lz set_hdr sendEvent add_event]|].
    - destruct (o_dict op); reflexivity.
    - destruct (o_dict op); reflexivity.
    - destruct (o_dict op); cbn; destruct ou; exact A3.
    - destruct A4 as [A4 _]. destruct (o_dict op); cbn; destruct ou; (split; [exact A4|reflexivity]).
    - destruct (o_dict op); cbn; destruct ou; exact A5.
    - destruct (o_dict op); unfold bits_out in *; cbn; destruct ou; exact A6.
    - destruct (o_dict op); cbn [w_events sendEvent add_event set_hdr set_lz w_in w_out w_num w_opt w_hdr w_lz]; rewrite map_app, A7; reflexivity.
    - instantiate (1 := LZ (lz_o l) (match o_dict op with Some d => rev d | None => [] end) (lz_buf l) (lz_calls l)). destruct (o_dict op); reflexivity.
    - reflexivity.
    - destruct (o_dict op); unfold w_state in *; cbn; destruct ou; exact A10.
    - split; [|split; [destruct HL; constructor; auto|reflexivity]].
      destruct (o_dict op); cbn [w_opt w_hdr w_lz set_lz set_hdr sendEvent add_event]; apply PInv.hnorm_of; reflexivity. }
  destruct P as [hd' [l' [P1 [P2 [P3 P4]]]]]. assert (Hh' : header_ok hd') by (eapply hnorm_ok; eauto).
  set (x := PInv.hdr_prep env w) in *. clearbody x.
  eapply hob_bind with (P := C true (b + 8 * header_size op hd') (ks ++ [evb StreamBeginEvent]) l' hd' st).
  - rewrite (c_opt P1). destruct (o_format op) eqn:EF.
    + exact I.
    + cbn [hob]. eapply C_le; [exact P1|lia].
    + unfold writeHeaderZlib. eapply hob_impl; [apply C_buf; [exact Hbpb|exact P1|apply zlib_hdr_ok]|]. intros y Hy. eapply C_le; [exact Hy|].
      assert (EL : lenN (zlibHeaderBytes (w_opt x)) = match o_dict op with Some _ => 6 | None => 2 end%N).
      { rewrite (c_opt P1). unfold zlibHeaderBytes. cbv zeta. unfold lenN. rewrite app_length. destruct (o_dict op); reflexivity. }
      rewrite EL. unfold header_size. rewrite EF. clear. destruct (o_dict op); lia.
    + apply C_gzip; auto.
  - intros y Hy. cbn [hob]. exists hd', l'. split; [|auto]. unfold PInv.hdr_done. cbv zeta.
    pose proof (C_event (ev_header (w_hdr y)) Hy) as HE. rewrite (c_hdr Hy) in HE |- *. rewrite <- app_assoc in HE. cbn [app p_type p_header ev_header] in HE.
    assert (SI : forall z i, C true (b + 8 * header_size op hd') (ks ++ [evb StreamBeginEvent; (StreamHeaderEvent, Some hd')]) l' hd' st z ->
       C true (b + 8 * header_size op hd') (ks ++ [evb StreamBeginEvent; (StreamHeaderEvent, Some hd')]) l' hd' st (set_in z i)).
    { intros z i []. destruct z. constructor; auto. }
    apply SI. exact HE.
Qed.
Lemma C_flush0 b ks l hd st w : C true b ks l hd st w -> hob (C true b ks l hd st) (w_bitsFlush env w).
Proof.
  intros H. unfold w_bitsFlush, on_out, o_bitsFlush. rewrite (c_al H eq_refl). cbn [Nat.eqb rbind hob].
  apply C_setout; auto; apply H.
Qed.
Lemma C_footer b ks l hd st w : C true b ks l hd st w ->
  hob (C true (b + 8 * footer_size op) (ks ++ map evb [StreamEndEvent; StreamCloseEvent]) l hd st) (writeFooter env w).
Proof.
  intros H. unfold writeFooter. eapply hob_bind; [apply C_flush0; exact H|]. intros x1 H1. cbv zeta.
  set (p := ev_footer _ _). pose proof (C_event p H1) as H2. assert (EP : (p_type p, p_header p) = evb StreamEndEvent) by reflexivity. rewrite EP in H2.
  clearbody p. set (x2 := sendEvent x1 p) in *. clearbody x2. eapply hob_bind with (P := C true (b + 8 * footer_size op) (ks ++ [evb StreamEndEvent]) l hd st).
  - unfold footer_size. rewrite (c_opt H2). destruct (o_format op) eqn:EF.
    + exact I.
    + cbn [hob]. eapply C_le; [exact H2|lia].
    + unfold writeFooterZlib. eapply hob_impl; [apply C_buf; [exact Hbpb|exact H2|apply be32_bytes]|]. intros y Hy. eapply C_le; [exact Hy|].
      match goal with |- context [lenN (be32 ?z)] => change (lenN (be32 z)) with 4%N end. clear. cbn match. lia.
    + unfold writeFooterGZIP.
      pose proof (@C_buf env Hbpb _ _ _ _ _ _ _ _ (le32 (inCRC (w_in x1))) H2 (le32_bytes _)) as HA. destruct (w_bufferWrite env x2 _) as [[x3 [|]]| |]; cbn [hob rbind] in *; auto.
      * pose proof (@C_buf env Hbpb _ _ _ _ _ _ _ _ (le32 (inStream (w_in x3) mod two32)) HA (le32_bytes _)) as HC. destruct (w_bufferWrite env x3 _) as [[x4 [|]]| |]; cbn [hob rbind andb] in *; auto.
        eapply C_le; [exact HC|]. repeat match goal with |- context [lenN (le32 ?z)] => change (lenN (le32 z)) with 4%N end. clear; lia.
      * destruct (w_bufferWrite env x3 _) as [[x4 b4]| |]; cbn [hob rbind andb]; auto.
  - intros x3 H3. cbn [hob]. pose proof (C_event (ev_simple StreamCloseEvent) H3) as H4. rewrite <- app_assoc in H4. exact H4.
Qed.
Lemma C_setstate al b ks l hd st w st' : C al b ks l hd st w -> C al b ks l hd st' (w_setstate w st').
Proof. intros [A1 A2 A3 A4 A5 A6 A7 A8 A9 A10]. unfold w_setstate. destruct w as [o cfg lz i ou nu h fl sy ev]. destruct ou. unfold bits_out, w_state in *. constructor; auto. Qed.
End Cost.
