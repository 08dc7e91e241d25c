(** Decoding of blocks by the Reader. *)
From Verif Require Import Base SpecChecksum SpecHuffman SpecDeflate MChecksum PChecksum MToken MCommon MWriter MReader SpecLib PToken PHuffman PBits PGram PInput POutput.

Section Decode.
Variable env : renv.
Hypothesis Hlib : rlib_ok env.
Variable cap win : N.
Hypothesis Hcap : (0 < cap)%N.
Notation ook := (ook cap).
Notation oext := (oext cap).
Definition wlk : list N -> N -> option N := window_lk env win.
Definition racc (sizes : list nat) : Prop := e_acc env sizes = true.
Let Hbpb := rl_bpb Hlib.

(** ** Copies *)
Lemma wlk_pos h d c : wlk h d = Some c -> (1 <= d <= win)%N.
Proof. unfold wlk, window_lk. destruct (N.leb_spec 1 d), (N.leb_spec d win); cbn [andb]; try discriminate. auto. Qed.
Lemma wlk_byte h d c : bytes_ok h -> wlk h d = Some c -> is_byte c.
Proof.
  intros Hh. unfold wlk, window_lk. destruct ((1 <=? d) && (d <=? win))%N; [|discriminate]. destruct (d <=? lenN h)%N.
  - intros E. apply nth_error_In in E. eapply Forall_forall in Hh; eauto.
  - pose proof (rl_far Hlib) as F. destruct (e_far env); [|discriminate]. intros E. inversion E; subst. auto.
Qed.
Lemma wlk_cons h c d : (2 <= d)%N -> (d <= win)%N -> wlk (c :: h) d = wlk h (d - 1).
Proof.
  intros H1 H2. unfold wlk, window_lk. destruct (N.leb_spec 1 d), (N.leb_spec d win), (N.leb_spec 1 (d - 1)), (N.leb_spec (d - 1) win); try lia. cbn [andb].
  unfold lenN. cbn [length]. destruct (N.leb_spec d (N.of_nat (S (length h)))), (N.leb_spec (d - 1) (N.of_nat (length h))); try lia.
  - replace (N.to_nat (d - 1)) with (S (N.to_nat (d - 1 - 1))) by lia. reflexivity.
  - destruct (e_far env); auto. do 2 f_equal. lia.
Qed.
Lemma wlk_down h d c : wlk h d = Some c -> (2 <= d)%N -> exists c', wlk h (d - 1) = Some c'.
Proof.
  intros E H. apply wlk_pos in E as R. unfold wlk, window_lk in *.
  destruct (N.leb_spec 1 d), (N.leb_spec d win), (N.leb_spec 1 (d - 1)), (N.leb_spec (d - 1) win); try lia. cbn [andb] in *.
  destruct (N.leb_spec (d - 1) (lenN h)).
  - destruct (nth_error h (N.to_nat (d - 1 - 1))) eqn:E2; eauto. apply nth_error_None in E2. unfold lenN in *. lia.
  - destruct (N.leb_spec d (lenN h)); [lia|]. destruct (e_far env); [eauto|discriminate].
Qed.
Lemma copy_bytes_app a : forall b h d,
  copy_bytes wlk h d (a + b) = match copy_bytes wlk h d a with Some h' => copy_bytes wlk h' d b | None => None end.
Proof. induction a as [|a IH]; intros b h d; cbn [Nat.add copy_bytes]; auto. destruct (wlk h d); auto. Qed.
Lemma wlk_app q : forall h d, (lenN q < d)%N -> (d <= win)%N -> wlk (rev q ++ h) d = wlk h (d - lenN q).
Proof.
  induction q as [|x q IH]; intros h d H1 H2.
  - cbn. rewrite N.sub_0_r. auto.
  - cbn [rev]. rewrite <- app_assoc. cbn [app]. unfold lenN in H1. cbn [length] in H1.
    rewrite IH by (unfold lenN; lia). unfold lenN. cbn [length]. rewrite wlk_cons by lia. f_equal. lia.
Qed.
Lemma slice_copy k : forall h d q, bytes_ok h -> (k = 0 \/ exists c, wlk h d = Some c) -> (N.of_nat k <= d)%N -> (d + lenN q <= win)%N ->
  exists p, window_slice env win h d k = Some p /\ length p = k /\ bytes_ok p /\
    copy_bytes wlk (rev q ++ h) (d + lenN q) k = Some (rev p ++ rev q ++ h).
Proof.
  induction k as [|k IH]; intros h d q Hh Hc Hk Hw.
  - exists []. cbn. repeat split; auto. constructor.
  - destruct Hc as [Hc|[c Hc]]; [discriminate|]. cbn [window_slice copy_bytes].
    change (window_lk env win h d) with (wlk h d). rewrite Hc.
    rewrite wlk_app by lia. replace (d + lenN q - lenN q)%N with d by lia. rewrite Hc.
    destruct (IH h (d - 1)%N (q ++ [c])) as [p [P1 [P2 [P3 P4]]]]; auto; try lia.
    { destruct k; [left; auto|right]. eapply wlk_down; eauto. lia. }
    { rewrite lenN_app. change (lenN [c]) with 1%N. lia. }
    rewrite P1. exists (c :: p). split; auto. split; [cbn; lia|]. split; [constructor; auto; exact (wlk_byte Hh Hc)|].
    rewrite lenN_app in P4. change (lenN [c]) with 1%N in P4. replace (d - 1 + (lenN q + 1))%N with (d + lenN q)%N in P4 by lia.
    rewrite rev_app_distr in P4. cbn [rev app] in *. rewrite P4. f_equal. rewrite <- app_assoc. reflexivity.
Qed.
Lemma copyLoop_spec n : forall o d, ook o ->
  match copy_bytes wlk (o_hist o) d n with
  | Some h' => exists o' p, copyLoop env cap win o d n = inl o' /\ oext o o' p /\ bytes_ok p /\ h' = rev p ++ o_hist o
  | None => exists o' p, copyLoop env cap win o d n = inr o' /\ oext o o' p /\ bytes_ok p
  end.
Proof.
  induction n as [|n IH]; intros o d H; cbn [copy_bytes copyLoop].
  - exists o, []. split; auto. split; [exists []; apply oext_refl; auto|]. split; auto. constructor.
  - change (window_lk env win (o_hist o) d) with (wlk (o_hist o) d). destruct (wlk (o_hist o) d) as [c|] eqn:E.
    2:{ exists o, []. split; auto. split; [exists []; apply oext_refl; auto|]. constructor. }
    assert (Hc : is_byte c) by exact (wlk_byte (ok_hist H) E).
    assert (Hb : bytes_ok [c]) by (repeat constructor; auto).
    pose proof (writeByte_spec Hcap H Hc) as X. set (o1 := decodeBufferWriteByte cap o c) in *. clearbody o1.
    pose proof (oext_ook H Hb X) as K. assert (EH : o_hist o1 = c :: o_hist o) by (destruct X as [s X]; apply X).
    specialize (IH o1 d K). rewrite EH in IH. destruct (copy_bytes wlk (c :: o_hist o) d n) as [h'|].
    + destruct IH as [o' [p [I1 [I2 [I3 I4]]]]]. exists o', ([c] ++ p). split; auto. split; [eapply oext_trans; eauto|].
      split; [apply bytes_ok_app; auto|]. rewrite I4. cbn. rewrite <- app_assoc. auto.
    + destruct IH as [o' [p [I1 [I2 I3]]]]. exists o', ([c] ++ p). split; auto. split; [eapply oext_trans; eauto|]. apply bytes_ok_app; auto.
Qed.
(** The whole copy of decodeHuffmanBlock. *)
Lemma copy_spec o d len : ook o -> (1 <= len)%N ->
  match copy_bytes wlk (o_hist o) d (N.to_nat len) with
  | Some h' => exists p o1 o' q, window_lookupSlice env win (o_hist o) d len = Some p /\ decodeBufferWrite cap o p = Ok o1 /\
      copyLoop env cap win o1 d (N.to_nat len - length p) = inl o' /\ oext o o' q /\ bytes_ok q /\ h' = rev q ++ o_hist o
  | None => window_lookupSlice env win (o_hist o) d len = None \/
     exists p o1 o' q, window_lookupSlice env win (o_hist o) d len = Some p /\ decodeBufferWrite cap o p = Ok o1 /\
      copyLoop env cap win o1 d (N.to_nat len - length p) = inr o' /\ oext o o' q /\ bytes_ok q
  end.
Proof.
  intros H Hl. unfold window_lookupSlice. change (window_lk env win (o_hist o) d) with (wlk (o_hist o) d).
  destruct (wlk (o_hist o) d) as [c|] eqn:E.
  2:{ replace (N.to_nat len) with (S (N.to_nat (len - 1))) by lia. cbn [copy_bytes]. rewrite E. auto. }
  apply wlk_pos in E as R. set (k := N.to_nat (N.min (e_slice env (o_hist o) d len) (N.min d len))).
  destruct (@slice_copy k (o_hist o) d []) as [p [P1 [P2 [P3 P4]]]].
  { apply H. } { right. eauto. } { unfold k. lia. } { change (lenN []) with 0%N. lia. }
  change (lenN []) with 0%N in P4. cbn [rev app] in P4. rewrite N.add_0_r in P4.
  rewrite P1. destruct (decodeBufferWrite_spec Hcap H P3) as [o1 [W1 W2]].
  pose proof (oext_ook H P3 W2) as K. assert (EH : o_hist o1 = rev p ++ o_hist o) by (destruct W2 as [s X]; apply X).
  assert (Hk : k <= N.to_nat len) by (unfold k; lia). clearbody k.
  pose proof (@copyLoop_spec (N.to_nat len - k) o1 d K) as C. rewrite EH in C.
  assert (EC : copy_bytes wlk (o_hist o) d (N.to_nat len) = copy_bytes wlk (rev p ++ o_hist o) d (N.to_nat len - k)).
  { replace (N.to_nat len) with (k + (N.to_nat len - k)) at 1 by lia. rewrite copy_bytes_app, P4. auto. }
  rewrite EC.
  destruct (copy_bytes wlk (rev p ++ o_hist o) d (N.to_nat len - k)) as [h'|].
  - destruct C as [o' [q [C1 [C2 [C3 C4]]]]]. exists p, o1, o', (p ++ q). split; auto. split; auto. rewrite P2. split; auto.
    split; [eapply oext_trans; eauto|]. split; [apply bytes_ok_app; auto|]. rewrite C4, rev_app_distr, <- app_assoc. auto.
  - destruct C as [o' [q [C1 [C2 C3]]]]. right. exists p, o1, o', (p ++ q). split; auto. split; auto. rewrite P2. split; auto.
    split; [eapply oext_trans; eauto|]. apply bytes_ok_app; auto.
Qed.

(** ** Failures *)
Definition eof_is_error (e : goerr) : goerr := match e with EOF => ErrUnexpectedEOF | _ => e end.
Definition is_corrupt (e : goerr) : Prop := exists a b c, e = CorruptInputError a b c.
Definition fail_err (iend e : goerr) : Prop := is_corrupt e \/ e = eof_is_error iend.
Definition irel (i i' : ist) : Prop := exists q, iext i i' q.
Lemma irel_refl i : iok i -> irel i i. Proof. exists []. apply iext_refl; auto. Qed.
Lemma irel_trans i i1 i2 : iok i -> irel i i1 -> irel i1 i2 -> irel i i2.
Proof. intros H [p A] [q B]. exists (p ++ q). eapply iext_trans; eauto. Qed.
Lemma irel_iok i i' : iok i -> irel i i' -> iok i'.
Proof. intros H [q X]. apply (iext_iok H X). Qed.
Lemma irel_end i i' : irel i i' -> i_end i' = i_end i.
Proof. intros [q X]. apply X. Qed.

(** [p] was produced, then the error [e] was reported. *)
Definition dfail (d d' : dst) (p : list N) (e : goerr) : Prop :=
  irel (d_in d) (d_in d') /\ bytes_ok p /\ fail_err (i_end (d_in d)) e /\
  exists o1, oext (d_out d) o1 p /\ d_out d' = closeWithError o1 e.
(** How the end of the input (or its failure) inside a block is reported. *)
Definition degenerate (c : corruption) : Prop := c = CDegenerateLL \/ c = CDegenerateD \/ c = CDegenerateX.
Definition trunc_err (iend e : goerr) : Prop := e = eof_is_error iend \/ exists a b c, e = CorruptInputError a b c /\ degenerate c.
Definition Trunc (i' : ist) (iend e : goerr) : Prop := i_all i' = [] /\ i_err i' = Some iend /\ trunc_err iend e.
(** No completion of the input is a [P], unless the input has ended too early. *)
Definition FailP {A} (P : list bool -> A -> Prop) (bits : list bool) (i' : ist) (iend e : goerr) : Prop :=
  forall x w r a, P w a -> bits ++ x = w ++ r -> length bits < length w /\ Trunc i' iend e.
(** Moreover [p] is then a prefix of what it encodes. *)
Definition Fail (P : list bool -> list N -> Prop) (bits : list bool) (hist : list N) (i' : ist) (iend : goerr) (p : list N) (e : goerr) : Prop :=
  forall x w r h', P w h' -> bits ++ x = w ++ r ->
    length bits < length w /\ Trunc i' iend e /\ exists q, h' = rev q ++ rev p ++ hist.

Definition corr (i : ist) (c : corruption) : goerr := CorruptInputError (i_total i) (i_stream i) c.
Lemma dfail_corrupt d i o c p : iok (d_in d) -> irel (d_in d) i -> oext (d_out d) o p -> bytes_ok p -> dfail d (corruptf (DST i o) c) p (corr i c).
Proof.
  intros H X O B. split; auto. split; auto. split; [left; red; unfold corr; eauto|]. exists o. split; auto.
Qed.
Lemma dfail_propagate d i o p : iok (d_in d) -> irel (d_in d) i -> i_err i = Some (i_end (d_in d)) ->
  oext (d_out d) o p -> bytes_ok p -> dfail d (propagateError (DST i o) true) p (eof_is_error (i_end (d_in d))).
Proof.
  intros H X E O B. unfold propagateError. cbn [d_in d_out]. rewrite E. split; auto. split; auto. split; [right; auto|].
  exists o. split; [auto|]. unfold eof_is_error. destruct (i_end (d_in d)); reflexivity.
Qed.
Lemma trunc_eof i iend : i_all i = [] -> i_err i = Some iend -> Trunc i iend (eof_is_error iend).
Proof. intros A B. split; auto. split; auto. left; auto. Qed.
Lemma trunc_deg i i' iend c : i_all i = [] -> i_err i = Some iend -> degenerate c -> Trunc i iend (corr i' c).
Proof. intros A B C. split; auto. split; auto. right. unfold corr. eauto 6. Qed.
Lemma oext_refl_ o : ook o -> oext o o []. Proof. intros H. exists []. apply oext_refl; auto. Qed.
Lemma dfail_trans d d1 d' p q e : iok (d_in d) -> ook (d_out d) -> irel (d_in d) (d_in d1) -> oext (d_out d) (d_out d1) p -> bytes_ok p ->
  dfail d1 d' q e -> dfail d d' (p ++ q) e.
Proof.
  intros H HO X O B [F1 [F2 [F5 [o1 [F3 F4]]]]]. split; [eapply irel_trans; eauto|]. split; [apply bytes_ok_app; auto|].
  split; [now rewrite (irel_end X) in F5|]. exists o1. split; [eapply oext_trans; eauto|]. auto.
Qed.

(** ** Length and distance symbols *)
Lemma decodeLL_spec d s : iok (d_in d) -> bok (d_in d) -> ibl (d_in d) < 8 -> (257 <= s)%N ->
  exists d' t, decodeLL env d s = Ok (d', t) /\ irel (d_in d) (d_in d') /\
  match t with
  | Some t => d_out d' = d_out d /\ bok (d_in d') /\ ibl (d_in d') < 8 /\ exists lb ln e, len_entry s = Some (lb, ln) /\ (e < 2 ^ N.of_nat ln)%N /\
      av (d_in d) = bits_of_N ln e ++ av (d_in d') /\ t = Token (lb + e) 1
  | None => (len_entry s = None /\ d' = corruptf d CBadLL) \/
      exists lb ln i, len_entry s = Some (lb, ln) /\ length (av (d_in d)) < ln /\ irel (d_in d) i /\ i_all i = [] /\
        i_err i = Some (i_end (d_in d)) /\ d' = propagateError (DST i (d_out d)) true
  end.
Proof.
  intros H HB H8 Hs. unfold decodeLL. destruct (N.ltb_spec s 256); [lia|]. destruct (N.eqb_spec s 256); [lia|].
  rewrite decodeLL_entry_spec by auto. destruct (len_entry s) as [[lb ln]|] eqn:E.
  2:{ exists (corruptf d CBadLL), None. split; auto. split; [apply irel_refl; auto|]. auto. }
  destruct (len_entry_range E) as [R1 [R2 [R3 R4]]].
  assert (MK : forall e, (e < 2 ^ N.of_nat ln)%N -> makeCopyToken (lb + e) 1 = Ok (Token (lb + e) 1)).
  { intros e He. unfold makeCopyToken, assertb. destruct (N.leb_spec 3 (lb + e)), (N.leb_spec (lb + e) 258); try lia. reflexivity. }
  destruct (Nat.eqb_spec ln 0) as [->|Hn].
  - replace lb with (lb + 0)%N by lia. rewrite MK by reflexivity. cbn [rbind]. rewrite N.add_0_r. exists d, (Some (Token lb 1)). split; auto.
    split; [apply irel_refl; auto|]. repeat split; auto. exists lb, 0, 0%N. repeat split; auto. now rewrite N.add_0_r.
  - destruct (getBits_spec Hbpb H HB H8 (n := ln)) as [i [out [G1 [G2 [G3 G4]]]]]; [destruct (r_bits_cases Hbpb); lia|].
    rewrite G1. cbn [rbind]. destruct out as [e|].
    + destruct G4 as [G4 [G5 G6]]. rewrite (MK _ G5). cbn [rbind]. eexists; eexists; split; [reflexivity|]. cbn [d_in d_out].
      split; auto. repeat split; auto. exists lb, ln, e. auto.
    + destruct G4 as [G4 [G5 G6]]. eexists; eexists; split; [reflexivity|]. split.
      { unfold propagateError. cbn [d_in]. rewrite G6. auto. }
      right. exists lb, ln, i. repeat split; auto.
Qed.
Lemma decodeD_spec d s len : iok (d_in d) -> bok (d_in d) -> ibl (d_in d) < 8 -> (3 <= len <= 258)%N ->
  exists d' t, decodeD env d s len = Ok (d', t) /\ irel (d_in d) (d_in d') /\
  match t with
  | Some t => d_out d' = d_out d /\ bok (d_in d') /\ ibl (d_in d') < 8 /\ exists lb ln e, dist_entry s = Some (lb, ln) /\ (e < 2 ^ N.of_nat ln)%N /\
      av (d_in d) = bits_of_N ln e ++ av (d_in d') /\ t = Token len (lb + e)
  | None => (dist_entry s = None /\ d' = corruptf d CBadD) \/
      exists lb ln i, dist_entry s = Some (lb, ln) /\ length (av (d_in d)) < ln /\ irel (d_in d) i /\ i_all i = [] /\
        i_err i = Some (i_end (d_in d)) /\ d' = propagateError (DST i (d_out d)) true
  end.
Proof.
  intros H HB H8 Hs. unfold decodeD.
  rewrite decodeD_entry_spec by auto. destruct (dist_entry s) as [[lb ln]|] eqn:E.
  2:{ exists (corruptf d CBadD), None. split; auto. split; [apply irel_refl; auto|]. auto. }
  destruct (dist_entry_range E) as [R1 [R2 [R3 R4]]].
  assert (MK : forall e, (e < 2 ^ N.of_nat ln)%N -> makeCopyToken len ((lb + e) mod two16) = Ok (Token len (lb + e))).
  { intros e He. rewrite N.mod_small by (unfold two16; lia). unfold makeCopyToken, assertb. destruct (N.leb_spec 3 len), (N.leb_spec len 258); try lia.
    destruct (N.leb_spec 1 (lb + e)), (N.leb_spec (lb + e) 32768); try lia. reflexivity. }
  destruct (Nat.eqb_spec ln 0) as [->|Hn].
  - replace lb with (lb + 0)%N by lia. rewrite MK by reflexivity. cbn [rbind]. rewrite N.add_0_r. exists d, (Some (Token len lb)). split; auto.
    split; [apply irel_refl; auto|]. repeat split; auto. exists lb, 0, 0%N. repeat split; auto. now rewrite N.add_0_r.
  - destruct (getBits_spec Hbpb H HB H8 (n := ln)) as [i [out [G1 [G2 [G3 G4]]]]]; [destruct (r_bits_cases Hbpb); lia|].
    rewrite G1. cbn [rbind]. destruct out as [e|].
    + destruct G4 as [G4 [G5 G6]]. rewrite (MK _ G5). cbn [rbind]. eexists; eexists; split; [reflexivity|]. cbn [d_in d_out].
      split; auto. repeat split; auto. exists lb, ln, e. auto.
    + destruct G4 as [G4 [G5 G6]]. eexists; eexists; split; [reflexivity|]. split.
      { unfold propagateError. cbn [d_in]. rewrite G6. auto. }
      right. exists lb, ln, i. repeat split; auto.
Qed.

(** ** The symbols of a block *)
Section Huff.
Variables sll sd : list nat.
Hypothesis Hll : sizes_le 15 sll.
Hypothesis Hllk : not_oversubscribed sll.
Hypothesis Hd : sizes_le 15 sd.
Hypothesis Hdk : not_oversubscribed sd.
Definition Data (hist : list N) (w : list bool) (h' : list N) : Prop :=
  exists ts, TokensEnc sll sd ts w /\ expand wlk hist ts = Some h'.

Lemma huffLoop_spec : forall fuel d, iok (d_in d) -> bok (d_in d) -> ibl (d_in d) < 8 -> ook (d_out d) -> length (av (d_in d)) < fuel ->
  exists d' ok, huffLoop env cap win fuel (mk_decoder sll) (mk_decoder sd) d = Ok (d', ok) /\
  if ok : bool then irel (d_in d) (d_in d') /\ bok (d_in d') /\ ibl (d_in d') < 8 /\
    exists w p, Data (o_hist (d_out d)) w (rev p ++ o_hist (d_out d)) /\ av (d_in d) = w ++ av (d_in d') /\
      oext (d_out d) (d_out d') p /\ bytes_ok p
  else exists p e, dfail d d' p e /\ Fail (Data (o_hist (d_out d))) (av (d_in d)) (o_hist (d_out d)) (d_in d') (i_end (d_in d)) p e.
Proof.
  induction fuel as [|f IH]; intros d H HB H8 HO Hf; [lia|]. cbn [huffLoop].
  destruct (readSymbol_spec Hbpb Hll Hllk H HB H8) as [i1 [sym [E1 [X1 [B1 R1]]]]]. rewrite E1. cbn [rbind].
  assert (HN : bytes_ok []) by constructor. pose proof (oext_refl_ HO) as O0.
  pose proof (irel_iok H X1) as K1.
  destruct sym as [s|].
  2:{ (* no symbol *)
    eexists; exists false; split; [reflexivity|]. exists []; eexists; split; [apply dfail_corrupt; auto|].
    intros x w r h' [ts [P1 P2]] EA. destruct (parse_any P1) as [s [wl [wr [Q1 Q2]]]]. subst w. rewrite <- app_assoc in EA.
    destruct R1 as [[R1 [R2 R3]]|R1]; [|exfalso; eapply R1; eauto].
    specialize (R3 _ _ _ _ Q1 EA). rewrite app_length. split; [lia|]. split; [apply trunc_deg; auto; left; auto|].
    destruct (expand_ext P2) as [q ->]. exists q. auto. }
  destruct R1 as [L1 [w0 [C0 A0]]].
  pose proof (HasCode_length Hll C0) as LW0.
  assert (LA : length (av i1) < f) by (rewrite A0, app_length in Hf; lia).
  destruct (N.lt_trichotomy s 256) as [Hs|[Hs|Hs]].
  - (* literal *)
    unfold decodeLL. destruct (N.ltb_spec s 256); [|lia]. cbn [rbind makeLiteralToken tdist lol d_in d_out].
    change (0 =? 0)%N with true. cbn [rbind]. destruct (N.leb_spec 256 s); [lia|].
    assert (Hb : bytes_ok [s]) by (repeat constructor; exact Hs).
    pose proof (writeByte_spec Hcap HO Hs) as W. set (o1 := decodeBufferWriteByte cap (d_out d) s) in *. clearbody o1.
    pose proof (oext_ook HO Hb W) as KO. assert (EH : o_hist o1 = s :: o_hist (d_out d)) by (destruct W as [q W]; apply W).
    destruct (IH (DST i1 o1)) as [d' [ok [E2 R]]]; auto. cbn [d_in d_out] in *. exists d', ok. split; auto. rewrite EH in R.
    destruct ok.
    + destruct R as [R1 [R2 [R3 [w [p [[ts [T1 T2]] [R4 [R5 R6]]]]]]]]. split; [eapply irel_trans; eauto|]. split; auto. split; auto.
      exists (w0 ++ w), (s :: p). split.
      { exists (TLit s :: ts). split; [constructor; auto; constructor; auto|]. cbn [expand rev]. rewrite T2, <- app_assoc. auto. }
      split; [rewrite A0, R4, app_assoc; auto|]. split; [change (s :: p) with ([s] ++ p); eapply oext_trans; eauto|]. constructor; auto.
    + destruct R as [p [e [R1 R2]]]. exists ([s] ++ p), e. split; [eapply dfail_trans; [..|exact R1]; auto|].
      intros x w r h' [ts [P1 P2]] EA. rewrite A0 in EA. destruct (parse_lit Hll Hllk C0 Hs P1 EA) as [ts' [ws [-> [-> [Q1 Q2]]]]].
      cbn [expand] in P2. rewrite A0, !app_length.
      destruct (R2 x ws r h') as [Z1 [Z2 [q Z4]]]; [exists ts'; auto|auto|].
      split; [lia|]. split; [rewrite (irel_end X1) in Z2; auto|]. exists q. rewrite Z4. cbn. rewrite <- app_assoc. auto.
  - (* end of block *)
    subst s. cbn [rbind makeStopToken tdist lol d_in d_out decodeLL].
    eexists; exists true; split; [reflexivity|]. cbn [d_in d_out]. split; auto. split; auto. split; auto. exists w0, []. split.
    { exists []. split; [constructor; auto|auto]. }
    auto.
  - (* copy *)
    destruct (@decodeLL_spec (DST i1 (d_out d)) s) as [d2 [t [E2 [X2 R2]]]]; auto; [cbn [d_in]; lia|]. rewrite E2. cbn [rbind].
    cbn [d_in d_out] in *.
    assert (X12 : irel (d_in d) (d_in d2)) by exact (irel_trans H X1 X2).
    pose proof (irel_iok H X12) as K2.
    destruct t as [t|].
    2:{ (* bad length symbol *)
      eexists; exists false; split; [reflexivity|]. exists [].
      destruct R2 as [[R2 ->]|[lb [ln [i [R2 [R3 [R4 [R5 [R6 ->]]]]]]]]].
      - eexists; split; [destruct d as [i0 o0]; apply dfail_corrupt; auto|]. intros x w r h' [ts [P1 P2]] EA. rewrite A0 in EA.
        destruct (parse_copy Hll Hllk C0 ltac:(lia) P1 EA) as [lb [ln [e [t' [db [dn [ff [wd [ts' [ws [_ [Q _]]]]]]]]]]]]. congruence.
      - assert (X3 : irel (d_in d) i) by exact (irel_trans H X1 R4). rewrite (irel_end X1) in R6.
        eexists; split; [apply dfail_propagate; auto|].
        intros x w r h' [ts [P1 P2]] EA. rewrite A0 in EA.
        destruct (parse_copy Hll Hllk C0 ltac:(lia) P1 EA) as [lb' [ln' [e [t' [db [dn [ff [wd [ts' [ws [_ [Q [_ [_ [_ [_ [-> _]]]]]]]]]]]]]]]]].
        rewrite R2 in Q. inversion Q; subst lb' ln'. rewrite A0, !app_length, length_bits_of_N. split; [lia|].
        unfold propagateError. cbn [d_in]. rewrite R6. cbn [d_in]. split; [apply trunc_eof; auto|].
        destruct (expand_ext P2) as [q ->]. exists q. auto. }
    destruct R2 as [O2 [B2 [L2 [lb [ln [e [LE [He [A2 ->]]]]]]]]]. cbn [tdist lol].
    change (1 =? 0)%N with false. cbn match.
    destruct (len_entry_range LE) as [_ [_ [Rl1 Rl2]]].
    destruct (readSymbol_spec Hbpb Hd Hdk K2 B2 L2) as [i3 [sym [E3 [X3 [B3 R3]]]]]. rewrite E3. cbn [rbind].
    assert (X13 : irel (d_in d) i3) by exact (irel_trans H X12 X3). rewrite O2.
    pose proof (irel_iok H X13) as K3. pose proof (irel_end X12) as EN2. rewrite EN2 in R3.
    assert (AA : av (d_in d) = w0 ++ bits_of_N ln e ++ av (d_in d2)) by (rewrite A0, A2; auto).
    assert (PC : forall x ts w r, TokensEnc sll sd ts w -> av (d_in d) ++ x = w ++ r ->
      exists t db dn ff wd ts' ws, ts = TCopy (lb + e) (db + ff) :: ts' /\ dist_entry t = Some (db, dn) /\ HasCode sd t wd /\
       (ff < 2 ^ N.of_nat dn)%N /\ w = w0 ++ bits_of_N ln e ++ wd ++ bits_of_N dn ff ++ ws /\ TokensEnc sll sd ts' ws /\
       av (d_in d2) ++ x = wd ++ bits_of_N dn ff ++ ws ++ r).
    { intros x ts w r P1 EA. rewrite A0 in EA.
      destruct (parse_copy Hll Hllk C0 ltac:(lia) P1 EA) as [lb' [ln' [e' [t' [db [dn [ff [wd [ts' [ws [-> [Q1 [Q2 [Q3 [Q4 [Q5 [-> [Q6 Q7]]]]]]]]]]]]]]]]]].
      rewrite LE in Q1. inversion Q1; subst lb' ln'. rewrite A2, <- app_assoc in Q7. apply bits_app_inj in Q7; auto. destruct Q7 as [<- Q7].
      exists t', db, dn, ff, wd, ts', ws. repeat split; auto; apply Q4. }
    destruct sym as [s'|].
    2:{ (* no distance symbol *)
      eexists; exists false; split; [reflexivity|]. exists []; eexists; split; [apply dfail_corrupt; auto|].
      intros x w r h' [ts [P1 P2]] EA. destruct (PC _ _ _ _ P1 EA) as [t' [db [dn [ff [wd [ts' [ws [-> [Q1 [Q2 [Q3 [-> [Q4 Q5]]]]]]]]]]]]].
      destruct R3 as [[R3 [R4 R5]]|R3]; [|exfalso; eapply R3; eauto].
      specialize (R5 _ _ _ _ Q2 Q5). rewrite AA, !app_length, !length_bits_of_N. split; [lia|]. split; [apply trunc_deg; auto; right; left; auto|].
      destruct (expand_ext P2) as [q ->]. exists q. auto. }
    destruct R3 as [L3 [w3 [C3 A3]]].
    destruct (@decodeD_spec (DST i3 (d_out d)) s' (lb + e)%N) as [d4 [t4 [E4 [X4 R4]]]]; auto; [cbn [d_in]; lia|]. rewrite E4. cbn [rbind].
    cbn [d_in d_out] in *. assert (X14 : irel (d_in d) (d_in d4)) by exact (irel_trans H X13 X4).
    assert (PD : forall x ts w r, TokensEnc sll sd ts w -> av (d_in d) ++ x = w ++ r ->
      exists db dn ff ts' ws, ts = TCopy (lb + e) (db + ff) :: ts' /\ dist_entry s' = Some (db, dn) /\
       (ff < 2 ^ N.of_nat dn)%N /\ w = w0 ++ bits_of_N ln e ++ w3 ++ bits_of_N dn ff ++ ws /\ TokensEnc sll sd ts' ws /\
       av i3 ++ x = bits_of_N dn ff ++ ws ++ r).
    { intros x ts w r P1 EA. destruct (PC _ _ _ _ P1 EA) as [t' [db [dn [ff [wd [ts' [ws [-> [Q1 [Q2 [Q3 [-> [Q4 Q5]]]]]]]]]]]]].
      rewrite A3, <- app_assoc in Q5. destruct (code_inj Hd Hdk C3 Q2 Q5) as [<- [<- Q6]]. exists db, dn, ff, ts', ws. auto 10. }
    destruct t4 as [t4|].
    2:{ (* bad distance symbol *)
      eexists; exists false; split; [reflexivity|]. exists [].
      destruct R4 as [[R4 ->]|[db' [dn' [i [R4 [R5 [R6 [R7 [R8 ->]]]]]]]]].
      - eexists; split; [destruct d as [i0 o0]; apply dfail_corrupt; auto|]. intros x w r h' [ts [P1 P2]] EA.
        destruct (PD _ _ _ _ P1 EA) as [db [dn [ff [ts' [ws [-> [Q1 _]]]]]]]. congruence.
      - assert (X5 : irel (d_in d) i) by exact (irel_trans H X13 R6). rewrite (irel_end X13) in R8.
        eexists; split; [apply dfail_propagate; auto|].
        intros x w r h' [ts [P1 P2]] EA.
        destruct (PD _ _ _ _ P1 EA) as [db [dn [ff [ts' [ws [-> [Q1 [Q2 [-> [Q3 Q4]]]]]]]]]].
        rewrite R4 in Q1. inversion Q1; subst db' dn'. rewrite AA, A3, !app_length, !length_bits_of_N. split; [lia|].
        unfold propagateError. cbn [d_in]. rewrite R8. cbn [d_in]. split; [apply trunc_eof; auto|].
        destruct (expand_ext P2) as [q ->]. exists q. auto. }
    destruct R4 as [O4 [B4 [L4 [db [dn [ff [DE [Hff [A4 ->]]]]]]]]]. cbn [tdist lol]. rewrite O4.
    pose proof (irel_iok H X14) as K4.
    assert (AB : av (d_in d) = w0 ++ bits_of_N ln e ++ w3 ++ bits_of_N dn ff ++ av (d_in d4)) by (rewrite AA, A3, A4; auto).
    assert (PT : forall x ts w r, TokensEnc sll sd ts w -> av (d_in d) ++ x = w ++ r ->
      exists ts' ws, ts = TCopy (lb + e) (db + ff) :: ts' /\ w = w0 ++ bits_of_N ln e ++ w3 ++ bits_of_N dn ff ++ ws /\ TokensEnc sll sd ts' ws /\
       av (d_in d4) ++ x = ws ++ r).
    { intros x ts w r P1 EA. destruct (PD _ _ _ _ P1 EA) as [db' [dn' [ff' [ts' [ws [-> [Q1 [Q2 [-> [Q3 Q4]]]]]]]]]].
      rewrite DE in Q1. inversion Q1; subst db' dn'. rewrite A4, <- app_assoc in Q4. apply bits_app_inj in Q4; auto. destruct Q4 as [<- Q4].
      exists ts', ws. auto. }
    pose proof (@copy_spec (d_out d) (db + ff)%N (lb + e)%N HO ltac:(lia)) as CS.
    destruct (copy_bytes wlk (o_hist (d_out d)) (db + ff) (N.to_nat (lb + e))) as [h1|] eqn:EC.
    2:{ (* bad distance *)
      assert (NO : forall p i' e', Fail (Data (o_hist (d_out d))) (av (d_in d)) (o_hist (d_out d)) i' (i_end (d_in d)) p e').
      { intros p i' e' x w r h' [ts [P1 P2]] EA. destruct (PT _ _ _ _ P1 EA) as [ts' [ws [-> _]]]. cbn [expand] in P2. rewrite EC in P2. discriminate. }
      destruct CS as [CS|[p [o1 [o' [q [CS1 [CS2 [CS3 [CS4 CS5]]]]]]]]].
      - rewrite CS. eexists; exists false; split; [reflexivity|]. exists [], (corr (d_in d4) CDistance). split; [|apply NO].
        destruct d4 as [i4 o4]. cbn in O4. subst o4. apply dfail_corrupt; auto.
      - rewrite CS1. rewrite CS2. cbn [rbind]. rewrite CS3. eexists; exists false; split; [reflexivity|]. exists q; eexists; split; [apply dfail_corrupt; auto|apply NO]. }
    destruct CS as [p [o1 [o' [q [CS1 [CS2 [CS3 [CS4 [CS5 CS6]]]]]]]]]. rewrite CS1. rewrite CS2. cbn [rbind]. rewrite CS3.
    pose proof (oext_ook HO CS5 CS4) as KO. assert (EH : o_hist o' = h1) by (destruct CS4 as [? CS4]; rewrite CS6; apply CS4).
    assert (LA4 : length (av (d_in d4)) < f) by (rewrite AB, !app_length in Hf; lia).
    destruct (IH (DST (d_in d4) o')) as [d' [ok [E5 R]]]; auto. cbn [d_in d_out] in *. exists d', ok. split; auto. rewrite EH in R.
    destruct ok.
    + destruct R as [R1 [R2 [R3 [w [p' [[ts [T1 T2]] [R5 [R6 R7]]]]]]]]. split; [eapply irel_trans; eauto|]. split; auto. split; auto.
      exists ((w0 ++ bits_of_N ln e ++ w3 ++ bits_of_N dn ff) ++ w), (q ++ p'). split.
      { exists (TCopy (lb + e) (db + ff) :: ts). split.
        - constructor; auto. econstructor; eauto.
        - cbn [expand]. rewrite EC, T2, CS6, rev_app_distr, <- app_assoc. auto. }
      split; [rewrite AB, R5, <- !app_assoc; auto|]. split; [eapply oext_trans; eauto|]. apply bytes_ok_app; auto.
    + destruct R as [p' [e' [R1 R2]]]. exists (q ++ p'), e'. split; [eapply dfail_trans; [..|exact R1]; auto|].
      intros x w r h' [ts [P1 P2]] EA. destruct (PT _ _ _ _ P1 EA) as [ts' [ws [-> [-> [Q3 Q4]]]]].
      cbn [expand] in P2. rewrite EC in P2. rewrite AB, !app_length.
      destruct (R2 x ws r h') as [Z1 [Z2 [q' Z4]]]; [exists ts'; auto|auto|].
      split; [lia|]. split; [rewrite (irel_end X14) in Z2; auto|]. exists q'. rewrite Z4, CS6, rev_app_distr, <- !app_assoc. auto.
Qed.
End Huff.
End Decode.
