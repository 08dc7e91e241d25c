(** Headers and footers read by the Reader. *)
From Verif Require Import Base SpecChecksum SpecHuffman SpecDeflate SpecFormats SpecEvents MChecksum PChecksum MToken MCommon MWriter MReader SpecLib PToken PHuffman PBits PActs PGram PInput POutput PDecode PDynamic PBlockDec.

(** Input consumed, without the running CRC of the header. *)
Record ink (i i' : ist) (p : list N) : Prop := Ink {
  nk_all : i_all i = p ++ i_all i'; nk_end : i_end i' = i_end i; nk_det : detached i -> detached i';
  nk_left : src_left i = length p + src_left i'; nk_total : i_total i' = add64 (i_total i) (lenN p);
  nk_cuts : incl (cuts i') (cuts i) }.
Lemma ink_iext i i' p : iext i i' p -> ink i i' p.
Proof. intros X. constructor; apply X. Qed.
Lemma ink_trans i i1 i2 p q : ink i i1 p -> ink i1 i2 q -> ink i i2 (p ++ q).
Proof.
  intros [A1 A2 A3 A4 A5] [B1 B2 B3 B4 B5 B6]. constructor; auto; [| | | |eapply incl_tran; eauto].
  - rewrite A1, B1, app_assoc. auto.
  - congruence.
  - rewrite A4, B4, app_length. lia.
  - rewrite B5, A5, add64_assoc, lenN_app. auto.
Qed.
Lemma ink_refl i : iok i -> ink i i [].
Proof. intros H. apply ink_iext. apply iext_refl; auto. Qed.
Lemma ink_iw i i' p : ink i i' p -> iw i i'.
Proof. intros X. exists p. split; apply X. Qed.

(** What the reader keeps while it reads a header. *)
Definition hkeep (r r' : reader) : Prop := r_opt r' = r_opt r /\ r_num r' = r_num r /\ r_events r' = r_events r.
Lemma hkeep_refl r : hkeep r r. Proof. repeat split. Qed.
Lemma hkeep_trans a b c : hkeep a b -> hkeep b c -> hkeep a c.
Proof. unfold hkeep. intros [? [? ?]] [? [? ?]]. repeat split; congruence. Qed.

(** The input ended too early. *)
Definition TruncE (i' : ist) (iend e : goerr) : Prop := i_all i' = [] /\ i_err i' = Some iend /\ e = eof_is_error iend.
Definition FailH {A} (Q : list N -> A -> Prop) (all : list N) (i' : ist) (iend e : goerr) : Prop :=
  forall x w s a, Q w a -> all ++ x = w ++ s -> length all < length w /\ TruncE i' iend e.

(** A step that reads [Q]-shaped bytes, or fails. *)
Definition stage_post (r : reader) (Q : list N -> header -> Prop) (res : MReader.reader * bool) : Prop :=
  let '(r', ok) := res in
  hkeep r r' /\ iok (r_in r') /\
  if ok : bool then exists w, Q w (r_hdr r') /\ iext (r_in r) (r_in r') w /\ bok (r_in r') /\ ibl (r_in r') = 0 /\ r_out r' = r_out r
  else exists e w, iext (r_in r) (r_in r') w /\ bok (r_in r') /\ ibl (r_in r') = 0 /\ r_out r' = closeWithError (r_out r) e /\ fail_err (i_end (r_in r)) e /\
    FailH Q (i_all (r_in r)) (r_in r') (i_end (r_in r)) e.
Definition panic_cause (all : list N) (c : panic) : Prop :=
  exists a p b, all = a ++ le16 (lenN p) ++ p ++ b /\ (lenN p < 65536)%N /\ extra_parse p = Panic c.
Definition stage (g : reader -> res (reader * bool)) (r : reader) (Q : list N -> header -> Prop) : Prop :=
  match g r with
  | Ok x => stage_post r Q x
  | Panic c => panic_cause (i_all (r_in r)) c
  | NoFuel => False
  end.
Definition hdet (Q : list N -> header -> Prop) : Prop :=
  forall w1 h1 r1 w2 h2 r2, Q w1 h1 -> Q w2 h2 -> w1 ++ r1 = w2 ++ r2 -> w1 = w2 /\ h1 = h2.

Lemma stage_comp g1 g2 (Q1 : list N -> header -> Prop) (Q2 : list N -> header -> list N -> header -> Prop) r :
  iok (r_in r) -> hdet Q1 -> stage g1 r Q1 ->
  (forall r1 w, Q1 w (r_hdr r1) -> iext (r_in r) (r_in r1) w -> hkeep r r1 -> iok (r_in r1) -> bok (r_in r1) -> ibl (r_in r1) = 0 -> stage g2 r1 (Q2 w (r_hdr r1))) ->
  stage (fun r => let? r := g1 r in g2 r) r (fun w h => exists w1 h1 w2, w = w1 ++ w2 /\ Q1 w1 h1 /\ Q2 w1 h1 w2 h).
Proof.
  intros H D S1 S2. unfold stage in *. destruct (g1 r) as [[r1 ok1]|c|] eqn:E1; cbn [rbind]; auto.
  destruct S1 as [K1 [I1 S1]]. destruct ok1.
  2:{ cbn. split; auto. split; auto. destruct S1 as [e [w [X [B1 [B2 [O [F P]]]]]]]. exists e, w. split; auto. split; auto. split; auto. split; auto. split; auto.
    intros x w0 s h [w1 [h1 [w2 [-> [Q_1 Q_2]]]]] EA. rewrite <- app_assoc in EA. destruct (P x w1 (w2 ++ s) h1 Q_1 EA) as [P1 P2]. split; auto. rewrite app_length. lia. }
  destruct S1 as [w1 [Q_1 [X1 [B1 [B2 O1]]]]]. specialize (S2 r1 w1 Q_1 X1 K1 I1 B1 B2).
  destruct (g2 r1) as [[r2 ok2]|c|].
  - destruct S2 as [K2 [I2 S2]]. split; [eapply hkeep_trans; eauto|]. split; auto. destruct ok2.
    + destruct S2 as [w2 [Q_2 [X2 [B3 [B4 O2]]]]]. exists (w1 ++ w2). split; [exists w1, (r_hdr r1), w2; auto|]. split; [eapply iext_trans; eauto|]. split; auto. split; auto. congruence.
    + destruct S2 as [e [w2 [X2 [B3 [B4 [O2 [F P]]]]]]]. exists e, (w1 ++ w2). split; [eapply iext_trans; eauto|]. split; auto. split; auto. split; [congruence|].
      rewrite (ix_end X1) in *. split; auto.
      intros x w0 s h [w1' [h1' [w2' [-> [Q_1' Q_2']]]]] EA. rewrite (ix_all X1), <- !app_assoc in EA.
      destruct (D _ _ _ _ _ _ Q_1 Q_1' EA) as [<- <-]. apply app_inv_head in EA. destruct (P x w2' s h Q_2' EA) as [P1 P2].
      split; auto. rewrite (ix_all X1), !app_length. lia.
  - destruct S2 as [a [p [b [S2 S3]]]]. exists (w1 ++ a), p, b. rewrite (ix_all X1), S2, app_assoc. auto.
  - auto.
Qed.

Lemma short_fail {A} (Q : list N -> A -> Prop) all i' iend n : length all < n -> i_all i' = [] -> i_err i' = Some iend ->
  (forall w a, Q w a -> n <= length w) -> FailH Q all i' iend (eof_is_error iend).
Proof. intros L E1 E2 HQ x w s a Q1 EA. apply HQ in Q1. split; [lia|]. split; auto. Qed.
Lemma never_fail {A} (Q : list N -> A -> Prop) all i' iend e : (forall x w s a, Q w a -> all ++ x <> w ++ s) -> FailH Q all i' iend e.
Proof. intros N x w s a Q1 EA. exfalso. eapply N; eauto. Qed.

Lemma r_propagate_eq r : r_propagate r true = match i_err (r_in r) with None => r | Some e => set_rout r (closeWithError (r_out r) (eof_is_error e)) end.
Proof.
  destruct r as [o [i u] n h f ev]. unfold r_propagate, propagateError, r_in, r_out, set_rout. cbn. destruct (i_err i) as [[]|]; reflexivity.
Qed.
Lemma in_prop r b : r_in (r_propagate r b) = r_in r.
Proof. destruct r as [o [i u] n h f ev]. unfold r_propagate, propagateError, r_in. cbn. destruct (i_err i) as [[]|]; reflexivity. Qed.
Lemma keep_prop r b : hkeep r (r_propagate r b) /\ r_fmt (r_propagate r b) = r_fmt r.
Proof. destruct r as [o [i u] n h f ev]. split; [repeat split|auto]. Qed.
Lemma in_set_rin r i : r_in (set_rin r i) = i. Proof. destruct r as [o [? ?] n h f ev]; auto. Qed.
Lemma out_set_rin r i : r_out (set_rin r i) = r_out r. Proof. destruct r as [o [? ?] n h f ev]; auto. Qed.
Lemma hdr_set_rin r i : r_hdr (set_rin r i) = r_hdr r. Proof. destruct r as [o [? ?] n h f ev]; auto. Qed.
Lemma fmt_set_rin r i : r_fmt (set_rin r i) = r_fmt r. Proof. destruct r as [o [? ?] n h f ev]; auto. Qed.
Lemma keep_set_rin r i : hkeep r (set_rin r i). Proof. destruct r as [o [? ?] n h f ev]; repeat split. Qed.
Lemma in_set_rhdr r h : r_in (set_rhdr r h) = r_in r. Proof. destruct r; auto. Qed.
Lemma out_set_rhdr r h : r_out (set_rhdr r h) = r_out r. Proof. destruct r; auto. Qed.
Lemma hdr_set_rhdr r h : r_hdr (set_rhdr r h) = h. Proof. destruct r; auto. Qed.
Lemma opt_set_rhdr r h : r_opt (set_rhdr r h) = r_opt r. Proof. destruct r; auto. Qed.
Lemma opt_set_rin r h : r_opt (set_rin r h) = r_opt r. Proof. destruct r; auto. Qed.
Lemma keep_set_rhdr r h : hkeep r (set_rhdr r h). Proof. destruct r; repeat split. Qed.
Lemma in_set_fmt r f : r_in (set_fmt r f) = r_in r. Proof. destruct r; auto. Qed.
Lemma out_set_fmt r f : r_out (set_fmt r f) = r_out r. Proof. destruct r; auto. Qed.
Lemma hdr_set_fmt r f : r_hdr (set_fmt r f) = r_hdr r. Proof. destruct r; auto. Qed.
Lemma fmt_set_fmt r f : r_fmt (set_fmt r f) = f. Proof. destruct r; auto. Qed.
Lemma keep_set_fmt r f : hkeep r (set_fmt r f). Proof. destruct r; repeat split. Qed.
Lemma in_corrupt r c : r_in (r_corrupt r c) = r_in r. Proof. destruct r as [o [? ?] n h f ev]; auto. Qed.
Lemma out_corrupt r c : r_out (r_corrupt r c) = closeWithError (r_out r) (corr (r_in r) c). Proof. destruct r as [o [? ?] n h f ev]; auto. Qed.
Lemma keep_corrupt r c : hkeep r (r_corrupt r c). Proof. destruct r as [o [? ?] n h f ev]; repeat split. Qed.
Lemma out_prop r e : i_err (r_in r) = Some e -> r_out (r_propagate r true) = closeWithError (r_out r) (eof_is_error e).
Proof.
  destruct r as [o [i u] n h f ev]. unfold r_propagate, propagateError, r_in, r_out. cbn. intros ->. destruct e; reflexivity.
Qed.
Global Hint Rewrite in_set_rin out_set_rin hdr_set_rin fmt_set_rin in_set_rhdr out_set_rhdr hdr_set_rhdr in_set_fmt out_set_fmt hdr_set_fmt fmt_set_fmt in_corrupt out_corrupt in_prop opt_set_rhdr opt_set_rin : rd.
Global Hint Resolve keep_set_rin keep_set_rhdr keep_set_fmt keep_corrupt hkeep_refl : rd.
Ltac rd := autorewrite with rd in *.
Ltac keep := match goal with
  | |- hkeep ?r ?r => apply hkeep_refl
  | |- hkeep _ (set_rin ?r _) => apply (@hkeep_trans _ r); [keep|apply keep_set_rin]
  | |- hkeep _ (set_rhdr ?r _) => apply (@hkeep_trans _ r); [keep|apply keep_set_rhdr]
  | |- hkeep _ (set_fmt ?r _) => apply (@hkeep_trans _ r); [keep|apply keep_set_fmt]
  | |- hkeep _ (r_corrupt ?r _) => apply (@hkeep_trans _ r); [keep|apply keep_corrupt]
  | |- hkeep _ (r_propagate ?r _) => apply (@hkeep_trans _ r); [keep|apply keep_prop]
  | |- _ => assumption
  end.

(** The two ways to fail. *)
Lemma post_short r r1 (Q : list N -> header -> Prop) w n : iok (r_in r) -> iext (r_in r) (r_in r1) w -> bok (r_in r1) -> ibl (r_in r1) = 0 -> hkeep r r1 -> r_out r1 = r_out r ->
  length (i_all (r_in r)) < n -> i_all (r_in r1) = [] -> i_err (r_in r1) = Some (i_end (r_in r)) -> (forall w h, Q w h -> n <= length w) ->
  stage_post r Q (r_propagate r1 true, false).
Proof.
  intros H X B1 B2 K O L E1 E2 HQ. split; [keep|]. rewrite in_prop. split; [apply (iext_iok H X)|].
  exists (eof_is_error (i_end (r_in r))), w. split; auto. split; auto. split; auto. rewrite (out_prop E2). split; [congruence|]. split; [right; auto|].
  eapply short_fail; eauto.
Qed.
Lemma post_corrupt r r1 (Q : list N -> header -> Prop) w c : iok (r_in r) -> iext (r_in r) (r_in r1) w -> bok (r_in r1) -> ibl (r_in r1) = 0 -> hkeep r r1 -> r_out r1 = r_out r ->
  (forall x w s h, Q w h -> i_all (r_in r) ++ x <> w ++ s) ->
  stage_post r Q (r_corrupt r1 c, false).
Proof.
  intros H X B1 B2 K O HQ. split; [keep|]. rewrite in_corrupt. split; [apply (iext_iok H X)|].
  exists (corr (r_in r1) c), w. split; auto. split; auto. split; auto. rewrite out_corrupt. split; [congruence|]. split; [left; red; unfold corr; eauto|].
  apply never_fail. auto.
Qed.
Lemma post_good r r1 (Q : list N -> header -> Prop) w : iok (r_in r) -> iext (r_in r) (r_in r1) w -> bok (r_in r1) -> ibl (r_in r1) = 0 -> hkeep r r1 -> r_out r1 = r_out r ->
  Q w (r_hdr r1) -> stage_post r Q (r1, true).
Proof.
  intros H X B1 B2 K O HQ. split; auto. split; [apply (iext_iok H X)|]. exists w. auto 10.
Qed.

(** ** Raw *)
Definition HR (h0 : header) (w : list N) (h : header) : Prop := w = [] /\ h = set_levels h0 (h_wbits h0) (-1).
Lemma readHeaderRaw_spec r : iok (r_in r) -> bok (r_in r) -> ibl (r_in r) = 0 -> stage_post r (HR (r_hdr r)) (readHeaderRaw r).
Proof.
  intros H HB H0. unfold readHeaderRaw. eapply post_good; rd; eauto; [apply iext_refl; auto|keep|]. split; auto.
Qed.

(** ** Zlib *)
Lemma adler_lt d : bytes_ok d -> (spec_adler32 d < two32)%N.
Proof.
  intros _. unfold spec_adler32, two32. destruct (adler_sums d 1 0). lia.
Qed.
Lemma land20 x : negb (N.land x 0x20 =? 0)%N = N.testbit x 5.
Proof.
  change 0x20%N with (2 ^ 5)%N. destruct (N.testbit x 5) eqn:E.
  - destruct (N.eqb_spec (N.land x (2 ^ 5)) 0) as [Z|Z]; auto. exfalso.
    assert (T : N.testbit (N.land x (2 ^ 5)) 5 = true) by (rewrite N.land_spec, E; reflexivity). rewrite Z, N.bits_0 in T. discriminate.
  - replace (N.land x (2 ^ 5)) with 0%N; auto. symmetry. apply N.bits_inj. intros k. rewrite N.land_spec, N.bits_0, N.pow2_bits_eqb.
    destruct (N.eqb_spec 5 k) as [<-|]; [rewrite E|rewrite Bool.andb_false_r]; auto.
Qed.
Lemma bytes2 (p : list N) : length p = 2 -> exists a b, p = [a; b].
Proof. destruct p as [|a [|b [|? ?]]]; try discriminate. eauto. Qed.
Lemma be32_unbe32 p : bytes_ok p -> length p = 4 -> be32 (unbe32 p) = p.
Proof.
  intros H L. destruct p as [|a [|b [|c [|d [|? ?]]]]]; try discriminate.
  inversion H as [|? ? Ha H1]; subst. inversion H1 as [|? ? Hb H2]; subst. inversion H2 as [|? ? Hc H3]; subst. inversion H3 as [|? ? Hd _]; subst.
  unfold is_byte in *. unfold be32, le32, unbe32, nthN. cbn [nth rev app]. repeat f_equal; lia.
Qed.
Lemma le32_unle32 p : bytes_ok p -> length p = 4 -> le32 (unle32 p) = p.
Proof.
  intros H L. destruct p as [|a [|b [|c [|d [|? ?]]]]]; try discriminate.
  inversion H as [|? ? Ha H1]; subst. inversion H1 as [|? ? Hb H2]; subst. inversion H2 as [|? ? Hc H3]; subst. inversion H3 as [|? ? Hd _]; subst.
  unfold is_byte in *. unfold le32, unle32, nthN. cbn [nth]. repeat f_equal; lia.
Qed.
Lemma le16_unle16 p : bytes_ok p -> length p = 2 -> le16 (unle16 p) = p.
Proof.
  intros H L. destruct p as [|a [|b [|? ?]]]; try discriminate.
  inversion H as [|? ? Ha H1]; subst. inversion H1 as [|? ? Hb H2]; subst.
  unfold is_byte in *. unfold le16, unle16, nthN. cbn [nth]. repeat f_equal; lia.
Qed.
Section Zlib.
Variable env : renv.
Variable opt : options.
Definition dict_zero : bool := e_iszero env (firstn (N.to_nat (win_size opt)) (rev (opt_dict opt))).
Definition HZ (h0 : header) (w : list N) (h : header) : Prop :=
  exists cmf flg dictid, is_byte cmf /\ is_byte flg /\ (cmf mod 16 = 8)%N /\ (8 + cmf / 16 <= o_wbits opt)%N /\ ((cmf * 256 + flg) mod 31 = 0)%N /\
    (if dict_zero then N.testbit flg 5 = false /\ dictid = [] else N.testbit flg 5 = true /\ dictid = be32 (spec_adler32 (opt_dict opt))) /\
    w = [cmf; flg] ++ dictid /\ h = set_levels h0 (8 + cmf / 16)%N (zlib_level flg).
Lemma HZ_inj h0 : hdet (HZ h0).
Proof.
  intros w1 h1 r1 w2 h2 r2 [a [b [c [_ [_ [_ [_ [_ [D [-> ->]]]]]]]]]] [a' [b' [c' [_ [_ [_ [_ [_ [D' [-> ->]]]]]]]]]] E.
  cbn [app] in E. inversion E; subst. destruct dict_zero; destruct D as [_ ->], D' as [_ ->]; auto.
Qed.

Lemma readHeaderZlib_spec r : r_opt r = opt -> o_hist (r_out r) = rev (opt_dict opt) -> bytes_ok (opt_dict opt) ->
  iok (r_in r) -> stage_post r (HZ (r_hdr r)) (readHeaderZlib env r).
Proof.
  intros EO EH HD H. unfold readHeaderZlib.
  destruct (@readN_spec _ 2 H) as [i1 [out [E1 [[q G1] [G2 [G3 G4]]]]]]. rewrite E1. clear E1.
  destruct out as [p|].
  2:{ destruct G4 as [G4 [G5 G6]]. eapply post_short with (n := 2); rd; eauto; [keep|].
      intros w h [a [b [c [_ [_ [_ [_ [_ [_ [-> _]]]]]]]]]]. rewrite app_length. cbn. lia. }
  destruct G4 as [X1 LP]. clear q G1. destruct (bytes2 LP) as [a [b ->]]. clear LP. cbn [nthN nth].
  destruct (iext_iok H X1) as [K1 BP].
  assert (Ha : is_byte a) by (inversion BP; auto). assert (Hb : is_byte b) by (inversion BP as [|? ? ? BP']; inversion BP'; auto).
  assert (CAND : forall x w s h, HZ (r_hdr r) w h -> i_all (r_in r) ++ x = w ++ s ->
     (a mod 16 = 8 /\ 8 + a / 16 <= o_wbits opt /\ (a * 256 + b) mod 31 = 0)%N /\ h = set_levels (r_hdr r) (8 + a / 16)%N (zlib_level b) /\
     exists d, w = [a; b] ++ d /\ i_all i1 ++ x = d ++ s /\ (if dict_zero then N.testbit b 5 = false /\ d = [] else N.testbit b 5 = true /\ d = be32 (spec_adler32 (opt_dict opt)))).
  { intros x w s h [a' [b' [c [_ [_ [C1 [C2 [C3 [C4 [-> ->]]]]]]]]]] EA. rewrite (ix_all X1), <- !app_assoc in EA. cbn [app] in EA.
    inversion EA; subst a' b'. split; auto. split; auto. exists c. auto. }
  assert (LA : N.land a 15 = (a mod 16)%N) by (change 15%N with (N.ones 4); apply N.land_ones).
  assert (EU : unbe16 [a; b] = (a * 256 + b)%N) by (unfold unbe16, nthN; cbn [nth]; lia). rewrite EU, LA.
  assert (EW : (8 + N.shiftr a 4 = 8 + a / 16)%N) by (rewrite N.shiftr_div_pow2; reflexivity). rewrite EW.
  destruct (N.eqb_spec ((a * 256 + b) mod 31) 0) as [C1|C1]; cbn [negb].
  2:{ eapply post_corrupt with (w := [a; b]); rd; eauto; [keep|]. intros x w s h Q EA. destruct (CAND _ _ _ _ Q EA) as [[_ [_ ?]] _]. auto. }
  destruct (N.eqb_spec (a mod 16) 8) as [C2|C2]; cbn [negb].
  2:{ eapply post_corrupt with (w := [a; b]); rd; eauto; [keep|]. intros x w s h Q EA. destruct (CAND _ _ _ _ Q EA) as [[? _] _]. auto. }
  rd. rewrite EO. destruct (N.ltb_spec (o_wbits opt) (8 + a / 16)) as [C3|C3].
  { eapply post_corrupt with (w := [a; b]); rd; eauto; [keep|]. intros x w s h Q EA. destruct (CAND _ _ _ _ Q EA) as [[_ [? _]] _]. lia. }
  rewrite EH. fold dict_zero. rewrite land20.
  destruct (N.testbit b 5) eqn:TB.
  - unfold readU32be. destruct (@readU_spec unbe32 4 _ K1) as [i2 [out [E2 [[q G1] [B1 [B2 G4]]]]]]. rewrite E2. clear E2.
    destruct out as [v|].
    2:{ destruct G4 as [G4 [G5 G6]]. rewrite (ix_end X1) in G6.
        split; [keep|]. rd. split; [apply (iext_iok K1 G1)|]. exists (eof_is_error (i_end (r_in r))), ([a; b] ++ q). split; [eapply iext_trans; eauto|].
        split; auto. split; auto. rewrite (@out_prop _ (i_end (r_in r))); rd; auto. split; auto. split; [right; auto|].
        intros x w s h Q EA. destruct (CAND _ _ _ _ Q EA) as [_ [_ [d [-> [E5 D]]]]]. destruct dict_zero; destruct D as [D ->]; [congruence|].
        split; [rewrite (ix_all X1); rewrite !app_length; cbn; lia|]. repeat split; auto. }
    destruct G4 as [p [X2 [LP ->]]]. destruct (iext_iok K1 X2) as [K2 BP2].
    pose proof (iext_trans H X1 X2) as X12.
    destruct dict_zero eqn:DZ.
    { eapply post_corrupt with (w := [a; b] ++ p); rd; eauto; [keep|]. intros x w s h Q EA. destruct (CAND _ _ _ _ Q EA) as [_ [_ [d [_ [_ [D _]]]]]]. congruence. }
    rd. rewrite ?EO. change (adler_checksum (opt_dict opt)) with (adler_update adler_reset (opt_dict opt)); rewrite (adler_checksum_spec HD).
    destruct (N.eqb_spec (unbe32 p) (spec_adler32 (opt_dict opt))) as [C4|C4]; cbn [negb].
    + eapply post_good with (w := [a; b] ++ p); rd; eauto; [keep|]. exists a, b, p. rewrite DZ. split; auto. split; auto. split; auto. split; auto. split; auto. split; [|auto].
      split; auto. rewrite <- C4. symmetry. apply be32_unbe32; auto. split; auto. destruct (r_hdr r); reflexivity.
    + eapply post_corrupt with (w := [a; b] ++ p); rd; eauto; [keep|]. intros x w s h Q EA. destruct (CAND _ _ _ _ Q EA) as [_ [_ [d [-> [E5 [_ ->]]]]]].
      rewrite (ix_all X2), <- app_assoc in E5. apply app_inj_length in E5; [|rewrite LP; reflexivity]. destruct E5 as [-> _]. apply C4. apply unbe32_be32. apply adler_lt; auto.
  - destruct dict_zero eqn:DZ; cbn [negb].
    + eapply post_good with (w := [a; b]); rd; eauto; [keep|]. exists a, b, []. rewrite DZ. split; auto. split; auto. split; auto. split; auto. split; auto. split; auto. split; auto. destruct (r_hdr r); reflexivity.
    + eapply post_corrupt with (w := [a; b]); rd; eauto; [keep|]. intros x w s h Q EA. destruct (CAND _ _ _ _ Q EA) as [_ [_ [d [_ [_ [D _]]]]]]. congruence.
Qed.
End Zlib.

(** ** Gzip *)
Definition QX (b : bool) (h0 : header) (w : list N) (h : header) : Prop :=
  if b then exists p x, (lenN p < 65536)%N /\ bytes_ok p /\ extra_parse p = Ok x /\ w = le16 (lenN p) ++ p /\ h = set_extra h0 x else w = [] /\ h = h0.
Definition QS (upd : header -> list N -> header) (b : bool) (h0 : header) (w : list N) (h : header) : Prop :=
  if b then exists s, ~ In 0%N s /\ bytes_ok s /\ w = s ++ [0%N] /\ h = upd h0 s else w = [] /\ h = h0.
Definition QC (b : bool) (c : N) (h0 : header) (w : list N) (h : header) : Prop :=
  (w = if b then le16 (c mod two16)%N else []) /\ h = h0.
Definition TailC (f c : N) (h0 : header) (w : list N) (h : header) : Prop :=
  exists w1 h1 w2, w = w1 ++ w2 /\ QS set_comment (flag_bit f 0x10) h0 w1 h1 /\ QC (flag_bit f 0x02) (crc_update c w1) h1 w2 h.
Definition TailN (f c : N) (h0 : header) (w : list N) (h : header) : Prop :=
  exists w1 h1 w2, w = w1 ++ w2 /\ QS set_name (flag_bit f 0x08) h0 w1 h1 /\ TailC f (crc_update c w1) h1 w2 h.
Definition TailX (f c : N) (h0 : header) (w : list N) (h : header) : Prop :=
  exists w1 h1 w2, w = w1 ++ w2 /\ QX (flag_bit f 0x04) h0 w1 h1 /\ TailN f (crc_update c w1) h1 w2 h.

Lemma lenN_len {A} (p q : list A) : lenN p = lenN q -> length p = length q.
Proof. unfold lenN. lia. Qed.
Lemma le16_inj a b : (a < 65536)%N -> (b < 65536)%N -> le16 a = le16 b -> a = b.
Proof. intros Ha Hb E. apply (f_equal unle16) in E. rewrite !unle16_le16 in E; auto. Qed.
Lemma le16_len x : length (le16 x) = 2. Proof. reflexivity. Qed.
Lemma QX_inj b h0 : hdet (QX b h0).
Proof.
  intros w1 h1 r1 w2 h2 r2 A B E. unfold QX in *. destruct b.
  - destruct A as [p [x [A1 [A2 [A3 [-> ->]]]]]], B as [q [y [B1 [B2 [B3 [-> ->]]]]]]. rewrite <- !app_assoc in E.
    apply app_inj_length in E; [|rewrite !le16_len; auto]. destruct E as [E1 E2]. pose proof (le16_inj A1 B1 E1) as EL. apply lenN_len in EL.
    apply app_inj_length in E2; auto. destruct E2 as [-> _]. rewrite A3 in B3. inversion B3. auto.
  - destruct A as [-> ->], B as [-> ->]. auto.
Qed.
Lemma z_inj s : forall t r1 r2 : list N, ~ In 0%N s -> ~ In 0%N t -> (s ++ [0%N]) ++ r1 = (t ++ [0%N]) ++ r2 -> s = t /\ r1 = r2.
Proof.
  induction s as [|a s IH]; intros [|b t] r1 r2 H1 H2 E; cbn [app] in E; inversion E; subst; auto.
  - exfalso. apply H2. left; auto.
  - exfalso. apply H1. left; auto.
  - destruct (IH t r1 r2) as [-> ->]; auto; intros HI; [apply H1|apply H2]; right; auto.
Qed.
Lemma QS_inj upd b h0 : hdet (QS upd b h0).
Proof.
  intros w1 h1 r1 w2 h2 r2 A B E. unfold QS in *. destruct b.
  - destruct A as [p [A1 [A2 [-> ->]]]], B as [q [B1 [B2 [-> ->]]]]. destruct (z_inj A1 B1 E) as [-> _]. auto.
  - destruct A as [-> ->], B as [-> ->]. auto.
Qed.
Lemma QC_inj b c h0 : hdet (QC b c h0).
Proof. intros w1 h1 r1 w2 h2 r2 [A1 A2] [B1 B2] E. subst. auto. Qed.
Lemma comp_inj (Q1 : list N -> header -> Prop) (Q2 : list N -> header -> list N -> header -> Prop) : hdet Q1 -> (forall w h, hdet (Q2 w h)) ->
  hdet (fun w h => exists w1 h1 w2, w = w1 ++ w2 /\ Q1 w1 h1 /\ Q2 w1 h1 w2 h).
Proof.
  intros D1 D2 w1 h1 r1 w2 h2 r2 [a [b [c [-> [A1 A2]]]]] [a' [b' [c' [-> [B1 B2]]]]] E. rewrite <- !app_assoc in E.
  destruct (D1 _ _ _ _ _ _ A1 B1 E) as [<- <-]. apply app_inv_head in E. destruct (D2 _ _ _ _ _ _ _ _ A2 B2 E) as [<- <-]. auto.
Qed.
Lemma TailC_inj f c h0 : hdet (TailC f c h0).
Proof. apply (comp_inj (Q2 := fun w1 h1 => QC (flag_bit f 0x02) (crc_update c w1) h1)); [apply QS_inj|]. intros; apply QC_inj. Qed.
Lemma TailN_inj f c h0 : hdet (TailN f c h0).
Proof. apply (comp_inj (Q2 := fun w1 h1 => TailC f (crc_update c w1) h1)); [apply QS_inj|]. intros; apply TailC_inj. Qed.
Lemma TailX_inj f c h0 : hdet (TailX f c h0).
Proof. apply (comp_inj (Q2 := fun w1 h1 => TailN f (crc_update c w1) h1)); [apply QX_inj|]. intros; apply TailN_inj. Qed.

Lemma readGZIPExtra_spec r b : iok (r_in r) -> bok (r_in r) -> ibl (r_in r) = 0 -> stage (fun r => readGZIPExtra r b) r (QX b (r_hdr r)).
Proof.
  intros H HB H0. unfold stage, readGZIPExtra, QX. destruct b.
  2:{ eapply post_good; eauto; [apply iext_refl; auto|keep]. }
  unfold readU16le. destruct (@readU_spec unle16 2 _ H) as [i1 [out [E1 [[q G1] [G2 [G3 G4]]]]]]. rewrite E1. clear E1. destruct out as [n|].
  2:{ destruct G4 as [G4 [G5 G6]]. eapply post_short with (n := 2); rd; eauto; [keep|].
      intros w h [p [x [_ [_ [_ [-> _]]]]]]. rewrite app_length. cbn. lia. }
  destruct G4 as [p [X1 [LP EN]]]. destruct (iext_iok H X1) as [K1 BP]. destruct (bits_unle16 BP LP) as [_ Hn]. rewrite <- EN in Hn.
  assert (EP : p = le16 n) by (rewrite EN; symmetry; apply le16_unle16; auto).
  assert (CAND : forall x w s h, QX true (r_hdr r) w h -> i_all (r_in r) ++ x = w ++ s -> exists q y, lenN q = n /\ extra_parse q = Ok y /\ w = p ++ q /\ i_all i1 ++ x = q ++ s).
  { intros x w s h [p' [y [A1 [A2 [A3 [-> ->]]]]]] EA. rewrite (ix_all X1), <- !app_assoc in EA. apply app_inj_length in EA; [|rewrite LP; reflexivity].
    destruct EA as [E1 E2]. exists p', y. subst p. assert (EL : n = lenN p') by (apply le16_inj; auto). rewrite <- EL. auto. }
  rd. destruct (@readN_spec _ (N.to_nat n) K1) as [i2 [out [E2 [[q2 G1'] [B1 [B2 G4']]]]]]. rewrite E2. clear E2. destruct out as [p2|].
  2:{ destruct G4' as [G4' [G5 G6]]. rewrite (ix_end X1) in G6. pose proof (iext_trans H X1 G1') as X12.
      split; [keep|]. rd. split; [apply (iext_iok K1 G1')|]. exists (eof_is_error (i_end (r_in r))), (p ++ q2). split; auto.
      split; auto. split; auto. rewrite (@out_prop _ (i_end (r_in r))); rd; auto. split; auto. split; [right; auto|].
      intros x w s h Q EA. destruct (CAND _ _ _ _ Q EA) as [q' [y [L1 [_ [-> E5]]]]]. split; [|repeat split; auto].
      rewrite (ix_all X1), !app_length. unfold lenN in L1. lia. }
  destruct G4' as [X2 L2]. destruct (iext_iok K1 X2) as [K2 BP2]. assert (LN : lenN p2 = n) by (unfold lenN; lia).
  destruct (extra_parse p2) as [x|c|] eqn:EX; cbn [rbind].
  - eapply post_good with (w := p ++ p2); rd; eauto; [eapply iext_trans; eauto|keep|]. exists p2, x. rewrite LN, <- EP. auto 10.
  - exists [], p2, (i_all i2). cbn [app]. rewrite LN, <- EP, (ix_all X1), (ix_all X2), EX. auto.
  - exfalso. assert (NF : forall f l, length l < f -> xparse f l <> NoFuel).
    { clear. induction f as [|f IH]; intros l L; [lia|]. cbn [xparse]. destruct l as [|a [|b [|c [|d t]]]]; try discriminate.
      destruct (_ <=? _); [|discriminate]. cbn [length] in L. set (k := N.to_nat _). assert (LS : length (skipn k t) < f) by (rewrite skipn_length; lia).
      specialize (IH _ LS). destruct (xparse f (skipn k t)); cbn [rbind]; congruence. }
    eapply NF; [|exact EX]. lia.
Qed.
Lemma readGZIPString_spec upd r b : iok (r_in r) -> bok (r_in r) -> ibl (r_in r) = 0 -> stage (fun r => readGZIPString upd r b) r (QS upd b (r_hdr r)).
Proof.
  intros H HB H0. unfold stage, readGZIPString, QS. destruct b.
  2:{ eapply post_good; eauto; [apply iext_refl; auto|keep]. }
  unfold inputBufferReadStringZ. pose proof (all_le_left (r_in r)) as LL.
  destruct (@stringZLoop_spec (S (src_left (r_in r))) (r_in r) [] H ltac:(lia)) as [i1 [out [E1 [[q G1] [G2 [G3 G4]]]]]]. rewrite E1. clear E1. cbn [rbind].
  assert (B1 : bok i1) by (red; rewrite G2, G3; auto). assert (B2 : ibl i1 = 0) by congruence.
  destruct out as [s|].
  - destruct G4 as [p [-> [G4 X1]]]. destruct (iext_iok H X1) as [K1 BP]. apply bytes_ok_app in BP. destruct BP as [BP _].
    eapply post_good with (w := p ++ [0%N]); rd; auto; [keep|]. exists p. auto.
  - destruct G4 as [G4 [G5 G6]]. split; [keep|]. rd. split; [apply (iext_iok H G1)|]. exists (eof_is_error (i_end (r_in r))), q. split; auto. split; auto. split; auto.
    rewrite (@out_prop _ (i_end (r_in r))); rd; auto. split; auto. split; [right; auto|].
    intros x w s h [t [Q1 [Q2 [-> ->]]]] EA. split; [|repeat split; auto].
    destruct (Nat.lt_ge_cases (length (i_all (r_in r))) (length (t ++ [0%N]))) as [|L]; auto. exfalso. apply G4.
    rewrite <- (firstn_skipn (length (t ++ [0%N])) (i_all (r_in r))), <- app_assoc in EA.
    apply app_inj_length in EA; [|rewrite firstn_length; lia]. destruct EA as [EA _].
    rewrite <- (firstn_skipn (length (t ++ [0%N])) (i_all (r_in r))). apply in_or_app. left. rewrite EA. apply in_or_app. right. left. auto.
Qed.
Definition gz_last (b : bool) (r : reader) : res (reader * bool) :=
  let c32 := i_crc (r_in r) in let? r := readGZIPCRC16 r b c32 in Ok (set_fmt r GZIPFormat, true).
Lemma gz_last_spec r b : iok (r_in r) -> bok (r_in r) -> ibl (r_in r) = 0 -> stage (gz_last b) r (QC b (i_crc (r_in r)) (r_hdr r)).
Proof.
  intros H HB H0. unfold stage, gz_last, readGZIPCRC16, QC. destruct b; cbn [rbind].
  2:{ eapply post_good; rd; eauto; [apply iext_refl; auto|keep]. }
  unfold readU16le. destruct (@readU_spec unle16 2 _ H) as [i1 [out [E1 [[q G1] [G2 [G3 G4]]]]]]. rewrite E1. clear E1. destruct out as [n|].
  2:{ destruct G4 as [G4 [G5 G6]]. cbn [rbind]. eapply post_short with (n := 2); rd; eauto; [keep|].
      intros w h [-> _]. cbn. lia. }
  destruct G4 as [p [X1 [LP EN]]]. destruct (iext_iok H X1) as [K1 BP].
  destruct (N.eqb_spec n (i_crc (r_in r) mod two16)) as [C|C]; cbn [negb rbind].
  - eapply post_good with (w := p); rd; eauto; [keep|]. split; auto. rewrite <- C, EN. symmetry. apply le16_unle16; auto.
  - eapply post_corrupt with (w := p); rd; eauto; [keep|]. intros x w s h [-> ->] EA. rewrite (ix_all X1), <- app_assoc in EA.
    apply app_inj_length in EA; [|rewrite LP; reflexivity]. destruct EA as [-> _]. apply C. rewrite EN. apply unle16_le16. unfold two16. lia.
Qed.
Definition gz_tail (f : N) (r : reader) : res (reader * bool) :=
  let? r := readGZIPExtra r (flag_bit f 0x04) in
  let? r := readGZIPString set_name r (flag_bit f 0x08) in
  let? r := readGZIPString set_comment r (flag_bit f 0x10) in
  gz_last (flag_bit f 0x02) r.
Lemma gz_tail_spec f r : iok (r_in r) -> bok (r_in r) -> ibl (r_in r) = 0 -> stage (gz_tail f) r (TailX f (i_crc (r_in r)) (r_hdr r)).
Proof.
  intros H HB H0. unfold gz_tail, TailX.
  apply (@stage_comp (fun r => readGZIPExtra r (flag_bit f 0x04))
    (fun r => let? r := readGZIPString set_name r (flag_bit f 0x08) in let? r := readGZIPString set_comment r (flag_bit f 0x10) in gz_last (flag_bit f 0x02) r)
    (QX (flag_bit f 0x04) (r_hdr r)) (fun w1 h1 => TailN f (crc_update (i_crc (r_in r)) w1) h1) r H (@QX_inj _ _)); [apply readGZIPExtra_spec; auto|].
  intros r1 w1 _ X1 _ K1 B1 B2. rewrite <- (ix_crc X1). clear X1 H HB H0. unfold TailN.
  apply (@stage_comp (fun r => readGZIPString set_name r (flag_bit f 0x08))
    (fun r => let? r := readGZIPString set_comment r (flag_bit f 0x10) in gz_last (flag_bit f 0x02) r)
    (QS set_name (flag_bit f 0x08) (r_hdr r1)) (fun w1 h1 => TailC f (crc_update (i_crc (r_in r1)) w1) h1) r1 K1 (@QS_inj _ _ _)); [apply readGZIPString_spec; auto|].
  intros r2 w2 _ X1 _ K2 B3 B4. rewrite <- (ix_crc X1). clear X1 K1 B1 B2 r1. unfold TailC.
  apply (@stage_comp (fun r => readGZIPString set_comment r (flag_bit f 0x10)) (gz_last (flag_bit f 0x02))
    (QS set_comment (flag_bit f 0x10) (r_hdr r2)) (fun w1 h1 => QC (flag_bit f 0x02) (crc_update (i_crc (r_in r2)) w1) h1) r2 K2 (@QS_inj _ _ _)); [apply readGZIPString_spec; auto|].
  intros r3 w3 _ X1 _ K3 B5 B6. rewrite <- (ix_crc X1). apply gz_last_spec; auto.
Qed.

(** *** The ten fixed bytes *)
Definition hdr10 (h0 : header) (text : bool) (mtime xfl os : N) : header :=
  let h := if (mtime =? 0)%N then h0 else set_mtime h0 (Some (Z.of_N mtime)) in
  let h := set_levels h (h_wbits h) (gzip_level xfl) in
  let h := set_os h (ostype_decode os) in
  set_datatype h (if text then TextData else BinaryData).
Definition upd_if (upd : header -> list N -> header) (h : header) (o : option (list N)) : header :=
  match o with Some s => upd h s | None => h end.
(** What the Reader reports for the fields [g]; [x]: the parsed extra field. *)
Definition hdr_of (h0 : header) (g : gzip_fields) (x : list xrecord) : header :=
  let h := hdr10 h0 (gz_text g) (gz_mtime g) (gz_xfl g) (gz_os g) in
  let h := if is_some (gz_extra g) then set_extra h x else h in
  upd_if set_comment (upd_if set_name h (gz_name g)) (gz_comment g).
Definition extra_ok (o : option (list N)) (x : list xrecord) : Prop :=
  match o with Some p => extra_parse p = Ok x | None => True end.
Definition HG (h0 : header) (w : list N) (h : header) : Prop :=
  exists g x, gzip_fields_ok g /\ extra_ok (gz_extra g) x /\ w = gzip_header g /\ h = hdr_of h0 g x.
Definition HG10 (h0 : header) (w : list N) (h : header) : Prop :=
  exists p t, w = p ++ t /\ length p = 10 /\ bytes_ok p /\ nthN p 0 = 0x1f%N /\ nthN p 1 = 0x8b%N /\ nthN p 2 = 8%N /\ flag_bit (nthN p 3) 0xe0 = false /\
    TailX (nthN p 3) (crc_update crc_reset p) (hdr10 h0 (flag_bit (nthN p 3) 1) (unle32 (skipn 4 p)) (nthN p 8) (nthN p 9)) t h.
Lemma bytes10 (p : list N) : length p = 10 -> exists a b c d e f g h i j, p = [a; b; c; d; e; f; g; h; i; j].
Proof. intros L. do 10 (destruct p as [|? p]; [discriminate|]). destruct p; [|discriminate]. repeat eexists. Qed.
Definition flags_of (t c x n m : bool) : N := (bit_if t 1 + bit_if c 2 + bit_if x 4 + bit_if n 8 + bit_if m 16)%N.
Lemma flags_bits t c x n m : flag_bit (flags_of t c x n m) 0xe0 = false /\ flag_bit (flags_of t c x n m) 1 = t /\ flag_bit (flags_of t c x n m) 2 = c /\
  flag_bit (flags_of t c x n m) 4 = x /\ flag_bit (flags_of t c x n m) 8 = n /\ flag_bit (flags_of t c x n m) 0x10 = m /\ is_byte (flags_of t c x n m).
Proof. destruct t, c, x, n, m; repeat split; reflexivity. Qed.
Lemma flags_inv f : is_byte f -> flag_bit f 0xe0 = false -> f = flags_of (flag_bit f 1) (flag_bit f 2) (flag_bit f 4) (flag_bit f 8) (flag_bit f 0x10).
Proof.
  intros Hf H. assert (A : forallb (fun k => let f := N.of_nat k in flag_bit f 0xe0 || (f =? flags_of (flag_bit f 1) (flag_bit f 2) (flag_bit f 4) (flag_bit f 8) (flag_bit f 0x10))%N) (seq 0 256) = true) by (vm_compute; reflexivity).
  rewrite forallb_forall in A. specialize (A (N.to_nat f)). cbv beta zeta in A. rewrite N2Nat.id in A. rewrite H in A. cbn [orb] in A. apply N.eqb_eq. apply A. apply in_seq. unfold is_byte in Hf. lia.
Qed.
Lemma QX_opt b h0 w h : QX b h0 w h <-> exists o x, is_some o = b /\ match o with Some p => bytes_ok p /\ (lenN p < two16)%N | None => True end /\ extra_ok o x /\
  w = match o with Some x => le16 (lenN x) ++ x | None => [] end /\ h = if is_some o then set_extra h0 x else h0.
Proof.
  unfold QX. split.
  - destruct b.
    + intros [p [x [A1 [A2 [A3 [-> ->]]]]]]. exists (Some p), x. cbn. auto 10.
    + intros [-> ->]. exists None, []. cbn. auto.
  - intros [[p|] [x [<- [A [B [-> ->]]]]]]; cbn in *; [exists p, x; tauto|auto].
Qed.
Lemma QS_opt upd b h0 w h : QS upd b h0 w h <-> exists o, is_some o = b /\ match o with Some s => bytes_ok s /\ ~ In 0%N s | None => True end /\
  w = zstring o /\ h = upd_if upd h0 o.
Proof.
  unfold QS. split.
  - destruct b.
    + intros [s [A1 [A2 [-> ->]]]]. exists (Some s). cbn. auto.
    + intros [-> ->]. exists None. cbn. auto.
  - intros [[s|] [<- [A [-> ->]]]]; cbn in *; [exists s; tauto|auto].
Qed.
Lemma extra_bytes_ok' o : match o with Some p => bytes_ok p /\ (lenN p < two16)%N | None => True end ->
  bytes_ok (match o with Some x => le16 (lenN x) ++ x | None => [] end).
Proof. destruct o; [|constructor]. intros [H _]. apply bytes_ok_app. split; auto. apply le16_bytes. Qed.
Lemma zstring_ok' o : match o with Some s => bytes_ok s /\ ~ In 0%N s | None => True end -> bytes_ok (zstring o).
Proof. destruct o; [|constructor]. intros [H _]. apply bytes_ok_app. split; auto. repeat constructor. Qed.

Lemma crc4 a b c d : bytes_ok a -> bytes_ok b -> bytes_ok c -> bytes_ok d ->
  crc_update (crc_update (crc_update (crc_update crc_reset a) b) c) d = spec_crc32 (a ++ b ++ c ++ d).
Proof.
  intros A B C D. assert (F : Forall bytes_ok [a; b; c; d]) by (repeat constructor; auto). apply crc_chunks in F. cbn [fold_left concat] in F. rewrite F, app_nil_r. auto.
Qed.
Lemma HG_iff h0 w h : HG h0 w h <-> HG10 h0 w h.
Proof.
  split.
  - intros [g [x [F [EX [-> ->]]]]]. destruct g as [gt gc gx gn gm mt xf os]. unfold gzip_fields_ok in F. cbn [gz_mtime gz_xfl gz_os gz_extra gz_name gz_comment] in *.
    destruct F as [F1 [F2 [F3 [F4 [F5 F6]]]]].
    set (fl := flags_of gt gc (is_some gx) (is_some gn) (is_some gm)).
    destruct (flags_bits gt gc (is_some gx) (is_some gn) (is_some gm)) as [B0 [B1 [B2 [B3 [B4 [B5 B6]]]]]]. fold fl in B0, B1, B2, B3, B4, B5, B6.
    set (p := [0x1f; 0x8b; 8; fl]%N ++ le32 mt ++ [xf; os]).
    assert (BP : bytes_ok p).
    { unfold p. apply bytes_ok_app. split; [repeat constructor; auto|]. apply bytes_ok_app. split; [apply le32_bytes|]. repeat constructor; auto. }
    exists p, (match gx with Some x => le16 (lenN x) ++ x | None => [] end ++ zstring gn ++ zstring gm
      ++ if gc then le16 (spec_crc32 (gzip_header_nocrc (GzipFields gt gc gx gn gm mt xf os)) mod two16) else []).
    split. { unfold gzip_header, gzip_header_nocrc. cbn [gz_hcrc gz_extra gz_name gz_comment gz_mtime gz_xfl gz_os]. change (gzip_flags _) with fl. unfold p. rewrite <- !app_assoc. auto. }
    split; [reflexivity|]. split; auto. split; [reflexivity|]. split; [reflexivity|]. split; [reflexivity|].
    change (nthN p 3) with fl. change (nthN p 8) with xf. change (nthN p 9) with os. change (skipn 4 p) with (le32 mt ++ [xf; os]).
    assert (EM : unle32 (le32 mt ++ [xf; os]) = mt) by (change (unle32 (le32 mt ++ [xf; os])) with (unle32 (le32 mt)); apply unle32_le32; auto). rewrite EM.
    split; auto. rewrite B1. unfold TailX, TailN, TailC, hdr_of. cbn [gz_text gz_mtime gz_xfl gz_os gz_extra gz_name gz_comment]. rewrite B2, B3, B4, B5.
    set (h1 := hdr10 h0 gt mt xf os).
    do 3 eexists. split; [reflexivity|]. split; [apply QX_opt; exists gx, x; split; auto|].
    do 3 eexists. split; [reflexivity|]. split; [apply QS_opt; exists gn; split; auto|].
    do 3 eexists. split; [reflexivity|]. split; [apply QS_opt; exists gm; split; auto|].
    pose proof (@extra_bytes_ok' gx F4) as W1. pose proof (@zstring_ok' gn F5) as W2. pose proof (@zstring_ok' gm F6) as W3.
    split; auto. destruct gc; auto. f_equal. rewrite crc4; auto.
  - intros [p [t [-> [LP [BP [P0 [P1 [P2 [P3 T]]]]]]]]].
    destruct (bytes10 LP) as [a [b [c [d [e1 [e2 [e3 [e4 [xf [os ->]]]]]]]]]]. cbn [nthN nth skipn] in *. subst a b c.
    assert (BB : forall y, In y [e1; e2; e3; e4; xf; os; d] -> is_byte y) by (intros y Hy; eapply Forall_forall; [exact BP|]; cbn in *; tauto).
    assert (Hd : is_byte d) by (apply BB; cbn; tauto). pose proof (flags_inv Hd P3) as FD.
    destruct T as [wx [hx [wr [-> [TX [wn [hn [wr2 [-> [TN [wm [hm [wk [-> [TM [-> ->]]]]]]]]]]]]]]]].
    apply QX_opt in TX. destruct TX as [gx [x [X1 [X2 [X3 [-> ->]]]]]].
    apply QS_opt in TN. destruct TN as [gn [N1 [N2 [-> ->]]]]. apply QS_opt in TM. destruct TM as [gm [M1 [M2 [-> ->]]]].
    set (mt := unle32 [e1; e2; e3; e4; xf; os]) in *.
    assert (BE : bytes_ok [e1; e2; e3; e4]) by (repeat constructor; apply BB; cbn; tauto).
    assert (LM : le32 mt = [e1; e2; e3; e4]) by (change mt with (unle32 [e1; e2; e3; e4]); apply le32_unle32; auto).
    assert (HM : (mt < two32)%N).
    { unfold mt, unle32, two32, nthN. cbn [nth]. assert (is_byte e1 /\ is_byte e2 /\ is_byte e3 /\ is_byte e4) by (repeat split; apply BB; cbn; tauto). unfold is_byte in *. lia. }
    exists (GzipFields (flag_bit d 1) (flag_bit d 2) gx gn gm mt xf os), x.
    split. { unfold gzip_fields_ok. cbn [gz_mtime gz_xfl gz_os gz_extra gz_name gz_comment]. split; auto. split; [apply BB; cbn; tauto|]. split; [apply BB; cbn; tauto|]. auto. }
    split; auto. split; [|reflexivity].
    pose proof (@extra_bytes_ok' gx X2) as W1. pose proof (@zstring_ok' gn N2) as W2. pose proof (@zstring_ok' gm M2) as W3.
    assert (EN : gzip_header_nocrc (GzipFields (flag_bit d 1) (flag_bit d 2) gx gn gm mt xf os) =
      [31; 139; 8; d; e1; e2; e3; e4; xf; os]%N ++ match gx with Some x => le16 (lenN x) ++ x | None => [] end ++ zstring gn ++ zstring gm).
    { unfold gzip_header_nocrc. cbn [gz_hcrc gz_extra gz_name gz_comment gz_mtime gz_xfl gz_os].
      change (gzip_flags _) with (flags_of (flag_bit d 1) (flag_bit d 2) (is_some gx) (is_some gn) (is_some gm)). rewrite X1, N1, M1, <- FD, LM. reflexivity. }
    unfold gzip_header. rewrite EN. cbn [gz_hcrc]. rewrite <- !app_assoc. do 4 f_equal. destruct (flag_bit d 2); auto. f_equal.
    rewrite crc4; auto.
Qed.
Lemma HG_inj h0 : hdet (HG h0).
Proof.
  intros w1 h1 r1 w2 h2 r2 A B E. apply HG_iff in A. apply HG_iff in B.
  destruct A as [p [t [-> [L1 [_ [_ [_ [_ [_ T1]]]]]]]]], B as [p' [t' [-> [L2 [_ [_ [_ [_ [_ T2]]]]]]]]].
  rewrite <- !app_assoc in E. apply app_inj_length in E; [|congruence]. destruct E as [<- E]. destruct (TailX_inj T1 T2 E) as [<- <-]. auto.
Qed.

(** The result of reading a whole header. *)
Definition header_post (r : reader) (Q : list N -> header -> Prop) (fm : format) (res : MReader.reader * bool) : Prop :=
  let '(r', ok) := res in
  hkeep r r' /\ iok (r_in r') /\ bok (r_in r') /\ ibl (r_in r') = 0 /\
  if ok : bool then exists w, Q w (r_hdr r') /\ ink (r_in r) (r_in r') w /\ r_out r' = r_out r /\ r_fmt r' = fm
  else exists e w, ink (r_in r) (r_in r') w /\ r_out r' = closeWithError (r_out r) e /\ fail_err (i_end (r_in r)) e /\
    FailH Q (i_all (r_in r)) (r_in r') (i_end (r_in r)) e.
Definition header_spec (g : res (reader * bool)) (r : reader) (Q : list N -> header -> Prop) (fm : format) : Prop :=
  match g with
  | Ok x => header_post r Q fm x
  | Panic c => panic_cause (i_all (r_in r)) c
  | NoFuel => False
  end.
Lemma stage_header r Q fm x : stage_post r Q x -> (snd x = true -> r_fmt (fst x) = fm) -> header_post r Q fm x.
Proof.
  destruct x as [r' ok]. cbn [fst snd]. intros [K [I S]] F. split; auto. split; auto. destruct ok.
  - destruct S as [w [S1 [S2 [S3 [S4 S5]]]]]. split; auto. split; auto. exists w. split; auto. split; [apply ink_iext; auto|]. auto.
  - destruct S as [e [w [S1 [S3 [S4 [S5 [S6 S7]]]]]]]. split; auto. split; auto. exists e, w. split; [apply ink_iext; auto|]. auto.
Qed.
Lemma gz_tail_fmt f r r' : gz_tail f r = Ok (r', true) -> r_fmt r' = GZIPFormat.
Proof.
  unfold gz_tail, gz_last. repeat (match goal with |- rbind ?x _ = _ -> _ => destruct x as [[? []]| |]; cbn [rbind]; try discriminate end).
  intros E. inversion E. apply fmt_set_fmt.
Qed.
Lemma iok_crcreset i : iok i -> iok (i_crcreset i).
Proof. intros [H1 H2 H3 H4 H5]. destruct i. constructor; auto. reflexivity. Qed.
Lemma ink_crcreset i i' w : ink (i_crcreset i) i' w -> ink i i' w.
Proof. intros [A1 A2 A3 A4 A5]. destruct i. constructor; auto. Qed.
Lemma readHeaderGZIP_spec r : iok (r_in r) -> header_spec (readHeaderGZIP r) r (HG (r_hdr r)) GZIPFormat.
Proof.
  intros H. unfold readHeaderGZIP. set (i0 := i_crcreset (r_in r)). rd.
  assert (H0 : iok i0) by (apply iok_crcreset; auto).
  assert (EALL : i_all i0 = i_all (r_in r)) by (unfold i0; destruct (r_in r); auto). assert (EEND : i_end i0 = i_end (r_in r)) by (unfold i0; destruct (r_in r); auto).
  destruct (@readN_spec _ 10 H0) as [i1 [out [E1 [[q G1] [G2 [G3 G4]]]]]]. rewrite E1. clear E1. unfold header_spec.
  destruct out as [p|].
  2:{ destruct G4 as [G4 [G5 G6]]. rewrite EEND in G6. split; [keep|]. rd. split; [apply (iext_iok H0 G1)|]. split; auto. split; auto.
      exists (eof_is_error (i_end (r_in r))), q. split; [apply ink_crcreset; apply ink_iext; auto|]. rewrite (@out_prop _ (i_end (r_in r))); rd; auto. split; auto. split; [right; auto|].
      apply short_fail with (n := 10); auto; [rewrite <- EALL; auto|].
      intros w h Q. apply HG_iff in Q. destruct Q as [p [t [-> [L _]]]]. rewrite app_length. lia. }
  destruct G4 as [X1 LP]. clear q G1. destruct (iext_iok H0 X1) as [K1 BP].
  assert (CAND : forall x w s h, HG (r_hdr r) w h -> i_all (r_in r) ++ x = w ++ s -> nthN p 0 = 0x1f%N /\ nthN p 1 = 0x8b%N /\ nthN p 2 = 8%N /\ flag_bit (nthN p 3) 0xe0 = false /\
    exists t, w = p ++ t /\ i_all i1 ++ x = t ++ s /\ TailX (nthN p 3) (crc_update crc_reset p) (hdr10 (r_hdr r) (flag_bit (nthN p 3) 1) (unle32 (skipn 4 p)) (nthN p 8) (nthN p 9)) t h).
  { intros x w s h Q EA. apply HG_iff in Q. destruct Q as [p' [t [-> [L [_ [Q1 [Q2 [Q3 [Q4 Q5]]]]]]]]]. rewrite <- EALL, (ix_all X1), <- !app_assoc in EA.
    apply app_inj_length in EA; [|congruence]. destruct EA as [<- EA]. split; auto. split; auto. split; auto. split; auto. exists t. auto. }
  assert (INK : ink (r_in r) i1 p) by (apply ink_crcreset, ink_iext; auto).
  assert (BAD : forall r1 c, r_in r1 = i1 -> r_out r1 = r_out r -> hkeep r r1 -> (forall x w s h, HG (r_hdr r) w h -> i_all (r_in r) ++ x <> w ++ s) ->
     header_post r (HG (r_hdr r)) GZIPFormat (r_corrupt r1 c, false)).
  { intros r1 c EI EO K NC. split; [keep|]. rewrite in_corrupt, EI. split; auto. split; auto. split; auto. exists (corr i1 c), p. split; auto. rewrite out_corrupt, EO, EI. split; auto.
    split; [left; red; unfold corr; eauto|]. apply never_fail. auto. }
  destruct ((nthN p 0 =? 31) && (nthN p 1 =? 139))%N eqn:C1; cbn [negb].
  2:{ apply BAD; rd; auto; [keep|]. intros x w s h Q EA. destruct (CAND _ _ _ _ Q EA) as [A1 [A2 _]]. rewrite A1, A2 in C1. discriminate. }
  destruct (N.eqb_spec (nthN p 2) 8) as [C2|C2]; cbn [negb].
  2:{ apply BAD; rd; auto; [keep|]. intros x w s h Q EA. destruct (CAND _ _ _ _ Q EA) as [_ [_ [A1 _]]]. auto. }
  set (h3 := set_os _ _). destruct (flag_bit (nthN p 3) 224) eqn:C3.
  { apply BAD; rd; auto; [keep|]. intros x w s h Q EA. destruct (CAND _ _ _ _ Q EA) as [_ [_ [_ [A1 _]]]]. congruence. }
  rd. set (h4 := set_datatype h3 _).
  assert (E4 : h4 = hdr10 (r_hdr r) (flag_bit (nthN p 3) 1) (unle32 (skipn 4 p)) (nthN p 8) (nthN p 9)) by (unfold h4, h3; rd; reflexivity).
  set (r4 := set_rhdr _ h4). change (match gz_tail (nthN p 3) r4 with Ok x => header_post r (HG (r_hdr r)) GZIPFormat x | Panic c => panic_cause (i_all (r_in r)) c | NoFuel => False end).
  assert (I4 : r_in r4 = i1) by (unfold r4; rd; auto). assert (O4 : r_out r4 = r_out r) by (unfold r4; rd; auto). assert (K4 : hkeep r r4) by (unfold r4; keep).
  assert (HH4 : r_hdr r4 = h4) by (unfold r4; rd; auto). clearbody r4.
  pose proof (@gz_tail_spec (nthN p 3) r4) as T. rewrite I4, HH4, E4 in T. specialize (T K1 G2 G3). unfold stage in T. rewrite (ix_crc X1) in T.
  assert (EC : i_crc i0 = crc_reset) by (unfold i0; destruct (r_in r); auto). rewrite EC in T.
  pose proof (@gz_tail_fmt (nthN p 3) r4) as GF.
  destruct (gz_tail (nthN p 3) r4) as [[r' ok]|c|]; auto.
  - destruct T as [K [I S]]. split; [eapply hkeep_trans; eauto|]. split; auto. destruct ok.
    + destruct S as [w [S1 [S2 [S3 [S4 S5]]]]]. split; auto. split; auto. exists (p ++ w). rewrite I4 in S2. split.
      { apply HG_iff. exists p, w. apply Bool.andb_true_iff in C1. destruct C1 as [C1 C1']. apply N.eqb_eq in C1, C1'. auto 12. }
      split; [eapply ink_trans; eauto; apply ink_iext; auto|]. split; [congruence|]. apply GF. auto.
    + destruct S as [e [w [S1 [S3 [S4 [S5 [S6 S7]]]]]]]. split; auto. split; auto. rewrite I4 in *. rewrite (ix_end X1), EEND in *. exists e, (p ++ w).
      split; [eapply ink_trans; eauto; apply ink_iext; auto|]. split; [congruence|]. split; auto.
      intros x w0 s h Q EA. destruct (CAND _ _ _ _ Q EA) as [_ [_ [_ [_ [t [-> [E5 T5]]]]]]]. destruct (S7 x t s h T5 E5) as [Z1 Z2]. split; auto.
      rewrite <- EALL, (ix_all X1), !app_length. lia.
  - rewrite I4 in T. destruct T as [a [p' [b [T1 T2]]]]. exists (p ++ a), p', b. rewrite <- EALL, (ix_all X1), T1, app_assoc. auto.
Qed.

(** The only way a gzip header makes the Reader panic: an extra field that cannot be parsed. *)
Definition gz_panic (all : list N) (c : panic) : Prop :=
  exists h p b, all = h ++ le16 (lenN p) ++ p ++ b /\ length h = 10 /\ nthN h 0 = 0x1f%N /\ nthN h 1 = 0x8b%N /\ N.testbit (nthN h 3) 2 = true /\
    (lenN p < 65536)%N /\ bytes_ok p /\ extra_parse p = Panic c.
Lemma stringZ_nopanic fuel : forall i acc c, stringZLoop fuel i acc <> Panic c.
Proof. induction fuel; intros i acc c; cbn [stringZLoop]; [discriminate|]. destruct (inputByte i) as [i' [ch|]]; [|discriminate]. destruct (ch =? 0)%N; [discriminate|auto]. Qed.
Lemma gzstring_nopanic upd r b c : readGZIPString upd r b <> Panic c.
Proof.
  unfold readGZIPString, inputBufferReadStringZ. destruct b; [|discriminate]. pose proof (@stringZ_nopanic (S (src_left (r_in r))) (r_in r) []) as P.
  destruct (stringZLoop _ _ _) as [[i [s|]]|c'|]; cbn [rbind]; try discriminate. intros _. eapply P; eauto.
Qed.
Lemma flag4 f : flag_bit f 4 = N.testbit f 2.
Proof.
  unfold flag_bit. destruct (N.testbit f 2) eqn:E.
  - destruct (N.eqb_spec (N.land f 4) 0) as [Z|Z]; auto. exfalso. assert (X : N.testbit (N.land f 4) 2 = false) by (rewrite Z; reflexivity). rewrite N.land_spec, E in X. discriminate.
  - destruct (N.eqb_spec (N.land f 4) 0) as [Z|Z]; auto. exfalso. apply Z. apply N.bits_inj. intros k. rewrite N.land_spec, N.bits_0. destruct (N.eq_dec k 2) as [->|NK]; [rewrite E; auto|].
    change 4%N with (2 ^ 2)%N. rewrite N.pow2_bits_false by auto. apply andb_false_r.
Qed.
Lemma readHeaderGZIP_panic r c : iok (r_in r) -> readHeaderGZIP r = Panic c -> gz_panic (i_all (r_in r)) c.
Proof.
  intros H. unfold readHeaderGZIP. set (i0 := i_crcreset (r_in r)). rd.
  assert (H0 : iok i0) by (apply iok_crcreset; auto). assert (EALL : i_all i0 = i_all (r_in r)) by (unfold i0; destruct (r_in r); auto).
  destruct (@readN_spec _ 10 H0) as [i1 [out [E1 [_ [G2 [G3 G4]]]]]]. rewrite E1. clear E1.
  destruct out as [p|]; [|discriminate]. destruct G4 as [X1 LP]. destruct (iext_iok H0 X1) as [K1 BP].
  destruct ((nthN p 0 =? 31) && (nthN p 1 =? 139))%N eqn:C1; cbn [negb]; [|discriminate].
  destruct (nthN p 2 =? 8)%N; cbn [negb]; [|discriminate].
  destruct (flag_bit (nthN p 3) 224); [discriminate|]. set (r4 := set_rhdr _ _). assert (I4 : r_in r4 = i1) by (unfold r4; rd; auto). clearbody r4.
  unfold readGZIPExtra at 1. destruct (flag_bit (nthN p 3) 4) eqn:F4.
  - unfold readU16le. rewrite I4. destruct (@readU_spec unle16 2 _ K1) as [i2 [out [E2 [_ [B1 [B2 G5]]]]]]. rewrite E2. clear E2. destruct out as [n|]; [|cbn [rbind]; discriminate].
    destruct G5 as [q [X2 [LQ EN]]]. rd. destruct (iext_iok K1 X2) as [K2 BQ]. destruct (bits_unle16 BQ LQ) as [_ Hn]. rewrite <- EN in Hn.
    destruct (@readN_spec _ (N.to_nat n) K2) as [i3 [out [E3 [_ [B3 [B4 G6]]]]]]. rewrite E3. clear E3. destruct out as [x|]; [|cbn [rbind]; discriminate].
    destruct G6 as [X3 LX]. destruct (iext_iok K2 X3) as [K3 BX].
    destruct (extra_parse x) as [recs|c'|] eqn:EX; cbn [rbind].
    + intros P. exfalso. revert P. repeat (match goal with |- rbind (readGZIPString ?u ?a ?b) _ = _ -> _ => pose proof (@gzstring_nopanic u a b); destruct (readGZIPString u a b) as [[? []]|?|]; cbn [rbind]; try discriminate end; try (intros P; inversion P; subst; congruence)).
      unfold readGZIPCRC16. destruct (flag_bit (nthN p 3) 2); [|discriminate]. destruct (readU16le _) as [? [?|]]; [|discriminate]. destruct (negb _); discriminate.
    + intros P. inversion P; subst c'. exists p, x, (i_all i3). apply andb_true_iff in C1. destruct C1 as [C1 C2]. apply N.eqb_eq in C1, C2. rewrite flag4 in F4.
      assert (LN : lenN x = n) by (unfold lenN; lia). rewrite LN. split; [|auto 10].
      rewrite <- EALL, (ix_all X1), (ix_all X2), (ix_all X3). f_equal. f_equal. rewrite EN. symmetry. apply le16_unle16; auto.
    + discriminate.
  - cbn [rbind]. intros P. exfalso. revert P. repeat (match goal with |- rbind (readGZIPString ?u ?a ?b) _ = _ -> _ => pose proof (@gzstring_nopanic u a b); destruct (readGZIPString u a b) as [[? []]|?|]; cbn [rbind]; try discriminate end; try (intros P; inversion P; subst; congruence)).
    unfold readGZIPCRC16. destruct (flag_bit (nthN p 3) 2); [|discriminate]. destruct (readU16le _) as [? [?|]]; [|discriminate]. destruct (negb _); discriminate.
Qed.
