(** Data that was flushed is decoded, whatever follows it in the input. *)
From Verif Require Import Base SpecChecksum SpecHuffman SpecDeflate SpecFormats SpecEvents MChecksum PChecksum MToken MCommon MWriter MReader SpecLib PToken PHuffman PBits PActs PGram PInput POutput PDecode PDynamic PBlockDec PHeader PStream PFooter PThread PLoop PAccept.

Section Fl.
Variable env : renv.
Hypothesis Hlib : rlib_ok env.
Variable opt : options.
Hypothesis Hdict : bytes_ok (opt_dict opt).
Notation cap := (dec_cap opt).
Notation win := (win_size opt).
Notation ook := (ook cap).
Notation oext := (oext cap).
Notation ow := (ow cap).
Notation RB := (RB env opt).
Notation RSt := (RSt env opt).
Notation inv := (inv opt).
Notation streamStep := (streamStep env).
Let Hcap := cap_pos Hlib opt.

Definition at_pos (pos : nat) (r : reader) : Prop :=
  r_opt r = opt /\ iok (r_in r) /\ bok (r_in r) /\ ibl (r_in r) < 8 /\ ook (r_out r) /\ aligned pos (r_in r).

(** The block loop gets past any complete blocks at the start of the input. *)
Lemma reach pos hist w h : Blocks RB pos hist w h -> forall fuel r s, at_pos pos r -> o_hist (r_out r) = hist -> av (r_in r) = w ++ s -> length (av (r_in r)) < fuel ->
  exists fuel' r1 p, blocksLoop env fuel r = blocksLoop env fuel' r1 /\ at_pos (pos + length w) r1 /\ irel (r_in r) (r_in r1) /\ av (r_in r1) = s /\ length (av (r_in r1)) < fuel' /\
    oext (r_out r) (r_out r1) p /\ bytes_ok p /\ h = rev p ++ hist /\ o_hist (r_out r1) = h /\ rsame r r1.
Proof.
  induction 1 as [|w h w' h' H1 IH H2]; intros fuel r s HP HH EA HF.
  - exists fuel, r, []. split; auto. cbn [length app] in *. rewrite Nat.add_0_r. split; auto. destruct HP as [_ [K [_ [_ [O _]]]]]. split; [apply irel_refl; auto|]. split; auto. split; auto.
    split; [apply oext_refl_; auto|]. split; [constructor|]. split; auto. split; auto. apply rsame_refl.
  - rewrite <- app_assoc in EA. destruct (IH fuel r (w' ++ s) HP HH EA HF) as [f1 [r1 [p [E1 [[P1 [P2 [P3 [P4 [P5 P6]]]]] [X1 [A1 [L1 [O1 [B1 [-> [HH1 SS1]]]]]]]]]]]].
    destruct f1 as [|f1]; [lia|]. destruct (readFlateBlock_spec Hlib (opt := opt) P1 P2 P3 P4 P5 P6) as [r2 [more [E2 [S2 [_ [_ R2]]]]]].
    cbn [blocksLoop] in E1. rewrite E2 in E1. cbn [rbind] in E1.
    destruct R2 as [[f [evs [-> [G _]]]]|[q [e [z [BD [FD _]]]]]].
    + destruct G as [X2 [B2 [L2 [w2 [q [Q1 [Q2 [Q3 Q4]]]]]]]]. change (d_in (r_d r1)) with (r_in r1) in *. change (d_out (r_d r1)) with (r_out r1) in *. change (d_in (r_d r2)) with (r_in r2) in *. change (d_out (r_d r2)) with (r_out r2) in *.
      rewrite HH1 in Q1. rewrite Q2 in A1. destruct (Block_inj Hlib Hcap Q1 H2 A1) as [-> [-> [<- ES]]]. cbn [negb] in E1.
      exists f1, r2, (p ++ q). split; auto.
      assert (LW : 0 < length w') by (destruct H2; cbn; lia).
      split. { split; [destruct S2; congruence|]. split; [apply (irel_iok P2 X2)|]. split; auto. split; auto. split; [exact (oext_ook P5 Q4 Q3)|]. rewrite app_length, Nat.add_assoc. eapply aligned_step; eauto. apply irel_all; auto. }
      split; [destruct HP as [_ [K _]]; exact (irel_trans K X1 X2)|]. split; auto. split; [apply (f_equal (@length _)) in Q2; rewrite app_length in Q2; lia|].
      split; [destruct HP as [_ [_ [_ [_ [O _]]]]]; exact (oext_trans O B1 Q4 O1 Q3)|]. split; [apply bytes_ok_app; auto|]. split; [rewrite rev_app_distr, <- app_assoc; auto|].
      destruct Q3 as [s3 Q3]. rewrite (ox_hist Q3), HH1. split; auto. eapply rsame_trans; eauto.
    + exfalso. unfold FailD in FD. change (d_in (r_d r1)) with (r_in r1) in *. change (d_out (r_d r1)) with (r_out r1) in *. rewrite HH1 in FD.
      destruct (FD [] w' s h') as [T _]; [exists false; exact H2|rewrite app_nil_r; auto|]. rewrite A1, app_length in T. lia.
Qed.

(** An unfinished stream: a header, then complete blocks holding [d]. *)
Definition Opened (f : sformat) (hb body d : list N) : Prop :=
  (exists h, Hd env opt f hb h) /\ bytes_ok body /\ Blocks RB 0 (rev (opt_dict opt)) (bits_of_bytes body) (rev d ++ rev (opt_dict opt)).
(** Everything of [d] is in the output; all but the last bytes, which fit the
    decode buffer, come before any error. *)
Definition holds (log log' : list outact) (d : list N) : Prop :=
  exists s t, log' = log ++ s ++ t /\ Forall is_data s /\ (lenN d <= lenN (log_data s) + cap)%N /\ exists q, log_data (s ++ t) = d ++ q.
Lemma holds_more log a b d : holds log a d -> (exists s, b = a ++ s) -> holds log b d.
Proof.
  intros [s [t [-> [H1 [H2 [q H3]]]]]] [u ->]. exists s, (t ++ u). rewrite <- !app_assoc. split; auto. split; auto. split; auto. exists (q ++ log_data u). rewrite app_assoc, log_data_app, H3, app_assoc. auto.
Qed.
Lemma ow_more o o' : ow o o' -> exists s, o_log o' = o_log o ++ s.
Proof. intros [_ [s [H _]] _ _]. eauto. Qed.
Lemma footer_ow r : iok (r_in r) -> ook (r_out r) -> forall r' ok, readFooter r = Ok (r', ok) -> (exists f, r_fmt r = fmt_of f) -> ow (r_out r) (r_out r').
Proof.
  intros K HO r' ok E [f EF]. destruct (@readFooter_spec f r EF K) as [r2 [ok2 [w [E2 [_ [_ [_ [_ [_ [_ T]]]]]]]]]]; try apply HO.
  { pose proof (ok_adler HO) as A. unfold adler_ok in A. unfold two32. pose proof (N.div_mod (o_adler (r_out r)) 65536 ltac:(discriminate)). lia. }
  rewrite E2 in E. inversion E; subst r2 ok2. destruct ok.
  - destruct T as [_ [-> _]]. apply ow_refl; auto.
  - destruct T as [e [-> _]]. apply ow_close; auto.
Qed.

Lemma body_opened f r hb body d rest : r_opt r = opt -> iok (r_in r) -> bok (r_in r) -> ibl (r_in r) = 0 -> ook (r_out r) -> o_dbuf (r_out r) = [] ->
  o_hist (r_out r) = rev (opt_dict opt) -> r_fmt r = fmt_of f -> Opened f hb body d -> i_all (r_in r) = body ++ rest ->
  forall r' ok, streamBody env r = Ok (r', ok) -> holds (o_log (r_out r)) (o_log (r_out r')) d /\ length (i_all (r_in r')) <= length rest.
Proof.
  intros EO H HB L0 HO HD HH HF [_ [BB HBl]] EA r' ok E. unfold streamBody in E.
  set (o0 := o_sumreset (r_out r)) in *. set (r0 := set_rout r o0) in *.
  assert (I0 : r_in r0 = r_in r) by apply in_set_rout. assert (U0 : r_out r0 = o0) by apply out_set_rout.
  assert (HO0 : ook o0). { unfold o0. destruct HO as [H1 H2 H3 H4 H5 H6 H7]. destruct (r_out r). constructor; auto; cbn; [unfold adler_ok, adler_reset; cbn; lia|reflexivity]. }
  assert (F0 : o_log o0 = o_log (r_out r) /\ o_hist o0 = o_hist (r_out r) /\ o_dbuf o0 = []).
  { unfold o0. clear - HD. destruct (r_out r). cbn in *. auto 10. }
  destruct F0 as [Z1 [Z3 Z4]].
  assert (EO0 : r_opt r0 = opt) by (unfold r0; rewrite opt_set_rout; auto). assert (EF0 : r_fmt r0 = fmt_of f) by (unfold r0; rewrite fmt_set_rout; auto).
  clearbody r0 o0. rewrite I0 in E.
  assert (AV : av (r_in r0) = bits_of_bytes body ++ bits_of_bytes rest).
  { rewrite I0. unfold av. rewrite L0. cbn [bits_of_N app]. rewrite EA. apply bits_of_bytes_app. }
  destruct (reach HBl (fuel := S (bits_left (r_in r))) (r := r0) (s := bits_of_bytes rest)) as [f1 [r1 [p [E1 [[P1 [P2 [P3 [P4 [P5 P6]]]]] [X1 [A1 [L1 [O1 [B1 [HP [HH1 SS1]]]]]]]]]]]]; auto.
  { split; auto. rewrite I0, U0. split; auto. split; auto. split; [lia|]. split; auto. unfold aligned. rewrite L0. reflexivity. }
  { rewrite U0, Z3. auto. }
  { rewrite I0. pose proof (av_le_left (r_in r)). lia. }
  apply app_inv_tail in HP. apply rev_inv in HP. subst p.
  rewrite E1 in E. destruct (blocksLoop_spec Hlib (opt := opt) P1 P2 P3 P4 P5 P6 L1) as [r2 [E2 [S2 [_ [_ R2]]]]]. rewrite E2 in E. cbn [rbind] in E.
  assert (W : ow (r_out r1) (r_out r2)).
  { destruct R2 as [[G _]|[q [e [z [BD _]]]]]; [exact (good_ow (d := r_d r1) (d' := r_d r2) P5 G)|exact (bad_ow (d := r_d r1) (d' := r_d r2) P5 BD)]. }
  assert (X2 : irel (r_in r1) (r_in r2)) by (destruct R2 as [[G _]|[q [e [z [BD _]]]]]; [apply G|apply BD]).
  destruct (mustFlush_spec Hcap (ow_ook W)) as [M1 M2]. pose proof (oext_ook (ow_ook W) (Forall_nil _) M1) as HO2.
  pose proof (ow_oext (ow_ook W) (Forall_nil _) M1) as W2.
  assert (W3 : ow (mustFlush (r_out r2)) (r_out r') /\ o_dbuf (r_out r') = [] /\ length (i_all (r_in r')) <= length (i_all (r_in r2))).
  { assert (K2 : iok (r_in (set_rout r2 (mustFlush (r_out r2))))) by (rewrite in_set_rout; apply (irel_iok P2 X2)).
    assert (F2 : r_fmt (set_rout r2 (mustFlush (r_out r2))) = fmt_of f) by (rewrite fmt_set_rout; destruct SS1 as [_ [_ [_ SS1]]]; destruct S2 as [_ [_ [_ S2]]]; congruence).
    destruct (@readFooter_spec f _ F2 K2) as [r3 [ok3 [w [E3 [_ [_ [_ [_ [_ [T6 T7]]]]]]]]]]; rewrite ?out_set_rout; try apply HO2.
    { pose proof (ok_adler HO2) as A. unfold adler_ok in A. unfold two32. pose proof (N.div_mod (o_adler (mustFlush (r_out r2))) 65536 ltac:(discriminate)). lia. }
    rewrite E3 in E. inversion E; subst r3 ok3. rewrite in_set_rout in *. rewrite out_set_rout in *. split; [|split].
    - destruct ok; [destruct T7 as [_ [-> _]]; apply ow_refl; auto|destruct T7 as [e [-> _]]; apply ow_close; auto].
    - destruct ok; [destruct T7 as [_ [-> _]]; auto|destruct T7 as [e [-> _]]; rewrite dbuf_close; auto].
    - rewrite (ix_all T6), app_length. lia. }
  destruct W3 as [W3 [D3 I3]].
  pose proof (ow_trans W (ow_trans W2 W3)) as WW. split.
  - destruct WW as [_ [t [T1 _]] _ [q T2]]. destruct O1 as [s O1]. rewrite U0 in O1. exists s, t. split; [rewrite T1, (ox_log O1), Z1, <- app_assoc; auto|]. split; [apply O1|].
    pose proof (ox_data O1) as OD. rewrite Z4 in OD. cbn [app] in OD. split.
    + rewrite <- OD, lenN_app. pose proof (ok_cap P5). lia.
    + exists q. rewrite D3, app_nil_r, T1, (ox_log O1), !log_data_app, <- !app_assoc in T2. apply app_inv_head in T2. rewrite log_data_app, T2, app_assoc, OD. auto.
  - apply irel_all in X2. assert (length (i_all (r_in r1)) <= length rest); [|lia]. apply (f_equal (@length _)) in A1. rewrite av_length, length_bits_of_bytes in A1. lia.
Qed.

Lemma hd_no_panic hb h x c : HG header0 hb h -> ~ gz_panic (hb ++ x) c.
Proof.
  intros H1 [h10 [p [q [E [L [_ [_ [F [LP [BP EP]]]]]]]]]]. apply HG_iff in H1.
  destruct H1 as [p' [t [-> [L' [_ [_ [_ [_ [_ [w1 [h1 [w2 [-> [Q _]]]]]]]]]]]]]]. rewrite <- !app_assoc in E. apply app_inj_length in E; [|congruence]. destruct E as [-> E].
  rewrite flag4, F in Q. destruct Q as [pp [y [LQ [BQ [EQ [-> _]]]]]]. rewrite <- !app_assoc in E. apply app_inj_length in E; [|reflexivity]. destruct E as [E1 E2].
  apply le16_inj in E1; auto. apply app_inj_length in E2; [|apply lenN_len; auto]. destruct E2 as [-> _]. congruence.
Qed.

Lemma step_opened r hb body d rest : inv r -> Opened (selfmt env opt (in_head r)) hb body d -> i_all (r_in r) = hb ++ body ++ rest -> hb ++ body <> [] ->
  exists r' ok, streamStep r = Ok (r', ok) /\ inv r' /\ (exists w, ink (r_in r) (r_in r') w) /\ holds (o_log (r_out r)) (o_log (r_out r')) d /\
    length (i_all (r_in r')) <= length rest /\ (ok = true -> length (i_all (r_in r')) < length (i_all (r_in r))).
Proof.
  intros V HOp EA NE. pose proof V as [VO VI VB V0 VK VD]. pose proof (streamStep_spec Hlib Hdict V) as SP. pose proof (readHeader_spec env Hdict V) as HS.
  unfold PThread.streamStep in *. set (f := selfmt env opt (in_head r)) in *. pose proof HOp as [[h HD] _].
  assert (NA : i_all (r_in r) <> []) by (rewrite EA, app_assoc; intros K; apply app_eq_nil in K; tauto).
  destruct (readHeader env r) as [[r1 ok1]|c|] eqn:EH; cbn [rbind] in *; [|exfalso|contradiction].
  2:{ destruct HS as [G Sg]. rewrite Sg in HD. cbn [Hd] in HD. rewrite EA in G. exact (hd_no_panic HD G). }
  destruct HS as [EO1 [K1 [B1 [L1 HS]]]]. destruct HS as [[? _]|[_ HS]]; [contradiction|]. cbv zeta in HS. fold f in HS.
  destruct ok1.
  2:{ exfalso. destruct HS as [e [w [NK [EU [FE [FH _]]]]]]. destruct (FH [] hb (body ++ rest) h) as [T _]; auto; [rewrite app_nil_r; auto|]. rewrite EA, app_length in T. lia. }
  destruct HS as [w [h' [ev1 [ev2 [H1 [NK [EU [EF _]]]]]]]].
  assert (EW : hb = w /\ i_all (r_in r1) = body ++ rest).
  { pose proof (nk_all NK) as A. rewrite EA in A. destruct (Hd_inj HD H1 A) as [<- _]. apply app_inv_head in A. auto. }
  destruct EW as [<- EA1].
  destruct (streamBody env r1) as [[r' ok]|c|] eqn:EB; cbn [rbind] in *; [|exfalso|contradiction].
  - exists r', ok. split; auto. destruct SP as [V1 [_ [X1 _]]]. split; auto. split; auto.
    assert (OHK : ook (out_head opt r)). { apply ook_head; auto. apply Forall_rev. auto. }
    assert (OHF : o_log (out_head opt r) = o_log (r_out r) /\ o_dbuf (out_head opt r) = [] /\ o_hist (out_head opt r) = rev (opt_dict opt)).
    { unfold out_head. clear - VD. destruct (r_out r). cbn in *. auto. }
    destruct OHF as [F1 [F3 F5]].
    destruct (@body_opened f r1 hb body d rest) with (r' := r') (ok := ok) as [Q1 Q2]; rewrite ?EU; auto.
    rewrite EU, F1 in Q1. split; auto. split; auto. intros _. rewrite EA, !app_length. assert (length hb + length body <> 0); [|lia]. rewrite <- app_length. destruct (hb ++ body); [congruence|discriminate].
  - destruct SP as [G Sg]. rewrite Sg in HD. cbn [Hd] in HD. rewrite EA in G. exact (hd_no_panic HD G).
Qed.

Variable Pk : ist -> Prop.
Hypothesis HPk : forall i i' w, ink i i' w -> Pk i -> Pk i'.

Lemma walk f l : o_format opt = fmt_of f -> Forall (fun s => sf s = f /\ RSt f (sb s) (sd s) (sh s)) l -> forall fuel r hb body d rest, inv r -> Pk (r_in r) -> src_left (r_in r) < fuel ->
  Opened f hb body d -> i_all (r_in r) = concat (map sb l) ++ hb ++ body ++ rest -> hb ++ body <> [] -> i_err (r_in r) = None -> detached (r_in r) \/ l = [] ->
  match streamsLoop env fuel r with
  | Ok r' => inv r' /\ holds (o_log (r_out r)) (o_log (r_out r')) (concat (map sd l) ++ d)
  | Panic c => exists pre tail, rest = pre ++ tail /\ gz_panic tail c
  | NoFuel => False
  end.
Proof.
  intros EF. assert (SF : forall r, selfmt env opt (in_head r) = f).
  { intros r. unfold selfmt. rewrite EF. destruct f; auto. }
  induction 1 as [|[f0 b dd h] l [HX1 HX2] HL IH]; intros fuel r hb body d rest V HC HF HO EA NE EE HDt.
  - cbn [map concat app] in *. destruct fuel as [|fu]; [lia|]. rewrite streamsLoop_eq, EE.
    destruct (step_opened (rest := rest) V (hb := hb) (body := body) (d := d)) as [r1 [ok [E1 [V1 [[w X1] [Q1 [Q2 Q3]]]]]]]; auto; [rewrite SF; auto|].
    rewrite E1. cbn [rbind]. destruct ok; [|auto].
    pose proof (nk_left X1) as NL. pose proof (f_equal (@length _) (nk_all X1)) as A. rewrite app_length in A. specialize (Q3 eq_refl).
    pose proof (@junkLoop env Hlib opt Hdict Pk HPk fu r1 V1 ltac:(eapply HPk; eauto) ltac:(lia)) as J. destruct (streamsLoop env fu r1) as [r2|c|]; auto.
    + destruct J as [V2 [_ [_ [s [J1 _]]]]]. split; auto. eapply holds_more; eauto.
    + destruct J as [pre [tl [J1 [_ J2]]]].
      assert (SX : exists y, rest = y ++ i_all (r_in r1)).
      { pose proof (nk_all X1) as AA. rewrite EA, app_assoc in AA. apply app_eq_app in AA. destruct AA as [y [[Y1 Y2]|[Y1 Y2]]]; [|eauto].
        assert (y = []) by (rewrite Y2, app_length in Q2; destruct y; auto; cbn in Q2; lia). subst y. exists []. cbn in *. auto. }
      destruct SX as [y ->]. rewrite J1. exists (y ++ pre), tl. rewrite app_assoc. auto.
  - cbn [map concat app sb sd sf sh] in *. subst f0. destruct fuel as [|fu]; [lia|]. rewrite streamsLoop_eq, EE. destruct HDt as [HDt|?]; [|discriminate].
    pose proof (streamStep_spec Hlib Hdict V) as S. rewrite <- app_assoc in EA.
    destruct (streamStep r) as [[r1 ok]|c|] eqn:ESS; cbn [rbind]; [| |auto].
    2:{ exfalso. destruct S as [G Sg]. rewrite SF in Sg. subst f. destruct HX2 as [w [bd [Z1 [Z2 ->]]]]. cbn [Hd] in Z1. rewrite EA, <- app_assoc in G. exact (hd_no_panic Z1 G). }
    destruct S as [V1 [_ [_ S]]]. pose proof (RSt_nonempty HX2) as NB.
    destruct S as [[_ [A1 _]]|[_ [[-> [b' [d' [h' [s [R1 [N1 [D1 [D2 [D3 [D4 _]]]]]]]]]]]|[e [s [p [z [_ [_ [_ [_ [FS _]]]]]]]]]]]].
    + exfalso. rewrite EA in A1. apply app_eq_nil in A1. tauto.
    + rewrite SF in R1. pose proof (nk_all N1) as A. rewrite EA in A. destruct (RSt_inj Hlib HX2 R1 A) as [<- [<- <-]]. apply app_inv_head in A.
      assert (HF1 : src_left (r_in r1) < fu). { pose proof (nk_left N1). destruct b; [congruence|cbn in *; lia]. }
      assert (DT1 : detached (r_in r1)) by (apply (nk_det N1); auto).
      assert (EE1 : i_err (r_in r1) = None).
      { unfold detached, i_all in *. destruct (i_err (r_in r1)); auto. exfalso. rewrite DT1 in A. cbn in A. apply app_eq_nil in A. destruct A as [_ A]. rewrite app_assoc in A. apply app_eq_nil in A. tauto. }
      specialize (IH fu r1 hb body d rest V1 ltac:(eapply HPk; eauto) HF1 HO (eq_sym A) NE EE1 (or_introl DT1)).
      destruct (streamsLoop env fu r1) as [r2|c|]; auto. destruct IH as [V2 [s2 [t [H1 [H2 [H3 [q' H5]]]]]]]. split; auto.
      exists (s ++ s2), t. rewrite H1, D1, <- !app_assoc. split; auto. split; [apply Forall_app; auto|]. split.
      * rewrite !lenN_app in *. rewrite log_data_app, D2, lenN_app. lia.
      * exists q'. rewrite <- app_assoc in *. rewrite log_data_app, D2, H5, <- !app_assoc. auto.
    + exfalso. rewrite SF in FS. destruct (FS [] b dd h (concat (map sb l) ++ hb ++ body ++ rest)) as [T _]; auto; [rewrite app_nil_r; auto|]. rewrite EA, app_length in T. lia.
Qed.

Lemma walk_done f l : o_format opt = fmt_of f -> Forall (fun s => sf s = f /\ RSt f (sb s) (sd s) (sh s)) l -> forall fuel r rest, inv r -> Pk (r_in r) -> src_left (r_in r) < fuel ->
  i_all (r_in r) = concat (map sb l) ++ rest -> i_err (r_in r) = None \/ l = [] -> detached (r_in r) \/ length l <= 1 ->
  match streamsLoop env fuel r with
  | Ok r' => inv r' /\ holds (o_log (r_out r)) (o_log (r_out r')) (concat (map sd l))
  | Panic c => exists pre tail, rest = pre ++ tail /\ gz_panic tail c
  | NoFuel => False
  end.
Proof.
  intros EF. assert (SF : forall r, selfmt env opt (in_head r) = f).
  { intros r. unfold selfmt. rewrite EF. destruct f; auto. }
  induction 1 as [|[f0 b dd h] l [HX1 HX2] HL IH]; intros fuel r rest V HC HF EA EE HDt.
  - cbn [map concat app] in *. pose proof (@junkLoop env Hlib opt Hdict Pk HPk fuel r V HC HF) as J. destruct (streamsLoop env fuel r) as [r2|c|]; auto.
    + destruct J as [V2 [_ [_ [s [J1 _]]]]]. split; auto. exists [], s. split; auto. split; auto. split; [cbn; lia|]. exists (log_data s). auto.
    + destruct J as [pre [tl [J1 [_ J2]]]]. exists pre, tl. rewrite <- EA. auto.
  - cbn [map concat app sb sd sf sh] in *. subst f0. destruct EE as [EE|?]; [|discriminate]. destruct fuel as [|fu]; [lia|]. rewrite streamsLoop_eq, EE.
    pose proof (streamStep_spec Hlib Hdict V) as S. rewrite <- app_assoc in EA.
    destruct (streamStep r) as [[r1 ok]|c|] eqn:ESS; cbn [rbind]; [| |auto].
    2:{ exfalso. destruct S as [G Sg]. rewrite SF in Sg. subst f. destruct HX2 as [w [bd [Z1 [Z2 ->]]]]. cbn [Hd] in Z1. rewrite EA, <- app_assoc in G. exact (hd_no_panic Z1 G). }
    destruct S as [V1 [_ [_ S]]]. pose proof (RSt_nonempty HX2) as NB.
    destruct S as [[_ [A1 _]]|[_ [[-> [b' [d' [h' [s [R1 [N1 [D1 [D2 [D3 [D4 _]]]]]]]]]]]|[e [s [p [z [_ [_ [_ [_ [FS _]]]]]]]]]]]].
    + exfalso. rewrite EA in A1. apply app_eq_nil in A1. tauto.
    + rewrite SF in R1. pose proof (nk_all N1) as A. rewrite EA in A. destruct (RSt_inj Hlib HX2 R1 A) as [<- [<- <-]]. apply app_inv_head in A.
      assert (HF1 : src_left (r_in r1) < fu). { pose proof (nk_left N1). destruct b; [congruence|cbn in *; lia]. }
      assert (EE1 : i_err (r_in r1) = None \/ l = []).
      { destruct HDt as [HDt|HDt]; [|right; destruct l; [auto|cbn in HDt; lia]]. apply (nk_det N1) in HDt.
        unfold detached, i_all in *. destruct (i_err (r_in r1)); auto. right. rewrite HDt in A. cbn in A. apply app_eq_nil in A. destruct A as [A _].
        destruct HL as [|x l [_ Z] _]; auto. cbn in A. apply app_eq_nil in A. apply RSt_nonempty in Z. tauto. }
      assert (DT1 : detached (r_in r1) \/ length l <= 1) by (destruct HDt as [HDt|HDt]; [left; apply (nk_det N1); auto|right; cbn in HDt; lia]).
      specialize (IH fu r1 rest V1 ltac:(eapply HPk; eauto) HF1 (eq_sym A) EE1 DT1).
      destruct (streamsLoop env fu r1) as [r2|c|]; auto. destruct IH as [V2 [s2 [t [H1 [H2 [H3 [q' H5]]]]]]]. split; auto.
      exists (s ++ s2), t. rewrite H1, D1, <- !app_assoc. split; auto. split; [apply Forall_app; auto|]. split.
      * rewrite !lenN_app in *. rewrite log_data_app, D2, lenN_app. lia.
      * exists q'. rewrite log_data_app, D2, H5, <- !app_assoc. auto.
    + exfalso. rewrite SF in FS. destruct (FS [] b dd h (concat (map sb l) ++ rest)) as [T _]; auto; [rewrite app_nil_r; auto|]. rewrite EA, app_length in T. lia.
Qed.
End Fl.
