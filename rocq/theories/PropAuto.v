(** C37: automatic detection of the format. *)
From Verif Require Import Base SpecChecksum SpecHuffman SpecDeflate SpecFormats SpecSession SpecEvents MChecksum PChecksum MToken MCommon MWriter MReader MSession SpecReader SpecLib PToken PHuffman PBits PActs PGram PInput POutput PDecode PDynamic PBlockDec PHeader PStream PFooter PThread PLoop PCompress PWriter PSession PInv PFormat PApi PInst PClient PAccept PRead PropWriter PropReader PropReader3 PropRound Demo PDemo.

(** ** What the first two bytes look like *)
Definition looks_gzip (b : list N) : Prop := exists t, b = 0x1f%N :: 0x8b%N :: t.
Definition looks_zlib (b : list N) : Prop :=
  exists x y t, b = x :: y :: t /\ (x mod 16 = 8)%N /\ ((x * 256 + y) mod 31 = 0)%N.

(** ** What is required of the source: no Read call returns exactly up to the
    first byte of a stream (the streams [bs] are what the source contains). *)
Definition no_split (src : source) (bs : list (list N)) : Prop :=
  forall l1 b l2, bs = l1 ++ b :: l2 -> forall n, length (concat (b :: l2)) = S (S n) -> ~ In (S n) (src_cuts src).
(** ... and of the input buffer: two bytes can be looked at where a stream begins. *)
Definition can_peek (env : renv) (bs : list (list N)) : Prop :=
  forall l1 b l2, bs = l1 ++ b :: l2 -> 2 <= e_peek2 env (lenN (concat l1) mod two64)%N.

(** The first bytes of the input are seen. *)
Lemma peek_all env src bs i l1 b l2 : src_bytes src = concat bs -> no_split src bs -> can_peek env bs -> bs = l1 ++ b :: l2 ->
  at_src src i -> i_all i = concat (b :: l2) -> i_buf i <> [] ->
  firstn (Nat.min 2 (e_peek2 env (i_total i))) (i_buf i) = firstn 2 (i_all i).
Proof.
  intros ES HN HC EB [A1 [k [A2 A3]]] EA NB.
  assert (EK : k = lenN (concat l1)).
  { rewrite EA, ES, EB, concat_app, lenN_app in A3. lia. }
  assert (P2 : Nat.min 2 (e_peek2 env (i_total i)) = 2).
  { rewrite A2, EK. pose proof (HC _ _ _ EB). lia. }
  rewrite P2. destruct (Nat.le_gt_cases 2 (length (i_buf i))) as [L|L].
  - unfold i_all. rewrite firstn_app. replace (2 - length (i_buf i)) with 0 by lia. cbn [firstn]. now rewrite app_nil_r.
  - assert (L1 : length (i_buf i) = 1) by (destruct (i_buf i); [congruence|cbn in *; lia]).
    assert (EL : i_all i = i_buf i); [|now rewrite EL].
    unfold i_all. destruct (i_err i) eqn:EE; [apply app_nil_r|].
    destruct (src_bytes (i_src i)) as [|y t] eqn:EY; [apply app_nil_r|]. exfalso.
    apply (HN _ _ _ EB (length t)).
    + rewrite <- EA. unfold i_all. rewrite EE, EY, app_length, L1. reflexivity.
    + apply A1. unfold cuts. rewrite EE. assert (EH : S (length t) = length (src_bytes (i_src i))) by (rewrite EY; auto).
      rewrite EH. destruct (i_src i) as [|[p [e|]] r]; cbn [src_cuts]; left; reflexivity.
Qed.

(** ** Every stream has at least two bytes *)
Lemma tokens_len ts w : TokensEnc fixed_ll fixed_d ts w -> 7 <= length w.
Proof.
  induction 1 as [w [H ->]|t ts w ws H1 H2 IH]; [vm_compute; lia|]. rewrite app_length. lia.
Qed.
Lemma block_len acc lk pos h f w h' : Block acc lk pos h f w h' -> 8 < length w.
Proof.
  intros H. destruct H as [pad data H1 H2 H3 H4|ts w h' H1 H2|ll d ts wt w h' H1 H2 H3].
  - rewrite !app_length, !length_bits_of_N. cbn. lia.
  - apply tokens_len in H1. rewrite app_length. cbn [length]. lia.
  - destruct H1 as [hlit [hdist [hclen [x [wc [_ [_ [_ [_ [_ [_ [_ [_ [_ [_ ->]]]]]]]]]]]]]]]. rewrite !app_length, !length_bits_of_N. cbn. lia.
Qed.
Lemma raw_len acc lk dict b d : RawStream (Block acc lk) dict b d -> exists x y t, b = x :: y :: t.
Proof.
  intros [HB [w [pad [HP [E [w1 [h [w2 [_ [H ->]]]]]]]]]]. apply block_len in H.
  apply (f_equal (@length _)) in E. rewrite length_bits_of_bytes, !app_length in E.
  destruct b as [|x [|y t]]; [cbn in *; lia|cbn in *; lia|eauto].
Qed.

(** ** Detection *)
Lemma land15 x : N.land x 15 = (x mod 16)%N.
Proof. change 15%N with (N.ones 4). rewrite N.land_ones. reflexivity. Qed.
Lemma detect env i f b t dict limit d : firstn (Nat.min 2 (e_peek2 env (i_total i))) (i_buf i) = firstn 2 (i_all i) ->
  i_all i = b ++ t -> Acceptable limit dict f b d ->
  (f = SRaw -> ~ looks_gzip b /\ ~ looks_zlib b) -> autofmt env i = f.
Proof.
  intros EP EA HA HR. unfold autofmt. rewrite EP, EA. destruct f.
  - destruct (raw_len HA) as [x [y [s ->]]]. cbn [app firstn length Nat.ltb Nat.leb]. unfold nthN; cbn [nth].
    destruct (HR eq_refl) as [R1 R2].
    destruct (N.eqb_spec x 31) as [E1|E1]; [destruct (N.eqb_spec y 139) as [E2|E2]|]; cbn [andb].
    + subst. exfalso. apply R1. exists s. auto.
    + subst. reflexivity.
    + rewrite land15. destruct (N.eqb_spec (x mod 16) 8) as [E3|E3]; cbn [andb]; auto. unfold unbe16, nthN; cbn [nth]. replace (256 * x + y)%N with (x * 256 + y)%N by lia.
      destruct (N.eqb_spec ((x * 256 + y) mod 31) 0) as [E4|E4]; auto. exfalso. apply R2. exists x, y, s. auto.
  - destruct HA as [[cmf [flg [di [body [B1 [B2 [B3 [_ [B5 [_ [_ ->]]]]]]]]]]] _]. cbn [app firstn length Nat.ltb Nat.leb]. unfold nthN; cbn [nth].
    destruct (N.eqb_spec cmf 31) as [E1|E1]; [subst; discriminate|]. cbn [andb]. rewrite land15, B3. cbn [N.eqb Pos.eqb andb]. unfold unbe16, nthN; cbn [nth]. replace (256 * cmf + flg)%N with (cmf * 256 + flg)%N by lia.
    rewrite B5. reflexivity.
  - destruct HA as [g [[_ [body [_ ->]]] _]]. unfold gzip_header, gzip_header_nocrc. rewrite <- !app_assoc. reflexivity.
Qed.

(** ** C37 *)
(** The streams [l]: format, bytes and contents. *)
Definition infos_ok (opts : list opt) (x : sformat * (list N * list N)) : Prop :=
  valid opts (fst x) (snd x) /\
  (fst x = SRaw -> ~ looks_gzip (fst (snd x)) /\ ~ looks_zlib (fst (snd x))) /\
  (fst x = SZlib -> DictVisible (o_wbits (reffective opts)) (o_dict (reffective opts))).

Theorem C37_auto_detection :
  forall env opts src l, rlib_ok env -> opts_ok opts -> good_src src -> o_format (reffective opts) = DefaultFormat ->
    Forall (infos_ok opts) l -> src_bytes src = concat (map (fun x => fst (snd x)) l) ->
    detached_src src \/ length l <= 1 ->
    no_split src (map (fun x => fst (snd x)) l) -> can_peek env (map (fun x => fst (snd x)) l) ->
    decompress env opts src = Ok (concat (map (fun x => snd (snd x)) l), Some (src_end src)).
Proof.
  intros env opts src l HL HO [HP HB] EF HV EB HD HN HC. destruct (reffective_ok HO) as [HW _].
  assert (INF : exists ss, valid_each_list env opts ss /\ map sb ss = map (fun x => fst (snd x)) l /\ map sd ss = map (fun x => snd (snd x)) l /\
    map sf ss = map fst l).
  { clear - HV HL HW. induction HV as [|[f [b d]] l [H [_ H2]] Hl [ss [I1 [I2 [I3 I4]]]]]; [exists []; repeat split; constructor|].
    cbn [fst snd] in *. destruct (Acceptable_RSt HL HW H2 H) as [h R]. exists (SInfo f b d h :: ss). cbn. rewrite I2, I3, I4. repeat split. constructor; auto. }
  destruct INF as [ss [V1 [V2 [V3 V4]]]]. rewrite <- V2 in *.
  assert (FI : Finds env (reffective opts) (at_src src) ss []).
  { intros g l1 x l2 EL [i [P1 [P2 [P3 P4]]]]. rewrite app_nil_r in P1. unfold selfmt in P4. rewrite EF in P4. subst g.
    assert (NTH : exists y, In y l /\ fst y = sf x /\ fst (snd y) = sb x /\ snd (snd y) = sd x).
    { clear - EL V2 V3 V4. revert ss l1 EL V2 V3 V4. induction l as [|y l IH]; intros ss l1 EL V2 V3 V4.
      - destruct ss; [|discriminate]. destruct l1; discriminate.
      - destruct ss as [|z ss]; [discriminate|]. cbn in *. inversion V2; inversion V3; inversion V4. destruct l1 as [|u l1]; cbn in EL; inversion EL; subst.
        + exists y. auto.
        + destruct (IH _ l1 eq_refl) as [w [W1 W2]]; auto. exists w. auto. }
    destruct NTH as [y [Y1 [Y2 [Y3 Y4]]]]. rewrite Forall_forall in HV. destruct (HV y Y1) as [W1 [W2 W3]].
    rewrite Y2, Y3 in W2. destruct y as [f [b d]]. cbn in *. subst.
    eapply (@detect env i _ _ _ _ _ _); [|exact P1|exact W1|exact W2].
    eapply (@peek_all env src _ i (map sb l1) (sb x) (map sb l2) EB HN HC); auto. rewrite map_app. reflexivity. }
  assert (HD' : detached_src src \/ length ss <= 1).
  { destruct HD as [HD|HD]; auto. right. apply (f_equal (@length _)) in V3. rewrite !map_length in V3. lia. }
  pose proof (@follow_each env HL opts HO src HP HB ss FI V1 EB HD') as F.
  unfold decompress. destruct (readThread env (newReader src opts)); try contradiction. cbn. destruct F as [-> _]. rewrite V3. auto.
Qed.

(** ** A raw Writer's output never looks like zlib or gzip *)
Lemma raw_first (B : blockpred) dict b d : RawStream B dict b d ->
  exists f w h r, B 0 (rev dict) f w h /\ bits_of_bytes b = w ++ r.
Proof.
  intros [_ [w [pad [_ [E [w1 [h [w2 [HB [H ->]]]]]]]]]].
  assert (G : forall v k, Blocks B 0 (rev dict) v k -> v = [] /\ k = rev dict \/ exists f w h r, B 0 (rev dict) f w h /\ v = w ++ r).
  { induction 1 as [|v k v' k' H1 [[-> ->]|[f [u [m [r [I1 ->]]]]]] H2]; [left; auto|right; exists false, v', k', []; rewrite app_nil_r; auto|].
    right. exists f, u, m, (r ++ v'). split; auto. now rewrite app_assoc. }
  destruct (G _ _ HB) as [[-> ->]|[f [u [m [r [I1 ->]]]]]].
  - exists true, w2, (rev d ++ rev dict), pad. auto.
  - exists f, u, m, (r ++ w2 ++ pad). split; auto. rewrite E, <- !app_assoc. auto.
Qed.
Lemma byte_all (P : N -> bool) : forallb P (map N.of_nat (seq 0 256)) = true -> forall x, is_byte x -> P x = true.
Proof.
  intros H x Hx. unfold is_byte in Hx. rewrite forallb_forall in H. apply H. apply in_map_iff. exists (N.to_nat x). split; [lia|]. apply in_seq. lia.
Qed.
Lemma first_bits8 x : is_byte x -> (x mod 16 = 8)%N -> firstn 4 (bits_of_N 8 x) = [false; false; false; true].
Proof.
  intros Hx E. assert (K : ((negb (x mod 16 =? 8)%N) || (if list_eq_dec Bool.bool_dec (firstn 4 (bits_of_N 8 x)) [false; false; false; true] then true else false))%bool = true).
  { apply (@byte_all (fun x => ((negb (x mod 16 =? 8)%N) || (if list_eq_dec Bool.bool_dec (firstn 4 (bits_of_N 8 x)) [false; false; false; true] then true else false))%bool)); auto. }
  rewrite E in K. cbn [N.eqb Pos.eqb negb orb] in K. destruct (list_eq_dec _ _ _); auto. discriminate.
Qed.
Lemma clean_first win pos h f w h' : CleanBlock win pos h f w h' ->
  (exists r, w = f :: true :: false :: r) \/ (exists r, w = f :: false :: true :: r) \/
  (exists r, w = f :: false :: false :: r /\ firstn ((8 - (pos + 3) mod 8) mod 8) r = repeat false ((8 - (pos + 3) mod 8) mod 8)).
Proof.
  intros [H Z]. destruct H as [pad data H1 H2 H3 H4|ts w h' H1 H2|ll d ts wt w h' H1 H2 H3]; cbn [app] in *; eauto.
Qed.
Lemma clean_raw_looks win dict b d : RawStream (CleanBlock win) dict b d -> ~ looks_gzip b /\ ~ looks_zlib b.
Proof.
  intros HR. destruct (raw_first HR) as [f [w [h [r [HB E]]]]]. destruct HR as [HX _].
  split.
  - intros [t ->]. cbn in E. destruct (clean_first HB) as [[s ->]|[[s ->]|[s [-> _]]]]; cbn [app] in E; inversion E.
  - intros [x [y [t [-> [M _]]]]]. inversion HX; subst. pose proof (first_bits8 H1 M) as F4.
    apply (f_equal (firstn 4)) in E. rewrite bits_of_bytes_cons in E. rewrite firstn_app, length_bits_of_N in E. cbn [Nat.sub] in E. rewrite F4 in E.
    destruct (clean_first HB) as [[s ->]|[[s ->]|[s [-> Z]]]]; cbn [app firstn] in E; try (inversion E; fail).
    cbn in Z. destruct s as [|z s]; [discriminate|]. cbn [firstn app] in *. inversion Z; subst. inversion E.
Qed.

(** ** C37: what a Writer of any format writes is read back by a Reader that
    detects the format *)
Definition auto_matching (wopts ropts : list opt) : Prop :=
  o_format (reffective ropts) = DefaultFormat /\ o_dict (reffective ropts) = o_dict (effective wopts) /\
  (o_wbits (effective wopts) <= o_wbits (reffective ropts))%N /\
  (o_format (effective wopts) = ZlibFormat -> DictVisible (o_wbits (reffective ropts)) (o_dict (reffective ropts))).

Lemma session_clean env opts ops w' : lib_ok env -> opts_ok opts -> Forall op_ok ops ->
  w_session env (newWriter opts) ops = Ok (w', None) ->
  exists a bs, asteps a_init ops a /\ sink (w_out w') = concat bs /\ GoodStreams (effective opts) (a_done (a_finish a)) bs /\
    Forall2 (Parts (CleanBlock (2 ^ o_wbits (effective opts))) (effective opts)) (a_done (a_finish a)) bs /\
    concat (map snd (a_done (a_finish a))) = ops_data ops.
Proof.
  intros HL HO Hops E. pose proof (effective_ok HO) as Hw.
  destruct (@pf_session env _ 0 0 [] True _ _ ops a_init (newWriter opts) HL Hw (inst_clean (lib_lz HL) Hw) (sess_new _ (lib_bpb HL) HO) Hops (fun _ => I) _ E)
    as [a [P1 [bs [P2 [P3 _]]]]]. exists a, bs. split; auto. split; auto. split; [|split; [apply parts; auto|]].
  - apply good_streams; auto. eapply Forall2_weaken; [|exact P2]. intros hd b [h' [H1 [H2 [body [H3 H4]]]]]. exists h'. split; auto. split; auto. exists body. split; auto.
    eapply Raw_impl; [|exact H4]. intros ? ? ? ? ? [H _]; exact H.
  - pose proof (asteps_data P1) as D. cbn in D. rewrite <- D. unfold a_data, a_finish.
    destruct (a_cur a) eqn:E1; [destruct (a_done a) eqn:E2|]; cbn [a_done map snd concat].
    + auto.
    + rewrite E2. cbn [map concat]. now rewrite app_nil_r.
    + rewrite map_app, concat_app. cbn [map concat snd]. now rewrite app_nil_r.
Qed.
Lemma raw_parts_looks o win hd b : o_format o = RawFormat -> Parts (CleanBlock win) o hd b -> ~ looks_gzip b /\ ~ looks_zlib b.
Proof.
  intros E [hb [body [-> [H1 H2]]]]. unfold StreamHeader in H1. unfold stream_footer. rewrite E in *. subst hb. rewrite app_nil_r. cbn [app].
  eapply clean_raw_looks; eauto.
Qed.
Theorem C37_raw_output_looks :
  forall env opts ops w', lib_ok env -> opts_ok opts -> Forall op_ok ops -> o_format (effective opts) = RawFormat ->
    w_session env (newWriter opts) ops = Ok (w', None) -> ~ looks_gzip (sink (w_out w')) /\ ~ looks_zlib (sink (w_out w')).
Proof.
  intros env opts ops w' HL HO Hops EF E. destruct (session_clean HL HO Hops E) as [a [bs [A1 [A2 [A3 [A4 A5]]]]]]. rewrite A2.
  destruct A4 as [|hd b l bs H A4]; cbn [concat].
  - split; [intros [t H]|intros [x [y [t [H _]]]]]; discriminate.
  - pose proof (raw_parts_looks EF H) as [R1 R2]. destruct H as [hb [body [-> [H1 H2]]]]. unfold StreamHeader in H1. unfold stream_footer in *. rewrite EF in *. subst hb. rewrite app_nil_r in *. cbn [app] in *.
    assert (HL2 : exists x y t, body = x :: y :: t).
    { eapply raw_len. eapply Raw_impl; [|exact H2]. intros ? ? ? ? ? [K _]; exact K. }
    destruct HL2 as [x [y [t ->]]]. cbn [app]. split.
    + intros [u K]. inversion K; subst. apply R1. exists t. auto.
    + intros [x' [y' [u [K [K1 K2]]]]]. inversion K; subst. apply R2. exists x', y', t. auto.
Qed.
Lemma single_stream ops a : asteps a_init ops a -> ~ In (OFlush FinishFlush) ops -> length (a_done (a_finish a)) = 1.
Proof.
  intros A1 HD. assert (K : a_done a = []).
  { assert (G : forall a0 ops0 a1, asteps a0 ops0 a1 -> ~ In (OFlush FinishFlush) ops0 -> a_done a0 = [] -> a_done a1 = []).
    { induction 1 as [|b op b1 ops1 b2 H1 H2 IH]; auto. intros NI D. cbn in NI. apply IH; [tauto|]. destruct H1 as [b p|b ft|b h Hh|b h Hh]; auto.
      - unfold a_write. destruct p; auto. destruct (a_cur b); auto.
      - destruct ft; auto. exfalso. tauto. }
    eapply G; eauto. }
  unfold a_finish. rewrite K. destruct (a_cur a); reflexivity.
Qed.
Theorem C37_round_trip :
  forall wenv renv wopts ropts ops w', lib_ok wenv -> rlib_ok renv -> opts_ok wopts -> opts_ok ropts -> Forall op_ok ops ->
    w_session wenv (newWriter wopts) ops = Ok (w', None) -> auto_matching wopts ropts ->
    exists bs, sink (w_out w') = concat bs /\ (~ In (OFlush FinishFlush) ops -> length bs = 1) /\
      forall src, polite_src src -> detached_src src \/ ~ In (OFlush FinishFlush) ops -> src_bytes src = sink (w_out w') ->
        no_split src bs -> can_peek renv bs ->
        decompress renv ropts src = Ok (ops_data ops, Some (src_end src)).
Proof.
  intros wenv renv wopts ropts ops w' HL HRL HO HRO Hops E [M1 [M2 [M3 M4]]]. pose proof (effective_ok HO) as Hw.
  destruct (session_clean HL HO Hops E) as [a [bs [A1 [A2 [A3 [A4 A5]]]]]]. exists bs. split; auto.
  assert (LB : length (a_done (a_finish a)) = length bs) by (clear - A4; induction A4; cbn; auto).
  split; [intros HD; rewrite <- LB; apply (single_stream A1 HD)|].
  intros src HP HD EB HN HC. set (f := fmt_stream (o_format (effective wopts))).
  pose proof (fmt_stream_of Hw) as EF. fold f in EF.
  assert (V : Forall (infos_ok ropts) (combine (map (fun _ => f) bs) (combine bs (map snd (a_done (a_finish a))))) /\
     map (fun x : sformat * (list N * list N) => fst (snd x)) (combine (map (fun _ => f) bs) (combine bs (map snd (a_done (a_finish a))))) = bs /\
     map (fun x : sformat * (list N * list N) => snd (snd x)) (combine (map (fun _ => f) bs) (combine bs (map snd (a_done (a_finish a))))) = map snd (a_done (a_finish a))).
  { pose proof (session_rep A1) as HR. pose proof (session_hb A1 Hops) as HH. clear - HR HH A3 A4 EF M1 M2 M3 M4 Hw.
    unfold GoodStreams in A3. revert A4. induction A3 as [|[h d] b l bs H HG IH]; intros A4; cbn [map combine]; [repeat split; constructor|].
    inversion HR; inversion HH; inversion A4; subst. destruct IH as [I1 [I2 I3]]; auto. cbn [fst snd] in *. rewrite I2, I3. split; auto. constructor; auto. split; [|split]; cbn [fst snd].
    - unfold valid. cbn [fst snd]. rewrite M2. eapply writer_acceptable; eauto. apply (wo_wbits Hw).
    - intros ER. rewrite ER in EF. eapply raw_parts_looks; eauto.
    - intros EZ. rewrite EZ in EF. apply M4. auto. }
  destruct V as [V1 [V2 V3]]. rewrite <- A5, <- V3.
  apply C37_auto_detection; auto.
  - split; auto. rewrite EB, A2. eapply good_bytes; eauto.
  - rewrite V2, EB. auto.
  - destruct HD as [HD|HD]; auto. right. rewrite combine_length, map_length. rewrite <- LB, (single_stream A1 HD). lia.
  - rewrite V2. auto.
  - rewrite V2. auto.
Qed.
Lemma cuts_le : forall s n, In n (src_cuts s) -> n <= length (src_bytes s).
Proof.
  induction s as [|[p [e|]] s IH]; intros n H; cbn [src_cuts In] in H; destruct H as [H|H]; try (subst; lia).
  apply IH in H. cbn [src_bytes]. rewrite app_length. lia.
Qed.
(** One stream, from a source whose first Read does not return a single byte. *)
Corollary C37_round_trip_one :
  forall wenv renv wopts ropts ops w' p0 e0 rest, lib_ok wenv -> rlib_ok renv -> opts_ok wopts -> opts_ok ropts -> Forall op_ok ops ->
    w_session wenv (newWriter wopts) ops = Ok (w', None) -> auto_matching wopts ropts -> ~ In (OFlush FinishFlush) ops ->
    polite_src ((p0, e0) :: rest) -> src_bytes ((p0, e0) :: rest) = sink (w_out w') -> 2 <= length p0 -> 2 <= e_peek2 renv 0 ->
    decompress renv ropts ((p0, e0) :: rest) = Ok (ops_data ops, Some (src_end ((p0, e0) :: rest))).
Proof.
  intros wenv renv wopts ropts ops w' p0 e0 rest HL HRL HO HRO Hops E M HF HP EB L2 PK.
  destruct (C37_round_trip HL HRL HO HRO Hops E M) as [bs [B1 [B2 B3]]]. specialize (B2 HF). apply B3; auto.
  - intros l1 b l2 EL n EN. destruct l1; [|subst bs; rewrite app_length in B2; cbn in B2; lia]. cbn [app] in EL. rewrite <- EL, <- B1, <- EB in EN.
    intros HI. cbn [src_cuts In] in HI. destruct HI as [HI|HI]; [lia|]. destruct e0 as [e0|].
    + destruct HI as [HI|[]]. lia.
    + apply cuts_le in HI. cbn [src_bytes] in EN. rewrite app_length in EN. lia.
  - intros l1 b l2 EL. destruct l1; [|subst bs; rewrite app_length in B2; cbn in B2; lia]. exact PK.
Qed.

(** ** A session in each format that meets the hypotheses *)
Definition auto_ops : list wop := [OWrite [104; 101; 108; 108; 111]%N; OFlush SyncFlush; OWrite [104; 101; 108; 108; 111]%N].
Definition auto_bytes (f : format) : list N :=
  match w_session demo_wenv (newWriter [WithFormat f]) auto_ops with Ok (w, None) => sink (w_out w) | _ => [] end.
Example C37_meets : forall f, In f [RawFormat; ZlibFormat; GZIPFormat] ->
  (exists w', w_session demo_wenv (newWriter [WithFormat f]) auto_ops = Ok (w', None)) /\
  auto_matching [WithFormat f] [] /\ Forall op_ok auto_ops /\
  10 < length (auto_bytes f) /\
  decompress demo_renv [] [(auto_bytes f, None); ([], Some EOF)] = Ok (ops_data auto_ops, Some EOF).
Proof.
  intros f Hf.
  assert (W : exists w', w_session demo_wenv (newWriter [WithFormat f]) auto_ops = Ok (w', None)).
  { destruct Hf as [<-|[<-|[<-|[]]]]; eexists; vm_compute; reflexivity. }
  assert (M : auto_matching [WithFormat f] []).
  { destruct Hf as [<-|[<-|[<-|[]]]]; (split; [reflexivity|split; [reflexivity|split; [vm_compute; discriminate|intros _; vm_compute; auto]]]). }
  assert (O : Forall op_ok auto_ops) by (repeat constructor).
  split; auto. split; auto. split; auto. 
  assert (LL : 10 < length (auto_bytes f)).
  { destruct Hf as [<-|[<-|[<-|[]]]]; vm_compute; lia. }
  split; auto. destruct W as [w' W].
  assert (E : auto_bytes f = sink (w_out w')) by (unfold auto_bytes; rewrite W; reflexivity).
  change (Some EOF) with (Some (src_end [(auto_bytes f, None); ([], Some EOF)])) at 2.
  eapply (C37_round_trip_one demo_lib_ok demo_rlib_ok); eauto.
  - destruct Hf as [<-|[<-|[<-|[]]]]; repeat constructor; discriminate.
  - constructor.
  - intros [H|[H|[H|[]]]]; discriminate.
  - cbn. split; auto. intros K. rewrite K in LL. cbn in LL. lia.
  - cbn [src_bytes]. now rewrite app_nil_r.
  - lia.
Qed.
Print Assumptions C37_auto_detection.
Print Assumptions C37_round_trip.
