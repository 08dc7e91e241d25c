(** More theorems about the Reader: headers, counters, events. *)
From Verif Require Import Base SpecChecksum SpecHuffman SpecDeflate SpecFormats SpecSession SpecEvents MChecksum PChecksum MToken MCommon MWriter MReader SpecReader SpecLib PToken PHuffman PBits PActs PGram PInput POutput PDecode PDynamic PBlockDec PHeader PStream PFooter PThread PLoop PFormat PApi PInst PAccept PRead PropReader.

(** ** C14, C15: ExtraData *)
Theorem C14_extra_data_round_trip :
  forall recs, Forall (fun r => (lenN (x_bytes r) < 65536)%N) recs -> extra_parse (extra_bytes recs) = Ok recs.
Proof.
  intros recs H. assert (E : extra_bytes recs = extra_enc recs).
  { induction H as [|r l H Hl IH]; auto. unfold extra_bytes, extra_enc in *. cbn [flat_map]. rewrite IH, N.mod_small; auto. }
  rewrite E, <- (app_nil_r (extra_enc recs)). apply extra_parse_enc; [exact H|cbn; lia].
Qed.
(** Which byte strings make Parse panic: exactly those whose last subfield is cut short. *)
Theorem C15_parse_panics_exactly_on_bad_extra :
  forall raw c, bytes_ok raw -> (extra_parse raw = Panic c <-> c = PBounds /\ BadExtra raw).
Proof. intros raw c H. apply xparse_bad; auto. Qed.
Theorem C15_parse_total_otherwise :
  forall raw, bytes_ok raw -> ~ BadExtra raw -> exists recs tail, extra_parse raw = Ok recs /\ raw = extra_enc recs ++ tail /\ length tail < 4.
Proof.
  intros raw H NB. destruct (extra_parse raw) as [x|c|] eqn:E.
  - unfold extra_parse in E. destruct (@xparse_inv _ _ _ H E) as [_ [tl [T1 T2]]]. exists x, tl. auto.
  - exfalso. apply C15_parse_panics_exactly_on_bad_extra in E; tauto.
  - exfalso. unfold extra_parse in E. eapply xparse_fuel; [|exact E]. lia.
Qed.
(** The claim "Parse never panics" is false. *)
Theorem C15_refuted : exists raw, bytes_ok raw /\ extra_parse raw = Panic PBounds.
Proof. exists [65; 66; 1; 0]%N. split; [repeat constructor|reflexivity]. Qed.

(** ** C36: zlib headers that must be rejected *)
Definition ZlibHeaderOK (limit : N) (dict : option (list N)) (cmf flg : N) (rest : list N) : Prop :=
  (cmf mod 16 = 8)%N /\ (8 + cmf / 16 <= limit)%N /\ ((cmf * 256 + flg) mod 31 = 0)%N /\
  match dict with None => N.testbit flg 5 = false | Some d => N.testbit flg 5 = true /\ firstn 4 rest = be32 (spec_adler32 d) end.

Lemma out_corrupt r c : exists a b, r_out (r_corrupt r c) = closeWithError (r_out r) (CorruptInputError a b c).
Proof. destruct r as [? [? ?] ? ? ? ?]. do 2 eexists. reflexivity. Qed.
Lemma zlib_kind env r r' : iok (r_in r) -> readHeaderZlib env r = (r', false) ->
  (exists e, is_corrupt e /\ r_out r' = closeWithError (r_out r) e) \/ length (i_all (r_in r)) < 2 \/
  (exists x y t, i_all (r_in r) = x :: y :: t /\ N.testbit y 5 = true /\ length t < 4).
Proof.
  intros H. unfold readHeaderZlib. destruct (@readN_spec _ 2 H) as [i1 [out [E1 [[q G1] [G2 [G3 G4]]]]]]. rewrite E1. clear E1.
  assert (COR : forall r0 c r', (r_corrupt r0 c, false) = (r', false) -> r_out r0 = r_out r -> exists e, is_corrupt e /\ r_out r' = closeWithError (r_out r) e).
  { intros r0 c r1 [= <-] E. destruct (out_corrupt r0 c) as [a [b E2]]. rewrite E2, E. eexists. split; [|reflexivity]. red; eauto. }
  destruct out as [p|]; [|intros _; right; left; tauto].
  destruct G4 as [X1 LP]. destruct (bytes2 LP) as [a [b ->]]. cbn [nthN nth]. destruct (iext_iok H X1) as [K1 BP].
  destruct (negb _); [intros E; left; eapply COR; eauto; rd; auto|]. destruct (negb _); [intros E; left; eapply COR; eauto; rd; auto|].
  destruct (_ <? _)%N; [intros E; left; eapply COR; eauto; rd; auto|]. rewrite land20. rd. destruct (N.testbit b 5) eqn:TB.
  - unfold readU32be. destruct (@readU_spec unbe32 4 _ K1) as [i2 [out [E2 [[q2 G5] [B1 [B2 G6]]]]]]. rewrite E2. clear E2.
    destruct out as [v|]; [|intros _; right; right; exists a, b, (i_all i1); rewrite (ix_all X1); repeat split; auto; tauto].
    destruct (e_iszero _ _); [intros E; left; eapply COR; eauto; rd; auto|]. destruct (negb _); [intros E; left; eapply COR; eauto; rd; auto|discriminate].
  - destruct (negb _); [intros E; left; eapply COR; eauto; rd; auto|discriminate].
Qed.

Lemma header_failure env opts src r1 e : rlib_ok env -> opts_ok opts -> good_src src ->
  readHeader env (reset_num (newReader src opts)) = Ok (r1, false) -> o_log (r_out r1) = [OErr e] -> o_err (r_out r1) = Some e ->
  decompress env opts src = Ok ([], Some e).
Proof.
  intros HL HO [HP HB] E EL EE. unfold decompress, readThread. rewrite streamsLoop_eq. change (i_err (r_in (reset_num (newReader src opts)))) with (@None goerr). cbn iota.
  unfold streamStep. rewrite E. cbn [rbind]. set (r2 := match i_err (r_in r1) with Some _ => r1 | None => _ end).
  assert (U2 : r_out r2 = r_out r1) by (unfold r2; destruct (i_err (r_in r1)); rd; auto). clearbody r2.
  assert (UP : r_out (r_propagate r2 false) = r_out r1).
  { rewrite <- U2 in *. clear - EE. destruct r2 as [o [i u] n h f ev]. unfold r_propagate, propagateError, r_in, r_out in *. cbn in *. destruct (i_err i) as [x|]; auto. cbn. destruct u; cbn in *; subst; auto. }
  unfold r_result. rewrite UP, EL, EE. reflexivity.
Qed.
Theorem C36_zlib_bad_header_rejected :
  forall env opts src cmf flg rest, rlib_ok env -> opts_ok opts -> good_src src -> set_to opts SZlib ->
    src_bytes src = cmf :: flg :: rest -> ~ ZlibHeaderOK (limit_of opts) (dict_of opts) cmf flg rest ->
    (N.testbit flg 5 = true -> 4 <= length rest) ->      (* the dictionary id is not cut off *)
    exists e, decompress env opts src = Ok ([], Some e) /\ is_corrupt e.
Proof.
  intros env opts src cmf flg rest HL HO HG [EF HV] EB NH HR. pose proof HG as [HP HB]. destruct (reffective_ok HO) as [HW HD].
  set (r0 := reset_num (newReader src opts)). assert (V0 : inv (reffective opts) r0) by (apply inv_reset_num, inv_new; auto).
  pose proof (@readHeader_spec env (reffective opts) HD r0 V0) as S.
  assert (EA : i_all (r_in r0) = src_bytes src) by reflexivity.
  assert (ZK : exists r4, iok (r_in r4) /\ i_all (r_in r4) = src_bytes src /\ r_out r4 = out_head (reffective opts) r0 /\
     forall r1 ok, readHeader env r0 = Ok (r1, ok) -> ok = false -> readHeaderZlib env r4 = (r1, false)).
  { pose proof (v_iok V0) as VI. assert (H0 : iok (i_streamreset (r_in r0))) by (apply iok_streamreset; auto). destruct (fill_spec H0) as [X1 [F1 [F2 F3]]].
    destruct (iext_iok H0 X1) as [K1 _]. destruct (iext_nil H0 X1) as [A1 _].
    unfold readHeader. rewrite in_set_rin. change (r_in (set_d r0 (DST (i_streamreset (r_in r0)) (o_streamreset (r_out r0))))) with (i_streamreset (r_in r0)).
    set (i1 := fillIfEmpty (i_streamreset (r_in r0))) in *. destruct (i_buf i1) as [|b0 l0] eqn:EI.
    { exfalso. destruct (F3 eq_refl) as [F4 _]. rewrite EB in EA. change (i_all (i_streamreset (r_in r0))) with (i_all (r_in r0)) in F4. congruence. }
    set (r4 := set_rhdr _ header0). exists r4.
    assert (I4 : r_in r4 = i1) by reflexivity. assert (O4 : r_opt r4 = reffective opts) by reflexivity. split; [rewrite I4; auto|]. split; [rewrite I4, A1; reflexivity|]. split; [reflexivity|].
    intros r1 ok. rewrite O4, EF. cbn [rbind]. destruct (readHeaderZlib env r4) as [r5 [|]]; intros [= <- <-]; [discriminate|auto]. }
  destruct ZK as [r4 [K4 [A4 [U4 Z4]]]]. destruct (readHeader env r0) as [[r1 ok]|c|] eqn:EH; [| |contradiction].
  2:{ exfalso. destruct S as [_ S]. unfold selfmt in S. rewrite EF in S. discriminate. }
  destruct S as [_ [_ [_ [_ [[S _]|[_ S]]]]]]; [rewrite EA, EB in S; discriminate|]. unfold selfmt in S. rewrite EF in S. destruct ok.
  - exfalso. apply NH. destruct S as [w [h [ev1 [ev2 [HH [HK _]]]]]]. cbn [Hd] in HH. destruct HH as [a [b [di [B1 [B2 [C1 [C2 [C3 [C4 [-> _]]]]]]]]]].
    pose proof (nk_all HK) as E. rewrite EA, EB, <- app_assoc in E. cbn [app] in E. inversion E; subst a b. split; auto. split; auto. split; auto.
    rewrite (dict_zero_eq HL (HV eq_refl)) in C4. unfold opt_dict in C4. destruct (o_dict (reffective opts)); [|tauto]. destruct C4 as [C4 ->]. split; auto.
  - specialize (Z4 r1 false eq_refl eq_refl). destruct (zlib_kind K4 Z4) as [[e [Q1 Q2]]|[Q|[x [y [t [Q1 [Q2 Q3]]]]]]].
    + exists e. split; auto. eapply header_failure; eauto; unfold r0 in *; rewrite Q2, U4; reflexivity.
    + rewrite A4, EB in Q. cbn in Q. lia.
    + rewrite A4, EB in Q1. inversion Q1; subst. specialize (HR Q2). lia.
Qed.

From Verif Require Import Demo.
Definition panic_input : list N := [31; 139; 8; 4; 0; 0; 0; 0; 0; 3; 4; 0; 65; 66; 1; 0]%N.
Theorem C34_refuted : decompress demo_renv [WithFormat GZIPFormat] [(panic_input, None)] = Panic PBounds.
Proof. vm_compute. reflexivity. Qed.
