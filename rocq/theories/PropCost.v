(** C57: bounded expansion.  Whatever the data, the library and the underlying
    writer do, compressing never costs more than 42 bits per block on top of the
    data, and the Writer opens a block by itself only for every [block_size]
    bytes.  Specification: SpecCost.v. *)
From Verif Require PWFrame.
From Verif Require Import Base SpecHuffman MChecksum MToken MCommon MWriter SpecLib SpecEvents SpecSession MSession
  PWriter PBits PActs PropBits PSession PInst SpecCost PCost PCost2 PCost3 Demo PDemo.

Lemma msize_eq o : wopt_ok o -> msize o = block_size o.
Proof.
  intros H. unfold msize, block_size, cap. f_equal. unfold compressConfig, isStoreConfig. pose proof (wo_clevel H).
  destruct (Z.eqb_spec (o_clevel o) 0) as [E|E]; [reflexivity|]. destruct (o_strategy o); try reflexivity;
  (destruct (Z.ltb_spec 0 (o_clevel o)); [|lia]); (destruct (Nat.eqb_spec (2 + Z.to_nat (o_clevel o)) 2); [lia|reflexivity]).
Qed.
Lemma nblk_rep evs : nblk (map ekey evs) = blocks_reported evs.
Proof.
  unfold nblk, blocks_reported, lenN. f_equal. induction evs as [|e evs IH]; [reflexivity|]. cbn [map filter ekey fst].
  destruct (e_type e); cbn [length]; congruence.
Qed.
Lemma nftr_rep evs : nftr (map ekey evs) = footers_reported evs.
Proof.
  unfold nftr, footers_reported, lenN. f_equal. induction evs as [|e evs IH]; [reflexivity|]. cbn [map filter ekey fst].
  destruct (e_type e); cbn [length]; congruence.
Qed.
Lemma hdrs_rep evs : hdrs (map ekey evs) = headers_reported evs.
Proof. unfold hdrs, headers_reported. induction evs as [|e evs IH]; [reflexivity|]. cbn [map flat_map ekey snd]. f_equal. exact IH. Qed.
Lemma flushes_app a b : flushes (a ++ b) = (flushes a + flushes b)%N.
Proof. unfold flushes, lenN. rewrite filter_app, app_length. lia. Qed.
Lemma finishes_app a b : finishes (a ++ b) = (finishes a + finishes b)%N.
Proof. unfold finishes, lenN. rewrite filter_app, app_length. lia. Qed.

Section Session.
Variable env : wenv.
Hypothesis HL : lib_ok env.
Variable opts : list opt.
Hypothesis HO : opts_ok opts.
Variable PH : header -> Prop.
Hypothesis PHnorm : forall h h', hnorm (effective opts) h h' -> PH h -> PH h'.
Hypothesis PH0 : PH header0.
Notation I := (I env (effective opts) PH).
Lemma I_new : I 0 0 0 (lz_init (hybridOptions (effective opts)) 0) noStream (newWriter opts).
Proof.
  constructor.
  - exists 0%N, [], header0. split; [constructor; try reflexivity|].
    + split; [reflexivity|]. split; [reflexivity|]. split; [unfold bitsPerBlock; destruct (lib_bpb HL) as [-> | ->]; cbn; lia|]. split; [constructor|reflexivity].
    + split; reflexivity.
    + split; [split; [apply header0_ok|split; [exact PH0|constructor]]|].
      change (nblk []) with 0%N; cbn [lz_init lz_buf]; change (lenN (@nil N)) with 0%N. change (nftr []) with 0%N. change (hdrs []) with (@nil header).
      split; [apply N.le_0_l|]. split; [change (nblk []) with 0%N; cbn [lz_init lz_buf]; change (lenN (@nil N)) with 0%N; lia|]. split; [reflexivity|reflexivity].
  - constructor; [reflexivity|constructor|]. cbn [lz_init lz_buf]. apply N.le_0_l.
Qed.
Lemma I_run ops : forall D F G l st w w', live st -> Forall op_ok ops -> Forall (op_PH PH) ops -> I D F G l st w -> w_run env w ops = Ok (w', None) ->
  exists l' st', live st' /\ I (D + lenN (ops_data ops)) (F + 2 * flushes ops) (G + finishes ops) l' st' w'.
Proof.
  induction ops as [|o ops IH]; intros D F G l st w w' Hl Ho HP H; cbn [w_run].
  - intros E. inversion E. subst. exists l, st. split; auto. change (lenN (ops_data [])) with 0%N. change (flushes []) with 0%N. change (finishes []) with 0%N.
    rewrite N.mul_0_r, !N.add_0_r. exact H.
  - inversion Ho; subst. inversion HP; subst. destruct (w_step env w o) as [[w1 [e|]]| |] eqn:E1; cbn [rbind]; try discriminate. intros E.
    destruct (@I_step env (lib_bpb HL) (lib_huff HL) _ (effective_ok HO) PH PHnorm D F G l st w o w1 Hl) as [l1 [st1 [L1 H1']]]; auto.
    destruct (IH _ _ _ _ _ _ _ L1 H3 H5 H1' E) as [l' [st' [L' H']]]. exists l', st'. split; auto.
    change (o :: ops) with ([o] ++ ops). rewrite flushes_app, finishes_app. unfold ops_data in *. cbn [flat_map app].
    unfold lenN in H' |- *. rewrite app_length, Nat2N.inj_add, N.mul_add_distr_l, !N.add_assoc. exact H'.
Qed.
Lemma session_cost ops w' : Forall op_ok ops -> Forall (op_PH PH) ops -> w_session env (newWriter opts) ops = Ok (w', None) ->
  let o := effective opts in let evs := w_events w' in
  (8 * lenN (sink (w_out w')) <= 8 * lenN (ops_data ops) + 42 * blocks_reported evs + 8 * (sum (map (header_size o) (headers_reported evs)) + footer_size o * footers_reported evs))%N /\
  (block_size o * blocks_reported evs <= 2 * lenN (ops_data ops) + block_size o * (2 * (flushes ops + 1)))%N /\
  (footers_reported evs <= finishes ops + 1)%N /\ lenN (headers_reported evs) = footers_reported evs /\ Forall PH (headers_reported evs).
Proof.
  intros Ho HP. cbv zeta. unfold w_session. destruct (w_run env (newWriter opts) ops) as [[w1 [e|]]| |] eqn:E; cbn [rbind]; try discriminate. intros EC.
  destruct (I_run (D := 0) (F := 0) (G := 0) (or_introl eq_refl) Ho HP I_new E) as [l [st [Hl H]]]. rewrite !N.add_0_l in H.
  pose proof (@I_flushImpl env (lib_bpb HL) (lib_huff HL) _ (effective_ok HO) PH PHnorm _ _ _ l st w1 FinishFlush Hl H) as P.
  assert (ES : live (w_state w1)) by (destruct (I_w H) as [_ ->]; auto).
  assert (EQ : (let* (w, ok) := flushImpl env w1 FinishFlush in if ok then Ok (w_setstate w closedState, None) else Ok (close_helper w)) = Ok (w', None)).
  { unfold w_Close in EC. destruct ES as [ES|[ES|ES]]; rewrite ES in EC; exact EC. }
  destruct (flushImpl env w1 FinishFlush) as [[x []]| |] eqn:EW; cbn [rbind hob] in *; try discriminate.
  2:{ exfalso. inversion EQ as [[E1 E2]]. pose proof (@PWFrame.a_flushImpl env (lib_bpb HL) _ false w1 FinishFlush (I_A (lib_bpb HL) PHnorm Hl H)) as Q. rewrite EW in Q. cbn [PWFrame.ho] in Q.
      destruct Q as [_ [_ [Q _]]]. apply Q. auto. }
  inversion EQ. subst w'. clear EQ EC. destruct P as [l' [st' [L' [EB [ST [[b [ks [hd [K1 [[K2 [K2' K2'']] [K3 [K4 [K5 K6]]]]]]]] KL]]]]]].
  rewrite (ST eq_refl) in *. cbn [op1] in K6.
  assert (EV : map ekey (w_events (w_setstate x closedState)) = ks /\ sink (w_out (w_setstate x closedState)) = sink (w_out x)).
  { pose proof (c_evs K1). destruct x as [a1 a2 a3 a4 [] a6 a7 a8 a9 a10]. auto. }
  destruct EV as [EV ->]. rewrite <- nblk_rep, <- nftr_rep, <- hdrs_rep, EV, <- (msize_eq (effective_ok HO)).
  rewrite EB in *. change (lenN (@nil N)) with 0%N in *. pose proof (c_bits K1) as CB. unfold bits_out in CB.
  split; [unfold lenN at 1; lia|]. split; [|split; [exact K5|split; [lia|exact K2'']]].
  replace (2 * (flushes ops + 1))%N with (2 * flushes ops + 2)%N by lia. lia.
Qed.
End Session.

(** For every session that succeeds: its output is at most its input plus 42
    bits for every block, plus the headers and the footers that it reported. *)
Theorem C57_expansion :
  forall env opts ops w', lib_ok env -> opts_ok opts -> Forall op_ok ops ->
    w_session env (newWriter opts) ops = Ok (w', None) ->
    let o := effective opts in let evs := w_events w' in
    (8 * lenN (sink (w_out w')) <=
       8 * lenN (ops_data ops) + 42 * blocks_reported evs +
       8 * (sum (map (header_size o) (headers_reported evs)) + footer_size o * footers_reported evs))%N.
Proof.
  intros env opts ops w' HL HO Hops E.
  apply (@session_cost env HL opts HO (fun _ => True) (fun _ _ _ _ => Logic.I) Logic.I ops w' Hops); auto.
  apply Forall_forall. intros [] _; exact Logic.I.
Qed.

(** And the number of blocks is bounded by the amount of data and the number of
    flushes: two for every [block_size] bytes (one, unless NoCompression), two
    for every Flush or Close. *)
Theorem C57_blocks :
  forall env opts ops w', lib_ok env -> opts_ok opts -> Forall op_ok ops ->
    w_session env (newWriter opts) ops = Ok (w', None) ->
    let o := effective opts in let evs := w_events w' in
    (block_size o * blocks_reported evs <= 2 * lenN (ops_data ops) + block_size o * (2 * (flushes ops + 1)))%N /\
    lenN (headers_reported evs) = footers_reported evs /\ (footers_reported evs <= finishes ops + 1)%N.
Proof.
  intros env opts ops w' HL HO Hops E.
  destruct (@session_cost env HL opts HO (fun _ => True) (fun _ _ _ _ => Logic.I) Logic.I ops w' Hops) as [_ [H1 [H2 [H3 _]]]]; auto.
  apply Forall_forall. intros [] _; exact Logic.I.
Qed.

(** Without a Tracer: a bound for the bytes written that the caller can compute
    from what it passes in.  [H] bounds the size of the headers it sets. *)
Theorem C57_bound :
  forall env opts ops w' H, lib_ok env -> opts_ok opts -> Forall op_ok ops ->
    let o := effective opts in let n := lenN (ops_data ops) in
    (header_size o header0 <= H)%N ->
    (forall h, In (OSetHeader h) ops -> (header_size o h <= H)%N) ->
    w_session env (newWriter opts) ops = Ok (w', None) ->
    (lenN (sink (w_out w')) <=
       n + 6 * (2 * n / block_size o) + 12 * (flushes ops + 1) + (H + footer_size o) * (finishes ops + 1))%N.
Proof.
  intros env opts ops w' H HL HO Hops o n H0 HS E.
  destruct (@session_cost env HL opts HO (fun h => header_size o h <= H)%N) with (ops := ops) (w' := w') as [K1 [K2 [K3 [K4 K5]]]]; auto.
  - intros h h' [E1 E2 _ E3 _ _ _ _ _]. unfold header_size. rewrite E1, E2, E3. auto.
  - apply Forall_forall. intros [p|ft|h] Hin; cbn [op_PH]; auto.
  - fold o in K1, K2. fold n in K1, K2. set (evs := w_events w') in *.
    assert (BS : block_size o <> 0%N).
    { unfold block_size. assert (2 ^ (o_mlevel o + 8) <> 0)%N by (apply N.pow_nonzero; discriminate). destruct (_ =? 0)%Z; lia. }
    assert (NB : (blocks_reported evs <= 2 * n / block_size o + 2 * (flushes ops + 1))%N).
    { rewrite <- N.div_add by exact BS. apply N.div_le_lower_bound; auto. rewrite (N.mul_comm (2 * (flushes ops + 1))). exact K2. }
    assert (SH : forall l, Forall (fun h => header_size o h <= H)%N l -> (sum (map (header_size o) l) <= H * lenN l)%N).
    { induction 1 as [|h l Hh _ IH]; [apply N.le_0_l|]. cbn [map sum fold_right]. fold (sum (map (header_size o) l)). unfold lenN in *. cbn [length].
      rewrite Nat2N.inj_succ, N.mul_succ_r. lia. }
    specialize (SH _ K5). rewrite K4 in SH.
    assert (M1 : (H * footers_reported evs <= H * (finishes ops + 1))%N) by (apply N.mul_le_mono_l; exact K3).
    assert (M2 : (footer_size o * footers_reported evs <= footer_size o * (finishes ops + 1))%N) by (apply N.mul_le_mono_l; exact K3).
    rewrite (N.mul_add_distr_r H). clearbody n evs. set (A := (H * (finishes ops + 1))%N) in *. set (B := (footer_size o * (finishes ops + 1))%N) in *.
    clearbody A B. set (q := (2 * n / block_size o)%N) in *. clearbody q. lia.
Qed.

(** A session that meets the hypotheses: NoCompression, 3 bytes, a flush, 2 more
    bytes, zlib: 5 bytes of data, 4 blocks, 31 bytes of output; the bound
    gives 32. *)
Definition cost_demo : list wop := [OWrite [1; 2; 3]%N; OFlush SyncFlush; OWrite [4; 5]%N].
Example C57_example :
  exists w', w_session demo_wenv (newWriter [WithFormat ZlibFormat; WithCompressLevel 0%Z]) cost_demo = Ok (w', None) /\
    lenN (sink (w_out w')) = 31%N /\ blocks_reported (w_events w') = 4%N /\ footers_reported (w_events w') = 1%N /\
    map (header_size (effective [WithFormat ZlibFormat; WithCompressLevel 0%Z])) (headers_reported (w_events w')) = [2%N] /\
    block_size (effective [WithFormat ZlibFormat; WithCompressLevel 0%Z]) = 61440%N.
Proof. eexists. split; [vm_compute; reflexivity|]. repeat split. Qed.
