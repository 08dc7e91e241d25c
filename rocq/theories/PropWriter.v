(** Theorems about the Writer, in terms of its methods and of the
    specifications SpecDeflate, SpecFormats, SpecSession, SpecEvents, SpecLib. *)
From Verif Require Import Base SpecChecksum SpecEvents SpecHuffman SpecDeflate SpecFormats SpecSession MChecksum PChecksum MToken MCommon MWriter MReader SpecLib MSession
  PToken PHuffman PTree PBits PActs PBlocks PCompress PWriter PSession PInv PFormat PApi PInst PClient Demo PDemo.

(** The options a Writer created with [opts] works with. *)
Notation effective := PInst.effective.

Lemma Forall2_weaken {A C} (P Q : A -> C -> Prop) l m : (forall x y, P x y -> Q x y) -> Forall2 P l m -> Forall2 Q l m.
Proof. induction 2; constructor; auto. Qed.
Lemma w_run_app env : forall a w b, w_run env w (a ++ b) =
  let* (w1, e) := w_run env w a in match e with Some x => Ok (w1, Some x) | None => w_run env w1 b end.
Proof.
  induction a as [|op l IH]; intros w b; cbn [app w_run rbind]; auto.
  destruct (w_step env w op) as [[w1 [e|]]| |]; cbn [rbind]; auto.
Qed.
Lemma good_streams opt dn bs : wopt_ok opt ->
  Forall2 (done_ok opt (StrictBlock (2 ^ o_wbits opt))) dn bs -> GoodStreams opt dn bs.
Proof.
  intros Hopt HF. unfold GoodStreams. eapply Forall2_weaken; [|exact HF].
  intros hd b [h' [H1 [H2 H3]]]. eapply streamB_spec; eauto.
  intros win Hwin body HR. eapply Raw_impl; [|exact HR]. apply strict_mono. auto.
Qed.

(** ** C02: the output conforms to the RFCs *)
Theorem C02_writer_output_conforms :
  forall env opts ops w', lib_ok env -> opts_ok opts -> Forall op_ok ops ->
    w_session env (newWriter opts) ops = Ok (w', None) ->
    exists a bs, asteps a_init ops a /\
      sink (w_out w') = concat bs /\
      GoodStreams (effective opts) (a_done (a_finish a)) bs /\
      concat (map snd (a_done (a_finish a))) = ops_data ops.
Proof.
  intros env opts ops w' HL HO Hops E.
  pose proof (effective_ok HO) as Hw.
  pose proof (@c_session env HL _ Hw 0 0 [] _ _ (inst_strict (lib_lz HL) Hw) ops a_init (newWriter opts)
    (sess_new _ (lib_bpb HL) HO) Hops) as P.
  rewrite E in P. destruct P as [a [P1 [bs [P2 [P3 _]]]]]. exists a, bs. split; auto. split; auto.
  split; [apply good_streams; auto|].
  pose proof (asteps_data P1) as D. cbn in D. rewrite <- D. unfold a_data, a_finish.
  destruct (a_cur a) eqn:E1; [destruct (a_done a) eqn:E2|]; cbn [a_done map snd concat].
  - auto.
  - rewrite E2. cbn [map concat]. now rewrite app_nil_r.
  - rewrite map_app, concat_app. cbn [map concat snd]. now rewrite app_nil_r.
Qed.

(** Over an environment whose writes never fail, every session of every Writer
    with memory level 1..7 (or no compression) succeeds; so the hypotheses of
    C02 are met by every such session. *)
Definition no_failure (env : wenv) : Prop :=
  (forall n b, e_sink env n b = None) /\ (forall n, e_flushw env n = None) /\ (forall n, e_syncw env n = None).

(** ** C09: the Writer does not panic (and its loops terminate), except with
    memory levels 8 and 9 with compression. *)
Definition small_blocks (o : options) : Prop := (o_mlevel o <= 7)%N \/ o_clevel o = 0%Z.
Lemma small_no_panic o : small_blocks o -> ~ may_panic o.
Proof.
  intros H [H1 H2]. destruct H as [H|H]; [lia|]. unfold compressConfig in H1. rewrite H in H1. discriminate.
Qed.
Theorem C09_writer_no_panic_partial :
  forall env opts ops, lib_ok env -> opts_ok opts -> Forall op_ok ops -> small_blocks (effective opts) ->
    exists w' e, w_session env (newWriter opts) ops = Ok (w', e) /\
      match e with None => True | Some x => from_env env x end.
Proof.
  intros env opts ops HL HO Hops HS.
  pose proof (effective_ok HO) as Hw.
  pose proof (@c_session env HL _ Hw 0 0 [] _ _ (inst_strict (lib_lz HL) Hw) ops a_init (newWriter opts)
    (sess_new _ (lib_bpb HL) HO) Hops) as P.
  destruct (w_session env (newWriter opts) ops) as [[w' [e|]]|q|].
  - exists w', (Some e). split; auto. tauto.
  - exists w', None. auto.
  - exfalso. destruct P as [_ P]. exact (small_no_panic HS P).
  - contradiction.
Qed.
(** At every level: a session in which no single Write passes more than 61440
    bytes does not panic.  (io.Copy passes at most 32768 bytes at a time.) *)
Definition small_writes (ops : list wop) : Prop := forall p, In (OWrite p) ops -> (lenN p <= 61440)%N.
Lemma small_writes_ops ops : small_writes ops -> Forall small_op ops.
Proof. intros H. apply Forall_forall. intros [p| |] Hin; cbn; auto. Qed.
Theorem C09_small_writes_no_panic_partial :
  forall env opts ops, lib_ok env -> opts_ok opts -> Forall op_ok ops -> small_writes ops ->
    exists w' e, w_session env (newWriter opts) ops = Ok (w', e) /\
      match e with None => True | Some x => from_env env x end.
Proof.
  intros env opts ops HL HO Hops HS.
  pose proof (effective_ok HO) as Hw.
  pose proof (@short_session env _ 0 0 [] _ _ ops a_init (newWriter opts) HL Hw (inst_strict (lib_lz HL) Hw)
    (sess_new _ (lib_bpb HL) HO) (@short_nil _ (newWriter opts) eq_refl) Hops (small_writes_ops HS)) as P.
  destruct (w_session env (newWriter opts) ops) as [[w' e]|q|]; [|contradiction|contradiction].
  exists w', e. split; auto.
Qed.
(** In every case the only possible panic is the assertion on the size of a stored block. *)
Theorem C09_writer_terminates_partial :
  forall env opts ops, lib_ok env -> opts_ok opts -> Forall op_ok ops ->
    match w_session env (newWriter opts) ops with
    | Ok _ => True
    | Panic p => p = PAssert /\ (8 <= o_mlevel (effective opts))%N /\ o_clevel (effective opts) <> 0%Z
    | NoFuel => False
    end.
Proof.
  intros env opts ops HL HO Hops.
  pose proof (effective_ok HO) as Hw.
  pose proof (@c_session env HL _ Hw 0 0 [] _ _ (inst_strict (lib_lz HL) Hw) ops a_init (newWriter opts)
    (sess_new _ (lib_bpb HL) HO) Hops) as P.
  destruct (w_session env (newWriter opts) ops) as [[w' [e|]]|q|]; auto.
  destruct P as [-> [P1 P2]]. split; auto. split; auto. intros E. unfold compressConfig in P1. rewrite E in P1. discriminate.
Qed.

Theorem session_succeeds :
  forall env opts ops, lib_ok env -> no_failure env -> opts_ok opts -> Forall op_ok ops -> small_blocks (effective opts) ->
    exists w', w_session env (newWriter opts) ops = Ok (w', None).
Proof.
  intros env opts ops HL [N1 [N2 N3]] HO Hops HS.
  destruct (C09_writer_no_panic_partial HL HO Hops HS) as [w' [[e|] [E1 E2]]]; eauto.
  exfalso. destruct E2 as [[n [b [k E2]]]|[[n E2]|[n [E2 _]]]]; rewrite ?N1, ?N2, ?N3 in E2; discriminate.
Qed.
Theorem session_succeeds_small_writes :
  forall env opts ops, lib_ok env -> no_failure env -> opts_ok opts -> Forall op_ok ops -> small_writes ops ->
    exists w', w_session env (newWriter opts) ops = Ok (w', None).
Proof.
  intros env opts ops HL [N1 [N2 N3]] HO Hops HS.
  destruct (C09_small_writes_no_panic_partial HL HO Hops HS) as [w' [[e|] [E1 E2]]]; eauto.
  exfalso. destruct E2 as [[n [b [k E2]]]|[[n E2]|[n [E2 _]]]]; rewrite ?N1, ?N2, ?N3 in E2; discriminate.
Qed.
Example C09_small_writes_met : exists w', w_session demo_wenv (newWriter [WithFormat GZIPFormat; WithMemoryLevel 9])
  [OWrite [104; 101; 108; 108; 111]%N; OFlush SyncFlush; OWrite [1; 2; 3]%N; OFlush FinishFlush; OWrite [4]%N] = Ok (w', None).
Proof.
  apply session_succeeds_small_writes.
  - apply demo_lib_ok.
  - repeat split.
  - repeat constructor.
  - repeat constructor.
  - intros p H. cbn in H. repeat (destruct H as [H|H]; [inversion H; vm_compute; discriminate|]). contradiction.
Qed.
Example C02_hypotheses_met : exists w', w_session demo_wenv (newWriter [WithFormat GZIPFormat; WithMemoryLevel 7])
  [OWrite [104; 101; 108; 108; 111]%N; OFlush SyncFlush; OWrite [1; 2; 3]%N; OFlush FinishFlush; OWrite [4]%N] = Ok (w', None).
Proof.
  apply session_succeeds.
  - apply demo_lib_ok.
  - repeat split.
  - repeat constructor.
  - repeat constructor.
  - left. vm_compute. discriminate.
Qed.

(** ** C03: Sync, Full and FinishFlush deliver everything *)
Definition delivering (ft : flushtype) : Prop := ft = SyncFlush \/ ft = FullFlush \/ ft = FinishFlush.
Theorem C03_flush_delivers :
  forall env opts ops ft w', lib_ok env -> opts_ok opts -> Forall op_ok ops -> delivering ft ->
    w_run env (newWriter opts) (ops ++ [OFlush ft]) = Ok (w', None) ->
    exists a, asteps a_init (ops ++ [OFlush ft]) a /\ a_data a = ops_data ops /\
      Flushed (effective opts) a (sink (w_out w')).
Proof.
  intros env opts ops ft w' HL HO Hops Hft E.
  pose proof (effective_ok HO) as Hw. pose proof (inst_strict (lib_lz HL) Hw) as HI.
  pose proof (@c_run env HL _ Hw 0 0 [] _ _ HI ops a_init (newWriter opts) (sess_new _ (lib_bpb HL) HO) Hops) as P.
  rewrite w_run_app in E. cbn [w_run w_step] in E. destruct (w_run env (newWriter opts) ops) as [[w1 [e|]]| |]; cbn [rbind PApi.apost] in *; try discriminate.
  destruct P as [a [P1 P2]]. destruct (w_Flush env w1 ft) as [[w2 [e|]]| |] eqn:EF; cbn [rbind] in E; try discriminate.
  inversion E; subst w2. destruct (c_flush HL Hw HI P2 EF) as [Q1 Q2].
  assert (PA : asteps a_init (ops ++ [OFlush ft]) (a_flush a ft)).
  { clear -P1. induction P1; cbn; econstructor; eauto; constructor. }
  exists (a_flush a ft). split; auto. split.
  { rewrite (asteps_data PA). unfold ops_data. rewrite flat_map_app. cbn. now rewrite app_nil_r. }
  destruct (is_finish ft) eqn:Hf.
  - assert (ft = FinishFlush) by (destruct ft; auto; discriminate). subst ft. cbn [a_flush] in *.
    destruct Q1 as [bs [HF [[H1 [H2 [H3 _]]]|[H1 _]]]].
    + exists bs, []. rewrite app_nil_r. split; auto. split; [apply good_streams; auto|]. auto.
    + exfalso. apply H1. unfold a_finish. destruct (a_cur a) eqn:E1; [|reflexivity]. destruct (a_done a) eqn:E2; auto.
  - assert (EA : a_flush a ft = a) by (destruct ft; auto; discriminate). rewrite EA in *.
    assert (Hs : sync_like ft = true) by (destruct Hft as [-> |[-> | ->]]; auto; discriminate).
    destruct (list_eq_dec N.eq_dec (a_cur a) []) as [Hc|Hc].
    + destruct Q1 as [bs [HF [[H1 [H2 [H3 _]]]|[H1 _]]]]; [|congruence].
      exists bs, []. rewrite app_nil_r. split; auto. split; [apply good_streams; auto|]. auto.
    + destruct (Q2 Hc eq_refl) as [bs [hc [bits [R1 [R2 [R3 [R4 [R5 [R6 [R7 [hd [R8 _]]]]]]]]]]]].
      specialize (R7 Hs). rewrite R7 in R4. cbn [bits_of_N] in R4. rewrite app_nil_r in R4.
      destruct (@bits_prefix (concat bs ++ hdr_bytes (effective opts) hc) (sink (w_out w')) bits) as [body [Y1 Y2]]; auto.
      { apply bytes_ok_app. split; [eapply done_bytes; eauto|apply hdr_bytes_ok; apply R2]. }
      { eapply openT_bytes; eauto. }
      exists bs, (hdr_bytes (effective opts) hc ++ body). split; [rewrite Y1, <- app_assoc; auto|].
      split; [apply good_streams; auto|]. right. split; auto. exists (hdr_bytes (effective opts) hc), body. split; auto.
      split; [apply hdr_bytes_header; auto|]. rewrite Y2. auto.
Qed.
Lemma session_run env w ops w' : w_session env w ops = Ok (w', None) -> exists w1, w_run env w ops = Ok (w1, None).
Proof. unfold w_session. destruct (w_run env w ops) as [[w1 [e|]]| |]; cbn [rbind]; try discriminate. eauto. Qed.
Example C03_hypotheses_met : exists w', w_run demo_wenv (newWriter [WithFormat RawFormat; WithMemoryLevel 7])
  ([OWrite [104; 101; 108; 108; 111]%N] ++ [OFlush SyncFlush]) = Ok (w', None).
Proof.
  destruct (@session_succeeds demo_wenv [WithFormat RawFormat; WithMemoryLevel 7]
    ([OWrite [104; 101; 108; 108; 111]%N] ++ [OFlush SyncFlush])) as [w' E].
  - apply demo_lib_ok.
  - repeat split.
  - repeat constructor.
  - repeat constructor.
  - left. vm_compute. discriminate.
  - apply session_run in E. exact E.
Qed.

(** ** C04: FullFlush is an independent restart point *)
Theorem C04_full_flush_restart :
  forall env opts ops1 w1 ops2 w2 w3, lib_ok env -> opts_ok opts -> Forall op_ok ops1 -> Forall op_ok ops2 ->
    Forall (fun op => op <> OFlush FinishFlush) ops2 ->
    w_run env (newWriter opts) (ops1 ++ [OFlush FullFlush]) = Ok (w1, None) ->
    (forall a, asteps a_init ops1 a -> a_cur a <> []) ->           (* a stream is open *)
    w_run env w1 ops2 = Ok (w2, None) -> w_Close env w2 = Ok (w3, None) ->
    exists body d, sink (w_out w3) = sink (w_out w1) ++ body ++ stream_footer (effective opts) d /\
      (* no dictionary, no history: *)
      RawStream (StrictBlock (2 ^ o_wbits (effective opts))) [] body (ops_data ops2).
Proof.
  intros env opts ops1 w1 ops2 w2 w3 HL HO H1 H2 Hnf E1 Hop E2 E3.
  pose proof (effective_ok HO) as Hw. pose proof (inst_strict (lib_lz HL) Hw) as HI.
  pose proof (@c_run env HL _ Hw 0 0 [] _ _ HI ops1 a_init (newWriter opts) (sess_new _ (lib_bpb HL) HO) H1) as P.
  rewrite w_run_app in E1. cbn [w_run w_step] in E1.
  destruct (w_run env (newWriter opts) ops1) as [[w0 [e|]]| |]; cbn [rbind PApi.apost] in *; try discriminate.
  destruct P as [a [P1 P2]]. destruct (w_Flush env w0 FullFlush) as [[w1' [e|]]| |] eqn:EF; cbn [rbind] in E1; try discriminate.
  inversion E1; subst w1'.
  assert (Hnf' : Forall no_finish ops2).
  { eapply Forall_impl; [|exact Hnf]. intros [p|[]|h]; cbn; auto. }
  destruct (full_flush HL Hw HI P2 (Hop a P1) EF H2 Hnf' E2 E3) as [body [Q1 Q2]]. eauto.
Qed.

(** ** C05: after PartialFlush fewer bits than one machine block are missing *)
Theorem C05_partial_flush_partial :
  forall env opts ops w', lib_ok env -> opts_ok opts -> Forall op_ok ops ->
    w_run env (newWriter opts) (ops ++ [OFlush PartialFlush]) = Ok (w', None) ->
    exists a, asteps a_init ops a /\ (a_cur a <> [] ->
      exists bs hb bits pending, GoodStreams (effective opts) (a_done a) bs /\
        StreamHeader (effective opts) (a_curh a) hb /\
        OpenData (StrictBlock (2 ^ o_wbits (effective opts))) (effective opts) bits (a_cur a) /\
        bits_of_bytes (sink (w_out w')) ++ pending = bits_of_bytes (concat bs ++ hb) ++ bits /\
        length pending < 8 * bytesPerBlock env).
Proof.
  intros env opts ops w' HL HO Hops E.
  pose proof (effective_ok HO) as Hw. pose proof (inst_strict (lib_lz HL) Hw) as HI.
  pose proof (@c_run env HL _ Hw 0 0 [] _ _ HI ops a_init (newWriter opts) (sess_new _ (lib_bpb HL) HO) Hops) as P.
  rewrite w_run_app in E. cbn [w_run w_step] in E.
  destruct (w_run env (newWriter opts) ops) as [[w1 [e|]]| |]; cbn [rbind PApi.apost] in *; try discriminate.
  destruct P as [a [P1 P2]]. destruct (w_Flush env w1 PartialFlush) as [[w2 [e|]]| |] eqn:EF; cbn [rbind] in E; try discriminate.
  inversion E; subst w2. destruct (c_flush HL Hw HI P2 EF) as [Q1 Q2]. exists a. split; auto. intros Hc.
  destruct (Q2 Hc eq_refl) as [bs [hc [bits [R1 [R2 [R3 [R4 [R5 [R6 _]]]]]]]]].
  exists bs, (hdr_bytes (effective opts) hc), bits, (bits_of_N (obLen (w_out w')) (obBlock (w_out w'))).
  split; [apply good_streams; auto|]. split; [apply hdr_bytes_header; auto|]. split; auto. split; auto.
  rewrite length_bits_of_N. auto.
Qed.

(** ** C06: errors are sticky and silent *)
Definition writes_or_flushes (op : wop) : Prop := match op with OSetHeader _ => False | _ => True end.
Theorem C06_errors_sticky :
  forall env opts ops w e, lib_ok env -> opts_ok opts -> Forall op_ok ops ->
    w_run env (newWriter opts) ops = Ok (w, Some e) ->
    (* [e] is an error of the underlying writer *)
    from_env env e /\
    (* later calls return it, and change nothing: no bytes, no calls, no events *)
    (forall op, writes_or_flushes op -> w_step env w op = Ok (w, Some e)) /\
    (forall p, w_Write env w p = Ok (w, (0%N, Some e))) /\
    (* Close reports it once *)
    exists w', w_Close env w = Ok (w', Some e) /\ sink (w_out w') = sink (w_out w) /\
      sinkCalls (w_out w') = sinkCalls (w_out w) /\ w_events w' = w_events w /\
      w_flushes w' = w_flushes w /\ w_syncs w' = w_syncs w /\
      w_Close env w' = Ok (w', Some ErrClosed).
Proof.
  intros env opts ops w e HL HO Hops E.
  pose proof (effective_ok HO) as Hw. pose proof (inst_strict (lib_lz HL) Hw) as HI.
  pose proof (@c_run env HL _ Hw 0 0 [] _ _ HI ops a_init (newWriter opts) (sess_new _ (lib_bpb HL) HO) Hops) as P.
  rewrite E in P. cbn [PApi.apost] in P. destruct P as [[P1 [e' [P2 P3]]] P4].
  assert (e' = e) by congruence. subst e'. split; auto.
  assert (HW : forall p, w_Write env w p = Ok (w, (0%N, Some e))) by (intros p; unfold w_Write; rewrite P1, P2; auto).
  split; [|split; auto].
  - intros [p|ft|h] Ho; cbn [w_step]; [rewrite HW; auto| |contradiction]. unfold w_Flush. rewrite P1, P2. auto.
  - exists (set_out w (set_state (w_out w) closedState None)). unfold w_Close at 1. rewrite P1. unfold close_helper. rewrite P2. split; auto.
    rewrite w_out_set. assert (EC : w_state (set_out w (set_state (w_out w) closedState None)) = closedState).
    { unfold w_state. rewrite w_out_set. destruct (w_out w); reflexivity. }
    split; [destruct (w_out w); reflexivity|]. split; [destruct (w_out w); reflexivity|].
    split; [destruct w; reflexivity|]. split; [destruct w; reflexivity|]. split; [destruct w; reflexivity|].
    unfold w_Close. rewrite EC. auto.
Qed.
(** An environment in which the third write fails after taking one byte. *)
Definition failing_env : wenv :=
  WEnv 8 demo_match (fun _ => 0) flat_huff (fun n _ => if Nat.eqb n 2 then Some (1, IOErr 7) else None) (fun _ => None) (fun _ => None).
Example C06_hypotheses_met : exists w, w_run failing_env (newWriter [WithCompressLevel 0; WithMemoryLevel 1])
  [OWrite [1; 2; 3]%N; OFlush SyncFlush] = Ok (w, Some (IOErr 7)) /\ length (sink (w_out w)) = 4.
Proof. eexists. split; vm_compute; reflexivity. Qed.
Lemma failing_lib_ok : lib_ok failing_env.
Proof. destruct demo_lib_ok as [_ H2 H3]. constructor; auto. Qed.

(** ** C07: a closed Writer stays closed *)
Theorem C07_closed_stays_closed :
  forall env w w' e, w_Close env w = Ok (w', e) ->
    (forall op, writes_or_flushes op -> w_step env w' op = Ok (w', Some ErrClosed)) /\
    (forall p, w_Write env w' p = Ok (w', (0%N, Some ErrClosed))) /\
    w_Close env w' = Ok (w', Some ErrClosed).
Proof.
  intros env w w' e E.
  assert (HS : w_state w' = closedState).
  { assert (A : forall x, w_state (set_out x (set_state (w_out x) closedState None)) = closedState)
      by (intros x; unfold w_state; rewrite w_out_set; destruct (w_out x); reflexivity).
    assert (A' : forall x, w_state (w_setstate x closedState) = closedState)
      by (intros x; unfold w_state, w_setstate; rewrite w_out_set; destruct (w_out x); reflexivity).
    assert (B : forall x, (let* (w, ok) := flushImpl env x FinishFlush in
        if ok : bool then Ok (w_setstate w closedState, None) else Ok (close_helper w)) = Ok (w', e) -> w_state w' = closedState).
    { intros x. destruct (flushImpl env x FinishFlush) as [[y []]| |]; cbn [rbind]; intros H; inversion H; subst; solve [apply A' | apply A | auto]. }
    unfold w_Close in E. destruct (w_state w) eqn:ES; try (apply B in E; exact E); unfold close_helper in E; inversion E; subst; auto. }
  assert (HW : forall p, w_Write env w' p = Ok (w', (0%N, Some ErrClosed))) by (intros p; unfold w_Write; rewrite HS; auto).
  split; [|split; auto].
  - intros [p|ft|h] Ho; cbn [w_step]; [rewrite HW; auto| |contradiction]. unfold w_Flush. rewrite HS. auto.
  - unfold w_Close. rewrite HS. auto.
Qed.

(** ** C10: Write accepts everything or fails *)
Theorem C10_write_all_or_nothing :
  forall env opts ops w p, lib_ok env -> opts_ok opts -> Forall op_ok ops -> bytes_ok p ->
    w_run env (newWriter opts) ops = Ok (w, None) ->
    match w_Write env w p with
    | Ok (_, (n, None)) => n = lenN p
    | Ok (_, (n, Some e)) => n = 0%N /\ from_env env e
    | Panic q => q = PAssert /\ ~ small_blocks (effective opts)       (* see C09 *)
    | NoFuel => False
    end.
Proof.
  intros env opts ops w p HL HO Hops Hp E.
  pose proof (effective_ok HO) as Hw. pose proof (inst_strict (lib_lz HL) Hw) as HI.
  pose proof (@c_run env HL _ Hw 0 0 [] _ _ HI ops a_init (newWriter opts) (sess_new _ (lib_bpb HL) HO) Hops) as P.
  rewrite E in P. cbn [PApi.apost] in P. destruct P as [a [P1 P2]].
  pose proof (c_Write HL Hw HI P2 Hp) as Q. destruct (w_Write env w p) as [[w' [n [e|]]]| |]; auto.
  - destruct Q as [-> [[_ [e' [Q1 Q2]]] Q3]]. split; auto. congruence.
  - tauto.
  - destruct Q as [-> Q]. split; auto. intros HS. exact (small_no_panic HS Q).
Qed.

(** ** C12 (and window sizes): header, data and footer of every stream *)
Definition Parts (B : blockpred) (o : options) (hd : header * list N) (b : list N) : Prop :=
  exists hb body, b = hb ++ body ++ stream_footer o (snd hd) /\ StreamHeader o (fst hd) hb /\
    RawStream B (dict_bytes (o_dict o)) body (snd hd).
Lemma parts B opt dn bs : wopt_ok opt -> Forall2 (done_ok opt B) dn bs -> Forall2 (Parts B opt) dn bs.
Proof.
  intros Hopt HF. eapply Forall2_weaken; [|exact HF]. intros hd b [h' [H1 [H2 [body [E HR]]]]].
  exists (hdr_bytes opt h'), body. split; [rewrite E, ftr_bytes_footer; auto; apply (wo_format Hopt)|].
  split; [apply hdr_bytes_header; auto|exact HR].
Qed.
Lemma session_parts pf B lk env opts ops w' : lib_ok env -> opts_ok opts -> inst env (effective opts) pf B lk -> Forall op_ok ops ->
  (In (OFlush PartialFlush) ops -> pf) -> w_session env (newWriter opts) ops = Ok (w', None) ->
  exists a bs, asteps a_init ops a /\ sink (w_out w') = concat bs /\ Forall2 (Parts B (effective opts)) (a_done (a_finish a)) bs.
Proof.
  intros HL HO HI Hops Hpf E. pose proof (effective_ok HO) as Hw.
  destruct (@pf_session env _ 0 0 [] pf _ _ ops a_init (newWriter opts) HL Hw HI (sess_new _ (lib_bpb HL) HO) Hops Hpf _ E)
    as [a [P1 [bs [P2 [P3 _]]]]]. exists a, bs. split; auto. split; auto. apply parts; auto.
Qed.
Theorem C12_stream_headers :
  forall env opts ops w', lib_ok env -> opts_ok opts -> Forall op_ok ops ->
    w_session env (newWriter opts) ops = Ok (w', None) ->
    exists a bs, asteps a_init ops a /\ sink (w_out w') = concat bs /\
      Forall2 (Parts (StrictBlock (2 ^ o_wbits (effective opts))) (effective opts)) (a_done (a_finish a)) bs.
Proof.
  intros env opts ops w' HL HO Hops. apply session_parts with (pf := True) (lk := strict_lk (2 ^ o_wbits (effective opts))); auto.
  apply inst_strict; [apply HL|apply effective_ok; auto].
Qed.

(** ** C13: SetHeader accepts exactly the representable headers *)
Theorem C13_set_header :
  forall w h, (snd (w_SetHeader w h) = true <-> Representable h) /\
    (snd (w_SetHeader w h) = false -> fst (w_SetHeader w h) = w) /\
    (snd (w_SetHeader w h) = true -> fst (w_SetHeader w h) = set_hdr w h).
Proof.
  intros w h. rewrite <- checked_iff. unfold w_SetHeader, header_checked.
  destruct (Nat.eqb_spec (checkHeaderFileName h + checkHeaderComment h + checkHeaderLastModified h
           + checkHeaderOSType h + checkHeaderExtraData h) 0) as [E|E]; cbn [fst snd]; repeat split; auto; try discriminate; try lia.
Qed.
Example C13_both : snd (w_SetHeader (newWriter []) (Header [97; 98]%N [99]%N (Some 5%Z) TextData 4 [XRecord 1 2 [3; 4]%N] 0 0)) = true
  /\ snd (w_SetHeader (newWriter []) (Header [97; 47; 98]%N [] None UnknownData 0 [] 0 0)) = false.
Proof. vm_compute. auto. Qed.

(** ** C24: strategies *)
Theorem C24_huffman_only_no_copies :
  forall env opts ops w', lib_ok env -> opts_ok opts -> Forall op_ok ops ->
    o_strategy (effective opts) = HuffmanOnlyStrategy ->
    w_session env (newWriter opts) ops = Ok (w', None) ->
    exists a bs, asteps a_init ops a /\ sink (w_out w') = concat bs /\
      Forall2 (Parts NoCopyBlock (effective opts)) (a_done (a_finish a)) bs.
Proof.
  intros env opts ops w' HL HO Hops HS. apply session_parts with (pf := True) (lk := noneb); auto.
  apply inst_none; auto; [apply HL|apply effective_ok; auto].
Qed.
Theorem C24_huffman_rle_distance_one :
  forall env opts ops w', lib_ok env -> opts_ok opts -> Forall op_ok ops ->
    o_strategy (effective opts) = HuffmanRLEStrategy ->
    w_session env (newWriter opts) ops = Ok (w', None) ->
    exists a bs, asteps a_init ops a /\ sink (w_out w') = concat bs /\
      Forall2 (Parts RleBlock (effective opts)) (a_done (a_finish a)) bs.
Proof.
  intros env opts ops w' HL HO Hops HS. apply session_parts with (pf := True) (lk := rle_lk); auto.
  apply inst_rle; auto; [apply HL|apply effective_ok; auto].
Qed.
(** NoCompression: every block is a stored block, as long as PartialFlush is not used ... *)
Theorem C24_no_compression_stored :
  forall env opts ops w', lib_ok env -> opts_ok opts -> Forall op_ok ops ->
    o_clevel (effective opts) = 0%Z -> ~ In (OFlush PartialFlush) ops ->
    w_session env (newWriter opts) ops = Ok (w', None) ->
    exists a bs, asteps a_init ops a /\ sink (w_out w') = concat bs /\
      Forall2 (Parts StoredBlockOnly (effective opts)) (a_done (a_finish a)) bs.
Proof.
  intros env opts ops w' HL HO Hops HS Hnp. apply session_parts with (pf := False) (lk := noneb); auto. apply inst_pure; auto.
Qed.
(** ... and PartialFlush adds nothing but empty static blocks. *)
Theorem C24_no_compression_partial_flush :
  forall env opts ops w', lib_ok env -> opts_ok opts -> Forall op_ok ops ->
    o_clevel (effective opts) = 0%Z ->
    w_session env (newWriter opts) ops = Ok (w', None) ->
    exists a bs, asteps a_init ops a /\ sink (w_out w') = concat bs /\
      Forall2 (Parts StoredOnlyBlock (effective opts)) (a_done (a_finish a)) bs.
Proof.
  intros env opts ops w' HL HO Hops HS. apply session_parts with (pf := True) (lk := noneb); auto. apply inst_store; auto.
Qed.

(** ** C45, Writer side: events *)
Theorem C45_writer_events :
  forall env opts ops w', lib_ok env -> opts_ok opts -> Forall op_ok ops ->
    w_session env (newWriter opts) ops = Ok (w', None) ->
    exists a, asteps a_init ops a /\
      SEvs (map snd (a_done (a_finish a))) EvIdle (map pre_of (w_events w')) /\
      EvCnt (w_events w') (lenN (ops_data ops)) (lenN (sink (w_out w'))) /\
      exists evs e, w_events w' = evs ++ [e] /\ e_type e = StreamCloseEvent /\
        e_inTotal e = (lenN (ops_data ops) mod two64)%N /\ e_outTotal e = (lenN (sink (w_out w')) mod two64)%N.
Proof.
  intros env opts ops w' HL HO Hops E.
  pose proof (effective_ok HO) as Hw.
  pose proof (@c_session env HL _ Hw 0 0 [] _ _ (inst_strict (lib_lz HL) Hw) ops a_init (newWriter opts)
    (sess_new _ (lib_bpb HL) HO) Hops) as P.
  rewrite E in P. destruct P as [a [P1 [bs [P2 [P3 [P4 [P5 [P6 [[evs [P7 [P8 [P9 _]]]] P10]]]]]]]]]. exists a. split; auto.
  cbn [app] in P7. rewrite !N.add_0_l in P9. unfold close_totals in P10. rewrite !N.add_0_l in P10. rewrite <- P7 in *.
  replace (tlen (map snd (a_done (a_finish a)))) with (lenN (ops_data ops)) in P9, P10.
  { split; auto. split; auto. apply P10. unfold a_finish. destruct (a_cur a); [destruct (a_done a) eqn:ED|]; cbn [a_done]; try rewrite ED; try discriminate. intros K. apply app_eq_nil in K. destruct K; discriminate. }
  unfold tlen. f_equal. pose proof (asteps_data P1) as D. cbn in D. rewrite <- D. unfold a_data, a_finish.
  destruct (a_cur a) eqn:E1; [destruct (a_done a) eqn:E2|]; cbn [a_done map snd concat].
  - auto.
  - rewrite E2. cbn [map concat]. now rewrite app_nil_r.
  - rewrite map_app, concat_app. cbn [map concat snd]. now rewrite app_nil_r.
Qed.

Print Assumptions C02_writer_output_conforms.
Print Assumptions C03_flush_delivers.
Print Assumptions C04_full_flush_restart.
Print Assumptions C05_partial_flush_partial.
Print Assumptions C06_errors_sticky.
Print Assumptions C07_closed_stays_closed.
Print Assumptions C09_writer_no_panic_partial.
Print Assumptions C09_writer_terminates_partial.
Print Assumptions C10_write_all_or_nothing.
Print Assumptions C12_stream_headers.
Print Assumptions C13_set_header.
Print Assumptions C24_huffman_only_no_copies.
Print Assumptions C24_huffman_rle_distance_one.
Print Assumptions C24_no_compression_stored.
Print Assumptions C24_no_compression_partial_flush.
Print Assumptions C45_writer_events.
