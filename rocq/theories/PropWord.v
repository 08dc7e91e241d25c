(** Property C64: what a Writer writes depends on the options and the calls only. *)
From Verif Require Import Base SpecHuffman SpecDeflate MChecksum MToken MCommon MWriter SpecEvents SpecSession MSession MCalls PBits PWriter PInst PWFrame PWord Demo PDemo.

(** Two machines: the word size and everything about the underlying writer may
    differ (which calls it is given, when it fails, what its Flush and Sync do);
    the libraries make the same choices. *)
Record same_libraries (e1 e2 : wenv) : Prop := {
  sl_word1 : bytesPerBlock e1 = 4 \/ bytesPerBlock e1 = 8;
  sl_word2 : bytesPerBlock e2 = 4 \/ bytesPerBlock e2 = 8;
  sl_match : e_match e1 = e_match e2;
  sl_peek : e_peek e1 = e_peek e2;
  sl_huff : e_huff e1 = e_huff e2 }.

Lemma write_ok e op w p w' n : (bytesPerBlock e = 4 \/ bytesPerBlock e = 8) -> J e op false w -> w_Write e w p = Ok (w', (n, None)) ->
  writeLoop e (2 * length p + 2) w p = Ok (w', true) /\ PWord.live (w_state w) = true.
Proof.
  intros Hb H E. unfold w_Write in E. destruct (J_dead H) as [K|[K|HA]]; [rewrite K in E; discriminate| |].
  - rewrite K in E. destruct H as [_ [_ H]]. rewrite K in H. injection E as _ _ E. destruct H as [H _]. congruence.
  - pose proof (@a_writeLoop e Hb op false (2 * length p + 2) w p HA) as R.
    assert (V : PWord.live (w_state w) = true). { destruct HA as [v [L [_ [_ [_ [V _]]]]]]. unfold w_state. rewrite V. destruct L as [->|[->| ->]]; reflexivity. }
    split; auto. destruct (w_state w); try discriminate;
    (destruct (writeLoop e _ w p) as [[x []]| |]; cbn [rbind ho] in *; try discriminate; [injection E as -> _; reflexivity|]; injection E as _ _ E; destruct R as [_ [_ [_ [_ R]]]]; congruence).
Qed.
Lemma flush_ok e op w ft w' : (bytesPerBlock e = 4 \/ bytesPerBlock e = 8) -> J e op false w -> w_Flush e w ft = Ok (w', None) ->
  flushImpl e w ft = Ok (w', true) /\ PWord.live (w_state w) = true.
Proof.
  intros Hb H E. unfold w_Flush in E. destruct (J_dead H) as [K|[K|HA]]; [rewrite K in E; discriminate| |].
  - rewrite K in E. destruct H as [_ [_ H]]. rewrite K in H. injection E as _ E. destruct H as [H _]. congruence.
  - pose proof (@a_flushImpl e Hb op false w ft HA) as R.
    assert (V : PWord.live (w_state w) = true). { destruct HA as [v [L [_ [_ [_ [V _]]]]]]. unfold w_state. rewrite V. destruct L as [->|[->| ->]]; reflexivity. }
    split; auto. destruct (w_state w); try discriminate;
    (destruct (flushImpl e w ft) as [[x []]| |]; cbn [rbind ho] in *; try discriminate; [injection E as ->; reflexivity|]; injection E as _ E; destruct R as [_ [_ [R _]]]; congruence).
Qed.
Lemma close_ok e op w w' : (bytesPerBlock e = 4 \/ bytesPerBlock e = 8) -> J e op false w -> w_Close e w = Ok (w', None) ->
  exists u, flushImpl e w FinishFlush = Ok (u, true) /\ sink (w_out w') = sink (w_out u) /\ PWord.live (w_state w) = true.
Proof.
  intros Hb H E. unfold w_Close in E. destruct (J_dead H) as [K|[K|HA]]; [rewrite K in E; discriminate| |].
  - rewrite K in E. destruct H as [_ [_ H]]. rewrite K in H. injection E as _ E. destruct H as [H _]. congruence.
  - pose proof (@a_flushImpl e Hb op false w FinishFlush HA) as R.
    assert (V : PWord.live (w_state w) = true). { destruct HA as [v [L [_ [_ [_ [V _]]]]]]. unfold w_state. rewrite V. destruct L as [->|[->| ->]]; reflexivity. }
    destruct (w_state w); try discriminate;
    (destruct (flushImpl e w FinishFlush) as [[x []]| |]; cbn [rbind ho] in *; try discriminate;
      [injection E as <-; exists x; split; auto; split; auto; destruct x, w_out; reflexivity|]; injection E as _ E; destruct R as [_ [_ [R _]]]; congruence).
Qed.

Section Two.
Variables e1 e2 : wenv.
Hypothesis SL : same_libraries e1 e2.
Notation WR := (PWord.WR e1 e2).
Lemma step_same op x y o x' y' : op_ok o -> J e1 op false x -> J e2 op false y -> WR x y -> w_step e1 x o = Ok (x', None) -> w_step e2 y o = Ok (y', None) ->
  J e1 op false x' /\ J e2 op false y' /\ WR x' y' /\ match o with OFlush ft => flushed ft = true -> sink (w_out x') = sink (w_out y') | _ => True end.
Proof.
  destruct SL as [B1 B2 M P H]. intros HO J1 J2 W E1 E2. destruct o as [p|ft|h]; cbn [w_step op_ok] in *.
  - pose proof (@j_Write e1 B1 op false x p J1) as K1. pose proof (@j_Write e2 B2 op false y p J2) as K2.
    destruct (w_Write e1 x p) as [[x0 [n1 r1]]| |] eqn:X; cbn [rbind] in E1; try discriminate. injection E1 as -> ->.
    destruct (w_Write e2 y p) as [[y0 [n2 r2]]| |] eqn:Y; cbn [rbind] in E2; try discriminate. injection E2 as -> ->.
    destruct (write_ok B1 J1 X) as [X' _]. destruct (write_ok B2 J2 Y) as [Y' _].
    split; auto. split; auto. split; auto. exact (@s_writeLoop e1 e2 B1 B2 M P H _ _ _ _ HO W _ _ X' Y').
  - pose proof (@j_Flush e1 B1 op false x ft J1) as K1. pose proof (@j_Flush e2 B2 op false y ft J2) as K2. rewrite E1 in K1. rewrite E2 in K2.
    destruct (flush_ok B1 J1 E1) as [X' _]. destruct (flush_ok B2 J2 E2) as [Y' _].
    destruct (@s_flushImpl e1 e2 B1 B2 M P H _ _ ft W _ _ X' Y') as [K F]. split; auto. split; auto. split; auto. intros FT. eapply flat_sink. apply F. auto.
  - pose proof (@j_SetHeader e1 op false x h J1) as K1. pose proof (@j_SetHeader e2 op false y h J2) as K2. injection E1 as <-. injection E2 as <-.
    split; auto. split; auto. split; auto. unfold w_SetHeader. cbv zeta. destruct (Nat.eqb _ 0); auto. cbn [fst].
    destruct W as [st [V [[] F]]]. exists st. split; auto. assert (K : wrel e1 e2 st (set_hdr x h) (set_hdr y h)) by (destruct x, y; constructor; auto).
    split; auto. intros I. destruct (F I) as [_ G]. split; auto. destruct x, y; exact G.
Qed.
Lemma run_same op ops : Forall op_ok ops -> forall x y x' y', J e1 op false x -> J e2 op false y -> WR x y ->
  w_run e1 x ops = Ok (x', None) -> w_run e2 y ops = Ok (y', None) -> J e1 op false x' /\ J e2 op false y' /\ WR x' y'.
Proof.
  induction 1 as [|o ops HO Hops IH]; intros x y x' y' J1 J2 W E1 E2; cbn [w_run] in *; [injection E1 as <-; injection E2 as <-; auto|].
  destruct (w_step e1 x o) as [[x1 [r|]]| |] eqn:X; cbn [rbind] in E1; try discriminate.
  destruct (w_step e2 y o) as [[y1 [r|]]| |] eqn:Y; cbn [rbind] in E2; try discriminate.
  destruct (@step_same _ _ _ _ _ _ HO J1 J2 W X Y) as (K1 & K2 & K3 & _). eapply IH; eauto.
Qed.
Lemma new_same opts : WR (newWriter opts) (newWriter opts).
Proof.
  destruct SL as [B1 B2 _ _ _]. assert (C1 : 0 < bitsPerBlock e1) by (destruct (bpb_cases B1); lia). assert (C2 : 0 < bitsPerBlock e2) by (destruct (bpb_cases B2); lia).
  assert (K : wrel e1 e2 noStream (newWriter opts) (newWriter opts)).
  { constructor; auto; cbn; [constructor|repeat split; constructor|]. constructor; auto; unfold out_ok, counters_ok; cbn; repeat split; auto; try constructor; reflexivity. }
  eapply WR_flat with (s := noStream) (c := false); auto. split; [exact K|]. split; [apply K|]. split; auto.
Qed.
End Two.

(** The streams are the same, to the byte, on both machines - whenever both
    sessions succeed; and so is what has been written up to a Flush other than
    PartialFlush and BlockFlush. *)
Theorem C64_same_bytes :
  forall e1 e2 opts ops w1 w2, same_libraries e1 e2 -> Forall op_ok ops ->
    w_session e1 (newWriter opts) ops = Ok (w1, None) -> w_session e2 (newWriter opts) ops = Ok (w2, None) ->
    sink (w_out w1) = sink (w_out w2).
Proof.
  intros e1 e2 opts ops w1 w2 SL HO E1 E2. pose proof SL as [B1 B2 M P H]. unfold w_session in *.
  destruct (w_run e1 (newWriter opts) ops) as [[x [r|]]| |] eqn:X; cbn [rbind] in E1; try discriminate.
  destruct (w_run e2 (newWriter opts) ops) as [[y [r|]]| |] eqn:Y; cbn [rbind] in E2; try discriminate.
  destruct (@run_same e1 e2 SL _ _ HO _ _ _ _ (J_new e1 false opts) (J_new e2 false opts) (new_same SL opts) X Y) as (J1 & J2 & W).
  destruct (close_ok B1 J1 E1) as (u & U1 & U2 & _). destruct (close_ok B2 J2 E2) as (v & V1 & V2 & _). rewrite U2, V2.
  destruct (@s_flushImpl e1 e2 B1 B2 M P H _ _ FinishFlush W _ _ U1 V1) as [_ F]. eapply flat_sink. apply F. reflexivity.
Qed.
Theorem C64_same_bytes_after_flush :
  forall e1 e2 opts ops ft w1 w2, same_libraries e1 e2 -> Forall op_ok ops -> ft = SyncFlush \/ ft = FullFlush \/ ft = FinishFlush ->
    w_run e1 (newWriter opts) (ops ++ [OFlush ft]) = Ok (w1, None) -> w_run e2 (newWriter opts) (ops ++ [OFlush ft]) = Ok (w2, None) ->
    sink (w_out w1) = sink (w_out w2).
Proof.
  intros e1 e2 opts ops ft w1 w2 SL HO FT E1 E2.
  assert (SPLIT : forall e w w', w_run e w (ops ++ [OFlush ft]) = Ok (w', None) -> exists u, w_run e w ops = Ok (u, None) /\ w_step e u (OFlush ft) = Ok (w', None)).
  { intros e. clear. induction ops as [|o ops IH]; intros w w' E; cbn [w_run app] in *.
    - exists w. split; auto. destruct (w_step e w (OFlush ft)) as [[a [b|]]| |]; cbn [rbind] in *; congruence.
    - destruct (w_step e w o) as [[a [b|]]| |]; cbn [rbind] in *; try congruence. auto. }
  destruct (SPLIT _ _ _ E1) as (x & X & X'). destruct (SPLIT _ _ _ E2) as (y & Y & Y').
  destruct (@run_same e1 e2 SL _ _ HO _ _ _ _ (J_new e1 false opts) (J_new e2 false opts) (new_same SL opts) X Y) as (J1 & J2 & W).
  destruct (@step_same e1 e2 SL _ _ _ (OFlush ft) _ _ I J1 J2 W X' Y') as (_ & _ & _ & K). apply K. destruct FT as [->|[->| ->]]; reflexivity.
Qed.

(** A 32-bit and a 64-bit machine; the underlying writer of the second fails its
    hundredth call, later than this session gets.  The session has two writes, a header
    and a PartialFlush, after which the two machines have written different bytes
    (what is still held back is a matter of the word size); they have written the
    same ones when the session is over. *)
Definition machine32 : wenv := WEnv 4 demo_match (fun _ => N.to_nat 4096) flat_huff (fun _ _ => None) (fun _ => None) (fun _ => None).
Definition machine64 : wenv := WEnv 8 demo_match (fun _ => N.to_nat 4096) flat_huff (fun n _ => if 100 <=? n then Some (0, IOErr 5) else None) (fun _ => None) (fun _ => None).
Definition C64_ops : list wop := [OSetHeader header0; OWrite (repeat 97%N 40); OFlush PartialFlush; OWrite [99]%N].
Definition written (r : res (writer * option goerr)) : option (list N) := match r with Ok (w, None) => Some (sink (w_out w)) | _ => None end.
Example C64_met : same_libraries machine32 machine64 /\ Forall op_ok C64_ops /\
  (exists b, written (w_session machine32 (newWriter [WithFormat RawFormat; WithMemoryLevel 1]) C64_ops) = Some b /\
             written (w_session machine64 (newWriter [WithFormat RawFormat; WithMemoryLevel 1]) C64_ops) = Some b /\ 5 <= length b) /\
  (exists b1 b2, written (w_run machine32 (newWriter [WithFormat RawFormat; WithMemoryLevel 1]) C64_ops) = Some b1 /\
             written (w_run machine64 (newWriter [WithFormat RawFormat; WithMemoryLevel 1]) C64_ops) = Some b2 /\ b1 <> b2).
Proof.
  split; [constructor; cbn; auto|]. split; [repeat constructor|]. split.
  - eexists. split; [vm_compute; reflexivity|]. split; [vm_compute; reflexivity|]. vm_compute. lia.
  - eexists. eexists. split; [vm_compute; reflexivity|]. split; [vm_compute; reflexivity|]. discriminate.
Qed.
