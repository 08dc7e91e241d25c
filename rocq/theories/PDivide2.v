(** Dividing the same data differently among Write calls: whole sequences of calls (C71). *)
From Verif Require Import Base SpecHuffman MChecksum MToken MCommon MWriter SpecEvents SpecSession SpecDivide MSession PWFrame PDivide.

Section Runs.
Variable env : wenv.
Hypothesis Hbpb : bytesPerBlock env = 4 \/ bytesPerBlock env = 8.
Variable op : options.
Notation ready := (ready op).
Notation thr := (thr op).
Notation cap := (cap op).

Definition oks (ops : list wop) (w : writer) : Prop :=
  ready w /\ Forall says_type ops /\ ((cap <= thr)%N \/ exists a, (lenN (lz_buf (w_lz w)) <= a)%N /\ (a < thr)%N /\ fits thr a ops).
Lemma thr_pos : (0 < thr)%N.
Proof. unfold thr. destruct (isStoreConfig _); reflexivity. Qed.

Inductive eqr : res (writer * option goerr) -> res (writer * option goerr) -> Prop :=
| eqr_same m : eqr m m
| eqr_fail w B C e : eqr (Ok (setbuf B w, Some e)) (Ok (setbuf C w, Some e)).
Lemma eqr_trans a b c : eqr a b -> eqr b c -> eqr a c.
Proof.
  intros H1 H2. inversion H1; subst; auto. inversion H2; subst; auto.
  assert (X : setbuf B w = setbuf B w0) by (rewrite <- (setbuf_twice B B0 w0), H0, setbuf_twice; reflexivity).
  rewrite X. constructor.
Qed.
Lemma eqr_sym a b : eqr a b -> eqr b a.
Proof. intros H. inversion H; subst; constructor. Qed.

Lemma ready_live w : ready w -> w_Write env w = fun buf => let* (w, ok) := writeLoop env (2 * length buf + 2) w buf in if ok then Ok (w, (lenN buf, None)) else Ok (w, (0%N, werr (w_out w))).
Proof. intros [[v [L H]] _]. pose proof (v_state H) as E. unfold w_Write. rewrite E. destruct L as [->|[->| ->]]; reflexivity. Qed.
Lemma fail_err w f buf x : ready w -> writeLoop env f w buf = Ok (x, false) -> exists e, werr (w_out x) = Some e.
Proof.
  intros [HA _] E. pose proof (@a_writeLoop env Hbpb op false f w buf HA) as H. rewrite E in H. cbn [ho] in H. destruct H as [_ [_ [_ [_ H]]]].
  destruct (werr (w_out x)); [eauto|congruence].
Qed.
Lemma setbuf_out B w : w_out (setbuf B w) = w_out w.
Proof. destruct w; reflexivity. Qed.

Lemma room_of w p r : oks (OWrite p :: r) w -> room op w (lenN p).
Proof. intros [_ [_ [H|[a [H1 [_ [H2 _]]]]]]]; [left; auto|right]. lia. Qed.

(** Two Writes in front of anything *)
Lemma run_split w p q r : oks (OWrite p :: OWrite q :: r) w ->
  eqr (w_run env w (OWrite p :: OWrite q :: r)) (w_run env w (OWrite (p ++ q) :: r)).
Proof.
  intros HO. pose proof (room_of HO) as RM. destruct HO as [HR [_ HF]].
  assert (RM2 : room op w (lenN p + lenN q)) by (destruct HF as [H|[a [H1 [_ [_ [H2 _]]]]]]; [left; auto|right; lia]).
  pose proof (@loop_split env Hbpb op (length p) p q w (2 * length p + 2) (2 * length q + 2) (2 * length (p ++ q) + 2) (Nat.le_refl _) HR RM2
    ltac:(lia) ltac:(lia) ltac:(rewrite app_length; lia)) as E.
  pose proof (@loop_ready env Hbpb op (length p) p w (2 * length p + 2) (Nat.le_refl _) HR RM ltac:(lia)) as RD.
  cbn [w_run w_step]. rewrite (ready_live HR). set (m := writeLoop env (2 * length (p ++ q) + 2) w (p ++ q)) in *. clearbody m.
  destruct (writeLoop env (2 * length p + 2) w p) as [[x []]| |] eqn:E1; cbn [rbind ho] in *.
  - destruct RD as [RX _]. rewrite (ready_live RX).
    destruct (writeLoop env (2 * length q + 2) x q) as [[y b]| |] eqn:E2; inversion E; subst; cbn [rbind].
    + destruct b; constructor.
    + rewrite !setbuf_out. destruct (@fail_err x _ q _ RX E2) as [e He]. rewrite setbuf_out in He. rewrite He. constructor.
    + constructor.
    + constructor.
  - inversion E; subst; cbn [rbind].
    + destruct (@fail_err w _ p _ HR E1) as [e He]. rewrite He. constructor.
    + rewrite !setbuf_out. destruct (@fail_err w _ p _ HR E1) as [e He]. rewrite setbuf_out in He. rewrite He. constructor.
  - inversion E; subst. constructor.
  - inversion E; subst. constructor.
Qed.

(** One call *)
Lemma step_oks w c r : oks (c :: r) w -> match w_step env w c with Ok (x, None) => oks r x | _ => True end.
Proof.
  intros HO. pose proof HO as [HR [HS HF]]. inversion HS as [|? ? S1 S2]; subst. destruct c as [p|ft|h]; cbn [w_step].
  - rewrite (ready_live HR). pose proof (@loop_ready env Hbpb op (length p) p w (2 * length p + 2) (Nat.le_refl _) HR (room_of HO) ltac:(lia)) as RD.
    destruct (writeLoop env _ w p) as [[x []]| |] eqn:EL; cbn [rbind ho] in *; auto; [|destruct (werr (w_out x)) eqn:EW; auto].
    + destruct RD as [R1 R2]. split; auto. split; auto. destruct HF as [H|[a [H1 [_ [H2 H3]]]]]; [left; auto|right]. exists (a + lenN p)%N. split; auto. lia.
    + destruct (@fail_err w _ p _ HR EL) as [e He]. congruence.
  - pose proof HR as [[v [L HU]] [HK HL]]. pose proof (v_state HU) as EV. unfold w_Flush. rewrite EV.
    assert (EM : match v with closedState => Ok (w, Some ErrClosed) | errorState => Ok (w, werr (w_out w)) | _ => let* (w, ok) := flushImpl env w ft in if ok then Ok (w, None) else Ok (w, werr (w_out w)) end =
      let* (w, ok) := flushImpl env w ft in if ok then Ok (w, None) else Ok (w, werr (w_out w))) by (destruct L as [->|[->| ->]]; reflexivity).
    rewrite EM. clear EM. assert (HA : A op false w) by (exists v; auto).
    pose proof (@a_flushImpl env Hbpb op false w ft HA) as F1. pose proof (@flush_KB env Hbpb op w ft HA HK) as F2.
    destruct (flushImpl env w ft) as [[x []]| |]; cbn [rbind ho] in *; auto; [|destruct (werr (w_out x)) eqn:EW; auto].
    + destruct F1 as [F1 _]. destruct F2 as [F2 F3]. split; [split; auto; split; auto; rewrite F3; apply cap_pos|]. split; auto.
      destruct HF as [H|[a [H1 [_ H2]]]]; [left; auto|right]. exists 0%N. rewrite F3. split; [reflexivity|]. split; [apply thr_pos|exact H2].
    + destruct F1 as [_ [_ [F1 _]]]. congruence.
  - unfold w_SetHeader. cbv zeta. destruct (Nat.eqb _ 0); cbn [fst].
    + destruct HR as [[v [L HU]] [HK HL]]. split; [split|].
      * exists v. split; auto. destruct w; exact HU.
      * split; [destruct w; exact S1|destruct w; exact HL].
      * split; auto. destruct HF as [H|[a [H1 H2]]]; [left; auto|right]. exists a. split; auto. destruct w; exact H1.
    + split; auto.
Qed.
Lemma run_nil w r : ready w -> w_run env w (OWrite [] :: r) = w_run env w r.
Proof. intros HR. cbn [w_run w_step]. rewrite (ready_live HR). reflexivity. Qed.
Lemma fits_join n r : forall a acc, fits n a (joined acc r) <-> (a + lenN acc < n)%N /\ fits n (a + lenN acc) r.
Proof.
  induction r as [|c r IH]; intros a acc; cbn [joined fits]; [tauto|]. destruct c as [p|ft|h]; cbn [fits].
  - rewrite IH. replace (lenN (acc ++ p)) with (lenN acc + lenN p)%N by (unfold lenN; rewrite app_length; lia). rewrite N.add_assoc.
    split; [intros [H1 H2]|intros [_ H]; exact H]. split; [lia|]. auto.
  - rewrite IH. replace (0 + @lenN N [])%N with 0%N by reflexivity. split; [intros [H1 [_ H2]]|intros [H1 H2]]; auto. split; auto. split; auto. lia.
  - rewrite IH. replace (a + lenN acc + @lenN N [])%N with (a + lenN acc)%N by (unfold lenN; cbn; lia). tauto.
Qed.
(** Joining all neighbouring Writes *)
Lemma run_joined : forall r w acc, oks (OWrite acc :: r) w -> eqr (w_run env w (OWrite acc :: r)) (w_run env w (joined acc r)).
Proof.
  assert (GO : forall c r w acc, (forall p, c <> OWrite p) -> (forall w acc, oks (OWrite acc :: r) w -> eqr (w_run env w (OWrite acc :: r)) (w_run env w (joined acc r))) ->
    oks (OWrite acc :: c :: r) w -> eqr (w_run env w (OWrite acc :: c :: r)) (w_run env w (OWrite acc :: c :: joined [] r))).
  { intros c r w acc HC IH HO. pose proof (step_oks HO) as S1. cbn [w_run] in *. destruct (w_step env w (OWrite acc)) as [[x [e|]]| |]; cbn [rbind] in *; try constructor.
    pose proof (step_oks S1) as S2. destruct (w_step env x c) as [[y [e|]]| |] eqn:EC; cbn [rbind] in *; try constructor.
    destruct S2 as [R1 [R2 R3]]. rewrite <- (run_nil r R1). apply IH. split; auto. split; [constructor; auto; exact I|].
    destruct R3 as [H|[a [H1 [H0 H2]]]]; [left; auto|right]. exists a. split; auto. split; auto. cbn [fits]. replace (a + @lenN N [])%N with a by (unfold lenN; cbn; lia). split; auto. }
  induction r as [|c r IH]; intros w acc HO; [constructor|]. destruct c as [p|ft|h]; cbn [joined].
  - eapply eqr_trans; [apply run_split; auto|]. apply IH. destruct HO as [R1 [R2 R3]]. split; auto. inversion R2 as [|? ? _ R4]; subst. inversion R4 as [|? ? R5 R6]; subst. split; [constructor; auto; exact I|].
    destruct R3 as [H|[a [H1 [H0 [H2 [H3 H4]]]]]]; [left; auto|right]. exists a. split; auto. split; auto. cbn [fits].
    replace (lenN (acc ++ p)) with (lenN acc + lenN p)%N by (unfold lenN; rewrite app_length; lia). rewrite N.add_assoc. auto.
  - apply GO; auto. discriminate.
  - apply GO; auto. discriminate.
Qed.
End Runs.
