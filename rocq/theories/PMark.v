(** A SyncFlush or FullFlush of an open stream ends with the empty stored block
    00 00 FF FF: used for C91. *)
From Verif Require Import Base SpecHuffman MChecksum MToken MCommon MWriter SpecEvents SpecLib SpecSession MSession MCalls PWSim PWFrame PHeld PropHeld.
From Verif Require PBody PPrefix PropDurable.

Section Mark.
Variable env : wenv.
Hypothesis Hbpb : bytesPerBlock env = 4 \/ bytesPerBlock env = 8.
Variable op : options.
Notation OP := openStream.
Notation EE := errorState.
Notation V k := (PWFrame.U op true k OP).
Definition marker : list N := [0; 0; 255; 255]%N.
Section Pre.
Variable pre : list N.
Notation PU := (PPrefix.U pre).
Definition M (w : writer) : Prop := exists mid, sink (w_out w) = pre ++ mid ++ marker.

Lemma V_buf w : V true w -> outBuf (w_out w) = [] /\ obLen (w_out w) = 0.
Proof. intros [_ [_ [H1 [_ H2]]]]. split; [apply H2; auto; discriminate|auto]. Qed.
(** a buffer write with no pending bits appends its argument *)
Lemma buf_appends w p : V true w -> match w_bufferWrite env w p with Ok (x, true) => V true x /\ sink (w_out x) = sink (w_out w) ++ p | _ => True end.
Proof.
  intros H. pose proof (v_bufferWrite Hbpb p H) as K. destruct (V_buf H) as [B1 B2]. unfold w_bufferWrite, on_out, o_bufferWrite, o_bitsFlush in *.
  rewrite B2 in *. cbn [Nat.eqb rbind] in *. pose proof (@PPrefix.loop_appends env (out_cap (w_opt w)) (out_fuel p) (PBody.cap_pos (w_opt w)) (w_out w) p B1) as L.
  destruct (outputBufferLoop _ _ _ _ _) as [[o []]| |]; cbn [rbind ho] in *; auto. split; auto. destruct w. cbn. apply L.
Qed.
Lemma stored_marks k fin w : V k w -> PU w -> match writeStoredBlock (bw_writer env) w [] fin with Ok (x, true) => V true x /\ M x | _ => True end.
Proof.
  intros H HU. unfold writeStoredBlock. change (assertb (lenN (@nil N) <=? 65535)%N) with (fun m : res (writer * bool) => m). cbv beta zeta. cbn [bw_event bw_bitsWrite bw_bitsFlush bw_writeU16le bw_bufferWrite bw_writer].
  pose proof (v_event (ev_block BlockBeginEvent StoredBlock fin) H) as H1. pose proof (PPrefix.x_event (ev_block BlockBeginEvent StoredBlock fin) HU) as U1. set (a := sendEvent w _) in *. clearbody a. cbn [N.leb N.compare].
  pose proof (v_bitsWrite Hbpb 3 (if fin then 1 else 0)%N H1) as K. pose proof (PPrefix.x_bits env 3 (if fin then 1 else 0)%N U1) as U2. destruct (w_bitsWrite env a _ _) as [[x1 []]| |]; cbn [rbind ho] in *; auto.
  pose proof (v_bitsFlush Hbpb K) as K2. pose proof (PPrefix.x_flush env U2) as U3. destruct (w_bitsFlush env x1) as [[x2 []]| |]; cbn [rbind ho] in *; auto.
  pose proof (@buf_appends x2 (le16 (0 mod two16)) K2) as K3. destruct (w_bufferWrite env x2 _) as [[x3 []]| |]; cbn [rbind] in *; auto. destruct K3 as [K3 S3].
  pose proof (@buf_appends x3 (le16 (65535 - 0 mod two16)) K3) as K4. destruct (w_bufferWrite env x3 _) as [[x4 []]| |]; cbn [rbind] in *; auto. destruct K4 as [K4 S4].
  pose proof (@buf_appends x4 [] K4) as K5. destruct (w_bufferWrite env x4 _) as [[x5 []]| |]; cbn [rbind] in *; auto. destruct K5 as [K5 S5].
  split; [apply v_event; auto|]. destruct U3 as [mid U3]. exists mid.
  replace (sink (w_out (sendEvent x5 _))) with (sink (w_out x5)) by (destruct x5; reflexivity).
  rewrite S5, S4, S3, U3, app_nil_r, <- !app_assoc. reflexivity.
Qed.

(** ** Flush *)
Definition marks (ft : flushtype) : Prop := ft = SyncFlush \/ ft = FullFlush.
Lemma R_self v w : wstate (w_out w) = v -> R v w w. Proof. apply R_refl. Qed.
Lemma compress_open k w : V k w -> match compressImpl env w true with Ok (x, true) => exists k, V k x | _ => True end.
Proof.
  intros H. assert (HA : PWFrame.A op true w) by (exists OP; split; [unfold live; auto|]; apply (U_weak Hbpb H)).
  pose proof (a_compressImpl Hbpb true HA) as K. pose proof (r_compress env true (R_self (v_state H))) as K2. apply rel_ho in K2.
  destruct (compressImpl env w true) as [[x []]| |]; cbn [ho] in *; auto. destruct K as [v [L K]]. unfold P in K2. pose proof (v_state K) as E. unfold w_state in E. rewrite K2 in E. subst v. eauto.
Qed.
Lemma guts_mark k ft w : V k w -> PU w -> marks ft -> match flushGuts env w ft with Ok (x, true) => V true x /\ M x | _ => True end.
Proof.
  intros H HU [->| ->]; cbn [flushGuts]; pose proof (stored_marks false H HU) as K; [exact K|].
  destruct (writeStoredBlock _ _ _ _) as [[x []]| |]; cbn [rbind] in *; auto. destruct K as [K1 K2]. split; [|destruct x; exact K2].
  apply v_lz; auto.
Qed.
Lemma flush_marks k ft w : V k w -> PU w -> marks ft -> match flushImpl env w ft with Ok (x, true) => M x | _ => True end.
Proof.
  intros H HU HF. rewrite flush_eq. pose proof (compress_open H) as K. pose proof (PPrefix.x_compressImpl env true HU) as KU. destruct (compressImpl env w true) as [[x []]| |]; cbn [rbind]; auto. destruct K as [k1 K].
  assert (NF : is_finish ft = false) by (destruct HF as [->| ->]; reflexivity). rewrite NF. cbn [rbind]. rewrite (v_state K).
  pose proof (guts_mark K KU HF) as G. destruct (flushGuts env x ft) as [[y []]| |]; cbn [rbind]; auto. destruct G as [G1 G2]. rewrite (v_state G1). cbn [rbind].
  unfold fl_tail. cbv zeta. destruct (e_flushw _ _); auto. destruct (e_syncw _ _) as [[]|]; auto; destruct y; exact G2.
Qed.

Lemma x_U w : PPrefix.U (sink (w_out w)) w. Proof. exists []. rewrite app_nil_r. reflexivity. Qed.
End Pre.
Lemma flush_V k ft w : V k w -> marks ft -> match flushImpl env w ft with Ok (x, true) => V true x | _ => True end.
Proof.
  intros H HF. rewrite flush_eq. pose proof (compress_open H) as K. destruct (compressImpl env w true) as [[x []]| |]; cbn [rbind]; auto. destruct K as [k1 K].
  assert (NF : is_finish ft = false) by (destruct HF as [->| ->]; reflexivity). rewrite NF. cbn [rbind]. rewrite (v_state K).
  pose proof (guts_mark K (x_U x) HF) as G. destruct (flushGuts env x ft) as [[y []]| |]; cbn [rbind]; auto. destruct G as [G1 G2]. rewrite (v_state G1). cbn [rbind].
  unfold fl_tail. cbv zeta. destruct (e_flushw _ _); auto. destruct (e_syncw _ _) as [[]|]; auto; apply v_calls, v_calls; exact G1.
Qed.

(** ** One call *)
Notation JJ := (PWFrame.J env op true).
Definition stays (o : wop) : Prop := o <> OFlush FinishFlush.
Lemma open_V w : JJ w -> w_state w = OP -> V false w.
Proof.
  intros HJ E. destruct (@J_A env op true w HJ) as [v [L H]]; [unfold live; auto|]. pose proof (v_state H) as E2. rewrite E in E2. subst v. exact H.
Qed.
Lemma step_J w o : JJ w -> match w_step env w o with Ok (x, _) => JJ x | _ => True end.
Proof.
  intros H. pose proof (@PropDurable.j_run env Hbpb op true [o] w H) as K. cbn [w_run] in K.
  destruct (w_step env w o) as [[x [e|]]| |]; cbn [rbind] in *; auto.
Qed.
Lemma step_open w o : JJ w -> w_state w = OP -> stays o -> match w_step env w o with Ok (x, None) => w_state x = OP | _ => True end.
Proof.
  intros HJ E ST. pose proof (step_J o HJ) as HJ2. destruct o as [p|ft|h]; cbn [w_step] in *.
  - unfold w_Write in *. rewrite E in *. pose proof (r_writeLoop env (2 * length p + 2) p (R_self E)) as K. apply rel_ho in K.
    destruct (writeLoop env _ w p) as [[x []]| |]; cbn [rbind ho] in *; auto. destruct HJ2 as [_ [_ HJ2]]. unfold P in K. unfold w_state in *. rewrite K in HJ2. destruct HJ2 as [W _]. destruct (werr (w_out x)); auto; contradiction.
  - unfold w_Flush in *. rewrite E in *. pose proof (r_flushImpl env ft (R_self E)) as K. apply rel_ho in K.
    destruct (flushImpl env w ft) as [[x []]| |]; cbn [rbind ho] in *; auto.
    + unfold P, ends in K. unfold w_state. rewrite K. destruct ft; auto. exfalso. apply ST. reflexivity.
    + destruct HJ2 as [_ [_ HJ2]]. unfold P in K. unfold w_state in *. rewrite K in HJ2. destruct HJ2 as [W _]. destruct (werr (w_out x)); auto; contradiction.
  - unfold w_SetHeader. cbv zeta. destruct (Nat.eqb _ _); cbn [fst]; auto. destruct w; exact E.
Qed.
Lemma step_write w p : JJ w -> p <> [] -> match w_step env w (OWrite p) with Ok (x, None) => w_state x = OP | _ => True end.
Proof.
  intros HJ HP. pose proof (step_J (OWrite p) HJ) as HJ2. cbn [w_step] in *. destruct (w_Write env w p) as [[x [n e]]| |] eqn:E; cbn [rbind] in *; auto. destruct e; auto.
  unfold w_Write in E.
  assert (N : (w_state w = noStream \/ w_state w = openStream \/ w_state w = closingStream \/ w_state w = closedStream) \/ w_state w = EE \/ w_state w = closedState) by (destruct (w_state w); auto 10).
  destruct N as [N|[N|N]].
  - pose proof (@p_writeLoop env (2 * length p + 2) p w HP N) as K.
    replace (match w_state w with closedState => _ | EE => _ | _ => _ end) with (let* (w, ok) := writeLoop env (2 * length p + 2) w p in if ok then Ok (w, (lenN p, @None goerr)) else Ok (w, (0%N, werr (w_out w)))) in E
      by (destruct N as [N|[N|[N|N]]]; rewrite N; reflexivity).
    destruct (writeLoop env _ w p) as [[y ok]| |]; cbn [rbind ho] in *; try discriminate E. destruct ok; cbn [rbind] in E.
    + injection E as <- _. exact K.
    + injection E as <- _ E1. destruct HJ2 as [_ [_ HJ2]]. unfold P in K. unfold w_state in HJ2. rewrite K in HJ2. destruct HJ2 as [W _]. contradiction.
  - rewrite N in E. cbn [rbind] in E. injection E as <- _ E1. destruct HJ as [_ [_ HJ]]. rewrite N in HJ. destruct HJ as [W _]. contradiction.
  - rewrite N in E. cbn [rbind] in E. discriminate E.
Qed.
Lemma step_flush pre w ft : JJ w -> PPrefix.U pre w -> w_state w = OP -> marks ft -> match w_step env w (OFlush ft) with Ok (x, None) => M pre x | _ => True end.
Proof.
  intros HJ HU E HF. pose proof (step_J (OFlush ft) HJ) as HJ2. cbn [w_step] in *. unfold w_Flush in *. rewrite E in *. pose proof (flush_marks (open_V HJ E) HU HF) as K.
  pose proof (r_flushImpl env ft (R_self E)) as K2. apply rel_ho in K2.
  destruct (flushImpl env w ft) as [[x []]| |]; cbn [rbind ho] in *; auto.
  destruct HJ2 as [_ [_ HJ2]]. unfold P in K2. unfold w_state in *. rewrite K2 in HJ2. destruct HJ2 as [W _]. destruct (werr (w_out x)); auto; contradiction.
Qed.
Lemma run_open ops : forall w, JJ w -> w_state w = OP -> Forall stays ops -> match w_run env w ops with Ok (x, None) => w_state x = OP | _ => True end.
Proof.
  induction ops as [|o r IH]; intros w HJ E F; cbn [w_run]; [exact E|]. inversion_clear F. pose proof (step_open HJ E H) as K. pose proof (step_J o HJ) as K2.
  destruct (w_step env w o) as [[x [e|]]| |]; cbn [rbind]; try exact I. exact (IH x K2 K H0).
Qed.
End Mark.
