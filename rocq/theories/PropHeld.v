(** C90: SetHeader takes effect at the next stream. *)
From Verif Require Import Base SpecHuffman MChecksum MToken MCommon MWriter SpecEvents SpecLib SpecSession MSession MCalls PWSim PWFrame PHeld PropWriter Demo PDemo.

(** What is seen of a sequence of calls from outside: the bytes written, the
    trace events, and the replies to all calls but SetHeader. *)
Definition other_replies (l : list reply) : list reply := filter (fun x => match x with RHeader _ => false | _ => true end) l.
Definition visible (r : res (writer * list reply)) : res (list N * list event * list reply) :=
  let* (w, rs) := r in Ok (sink (w_out w), w_events w, other_replies rs).
(** Calls that do not end the current stream. *)
Definition within (c : call) : Prop := match c with KWrite _ | KSetHeader _ => True | KFlush ft => ft <> FinishFlush | KClose | KReset _ => False end.
Definition without_headers (cs : list call) : list call := filter (fun c => match c with KSetHeader _ => false | _ => true end) cs.

Section Held.
Variable env : wenv.
Notation OP := openStream.
Notation EE := errorState.

(** ** After a Write of at least one byte a stream is open, or the Writer has failed or is closed. *)
Definition Q (w1 w2 : writer) : Prop := exists v, (v = OP \/ v = EE \/ v = closedState) /\ R v w1 w2.
Definition P (v : writerstate) (w : writer) : Prop := wstate (w_out w) = v.
Lemma rel_ho v m : rel (R v) (R EE) m m -> ho (P v) (P EE) m.
Proof. destruct m as [[w []]| |]; cbn; auto; intros H; exact (r_st H). Qed.
Lemma p_buf v w p : P v w -> ho (P v) (P EE) (w_bufferWrite env w p).
Proof. intros H. apply rel_ho, r_buf, R_refl, H. Qed.
Lemma p_stringZ v w p : P v w -> ho (P v) (P EE) (writeStringZ env w p).
Proof. intros H. unfold writeStringZ. destruct (indexByte p 0); [destruct (Nat.eqb _ _); [|exact I]|]; apply p_buf; auto. Qed.
Lemma p_gzip v w : P v w -> ho (P v) (P EE) (writeHeaderGZIP env w).
Proof.
  intros H. unfold writeHeaderGZIP. cbv zeta. eapply ho_bind; [apply p_buf; instantiate (1 := v); destruct w as [? ? ? ? [] ? ? ? ? ?]; exact H|]. intros x1 H1.
  eapply ho_bind with (P := P v); [destruct (h_extra _); [exact H1|]; cbv zeta; eapply ho_bind; [apply p_buf; exact H1|]; intros; apply p_buf; auto|]. intros x2 H2.
  eapply ho_bind with (P := P v); [destruct (h_name _); [exact H2|]; apply p_stringZ; auto|]. intros x3 H3.
  eapply ho_bind with (P := P v); [destruct (h_comment _); [exact H3|]; apply p_stringZ; auto|]. intros x4 H4. apply p_buf; auto.
Qed.
Lemma p_header v w : P v w -> ho (P v) (P EE) (writeHeader env w).
Proof.
  intros H. unfold writeHeader. cbv zeta. eapply ho_bind with (P := P v).
  - match goal with |- ho _ _ (match o_format (w_opt ?x) with _ => _ end) => assert (K : P v x); [|revert K; generalize x] end.
    { destruct w as [o c l [] [] n h f s ev]. cbn [set_in w_in set_out w_out set_outstream set_num w_num set_lz w_lz w_opt]. destruct (o_dict o); exact H. }
    intros x K. destruct (o_format _); [exact I|exact K|apply p_buf; exact K|apply p_gzip; exact K].
  - intros x Hx. cbn [ho]. destruct x as [? ? ? [] ? ? ? ? ? ?]; exact Hx.
Qed.
Lemma w_state_P w : P (w_state w) w. Proof. reflexivity. Qed.
Lemma p_compress all w : lz_buf (w_lz w) <> [] -> (w_state w = noStream \/ w_state w = openStream \/ w_state w = closingStream \/ w_state w = closedStream) ->
  ho (P OP) (P EE) (compressImpl env w all).
Proof.
  intros HN HS. unfold compressImpl. destruct (lz_buf (w_lz w)); [congruence|].
  eapply ho_bind with (P := fun x => w_state x = noStream \/ w_state x = openStream \/ w_state x = closedStream).
  { destruct HS as [HS|[HS|[HS|HS]]]; rewrite HS; cbn [ho]; auto. eapply ho_bind; [apply rel_ho, r_footer, R_refl; exact HS|]. intros x _. cbn [ho].
    right. right. destruct x as [? ? ? ? [] ? ? ? ? ?]; reflexivity. }
  intros x HX. eapply ho_bind with (P := P OP).
  { assert (OPN : forall v, P v x -> ho (P OP) (P EE) (let? y := writeHeader env x in Ok (w_setstate y OP, true))).
    { intros v Hv. eapply ho_bind; [apply p_header; exact Hv|]. intros y _. cbn [ho]. destruct y as [? ? ? ? [] ? ? ? ? ?]; reflexivity. }
    destruct HX as [HX|[HX|HX]]; rewrite HX; [eapply OPN; exact HX|exact HX|eapply OPN; exact HX]. }
  intros y HY. apply rel_ho. destruct (isStoreConfig _); [apply r_store|apply r_slow]; apply R_refl; exact HY.
Qed.
Lemma p_writeLoop fuel p w : p <> [] -> (w_state w = noStream \/ w_state w = openStream \/ w_state w = closingStream \/ w_state w = closedStream) ->
  ho (P OP) (P EE) (writeLoop env fuel w p).
Proof.
  intros HP HS. destruct fuel as [|f], p as [|b p]; try congruence; [exact I|]. cbn [writeLoop].
  destruct (lz_write (w_lz w) (b :: p)) as [[l nn] full] eqn:E. cbv zeta. eapply ho_bind.
  - apply p_compress; [|destruct w; exact HS]. assert (L : lz_buf (w_lz (set_lz w l)) = lz_buf l) by (destruct w; reflexivity). rewrite L. clear L.
    unfold lz_write in E. injection E as <- _ _. cbn [lz_buf]. destruct (lz_buf (w_lz w)); [|discriminate]. cbn [app length].
    assert (C : (1 <= lz_cap (w_lz w))%N) by (unfold lz_cap; pose proof (N.pow_nonzero 2 (lz_bufbits (lz_o (w_lz w))) ltac:(discriminate)); lia).
    assert (B : (1 <= lenN (b :: p))%N) by (unfold lenN; cbn [length]; lia).
    destruct (N.to_nat _) eqn:Z; [|discriminate]. unfold lenN in *. cbn [length] in *. lia.
  - intros x HX. apply rel_ho, r_writeLoop, R_refl, HX.
Qed.
Lemma write_started w p w' x : p <> [] -> w_call env w (KWrite p) = Ok (w', x) -> Q w' w'.
Proof.
  intros HP E. cbn [w_call] in E. unfold w_Write in E.
  assert (N : (w_state w = noStream \/ w_state w = openStream \/ w_state w = closingStream \/ w_state w = closedStream) \/ w_state w = EE \/ w_state w = closedState) by (destruct (w_state w); auto 10).
  destruct N as [N|[N|N]].
  - pose proof (@p_writeLoop (2 * length p + 2) p w HP N) as K.
    replace (match w_state w with closedState => _ | EE => _ | _ => _ end) with (let* (w, ok) := writeLoop env (2 * length p + 2) w p in if ok then Ok (w, (lenN p, @None goerr)) else Ok (w, (0%N, werr (w_out w)))) in E
      by (destruct N as [N|[N|[N|N]]]; rewrite N; reflexivity).
    destruct (writeLoop env _ w p) as [[y ok]| |]; cbn [rbind ho] in *; try discriminate E. destruct ok; cbn [rbind] in E; injection E as <- _; cbn in K.
    + exists OP. split; auto. apply R_refl; auto.
    + exists EE. split; auto. apply R_refl; auto.
  - rewrite N in E. cbn [rbind] in E. injection E as <- _. exists EE. split; auto. apply R_refl, N.
  - rewrite N in E. cbn [rbind] in E. injection E as <- _. exists closedState. split; auto. apply R_refl, N.
Qed.

(** ** Calls *)
Definition same_call (P : writer -> writer -> Prop) (m1 m2 : res (writer * reply)) : Prop :=
  match m1, m2 with
  | Ok (x, a), Ok (y, b) => P x y /\ a = b
  | Panic p, Panic q => p = q
  | NoFuel, NoFuel => True
  | _, _ => False
  end.
Definition L (w1 w2 : writer) : Prop := exists v, R v w1 w2.
Lemma Q_out w1 w2 : Q w1 w2 -> w_state w1 = w_state w2 /\ w_out w1 = w_out w2 /\ (w_state w2 = OP \/ w_state w2 = EE \/ w_state w2 = closedState).
Proof. intros [v [V H]]. pose proof (R_state H). pose proof (R_is H). rewrite (r_out H). repeat split; auto. congruence. Qed.
Lemma q_write p w1 w2 : Q w1 w2 -> same_call Q (w_call env w1 (KWrite p)) (w_call env w2 (KWrite p)).
Proof.
  intros H. destruct (Q_out H) as [E1 [E2 E3]]. cbn [w_call]. unfold w_Write. rewrite E1, E2. destruct E3 as [E3|[E3|E3]]; rewrite E3; cbn [rbind same_call]; auto.
  destruct H as [v [V H]]. assert (v = OP) by (rewrite <- (R_is H); auto). subst v. pose proof (r_writeLoop env (2 * length p + 2) p H) as K.
  destruct (writeLoop env _ w1 p) as [[x [|]]| |], (writeLoop env _ w2 p) as [[y [|]]| |]; cbn [rel rbind same_call] in *; try contradiction; auto.
  - split; auto. exists OP; auto.
  - rewrite (r_out K). split; auto. exists EE; auto.
Qed.
Lemma q_flush ft w1 w2 : Q w1 w2 -> same_call (if is_finish ft then L else Q) (w_call env w1 (KFlush ft)) (w_call env w2 (KFlush ft)).
Proof.
  intros H. destruct (Q_out H) as [E1 [E2 E3]]. assert (QL : Q w1 w2 -> (if is_finish ft then L else Q) w1 w2) by (destruct (is_finish ft); auto; intros [v [_ K]]; exists v; auto).
  cbn [w_call]. unfold w_Flush. rewrite E1, E2. destruct E3 as [E3|[E3|E3]]; rewrite E3; cbn [rbind same_call]; [|split; [exact (QL H)|reflexivity]|split; [exact (QL H)|reflexivity]].
  destruct H as [v [V H]]. assert (v = OP) by (rewrite <- (R_is H); auto). subst v. pose proof (r_flushImpl env ft H) as K. unfold ends in K.
  destruct (flushImpl env w1 ft) as [[x [|]]| |], (flushImpl env w2 ft) as [[y [|]]| |]; cbn [rel rbind same_call] in *; try contradiction; auto.
  - split; auto. destruct (is_finish ft); [eexists; eauto|exists OP; auto].
  - rewrite (r_out K). split; auto. destruct (is_finish ft); [eexists; eauto|exists EE; auto].
Qed.
Lemma q_close w1 w2 : Q w1 w2 -> same_call L (w_call env w1 KClose) (w_call env w2 KClose).
Proof.
  intros H. destruct (Q_out H) as [E1 [E2 E3]]. assert (LL : L w1 w2) by (destruct H as [v [_ K]]; exists v; auto).
  assert (HC : forall v a b, R v a b -> L (fst (close_helper a)) (fst (close_helper b)) /\ snd (close_helper a) = snd (close_helper b)).
  { intros v a b K. unfold close_helper. rewrite (r_out K). cbn [fst snd]. split; auto. eexists. eapply r_setout; eauto. }
  cbn [w_call]. unfold w_Close. rewrite E1. destruct E3 as [E3|[E3|E3]]; rewrite E3; cbn [rbind same_call]; auto.
  - destruct H as [v [V H]]. assert (v = OP) by (rewrite <- (R_is H); auto). subst v. pose proof (r_flushImpl env FinishFlush H) as K.
    destruct (flushImpl env w1 FinishFlush) as [[x [|]]| |], (flushImpl env w2 FinishFlush) as [[y [|]]| |]; cbn [rel rbind same_call] in *; try contradiction; auto.
    + split; auto. eexists. eapply r_state; eauto.
    + destruct (HC _ _ _ K) as [K1 K2]. destruct (close_helper x), (close_helper y). cbn in *. subst. auto.
  - destruct LL as [v LL]. destruct (HC _ _ _ LL) as [K1 K2]. destruct (close_helper w1), (close_helper w2). cbn in *. subst. auto.
Qed.
Lemma q_set h w1 w2 : Q w1 w2 -> Q (fst (w_SetHeader w1 h)) w2.
Proof.
  intros [v [V H]]. exists v. split; auto. unfold w_SetHeader. destruct (Nat.eqb _ _); cbn [fst]; auto.
  destruct H as [? ? ? ? ? ? ? ? ? ?]. destruct w1; constructor; auto.
Qed.

(** Only replies other than those of SetHeader, and final states alike. *)
Definition same_calls (P : writer -> writer -> Prop) (m1 m2 : res (writer * list reply)) : Prop :=
  match m1, m2 with
  | Ok (x, a), Ok (y, b) => P x y /\ other_replies a = other_replies b
  | Panic p, Panic q => p = q
  | NoFuel, NoFuel => True
  | _, _ => False
  end.
Lemma same_cons P1 P2 m1 m2 k1 k2 : same_call P1 m1 m2 -> (forall x y, P1 x y -> same_calls P2 (k1 x) (k2 y)) ->
  same_calls P2 (let* (w', x) := m1 in let* (w'', xs) := k1 w' in Ok (w'', x :: xs)) (let* (w', x) := m2 in let* (w'', xs) := k2 w' in Ok (w'', x :: xs)).
Proof.
  intros H HK. destruct m1 as [[x a]| |], m2 as [[y b]| |]; cbn [same_call rbind] in *; try contradiction; auto. destruct H as [H ->]. specialize (HK x y H).
  destruct (k1 x) as [[x' r]| |], (k2 y) as [[y' s]| |]; cbn [same_calls rbind] in *; try contradiction; auto. destruct HK as [K1 K2]. split; auto.
  cbn [other_replies filter]. fold (other_replies r). fold (other_replies s). rewrite K2. reflexivity.
Qed.
Lemma same_within fin : (fin = [] \/ fin = [KClose] \/ fin = [KFlush FinishFlush]) -> forall mid, Forall within mid -> forall w1 w2, Q w1 w2 ->
  same_calls L (w_calls env w1 (mid ++ fin)) (w_calls env w2 (without_headers mid ++ fin)).
Proof.
  intros HF. induction 1 as [|c mid HC _ IH]; intros w1 w2 H.
  - cbn [app without_headers filter]. destruct HF as [->|[->| ->]]; cbn [w_calls same_calls].
    + split; auto. destruct H as [v [_ H]]. exists v; auto.
    + eapply same_cons; [apply q_close; auto|]. intros x y K. cbn. auto.
    + eapply same_cons; [apply (@q_flush FinishFlush); auto|]. intros x y K. cbn. auto.
  - destruct c as [p|ft|h| |]; try contradiction; cbn [app without_headers filter]; fold (without_headers mid).
    + cbn [app w_calls]. eapply same_cons; [apply q_write; auto|]. auto.
    + cbn [app w_calls]. eapply same_cons; [apply q_flush; auto|]. intros x y K. cbn in HC. destruct ft; try congruence; auto.
    + cbn [w_calls w_call]. pose proof (q_set h H) as K. destruct (w_SetHeader w1 h) as [x ok]. cbn [rbind fst] in *. specialize (IH x w2 K).
      destruct (w_calls env x (mid ++ fin)) as [[x' r]| |], (w_calls env w2 (without_headers mid ++ fin)) as [[y' s]| |]; cbn [same_calls rbind] in *; try contradiction; auto.
Qed.
Lemma same_visible m1 m2 : same_calls L m1 m2 -> visible m1 = visible m2.
Proof.
  unfold same_calls, visible. destruct m1 as [[x a]| |], m2 as [[y b]| |]; cbn [rbind]; try contradiction; auto; try congruence.
  intros [[v H] ->]. rewrite (r_out H), (r_ev H). reflexivity.
Qed.
Lemma calls_visible cs : forall w r1 r2, (forall w' rs, w_calls env w cs = Ok (w', rs) -> visible (w_calls env w' r1) = visible (w_calls env w' r2)) ->
  visible (w_calls env w (cs ++ r1)) = visible (w_calls env w (cs ++ r2)).
Proof.
  induction cs as [|c cs IH]; intros w r1 r2 H; [apply (H w []); reflexivity|]. cbn [app w_calls] in *.
  destruct (w_call env w c) as [[w' x]| |]; cbn [rbind visible] in *; auto.
  assert (K : visible (w_calls env w' (cs ++ r1)) = visible (w_calls env w' (cs ++ r2))).
  { apply IH. intros w2 rs E. apply (H w2 (x :: rs)). rewrite E. reflexivity. }
  revert K. destruct (w_calls env w' (cs ++ r1)) as [[a b]| |], (w_calls env w' (cs ++ r2)) as [[a' b']| |]; cbn [rbind visible]; auto; try congruence.
  intros K. injection K as K1 K2 K3. rewrite K1, K2. cbn [other_replies filter]. fold (other_replies b). fold (other_replies b'). rewrite K3. reflexivity.
Qed.
End Held.

(** Once a byte of a stream has been given to Write, SetHeader has no influence
    on that stream - on its bytes, on its events, on the other replies - whether
    the calls succeed or not, and until the stream is ended. *)
Theorem C90_open_stream_unaffected :
  forall env opts cs p mid fin, p <> [] -> Forall within mid -> (fin = [] \/ fin = [KClose] \/ fin = [KFlush FinishFlush]) ->
    visible (w_calls env (newWriter opts) (cs ++ KWrite p :: mid ++ fin)) =
    visible (w_calls env (newWriter opts) (cs ++ KWrite p :: without_headers mid ++ fin)).
Proof.
  intros env opts cs p mid fin HP HM HF. apply calls_visible. intros w rs _. apply (@calls_visible env [KWrite p]). intros w' rs' E.
  cbn [w_calls] in E. destruct (w_call env w (KWrite p)) as [[x a]| |] eqn:EC; cbn [rbind] in E; try discriminate E. injection E as <- _.
  apply same_visible, same_within; auto. eapply write_started; eauto.
Qed.
(** Before that, the header accepted last replaces the others. *)
Theorem C90_last_header :
  forall env opts cs a b cs', Representable b ->
    visible (w_calls env (newWriter opts) (cs ++ KSetHeader a :: KSetHeader b :: cs')) =
    visible (w_calls env (newWriter opts) (cs ++ KSetHeader b :: cs')).
Proof.
  intros env opts cs a b cs' HB. apply calls_visible. intros w rs _. cbn [w_calls w_call].
  assert (S : forall w, w_SetHeader w b = (set_hdr w b, true)).
  { intros v. destruct (@C13_set_header v b) as [[_ S1] [_ S3]]. rewrite (surjective_pairing (w_SetHeader v b)), S1, S3; auto. }
  assert (A : set_hdr (fst (w_SetHeader w a)) b = set_hdr w b).
  { unfold w_SetHeader. destruct (Nat.eqb _ _); cbn [fst]; auto. destruct w; reflexivity. }
  destruct (w_SetHeader w a) as [wa oka]. cbn [fst rbind] in *. rewrite !S. cbn [rbind]. rewrite A.
  destruct (w_calls env (set_hdr w b) cs') as [[x r]| |]; reflexivity.
Qed.

(** Concrete cases: gzip; setting the header later gives other bytes than setting it first. *)
Definition hd (n : list N) : header := Header n [] None TextData OSTypeUnknown [] 0 0.
Example C90_met :
  let mid := [KSetHeader (hd [66%N]); KWrite [98]%N; KFlush SyncFlush] in
  Forall within mid /\ without_headers mid = [KWrite [98]%N; KFlush SyncFlush] /\
  (exists x, visible (w_calls demo_wenv (newWriter [WithFormat GZIPFormat]) (KSetHeader (hd [65%N]) :: KWrite [97]%N :: mid ++ [KClose])) = Ok x) /\
  visible (w_calls demo_wenv (newWriter [WithFormat GZIPFormat]) [KSetHeader (hd [65%N]); KWrite [97]%N; KClose]) <>
  visible (w_calls demo_wenv (newWriter [WithFormat GZIPFormat]) [KSetHeader (hd [66%N]); KWrite [97]%N; KClose]).
Proof.
  split; [repeat constructor; discriminate|]. split; [reflexivity|]. split; [eexists; vm_compute; reflexivity|]. vm_compute. discriminate.
Qed.
