(** Nothing is left in the decode buffer when the decompression thread ends
    (used for C85). *)
From Verif Require Import Base MCommon MToken MReader SpecReader PInput PLog.


Section Off.
Inductive iv (i : ist) : Prop := IV.
Lemma iv_ib i b l : iv i -> iv (set_ib i b l). Proof. constructor. Qed.
Definition fstI {A} (P : ist -> Prop) (x : ist * A) : Prop := P (fst x).
Lemma iv_any {A} (x : res (ist * A)) : rall (fstI iv) x.
Proof. destruct x; try exact I. apply IV. Qed.
Lemma iv_readN i n : iv i -> iv (fst (inputBufferReadN i n)). Proof. constructor. Qed.
Lemma iv_readU u n i : iv i -> iv (fst (readU u n i)). Proof. constructor. Qed.
Lemma iv_stringZ f i acc : iv i -> rall (fstI iv) (stringZLoop f i acc). Proof. intros; apply iv_any. Qed.
Section I.
Variable env : renv.
Lemma iv_getBits i n : iv i -> rall (fstI iv) (getBits env i n). Proof. intros; apply iv_any. Qed.
Lemma iv_symbol i h : iv i -> rall (fstI iv) (readSymbol env i h). Proof. intros; apply iv_any. Qed.
Lemma iv_xsizes o i sX : iv i -> rall (fstI iv) (readXSizes env o i sX). Proof. intros; apply iv_any. Qed.
End I.

(** ** The Reader *)
Definition oe (o : ost) : Prop := o_dbuf o = [].
Definition ofd (d : dst) : Prop := iv (d_in d) /\ oe (d_out d).
Lemma oe_close o e : oe o -> oe (closeWithError o e).
Proof. destruct o as [db h l [x|] t s a c]; auto. Qed.
Lemma oe_mustFlush o : oe (mustFlush o).
Proof. destruct o as [[|b db] h l e t s a c]; reflexivity. Qed.
Lemma of_propagate d b : ofd d -> ofd (propagateError d b).
Proof. intros [H1 H2]. unfold propagateError. destruct (i_err (d_in d)) as [e|] eqn:E; [|split; auto]. split; auto. apply oe_close; auto. Qed.
Lemma of_corrupt d c : ofd d -> ofd (corruptf d c).
Proof. intros [H1 H2]. split; auto. apply oe_close; auto. Qed.
Lemma of_set_in d i : ofd d -> iv i -> ofd (DST i (d_out d)). Proof. intros [_ H] K. split; auto. Qed.
Lemma of_set_out d o : ofd d -> oe o -> ofd (DST (d_in d) o). Proof. intros [H _] K. split; auto. Qed.

End Off.

Section R.
Definition ofr (r : reader) : Prop := ofd (r_d r).
Definition fstR {A} (P : reader -> Prop) (x : reader * A) : Prop := P (fst x).
Lemma ofr_d r d : ofd d -> ofr (set_d r d). Proof. destruct r; auto. Qed.
Lemma ofr_in r i : ofr r -> iv i -> ofr (set_rin r i). Proof. intros [_ H] K. apply ofr_d. split; auto. Qed.
Lemma ofr_out r o : ofr r -> oe o -> ofr (set_rout r o). Proof. intros [H _] K. apply ofr_d. split; auto. Qed.
Lemma ofr_hdr r h : ofr r -> ofr (set_rhdr r h). Proof. destruct r; auto. Qed.
Lemma ofr_fmt r h : ofr r -> ofr (set_fmt r h). Proof. destruct r; auto. Qed.
Lemma ofr_ev r p : ofr r -> ofr (r_sendEvent r p).
Proof. destruct r; auto. Qed.
Lemma ofr_prop r b : ofr r -> ofr (r_propagate r b). Proof. intros; apply ofr_d, of_propagate; auto. Qed.
Lemma ofr_corrupt r c : ofr r -> ofr (r_corrupt r c). Proof. intros; apply ofr_d, of_corrupt; auto. Qed.
Lemma ofr_iv r : ofr r -> iv (r_in r). Proof. intros [H _]. exact H. Qed.
Lemma evs_in r i : r_events (set_rin r i) = r_events r. Proof. destruct r; auto. Qed.
Lemma in_in r i : r_in (set_rin r i) = i. Proof. destruct r; auto. Qed.
#[local] Hint Resolve ofr_hdr ofr_fmt ofr_ev ofr_prop ofr_corrupt : ofdb.
Lemma opt_b {B} (Q : reader * B -> Prop) (x : res (reader * bool)) (f : reader -> res (reader * B)) g :
  rall (fstR ofr) x -> (forall r, ofr r -> rall Q (f r)) -> (forall r, ofr r -> rall Q (g r)) ->
  rall Q (let* (r, ok) := x in if ok then f r else g r).
Proof. intros H F G. eapply rall_bind; [exact H|]. intros [r [|]] Hr; auto. Qed.
(** reading from the input keeps the invariant *)
Lemma ofr_readU u n r : ofr r -> ofr (set_rin r (fst (readU u n (r_in r)))).
Proof. intros H. apply ofr_in; auto. apply iv_readU. apply ofr_iv; auto. Qed.
Lemma ofr_readN n r : ofr r -> ofr (set_rin r (fst (inputBufferReadN (r_in r) n))).
Proof. intros H. apply ofr_in; auto. apply iv_readN. apply ofr_iv; auto. Qed.

Variable env : renv.
Ltac go := cbn [rall fstR fst]; unfold fstR; cbn [fst]; auto 20 with ofdb.
Ltac rd1 r L F := let H := fresh "H" in let K := fresh "K" in assert (H : ofr r) by go; pose proof (L r H) as K; F K; clear H.
Ltac rd := match goal with
  | |- context [readU16le (r_in ?r)] => let H := fresh "H" in let K := fresh "K" in assert (H : ofr r) by go; pose proof (ofr_readU unle16 2 H) as K; fold readU16le in K; destruct (readU16le (r_in r)) as [? [?|]]; cbn [fst] in K; clear H
  | |- context [readU32le (r_in ?r)] => let H := fresh "H" in let K := fresh "K" in assert (H : ofr r) by go; pose proof (ofr_readU unle32 4 H) as K; fold readU32le in K; destruct (readU32le (r_in r)) as [? [?|]]; cbn [fst] in K; clear H
  | |- context [readU32be (r_in ?r)] => let H := fresh "H" in let K := fresh "K" in assert (H : ofr r) by go; pose proof (ofr_readU unbe32 4 H) as K; fold readU32be in K; destruct (readU32be (r_in r)) as [? [?|]]; cbn [fst] in K; clear H
  | |- context [inputBufferReadN (r_in ?r) ?n] => let H := fresh "H" in let K := fresh "K" in assert (H : ofr r) by go; pose proof (ofr_readN n H) as K; destruct (inputBufferReadN (r_in r) n) as [? [?|]]; cbn [fst] in K; clear H
  end.
Lemma ofr_zlib r : ofr r -> ofr (fst (readHeaderZlib env r)).
Proof.
  intros H. unfold readHeaderZlib. repeat (first [rd | match goal with |- context [if ?x then _ else _] => destruct x end]; cbv zeta beta iota; go).
Qed.
Lemma ofr_zfoot r a : ofr r -> ofr (fst (readFooterZlib r a)).
Proof. intros H. unfold readFooterZlib. rd; go. destruct (negb _); go. Qed.
Lemma ofr_gfoot r a : ofr r -> ofr (fst (readFooterGZIP r a)).
Proof. intros H. unfold readFooterGZIP. rd; go. cbv zeta. rd; go. destruct (negb _); go. destruct (negb _); go. Qed.
Lemma ofr_extra r b : ofr r -> rall (fstR ofr) (readGZIPExtra r b).
Proof. intros H. unfold readGZIPExtra. destruct b; go. rd; go. cbv zeta. rd; go. apply rall_any. intros; go. Qed.
Lemma ofr_string u r b : ofr r -> rall (fstR ofr) (readGZIPString u r b).
Proof.
  intros H. unfold readGZIPString. destruct b; go. eapply rall_bind; [unfold inputBufferReadStringZ; apply iv_stringZ; apply ofr_iv; exact H|].
  intros [i [?|]] K; pose proof (ofr_in H K) as K1; cbn [fst] in K1; go.
Qed.
Lemma ofr_crc16 r b c : ofr r -> rall (fstR ofr) (readGZIPCRC16 r b c).
Proof. intros H. unfold readGZIPCRC16. destruct b; go. rd; go. destruct (negb _); go. Qed.
Lemma ofr_gzip r : ofr r -> rall (fstR ofr) (readHeaderGZIP r).
Proof.
  intros H. unfold readHeaderGZIP. 
  assert (H0 : ofr (set_rin r (i_crcreset (r_in r)))).
  { apply ofr_in; auto. apply IV. }
  cbv zeta. rd; go.
  destruct (negb _); go. destruct (negb _); go. cbv zeta. destruct (flag_bit _ 0xe0); go.
  eapply opt_b; [apply ofr_extra; go | intros r1 H1 | intros; go].
  eapply opt_b; [apply ofr_string; go | intros r2 H2 | intros; go].
  eapply opt_b; [apply ofr_string; go | intros r3 H3 | intros; go].
  eapply opt_b; [apply ofr_crc16; go | intros r4 H4 | intros; go]. go.
Qed.
Lemma ofr_raw r : ofr r -> ofr (fst (readHeaderRaw r)). Proof. unfold readHeaderRaw; go. Qed.
Lemma ofr_auto r : ofr r -> rall (fstR ofr) (readHeaderAuto env r).
Proof.
  intros H. unfold readHeaderAuto. cbv zeta. match goal with |- context [length ?q <? 2] => generalize q end. intros p.
  destruct (length p <? 2); [exact (ofr_raw H)|]. destruct (_ && _)%bool; [exact (ofr_gzip H)|].
  destruct (_ && _)%bool; [exact (ofr_zlib H)|exact (ofr_raw H)].
Qed.
Lemma ofr_header r : ofr r -> rall (fstR ofr) (readHeader env r).
Proof.
  intros H. unfold readHeader. cbv zeta.
  match goal with |- context [set_rin ?a ?b] => set (r1 := set_rin a b) end.
  assert (J1 : ofr r1).
  { unfold r1. apply ofr_in; [|apply IV]. apply ofr_d. split; [apply IV|]. destruct H as [_ H]. unfold r_out. destruct (d_out (r_d r)); exact H. }
  clearbody r1. destruct (i_buf (r_in r1)); [go|].
  eapply opt_b; [|intros; go|intros; go].
  match goal with |- context [r_sendEvent ?q (ev_simple StreamBeginEvent)] => set (r2 := q) end.
  assert (H5 : ofr (set_rhdr (r_sendEvent r2 (ev_simple StreamBeginEvent)) header0)).
  { apply ofr_hdr, ofr_ev, ofr_fmt. apply ofr_out; [destruct r1; exact J1|]. destruct r1 as [op [i o] nn hh f ev]. destruct o; exact (proj2 J1). }
  clearbody r2. destruct (o_format _); [apply ofr_auto|apply ofr_raw|apply ofr_zlib|apply ofr_gzip]; auto.
Qed.
Lemma ofr_footer r : ofr r -> rall (fstR ofr) (readFooter r).
Proof.
  intros H. unfold readFooter. cbv zeta. assert (H1 : ofr (set_rin r (inputBitsDiscard (r_in r)))) by (apply ofr_in; auto; apply iv_ib; apply ofr_iv; auto).
  eapply opt_b; [| intros; go | intros; go].
  destruct (r_fmt _); [exact I|go|apply ofr_zfoot; go|apply ofr_gfoot; go].
Qed.
Lemma ofr_streams : forall f r, ofr r -> rall ofr (streamsLoop env f r).
Proof.
  induction f; intros r H; cbn [streamsLoop]; destruct (i_err (r_in r)); try exact Logic.I; try exact H.
  eapply rall_bind; [apply ofr_header; auto|]. intros [r1 [|]] H1; change (ofr r1) in H1; [|exact H1].
  cbv zeta. match goal with |- rall _ (rbind (blocksLoop env ?f1 ?x) _) => destruct (blocksLoop env f1 x) as [r2|?|]; cbn [rbind]; try exact Logic.I end.
  assert (H2 : ofr (set_rout r2 (mustFlush (r_out r2)))) by (destruct r2; split; [constructor|apply oe_mustFlush]).
  eapply rall_bind; [apply ofr_footer; exact H2|]. intros [r3 [|]] H3; [apply IHf; exact H3|exact H3].
Qed.
Lemma ofr_thread r : ofr r -> rall ofr (readThread env r).
Proof.
  intros H. unfold readThread. eapply rall_bind; [apply ofr_streams; destruct r; exact H|]. intros q Hq. cbn [rall]. apply ofr_prop. destruct (i_err (r_in q)); [exact Hq|]. apply ofr_in; [exact Hq|constructor].
Qed.
End R.
