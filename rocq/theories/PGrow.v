(** What a Reader has decoded is never taken back: a pass over every function
    of the decompression thread (used for C85). *)
From Verif Require Import Base MCommon MToken MReader SpecReader PInput PLog.

(** everything decoded so far: handed over or still in the decode buffer *)
Definition del (o : ost) : list N := log_data (o_log o) ++ o_dbuf o.
Lemma log_data_app a b : log_data (a ++ b) = log_data a ++ log_data b.
Proof. unfold log_data. apply flat_map_app. Qed.
Definition pre (a b : list N) : Prop := exists t, b = a ++ t.
Lemma pre_refl a : pre a a. Proof. exists []. now rewrite app_nil_r. Qed.
Lemma pre_trans a b c : pre a b -> pre b c -> pre a c.
Proof. intros [s ->] [t ->]. exists (s ++ t). now rewrite app_assoc. Qed.

Section Off.
Variable base : list N.
Inductive iv (i : ist) : Prop := IV.
Lemma iv_ib i b l : iv i -> iv (set_ib i b l). Proof. constructor. Qed.
Definition fstI {A} (P : ist -> Prop) (x : ist * A) : Prop := P (fst x).
Lemma iv_any {A} (x : res (ist * A)) : rall (fstI iv) x.
Proof. destruct x; try exact I. apply IV. Qed.
Lemma iv_readN i n : iv i -> iv (fst (inputBufferReadN i n)). Proof. constructor. Qed.
Lemma iv_readU u n i : iv i -> iv (fst (readU u n i)). Proof. constructor. Qed.
Lemma iv_stringZ f i acc : iv i -> rall (fstI iv) (stringZLoop f i acc). Proof. intros; apply iv_any. Qed.
Section I.
Variable env : renv.
Lemma iv_getBits i n : iv i -> rall (fstI iv) (getBits env i n). Proof. intros; apply iv_any. Qed.
Lemma iv_symbol i h : iv i -> rall (fstI iv) (readSymbol env i h). Proof. intros; apply iv_any. Qed.
Lemma iv_xsizes o i sX : iv i -> rall (fstI iv) (readXSizes env o i sX). Proof. intros; apply iv_any. Qed.
End I.

(** ** The Reader *)
Definition oe (o : ost) : Prop := pre base (del o).
Definition ofd (d : dst) : Prop := iv (d_in d) /\ oe (d_out d).
Lemma del_close o e : del (closeWithError o e) = del o.
Proof. destruct o as [db h l [x|] t s a c]; unfold del; cbn; auto. rewrite log_data_app. cbn. now rewrite app_nil_r. Qed.
Lemma del_mustFlush o : del (mustFlush o) = del o.
Proof. destruct o as [[|b db] h l e t s a c]; unfold del; cbn [mustFlush o_log o_dbuf]; auto. rewrite log_data_app. cbn [log_data flat_map]. now rewrite !app_nil_r. Qed.
Lemma del_append o p : del (o_append o p) = del o ++ p.
Proof. destruct o. unfold del. cbn. now rewrite app_assoc. Qed.
Lemma oe_close o e : oe o -> oe (closeWithError o e).
Proof. unfold oe. now rewrite del_close. Qed.
Lemma oe_mustFlush o : oe o -> oe (mustFlush o). Proof. unfold oe. now rewrite del_mustFlush. Qed.
Lemma oe_append o p : oe o -> oe (o_append o p).
Proof. unfold oe. rewrite del_append. intros [t ->]. exists (t ++ p). now rewrite app_assoc. Qed.
Lemma of_propagate d b : ofd d -> ofd (propagateError d b).
Proof. intros [H1 H2]. unfold propagateError. destruct (i_err (d_in d)) as [e|] eqn:E; [|split; auto]. split; auto. apply oe_close; auto. Qed.
Lemma of_corrupt d c : ofd d -> ofd (corruptf d c).
Proof. intros [H1 H2]. split; auto. apply oe_close; auto. Qed.
Lemma of_set_in d i : ofd d -> iv i -> ofd (DST i (d_out d)). Proof. intros [_ H] K. split; auto. Qed.
Lemma of_set_out d o : ofd d -> oe o -> ofd (DST (d_in d) o). Proof. intros [H _] K. split; auto. Qed.

Section L.
Variable env : renv.
Variables cap win : N.
Lemma oe_tryFlush o : oe o -> oe (tryFlush cap o).
Proof. unfold tryFlush. destruct (_ <=? _)%N; auto using oe_mustFlush. Qed.
Lemma oe_dbWrite : forall f p o, oe o -> rall oe (dbWriteLoop cap f o p).
Proof. induction f; intros [|b p] o H; cbn; auto. apply IHf. apply oe_append. apply oe_tryFlush. auto. Qed.
Lemma oe_write o p : oe o -> rall oe (decodeBufferWrite cap o p). Proof. apply oe_dbWrite. Qed.
Lemma oe_writeByte o c : oe o -> oe (decodeBufferWriteByte cap o c).
Proof. unfold decodeBufferWriteByte. intros H. destruct (_ <? _)%N; auto using oe_append, oe_tryFlush. Qed.
Lemma oe_copy dist : forall n o, oe o -> match copyLoop env cap win o dist n with inl u | inr u => oe u end.
Proof. induction n; intros o H; cbn; auto. destruct (window_lk _ _ _ _); auto. apply IHn. apply oe_writeByte; auto. Qed.

Definition fstP {A} (P : dst -> Prop) (x : dst * A) : Prop := P (fst x).
Ltac inb L := eapply rall_bind; [apply L; match goal with H : ofd ?d |- _ => exact (proj1 H) end|]; intros [? ?] ?K; change (iv _) in K.
Lemma of_decodeLL d s : ofd d -> rall (fstP ofd) (decodeLL env d s).
Proof.
  intros H. unfold decodeLL. destruct (s <? 256)%N; [exact H|]. destruct (s =? 256)%N; [exact H|].
  destruct (decodeLL_entry s) as [[len ab]|]; [|apply of_corrupt; auto].
  destruct (ab =? 0). { apply rall_any; intros t. exact H. }
  eapply rall_bind; [apply iv_getBits; exact (proj1 H)|]. intros [i out] K. pose proof (of_set_in H K) as H1. destruct out; [apply rall_any; intros t; exact H1|apply of_propagate; exact H1].
Qed.
Lemma of_decodeD d s l : ofd d -> rall (fstP ofd) (decodeD env d s l).
Proof.
  intros H. unfold decodeD. destruct (decodeD_entry s) as [[len ab]|]; [|apply of_corrupt; auto].
  destruct (ab =? 0). { apply rall_any; intros t. exact H. }
  eapply rall_bind; [apply iv_getBits; exact (proj1 H)|]. intros [i out] K. pose proof (of_set_in H K) as H1. destruct out; [apply rall_any; intros t; exact H1|apply of_propagate; exact H1].
Qed.
Lemma of_huff hLL hD : forall f d, ofd d -> rall (fstP ofd) (huffLoop env cap win f hLL hD d).
Proof.
  induction f; intros d H; cbn [huffLoop]; [exact Logic.I|].
  eapply rall_bind; [apply iv_symbol; exact (proj1 H)|]. intros [i sym] K. pose proof (of_set_in H K) as H0. destruct sym as [s|]; [|apply of_corrupt; exact H0].
  eapply rall_bind; [apply of_decodeLL; exact H0|]. intros [d1 t] H1. change (ofd d1) in H1.
  destruct t as [t|]; [|exact H1]. destruct (tdist t =? 0)%N.
  { destruct (256 <=? lol t)%N; [exact H1|]. apply IHf. apply of_set_out; auto. apply oe_writeByte. exact (proj2 H1). }
  eapply rall_bind; [apply iv_symbol; exact (proj1 H1)|]. intros [i2 sym2] K2. pose proof (of_set_in H1 K2) as H1'. destruct sym2 as [s2|]; [|apply of_corrupt; exact H1'].
  eapply rall_bind; [apply of_decodeD; exact H1'|]. intros [d2 t2] H2. change (ofd d2) in H2.
  destruct t2 as [t2|]; [|exact H2]. destruct (window_lookupSlice _ _ _ _ _) as [p|]; [|apply of_corrupt; auto].
  eapply rall_bind; [apply oe_write; exact (proj2 H2)|]. intros o H3.
  pose proof (oe_copy (tdist t2) (N.to_nat (lol t2) - length p) H3) as C.
  destruct (copyLoop _ _ _ _ _ _); [apply IHf; exact (of_set_out H2 C)|apply of_corrupt; exact (of_set_out H2 C)].
Qed.
Lemma of_decodeX d s done total : ofd d -> rall (fstP ofd) (decodeX env d s done total).
Proof.
  intros H. assert (R : forall bits base v, rall (fstP ofd) (let* (i, out) := getBits env (d_in d) bits in
    let d := DST i (d_out d) in
    match out with
    | None => Ok (propagateError d true, None)
    | Some out =>
      let count := base + N.to_nat out in
      if total - length done <? count then Ok (corruptf d CRepeatCount, None)
      else Ok (d, Some (done ++ repeat v count))
    end)).
  { intros. eapply rall_bind; [apply iv_getBits; exact (proj1 H)|]. intros [i out] K. pose proof (of_set_in H K) as H1. destruct out; [|apply of_propagate; exact H1]. cbv zeta. match goal with |- context [if ?b then _ else _] => destruct b end; [apply of_corrupt; exact H1|exact H1]. }
  unfold decodeX. destruct (s <? 16)%N; [exact H|]. destruct (s =? 16)%N.
  { destruct (rev done); [apply of_corrupt; auto|apply R]. }
  destruct (s =? 17)%N; [apply R|]. destruct (s =? 18)%N; [apply R|]. exact H.
Qed.
Lemma of_lengths h : forall f d done total, ofd d -> rall (fstP ofd) (lengthsLoop env f h d done total).
Proof.
  induction f; intros d done total H; cbn [lengthsLoop]; destruct (_ <? _); try exact Logic.I; try exact H.
  eapply rall_bind; [apply iv_symbol; exact (proj1 H)|]. intros [i sym] K. pose proof (of_set_in H K) as H0. destruct sym as [s|]; [|apply of_corrupt; exact H0].
  eapply rall_bind; [apply of_decodeX; exact H0|]. intros [d1 t] H1. change (ofd d1) in H1.
  destruct t; auto.
Qed.
Lemma of_trees d : ofd d -> rall (fstP ofd) (readDynamicTrees env d).
Proof.
  intros H. unfold readDynamicTrees. eapply rall_bind; [apply iv_getBits; exact (proj1 H)|]. intros [i out] K. pose proof (of_set_in H K) as H0. destruct out as [out|]; [|apply of_propagate; exact H0].
  cbv zeta.
  match goal with |- rall _ (rbind (readXSizes _ _ (d_in ?D) _) _) => set (d2 := D) end.
  assert (H2 : ofd d2).
  { unfold d2. clear d2. change (ofd (DST i (d_out d))) in H0. revert H0. generalize (DST i (d_out d)). intros D0 HD.
    assert (HD1 : ofd (if logicalNumLLCodes <? 257 + N.to_nat (N.land out 31) then corruptf D0 CHlit else D0))
      by (match goal with |- ofd (if ?b then _ else _) => destruct b end; [apply of_corrupt|]; exact HD).
    revert HD1. generalize (if logicalNumLLCodes <? 257 + N.to_nat (N.land out 31) then corruptf D0 CHlit else D0). intros D1 HD1.
    match goal with |- ofd (if ?b then _ else _) => destruct b end; [apply of_corrupt|]; exact HD1. }
  clearbody d2. eapply rall_bind; [apply iv_xsizes; exact (proj1 H2)|]. intros [i2 sX] K2. pose proof (of_set_in H2 K2) as H2'. destruct sX as [sX|]; [|apply of_propagate; exact H2'].
  destruct (negb _); [apply of_corrupt; exact H2'|].
  eapply rall_bind; [apply of_lengths; exact H2'|]. intros [d3 t] H3. change (ofd d3) in H3.
  destruct t; [|exact H3]. destruct (negb _); [apply of_corrupt; auto|]. destruct (negb _); [apply of_corrupt; auto|exact H3].
Qed.
Lemma of_stored d : ofd d -> rall (fstP ofd) (readFlateBlockStored cap d).
Proof.
  intros H. unfold readFlateBlockStored. pose proof (iv_readU unle16 2 (proj1 H)) as K1. fold readU16le in K1. destruct (readU16le (d_in d)) as [i [l0|]]; pose proof (of_set_in H K1) as H1; [|apply of_propagate; exact H1]. cbn [fst] in *.
  pose proof (iv_readU unle16 2 K1) as K2. fold readU16le in K2. cbn [d_in].
  destruct (readU16le i) as [i1 [l1|]]; pose proof (of_set_in H K2) as H2; [|apply of_propagate; exact H2].
  destruct (negb _); [apply of_corrupt; exact H2|]. cbn [fst d_in] in *.
  match goal with |- context[inputBufferReadN i1 ?n] => pose proof (iv_readN n K2) as K3; destruct (inputBufferReadN i1 n) as [i2 [p|]] end; pose proof (of_set_in H K3) as H3; [|apply of_propagate; exact H3].
  eapply rall_bind; [apply oe_write; exact (proj2 H)|]. intros o Ho. split; [exact (proj1 H3)|exact Ho].
Qed.
End L.
End Off.

Section R.
Variable base : list N.
Notation ofd := (ofd base).
Notation oe := (oe base).
Definition ofr (r : reader) : Prop := ofd (r_d r).
Definition fstR {A} (P : reader -> Prop) (x : reader * A) : Prop := P (fst x).
Lemma ofr_d r d : ofd d -> ofr (set_d r d). Proof. destruct r; auto. Qed.
Lemma ofr_in r i : ofr r -> iv i -> ofr (set_rin r i). Proof. intros [_ H] K. apply ofr_d. split; auto. Qed.
Lemma ofr_out r o : ofr r -> oe o -> ofr (set_rout r o). Proof. intros [H _] K. apply ofr_d. split; auto. Qed.
Lemma ofr_hdr r h : ofr r -> ofr (set_rhdr r h). Proof. destruct r; auto. Qed.
Lemma ofr_fmt r h : ofr r -> ofr (set_fmt r h). Proof. destruct r; auto. Qed.
Lemma ofr_ev r p : ofr r -> ofr (r_sendEvent r p).
Proof. destruct r; auto. Qed.
Lemma ofr_prop r b : ofr r -> ofr (r_propagate r b). Proof. intros; apply ofr_d, of_propagate; auto. Qed.
Lemma ofr_corrupt r c : ofr r -> ofr (r_corrupt r c). Proof. intros; apply ofr_d, of_corrupt; auto. Qed.
Lemma ofr_iv r : ofr r -> iv (r_in r). Proof. intros [H _]. exact H. Qed.
Lemma evs_in r i : r_events (set_rin r i) = r_events r. Proof. destruct r; auto. Qed.
Lemma in_in r i : r_in (set_rin r i) = i. Proof. destruct r; auto. Qed.
#[local] Hint Resolve ofr_hdr ofr_fmt ofr_ev ofr_prop ofr_corrupt : ofdb.
Lemma opt_b {B} (Q : reader * B -> Prop) (x : res (reader * bool)) (f : reader -> res (reader * B)) g :
  rall (fstR ofr) x -> (forall r, ofr r -> rall Q (f r)) -> (forall r, ofr r -> rall Q (g r)) ->
  rall Q (let* (r, ok) := x in if ok then f r else g r).
Proof. intros H F G. eapply rall_bind; [exact H|]. intros [r [|]] Hr; auto. Qed.
(** reading from the input keeps the invariant *)
Lemma ofr_readU u n r : ofr r -> ofr (set_rin r (fst (readU u n (r_in r)))).
Proof. intros H. apply ofr_in; auto. apply iv_readU. apply ofr_iv; auto. Qed.
Lemma ofr_readN n r : ofr r -> ofr (set_rin r (fst (inputBufferReadN (r_in r) n))).
Proof. intros H. apply ofr_in; auto. apply iv_readN. apply ofr_iv; auto. Qed.

Variable env : renv.
Ltac go := cbn [rall fstR fst]; unfold fstR; cbn [fst]; auto 20 with ofdb.
Ltac rd1 r L F := let H := fresh "H" in let K := fresh "K" in assert (H : ofr r) by go; pose proof (L r H) as K; F K; clear H.
Ltac rd := match goal with
  | |- context [readU16le (r_in ?r)] => let H := fresh "H" in let K := fresh "K" in assert (H : ofr r) by go; pose proof (ofr_readU unle16 2 H) as K; fold readU16le in K; destruct (readU16le (r_in r)) as [? [?|]]; cbn [fst] in K; clear H
  | |- context [readU32le (r_in ?r)] => let H := fresh "H" in let K := fresh "K" in assert (H : ofr r) by go; pose proof (ofr_readU unle32 4 H) as K; fold readU32le in K; destruct (readU32le (r_in r)) as [? [?|]]; cbn [fst] in K; clear H
  | |- context [readU32be (r_in ?r)] => let H := fresh "H" in let K := fresh "K" in assert (H : ofr r) by go; pose proof (ofr_readU unbe32 4 H) as K; fold readU32be in K; destruct (readU32be (r_in r)) as [? [?|]]; cbn [fst] in K; clear H
  | |- context [inputBufferReadN (r_in ?r) ?n] => let H := fresh "H" in let K := fresh "K" in assert (H : ofr r) by go; pose proof (ofr_readN n H) as K; destruct (inputBufferReadN (r_in r) n) as [? [?|]]; cbn [fst] in K; clear H
  end.
Lemma ofr_zlib r : ofr r -> ofr (fst (readHeaderZlib env r)).
Proof.
  intros H. unfold readHeaderZlib. repeat (first [rd | match goal with |- context [if ?x then _ else _] => destruct x end]; cbv zeta beta iota; go).
Qed.
Lemma ofr_zfoot r a : ofr r -> ofr (fst (readFooterZlib r a)).
Proof. intros H. unfold readFooterZlib. rd; go. destruct (negb _); go. Qed.
Lemma ofr_gfoot r a : ofr r -> ofr (fst (readFooterGZIP r a)).
Proof. intros H. unfold readFooterGZIP. rd; go. cbv zeta. rd; go. destruct (negb _); go. destruct (negb _); go. Qed.
Lemma ofr_extra r b : ofr r -> rall (fstR ofr) (readGZIPExtra r b).
Proof. intros H. unfold readGZIPExtra. destruct b; go. rd; go. cbv zeta. rd; go. apply rall_any. intros; go. Qed.
Lemma ofr_string u r b : ofr r -> rall (fstR ofr) (readGZIPString u r b).
Proof.
  intros H. unfold readGZIPString. destruct b; go. eapply rall_bind; [unfold inputBufferReadStringZ; apply iv_stringZ; apply ofr_iv; exact H|].
  intros [i [?|]] K; pose proof (ofr_in H K) as K1; cbn [fst] in K1; go.
Qed.
Lemma ofr_crc16 r b c : ofr r -> rall (fstR ofr) (readGZIPCRC16 r b c).
Proof. intros H. unfold readGZIPCRC16. destruct b; go. rd; go. destruct (negb _); go. Qed.
Lemma ofr_gzip r : ofr r -> rall (fstR ofr) (readHeaderGZIP r).
Proof.
  intros H. unfold readHeaderGZIP. 
  assert (H0 : ofr (set_rin r (i_crcreset (r_in r)))).
  { apply ofr_in; auto. apply IV. }
  cbv zeta. rd; go.
  destruct (negb _); go. destruct (negb _); go. cbv zeta. destruct (flag_bit _ 0xe0); go.
  eapply opt_b; [apply ofr_extra; go | intros r1 H1 | intros; go].
  eapply opt_b; [apply ofr_string; go | intros r2 H2 | intros; go].
  eapply opt_b; [apply ofr_string; go | intros r3 H3 | intros; go].
  eapply opt_b; [apply ofr_crc16; go | intros r4 H4 | intros; go]. go.
Qed.
Lemma ofr_raw r : ofr r -> ofr (fst (readHeaderRaw r)). Proof. unfold readHeaderRaw; go. Qed.
Lemma ofr_auto r : ofr r -> rall (fstR ofr) (readHeaderAuto env r).
Proof.
  intros H. unfold readHeaderAuto. cbv zeta. match goal with |- context [length ?q <? 2] => generalize q end. intros p.
  destruct (length p <? 2); [exact (ofr_raw H)|]. destruct (_ && _)%bool; [exact (ofr_gzip H)|].
  destruct (_ && _)%bool; [exact (ofr_zlib H)|exact (ofr_raw H)].
Qed.
Lemma ofr_header r : ofr r -> rall (fstR ofr) (readHeader env r).
Proof.
  intros H. unfold readHeader. cbv zeta.
  match goal with |- context [set_rin ?a ?b] => set (r1 := set_rin a b) end.
  assert (J1 : ofr r1).
  { unfold r1. apply ofr_in; [|apply IV]. apply ofr_d. split; [apply IV|]. destruct H as [_ H]. unfold r_out. destruct (d_out (r_d r)); exact H. }
  clearbody r1. destruct (i_buf (r_in r1)); [go|].
  eapply opt_b; [|intros; go|intros; go].
  match goal with |- context [r_sendEvent ?q (ev_simple StreamBeginEvent)] => set (r2 := q) end.
  assert (H5 : ofr (set_rhdr (r_sendEvent r2 (ev_simple StreamBeginEvent)) header0)).
  { apply ofr_hdr, ofr_ev, ofr_fmt. apply ofr_out; [destruct r1; exact J1|]. destruct r1 as [op [i o] nn hh f ev]. destruct o; exact (proj2 J1). }
  clearbody r2. destruct (o_format _); [apply ofr_auto|apply ofr_raw|apply ofr_zlib|apply ofr_gzip]; auto.
Qed.
Lemma ofr_footer r : ofr r -> rall (fstR ofr) (readFooter r).
Proof.
  intros H. unfold readFooter. cbv zeta. assert (H1 : ofr (set_rin r (inputBitsDiscard (r_in r)))) by (apply ofr_in; auto; apply iv_ib; apply ofr_iv; auto).
  eapply opt_b; [| intros; go | intros; go].
  destruct (r_fmt _); [exact I|go|apply ofr_zfoot; go|apply ofr_gfoot; go].
Qed.
Lemma ofr_body r bt fin : ofr r -> rall (fstR ofr) (readBlockBody env r bt fin).
Proof.
  assert (D : forall r x, rall (fstP (ofd)) x -> rall (fstR ofr) (on_d r x)).
  { intros r0 x Hx. unfold on_d. eapply rall_bind; [exact Hx|]. intros [d ok] Hd. apply ofr_d. exact Hd. }
  intros H. unfold readBlockBody. destruct bt.
  - exact (ofr_corrupt _ H).
  - apply D. apply of_stored. exact H.
  - cbv zeta. apply D. apply of_huff. exact (ofr_ev _ H).
  - eapply rall_bind; [apply of_trees; exact H|]. intros [d [t|]] Hd; change (ofd d) in Hd; [|apply ofr_d; exact Hd].
  apply D. apply of_huff. apply (ofr_ev _ (@ofr_d r d Hd)).
Qed.
Lemma ofr_block r : ofr r -> rall (fstR ofr) (readFlateBlock env r).
Proof.
  intros H. unfold readFlateBlock. eapply rall_bind; [apply iv_getBits; apply ofr_iv; exact H|]. intros [i out] K. pose proof (ofr_in H K) as K1. cbn [fst] in K1. cbv zeta. destruct out; [|go].
  eapply rall_bind; [apply ofr_body; go|]. intros [r1 [|]] H1; change (ofr r1) in H1; [apply ofr_ev|]; exact H1.
Qed.
Lemma ofr_blocks : forall f r, ofr r -> rall ofr (blocksLoop env f r).
Proof.
  induction f; intros r H; cbn; auto. eapply rall_bind; [apply ofr_block; auto|]. intros [r1 [|]] H1; [apply IHf|]; exact H1.
Qed.
Lemma ofr_streams : forall f r, ofr r -> rall ofr (streamsLoop env f r).
Proof.
  induction f; intros r H; cbn [streamsLoop]; destruct (i_err (r_in r)); try exact Logic.I; try exact H.
  eapply rall_bind; [apply ofr_header; auto|]. intros [r1 [|]] H1; change (ofr r1) in H1; [|exact H1].
  eapply rall_bind with (P := ofr).
  { match goal with |- rall _ (blocksLoop env ?f ?r) => refine (@ofr_blocks f r _) end. apply ofr_out; auto. destruct H1 as [_ H1]. unfold r_out. destruct (d_out (r_d r1)); exact H1. }
  intros r2 H2. eapply rall_bind; [apply ofr_footer; apply ofr_out; auto; apply oe_mustFlush; exact (proj2 H2)|]. intros [r3 [|]] H3; [apply IHf; exact H3|exact H3].
Qed.
End R.
