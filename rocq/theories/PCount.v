(** The counters carried by the events of a Reader: used for C82. *)
From Verif Require Import Base MCommon MToken MReader SpecReader SpecCount PInput PLog.

Section Off.
(** The totals at the beginning of the current stream *)
Variables ib0 ob0 : N.
Definition iv (i : ist) : Prop := since ib0 (i_total i) (i_stream i).
Lemma iv_ib i b l : iv i -> iv (set_ib i b l). Proof. destruct i; auto. Qed.
Lemma iv_fill i : iv i -> iv (fillIfEmpty i).
Proof. destruct i as [src [|x buf] [e|] b l t s c]; unfold fillIfEmpty; cbn [i_buf inputBufferFill]; auto. destruct src as [|[p e] r]; auto. Qed.
Lemma iv_buf i r : iv i -> iv (set_buf i r). Proof. destruct i; auto. Qed.
Lemma add_both a t s n : since a t s -> since a (add64 t n) (add64 s n).
Proof. intros [-> H]. unfold since, add64. rewrite N.add_mod_idemp_l, N.add_mod_idemp_r, N.add_assoc by discriminate. split; [reflexivity|apply N.mod_lt; discriminate]. Qed.
Lemma iv_count q i : iv i -> iv (i_count i q).
Proof. destruct i as [src buf err b l t s c]. unfold iv, i_count. cbn [i_total i_stream]. apply add_both. Qed.
Lemma iv_byte i : iv i -> iv (fst (inputByte i)).
Proof.
  intros H. unfold inputByte. pose proof (iv_fill H) as K. destruct (i_buf (fillIfEmpty i)) as [|x r] eqn:E; cbn [fst]; auto.
  apply iv_count, iv_buf, K.
Qed.
Lemma iv_readLoop : forall f i n acc, iv i -> let '(i', p) := bufReadLoop f i n acc in iv i'.
Proof.
  induction f as [|f IH]; intros i n acc H; destruct n as [|n]; cbn [bufReadLoop]; auto. destruct (i_buf (fillIfEmpty i)) as [|x r] eqn:E; [apply iv_fill; auto|]. rewrite <- E. clear E. apply IH.
  apply iv_buf, iv_fill; auto.
Qed.
Lemma iv_readN i n : iv i -> iv (fst (inputBufferReadN i n)).
Proof.
  intros H. unfold inputBufferReadN, inputBitsDiscard. pose proof (iv_ib 0 0 H) as H1. destruct n as [|n]; [exact H1|].
  pose proof (@iv_readLoop (Datatypes.S n) _ (Datatypes.S n) [] H1) as K. destruct (bufReadLoop _ _ _ _) as [i' p]. apply iv_count; auto.
Qed.
Lemma iv_readU u n i : iv i -> iv (fst (readU u n i)).
Proof. intros H. unfold readU. pose proof (iv_readN n H) as K. destruct (inputBufferReadN i n) as [? []]; exact K. Qed.
Definition fstI {A} (P : ist -> Prop) (x : ist * A) : Prop := P (fst x).
Lemma iv_stringZ : forall f i acc, iv i -> rall (fstI iv) (stringZLoop f i acc).
Proof.
  induction f as [|f IH]; intros i acc H; cbn [stringZLoop]; [exact I|]. pose proof (iv_byte H) as K. destruct (inputByte i) as [i' [ch|]]; [|exact K]. destruct (ch =? 0)%N; [exact K|apply IH; exact K].
Qed.
Section I.
Variable env : renv.
Lemma iv_fillLoop : forall f i n, iv i -> iv (fst (bitsFillLoop env f i n)).
Proof.
  induction f as [|f IH]; intros i n H; cbn [bitsFillLoop]; destruct (_ <? _); auto. pose proof (iv_byte H) as K. destruct (inputByte i) as [i' [ch|]]; [|exact K]. apply IH, iv_ib. exact K.
Qed.
Lemma iv_bitsFill i n : iv i -> rall (fstI iv) (inputBitsFill env i n).
Proof. intros H. unfold inputBitsFill, assertb. destruct (_ <=? _); [|exact I]. apply iv_fillLoop. exact H. Qed.
Lemma iv_commit i n : iv i -> rall iv (inputBitsCommit i n).
Proof. intros H. unfold inputBitsCommit, assertb. destruct (_ <=? _); [|exact I]. apply iv_ib. exact H. Qed.
Lemma iv_getBits i n : iv i -> rall (fstI iv) (getBits env i n).
Proof.
  intros H. unfold getBits. eapply rall_bind; [apply iv_bitsFill; exact H|]. intros [i1 [|]] H1; [|exact H1]. apply rall_any. intros out. eapply rall_bind; [apply iv_commit; exact H1|]. intros i2 H2. exact H2.
Qed.
Lemma iv_symLoop h : forall f i mx n, iv i -> rall (fstI iv) (readSymbolLoop env f i h mx n).
Proof.
  induction f as [|f IH]; intros i mx n H; cbn [readSymbolLoop]; destruct (_ <=? _); try exact I; try exact H.
  eapply rall_bind; [apply iv_bitsFill; exact H|]. intros [i1 [|]] H1; [|exact H1]. apply rall_any. intros out. destruct (dec_decode h n out) as [[[s|] mn] mx'].
  - eapply rall_bind; [apply iv_commit; exact H1|]. intros i2 H2. exact H2.
  - destruct (Nat.eqb mx' 0); [exact H1|]. apply IH. exact H1.
Qed.
Lemma iv_symbol i h : iv i -> rall (fstI iv) (readSymbol env i h).
Proof. apply iv_symLoop. Qed.
Lemma iv_xsizes : forall o i sX, iv i -> rall (fstI iv) (readXSizes env o i sX).
Proof.
  induction o as [|x o IH]; intros i sX H; cbn [readXSizes]; [exact H|]. eapply rall_bind; [apply iv_getBits; exact H|]. intros [i1 [|]] H1; [|exact H1]. apply IH. exact H1.
Qed.
End I.

(** ** The Reader *)
Definition oe (o : ost) : Prop := since ob0 (o_total o) (o_stream o).
Definition ofd (d : dst) : Prop := iv (d_in d) /\ oe (d_out d).
Lemma oe_close o e : oe o -> oe (closeWithError o e).
Proof. destruct o as [db h l [x|] t s a c]; unfold oe; cbn; auto. Qed.
Lemma oe_mustFlush o : oe o -> oe (mustFlush o).
Proof. destruct o as [[|b db] h l e t s a c]; auto. unfold oe, mustFlush. cbn [o_total o_stream]. apply add_both. Qed.
Lemma oe_append o p : oe o -> oe (o_append o p). Proof. destruct o; auto. Qed.
Lemma of_propagate d b : ofd d -> ofd (propagateError d b).
Proof. intros [H1 H2]. unfold propagateError. destruct (i_err (d_in d)) as [e|] eqn:E; [|split; auto]. split; auto. apply oe_close; auto. Qed.
Lemma of_corrupt d c : ofd d -> ofd (corruptf d c).
Proof. intros [H1 H2]. split; auto. apply oe_close; auto. Qed.
Lemma of_set_in d i : ofd d -> iv i -> ofd (DST i (d_out d)). Proof. intros [_ H] K. split; auto. Qed.
Lemma of_set_out d o : ofd d -> oe o -> ofd (DST (d_in d) o). Proof. intros [H _] K. split; auto. Qed.

Section L.
Variable env : renv.
Variables cap win : N.
Lemma oe_tryFlush o : oe o -> oe (tryFlush cap o).
Proof. unfold tryFlush. destruct (_ <=? _)%N; auto using oe_mustFlush. Qed.
Lemma oe_dbWrite : forall f p o, oe o -> rall oe (dbWriteLoop cap f o p).
Proof. induction f; intros [|b p] o H; cbn; auto. apply IHf. apply oe_append. apply oe_tryFlush. auto. Qed.
Lemma oe_write o p : oe o -> rall oe (decodeBufferWrite cap o p). Proof. apply oe_dbWrite. Qed.
Lemma oe_writeByte o c : oe o -> oe (decodeBufferWriteByte cap o c).
Proof. unfold decodeBufferWriteByte. intros H. destruct (_ <? _)%N; auto using oe_append, oe_tryFlush. Qed.
Lemma oe_copy dist : forall n o, oe o -> match copyLoop env cap win o dist n with inl u | inr u => oe u end.
Proof. induction n; intros o H; cbn; auto. destruct (window_lk _ _ _ _); auto. apply IHn. apply oe_writeByte; auto. Qed.

Definition fstP {A} (P : dst -> Prop) (x : dst * A) : Prop := P (fst x).
Ltac inb L := eapply rall_bind; [apply L; match goal with H : ofd ?d |- _ => exact (proj1 H) end|]; intros [? ?] ?K; change (iv _) in K.
Lemma of_decodeLL d s : ofd d -> rall (fstP ofd) (decodeLL env d s).
Proof.
  intros H. unfold decodeLL. destruct (s <? 256)%N; [exact H|]. destruct (s =? 256)%N; [exact H|].
  destruct (decodeLL_entry s) as [[len ab]|]; [|apply of_corrupt; auto].
  destruct (ab =? 0). { apply rall_any; intros t. exact H. }
  eapply rall_bind; [apply iv_getBits; exact (proj1 H)|]. intros [i out] K. pose proof (of_set_in H K) as H1. destruct out; [apply rall_any; intros t; exact H1|apply of_propagate; exact H1].
Qed.
Lemma of_decodeD d s l : ofd d -> rall (fstP ofd) (decodeD env d s l).
Proof.
  intros H. unfold decodeD. destruct (decodeD_entry s) as [[len ab]|]; [|apply of_corrupt; auto].
  destruct (ab =? 0). { apply rall_any; intros t. exact H. }
  eapply rall_bind; [apply iv_getBits; exact (proj1 H)|]. intros [i out] K. pose proof (of_set_in H K) as H1. destruct out; [apply rall_any; intros t; exact H1|apply of_propagate; exact H1].
Qed.
Lemma of_huff hLL hD : forall f d, ofd d -> rall (fstP ofd) (huffLoop env cap win f hLL hD d).
Proof.
  induction f; intros d H; cbn [huffLoop]; [exact Logic.I|].
  eapply rall_bind; [apply iv_symbol; exact (proj1 H)|]. intros [i sym] K. pose proof (of_set_in H K) as H0. destruct sym as [s|]; [|apply of_corrupt; exact H0].
  eapply rall_bind; [apply of_decodeLL; exact H0|]. intros [d1 t] H1. change (ofd d1) in H1.
  destruct t as [t|]; [|exact H1]. destruct (tdist t =? 0)%N.
  { destruct (256 <=? lol t)%N; [exact H1|]. apply IHf. apply of_set_out; auto. apply oe_writeByte. exact (proj2 H1). }
  eapply rall_bind; [apply iv_symbol; exact (proj1 H1)|]. intros [i2 sym2] K2. pose proof (of_set_in H1 K2) as H1'. destruct sym2 as [s2|]; [|apply of_corrupt; exact H1'].
  eapply rall_bind; [apply of_decodeD; exact H1'|]. intros [d2 t2] H2. change (ofd d2) in H2.
  destruct t2 as [t2|]; [|exact H2]. destruct (window_lookupSlice _ _ _ _ _) as [p|]; [|apply of_corrupt; auto].
  eapply rall_bind; [apply oe_write; exact (proj2 H2)|]. intros o H3.
  pose proof (oe_copy (tdist t2) (N.to_nat (lol t2) - length p) H3) as C.
  destruct (copyLoop _ _ _ _ _ _); [apply IHf; exact (of_set_out H2 C)|apply of_corrupt; exact (of_set_out H2 C)].
Qed.
Lemma of_decodeX d s done total : ofd d -> rall (fstP ofd) (decodeX env d s done total).
Proof.
  intros H. assert (R : forall bits base v, rall (fstP ofd) (let* (i, out) := getBits env (d_in d) bits in
    let d := DST i (d_out d) in
    match out with
    | None => Ok (propagateError d true, None)
    | Some out =>
      let count := base + N.to_nat out in
      if total - length done <? count then Ok (corruptf d CRepeatCount, None)
      else Ok (d, Some (done ++ repeat v count))
    end)).
  { intros. eapply rall_bind; [apply iv_getBits; exact (proj1 H)|]. intros [i out] K. pose proof (of_set_in H K) as H1. destruct out; [|apply of_propagate; exact H1]. cbv zeta. match goal with |- context [if ?b then _ else _] => destruct b end; [apply of_corrupt; exact H1|exact H1]. }
  unfold decodeX. destruct (s <? 16)%N; [exact H|]. destruct (s =? 16)%N.
  { destruct (rev done); [apply of_corrupt; auto|apply R]. }
  destruct (s =? 17)%N; [apply R|]. destruct (s =? 18)%N; [apply R|]. exact H.
Qed.
Lemma of_lengths h : forall f d done total, ofd d -> rall (fstP ofd) (lengthsLoop env f h d done total).
Proof.
  induction f; intros d done total H; cbn [lengthsLoop]; destruct (_ <? _); try exact Logic.I; try exact H.
  eapply rall_bind; [apply iv_symbol; exact (proj1 H)|]. intros [i sym] K. pose proof (of_set_in H K) as H0. destruct sym as [s|]; [|apply of_corrupt; exact H0].
  eapply rall_bind; [apply of_decodeX; exact H0|]. intros [d1 t] H1. change (ofd d1) in H1.
  destruct t; auto.
Qed.
Lemma of_trees d : ofd d -> rall (fstP ofd) (readDynamicTrees env d).
Proof.
  intros H. unfold readDynamicTrees. eapply rall_bind; [apply iv_getBits; exact (proj1 H)|]. intros [i out] K. pose proof (of_set_in H K) as H0. destruct out as [out|]; [|apply of_propagate; exact H0].
  cbv zeta.
  match goal with |- rall _ (rbind (readXSizes _ _ (d_in ?D) _) _) => set (d2 := D) end.
  assert (H2 : ofd d2).
  { unfold d2. clear d2. change (ofd (DST i (d_out d))) in H0. revert H0. generalize (DST i (d_out d)). intros D0 HD.
    assert (HD1 : ofd (if logicalNumLLCodes <? 257 + N.to_nat (N.land out 31) then corruptf D0 CHlit else D0))
      by (match goal with |- ofd (if ?b then _ else _) => destruct b end; [apply of_corrupt|]; exact HD).
    revert HD1. generalize (if logicalNumLLCodes <? 257 + N.to_nat (N.land out 31) then corruptf D0 CHlit else D0). intros D1 HD1.
    match goal with |- ofd (if ?b then _ else _) => destruct b end; [apply of_corrupt|]; exact HD1. }
  clearbody d2. eapply rall_bind; [apply iv_xsizes; exact (proj1 H2)|]. intros [i2 sX] K2. pose proof (of_set_in H2 K2) as H2'. destruct sX as [sX|]; [|apply of_propagate; exact H2'].
  destruct (negb _); [apply of_corrupt; exact H2'|].
  eapply rall_bind; [apply of_lengths; exact H2'|]. intros [d3 t] H3. change (ofd d3) in H3.
  destruct t; [|exact H3]. destruct (negb _); [apply of_corrupt; auto|]. destruct (negb _); [apply of_corrupt; auto|exact H3].
Qed.
Lemma of_stored d : ofd d -> rall (fstP ofd) (readFlateBlockStored cap d).
Proof.
  intros H. unfold readFlateBlockStored. pose proof (iv_readU unle16 2 (proj1 H)) as K1. fold readU16le in K1. destruct (readU16le (d_in d)) as [i [l0|]]; pose proof (of_set_in H K1) as H1; [|apply of_propagate; exact H1]. cbn [fst] in *.
  pose proof (iv_readU unle16 2 K1) as K2. fold readU16le in K2. cbn [d_in].
  destruct (readU16le i) as [i1 [l1|]]; pose proof (of_set_in H K2) as H2; [|apply of_propagate; exact H2].
  destruct (negb _); [apply of_corrupt; exact H2|]. cbn [fst d_in] in *.
  match goal with |- context[inputBufferReadN i1 ?n] => pose proof (iv_readN n K2) as K3; destruct (inputBufferReadN i1 n) as [i2 [p|]] end; pose proof (of_set_in H K3) as H3; [|apply of_propagate; exact H3].
  eapply rall_bind; [apply oe_write; exact (proj2 H)|]. intros o Ho. split; [exact (proj1 H3)|exact Ho].
Qed.
End L.
End Off.

Section R.
(** The events sent before *)
Variable ev0 : list event.
Notation zero := (0%N, 0%N, 0%N).
Definition counted (r : reader) (a b : N) : Prop :=
  exists evs, r_events r = ev0 ++ evs /\ Counters zero evs /\ fold_left mark evs zero = (r_num r, a, b).
Definition ofr (r : reader) : Prop := exists a b, counted r a b /\ ofd a b (r_d r).
Definition fstR {A} (P : reader -> Prop) (x : reader * A) : Prop := P (fst x).
Lemma cnt_d r d a b : counted r a b -> counted (set_d r d) a b. Proof. destruct r; auto. Qed.
Lemma ofr_d r d : (forall a b, ofd a b (r_d r) -> ofd a b d) -> ofr r -> ofr (set_d r d).
Proof. intros HD [a [b [H1 H2]]]. exists a, b. split; [apply cnt_d; auto|]. destruct r; apply HD; auto. Qed.
Lemma ofr_in r i : (forall a, iv a (r_in r) -> iv a i) -> ofr r -> ofr (set_rin r i).
Proof. intros HI. apply ofr_d. intros a b [H1 H2]. split; [apply HI; exact H1|exact H2]. Qed.
Lemma ofr_out r o : (forall b, oe b (r_out r) -> oe b o) -> ofr r -> ofr (set_rout r o).
Proof. intros HI. apply ofr_d. intros a b [H1 H2]. split; [exact H1|apply HI; exact H2]. Qed.
Lemma ofr_hdr r h : ofr r -> ofr (set_rhdr r h). Proof. destruct r; auto. Qed.
Lemma ofr_fmt r h : ofr r -> ofr (set_fmt r h). Proof. destruct r; auto. Qed.
Lemma counters_snoc evs e : forall s, Counters s evs -> fits (fold_left mark evs s) e -> Counters s (evs ++ [e]).
Proof. induction evs as [|x evs IH]; intros s H F; cbn [app Counters fold_left] in *; auto. destruct H as [H1 H2]. split; auto. Qed.
Lemma ofr_ev r p : p_type p <> StreamBeginEvent -> ofr r -> ofr (r_sendEvent r p).
Proof.
  intros NB [a [b [[evs [H1 [H2 H3]]] [H4 H5]]]]. exists a, b. destruct r as [o [i u] n h f ev]. unfold r_sendEvent, ofd in *. cbn in *. subst ev. split; [|split; auto].
  eexists. split; [rewrite <- app_assoc; reflexivity|]. split.
  - apply counters_snoc; auto. rewrite H3. unfold fits, mark. cbn [e_type]. destruct (p_type p); try contradiction; cbn; auto.
  - rewrite fold_left_app, H3. cbn [fold_left mark e_type]. destruct (p_type p); try contradiction; auto.
Qed.
Lemma ofr_prop r b : ofr r -> ofr (r_propagate r b). Proof. apply ofr_d. intros; apply of_propagate; auto. Qed.
Lemma ofr_corrupt r c : ofr r -> ofr (r_corrupt r c). Proof. apply ofr_d. intros; apply of_corrupt; auto. Qed.
Lemma in_in r i : r_in (set_rin r i) = i. Proof. destruct r; auto. Qed.
Lemma ofr_ev_b r t b f : t = BlockBeginEvent \/ t = BlockEndEvent -> ofr r -> ofr (r_sendEvent r (ev_block t b f)).
Proof. intros [->| ->]; apply ofr_ev; discriminate. Qed.
Lemma ofr_ev_t r b f t : ofr r -> ofr (r_sendEvent r (ev_trees b f t)). Proof. apply ofr_ev; discriminate. Qed.
Lemma ofr_ev_h r h : ofr r -> ofr (r_sendEvent r (ev_header h)). Proof. apply ofr_ev; discriminate. Qed.
Lemma ofr_ev_f r x y : ofr r -> ofr (r_sendEvent r (ev_footer x y)). Proof. apply ofr_ev; discriminate. Qed.
Lemma ofr_ev_c r : ofr r -> ofr (r_sendEvent r (ev_simple StreamCloseEvent)). Proof. apply ofr_ev; discriminate. Qed.
#[local] Hint Resolve ofr_hdr ofr_fmt ofr_ev_b ofr_ev_t ofr_ev_h ofr_ev_f ofr_ev_c ofr_prop ofr_corrupt : ofdb.
Lemma opt_b {B} (Q : reader * B -> Prop) (x : res (reader * bool)) (f : reader -> res (reader * B)) g :
  rall (fstR ofr) x -> (forall r, ofr r -> rall Q (f r)) -> (forall r, ofr r -> rall Q (g r)) ->
  rall Q (let* (r, ok) := x in if ok then f r else g r).
Proof. intros H F G. eapply rall_bind; [exact H|]. intros [r [|]] Hr; auto. Qed.
(** reading from the input keeps the invariant *)
Lemma ofr_readU u n r : ofr r -> ofr (set_rin r (fst (readU u n (r_in r)))).
Proof. apply ofr_in. intros; apply iv_readU; auto. Qed.
Lemma ofr_readN n r : ofr r -> ofr (set_rin r (fst (inputBufferReadN (r_in r) n))).
Proof. apply ofr_in. intros; apply iv_readN; auto. Qed.

Variable env : renv.
Ltac go := cbn [rall fstR fst]; unfold fstR; cbn [fst]; auto 20 with ofdb.
Ltac rd1 r L F := let H := fresh "H" in let K := fresh "K" in assert (H : ofr r) by go; pose proof (L r H) as K; F K; clear H.
Ltac rd := match goal with
  | |- context [readU16le (r_in ?r)] => let H := fresh "H" in let K := fresh "K" in assert (H : ofr r) by go; pose proof (ofr_readU unle16 2 H) as K; fold readU16le in K; destruct (readU16le (r_in r)) as [? [?|]]; cbn [fst] in K; clear H
  | |- context [readU32le (r_in ?r)] => let H := fresh "H" in let K := fresh "K" in assert (H : ofr r) by go; pose proof (ofr_readU unle32 4 H) as K; fold readU32le in K; destruct (readU32le (r_in r)) as [? [?|]]; cbn [fst] in K; clear H
  | |- context [readU32be (r_in ?r)] => let H := fresh "H" in let K := fresh "K" in assert (H : ofr r) by go; pose proof (ofr_readU unbe32 4 H) as K; fold readU32be in K; destruct (readU32be (r_in r)) as [? [?|]]; cbn [fst] in K; clear H
  | |- context [inputBufferReadN (r_in ?r) ?n] => let H := fresh "H" in let K := fresh "K" in assert (H : ofr r) by go; pose proof (ofr_readN n H) as K; destruct (inputBufferReadN (r_in r) n) as [? [?|]]; cbn [fst] in K; clear H
  end.
Lemma ofr_zlib r : ofr r -> ofr (fst (readHeaderZlib env r)).
Proof.
  intros H. unfold readHeaderZlib. repeat (first [rd | match goal with |- context [if ?x then _ else _] => destruct x end]; cbv zeta beta iota; go).
Qed.
Lemma ofr_zfoot r a : ofr r -> ofr (fst (readFooterZlib r a)).
Proof. intros H. unfold readFooterZlib. rd; go. destruct (negb _); go. Qed.
Lemma ofr_gfoot r a : ofr r -> ofr (fst (readFooterGZIP r a)).
Proof. intros H. unfold readFooterGZIP. rd; go. cbv zeta. rd; go. destruct (negb _); go. destruct (negb _); go. Qed.
Lemma ofr_extra r b : ofr r -> rall (fstR ofr) (readGZIPExtra r b).
Proof. intros H. unfold readGZIPExtra. destruct b; go. rd; go. cbv zeta. rd; go. apply rall_any. intros; go. Qed.
Lemma ofr_string u r b : ofr r -> rall (fstR ofr) (readGZIPString u r b).
Proof.
  intros H. unfold readGZIPString. destruct b; go. pose proof H as [a [c [HC [HI HO]]]]. eapply rall_bind; [unfold inputBufferReadStringZ; apply iv_stringZ; exact HI|].
  intros [i [?|]] K; assert (K1 : ofr (set_rin r i)) by (exists a, c; split; [apply cnt_d; exact HC|destruct r; split; [exact K|exact HO]]); go.
Qed.
Lemma ofr_crc16 r b c : ofr r -> rall (fstR ofr) (readGZIPCRC16 r b c).
Proof. intros H. unfold readGZIPCRC16. destruct b; go. rd; go. destruct (negb _); go. Qed.
Lemma ofr_gzip r : ofr r -> rall (fstR ofr) (readHeaderGZIP r).
Proof.
  intros H. unfold readHeaderGZIP. 
  assert (H0 : ofr (set_rin r (i_crcreset (r_in r)))).
  { apply ofr_in; auto. intros a. destruct (r_in r); auto. }
  cbv zeta. rd; go.
  destruct (negb _); go. destruct (negb _); go. cbv zeta. destruct (flag_bit _ 0xe0); go.
  eapply opt_b; [apply ofr_extra; go | intros r1 H1 | intros; go].
  eapply opt_b; [apply ofr_string; go | intros r2 H2 | intros; go].
  eapply opt_b; [apply ofr_string; go | intros r3 H3 | intros; go].
  eapply opt_b; [apply ofr_crc16; go | intros r4 H4 | intros; go]. go.
Qed.
Lemma ofr_raw r : ofr r -> ofr (fst (readHeaderRaw r)). Proof. unfold readHeaderRaw; go. Qed.
Lemma ofr_auto r : ofr r -> rall (fstR ofr) (readHeaderAuto env r).
Proof.
  intros H. unfold readHeaderAuto. cbv zeta. match goal with |- context [length ?q <? 2] => generalize q end. intros p.
  destruct (length p <? 2); [exact (ofr_raw H)|]. destruct (_ && _)%bool; [exact (ofr_gzip H)|].
  destruct (_ && _)%bool; [exact (ofr_zlib H)|exact (ofr_raw H)].
Qed.
Lemma ofr_footer r : ofr r -> rall (fstR ofr) (readFooter r).
Proof.
  intros H. unfold readFooter. cbv zeta. assert (H1 : ofr (set_rin r (inputBitsDiscard (r_in r)))) by (apply ofr_in; auto; intros; apply iv_ib; auto).
  eapply opt_b; [| intros; go | intros; go].
  destruct (r_fmt _); [exact I|go|apply ofr_zfoot; go|apply ofr_gfoot; go].
Qed.

Lemma ofr_on r x : ofr r -> (forall a b, ofd a b (r_d r) -> rall (fstP (ofd a b)) x) -> rall (fstR ofr) (on_d r x).
Proof.
  intros [a [b [H1 H2]]] Hx. unfold on_d. eapply rall_bind; [exact (Hx a b H2)|]. intros [d ok] Hd. exists a, b. split; [apply cnt_d; exact H1|]. destruct r; exact Hd.
Qed.
Lemma ofr_body r bt fin : ofr r -> rall (fstR ofr) (readBlockBody env r bt fin).
Proof.
  intros H. unfold readBlockBody. destruct bt.
  - exact (ofr_corrupt _ H).
  - apply ofr_on; auto. intros. apply of_stored. auto.
  - cbv zeta. apply ofr_on; [go|]. intros. apply of_huff. auto.
  - pose proof H as [a [b [H1 H2]]]. eapply rall_bind; [apply of_trees; exact H2|]. intros [d [t|]] Hd; change (ofd a b d) in Hd;
      assert (K : ofr (set_d r d)) by (exists a, b; split; [apply cnt_d; exact H1|destruct r; exact Hd]); [|exact K].
    apply ofr_on; [go|]. intros. apply of_huff. auto.
Qed.
Lemma ofr_block r : ofr r -> rall (fstR ofr) (readFlateBlock env r).
Proof.
  intros H. unfold readFlateBlock. pose proof H as [a [b [H1 [H2 H3]]]]. eapply rall_bind; [apply iv_getBits; exact H2|]. intros [i out] K.
  assert (K1 : ofr (set_rin r i)) by (exists a, b; split; [apply cnt_d; exact H1|destruct r; split; [exact K|exact H3]]). cbv zeta. destruct out; [|go].
  eapply rall_bind; [apply ofr_body; go|]. intros [r1 [|]] H4; change (ofr r1) in H4; go.
Qed.
Lemma ofr_blocks : forall f r, ofr r -> rall ofr (blocksLoop env f r).
Proof.
  induction f; intros r H; cbn; auto. eapply rall_bind; [apply ofr_block; auto|]. intros [r1 [|]] H1; [apply IHf|]; exact H1.
Qed.
(** between streams *)
Definition ci (r : reader) : Prop :=
  (exists a b, counted r a b) /\ (i_total (r_in r) < two64)%N /\ (o_total (r_out r) < two64)%N.
Lemma ofr_ci r : ofr r -> ci r.
Proof.
  intros [a [b [H [H1 H2]]]]. split; [eauto|]. destruct H1 as [H1 _], H2 as [H2 _]. unfold r_in, r_out. rewrite H1, H2. split; apply N.mod_lt; discriminate.
Qed.
Lemma ofr_header r : ci r -> rall (fun x : reader * bool => if snd x then ofr (fst x) else ci (fst x)) (readHeader env r).
Proof.
  intros [[a [b HC]] [HI HO]]. unfold readHeader. cbv zeta.
  match goal with |- context [set_rin ?a ?b] => set (r1 := set_rin a b) end.
  assert (J : ci r1 /\ i_stream (r_in r1) = 0%N /\ o_stream (r_out r1) = 0%N).
  { unfold r1. clear r1. destruct r as [op [i o] n h f ev]. unfold ci, counted, r_in, r_out in *. cbn in *. destruct o as [db hh log oer ot os oa oc]. cbn in *.
    destruct i as [src [|x buf] [er|] ib il it is ic]; cbn in *; try (repeat split; eauto; fail). destruct src as [|[p er] src]; cbn; repeat split; eauto. }
  clearbody r1. destruct J as [[[a1 [b1 J1]] [J2 J3]] [J4 J5]]. destruct (i_buf (r_in r1)) eqn:EB.
  { cbn [rall snd fst]. clear EB. destruct r1 as [op [i o] n h f ev]. unfold r_propagate, propagateError, ci, counted, r_in, r_out in *. cbn in *. destruct o as [db hh log oer ot os oa oc]. cbn in *. destruct (i_err i); cbn; [|eauto].
    destruct oer; repeat split; eauto. }
  clear EB. eapply rall_bind with (P := fstR ofr).
  - match goal with |- context [r_sendEvent ?q (ev_simple StreamBeginEvent)] => set (r2 := q) end.
    assert (H5 : ofr (set_rhdr (r_sendEvent r2 (ev_simple StreamBeginEvent)) header0)).
    { apply ofr_hdr. exists (i_total (r_in r1)), (o_total (r_out r1)). unfold r2. clear r2.
      destruct J1 as [evs [E1 [E2 E3]]]. destruct r1 as [op [i o] num h f ev]. unfold ofd, iv, oe, counted, r_in, r_out in *. cbn in *. subst ev.
      destruct o as [db hh log oer ot os oa oc]; cbn in *. subst os. split.
      - eexists. split; [rewrite <- app_assoc; reflexivity|]. split.
        + apply counters_snoc; auto. rewrite E3. unfold fits, mark, since; cbn. rewrite J4, !N.add_0_r, !N.mod_small by auto. repeat split.
        + rewrite fold_left_app, E3. reflexivity.
      - unfold since. rewrite J4, !N.add_0_r, !N.mod_small by auto. repeat split. }
    destruct (o_format _); [apply ofr_auto|apply ofr_raw|apply ofr_zlib|apply ofr_gzip]; auto.
  - intros [r2 [|]] H2'; change (ofr r2) in H2'; cbn [rall snd fst]; auto with ofdb. apply ofr_ci. exact H2'.
Qed.
Lemma ofr_streams : forall f r, ci r -> rall ci (streamsLoop env f r).
Proof.
  induction f; intros r H; cbn [streamsLoop]; destruct (i_err (r_in r)); try exact Logic.I; try exact H.
  eapply rall_bind; [apply ofr_header; auto|]. intros [r1 [|]] H1; cbn [fst snd] in H1; [|exact H1].
  eapply rall_bind with (P := ofr).
  { match goal with |- rall _ (blocksLoop env ?f ?r) => refine (@ofr_blocks f r _) end. apply ofr_out; auto. intros b. unfold r_out. destruct (d_out (r_d r1)); auto. }
  intros r2 H2. eapply rall_bind; [apply ofr_footer; apply ofr_out; auto; intros b; apply oe_mustFlush|]. intros [r3 [|]] H3; [apply IHf; apply ofr_ci; exact H3|apply ofr_ci; exact H3].
Qed.
Lemma ofr_thread r : r_events r = ev0 -> (i_total (r_in r) < two64)%N -> (o_total (r_out r) < two64)%N ->
  rall (fun r' => exists a b, counted r' a b) (readThread env r).
Proof.
  intros H H1 H2. unfold readThread. eapply rall_bind; [apply ofr_streams|].
  { destruct r as [op d n h f ev]. cbn in H. subst ev. split; [|auto]. exists 0%N, 0%N, []. rewrite app_nil_r. repeat split. }
  intros q [[a [b Hq]] _]; cbn [rall]. exists a, b. destruct q as [op [i o] n h f ev]. unfold r_propagate, counted, r_in in *. cbn in *. destruct (i_err i); cbn; auto.
Qed.
End R.
