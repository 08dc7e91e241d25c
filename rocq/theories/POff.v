(** The offsets carried by a CorruptInputError are positions in the input. *)
From Verif Require Import Base MCommon MToken MReader SpecReader PInput PLog.

Section Off.
(** The whole input, and how it ends. *)
Variable all : list N.
Variable send : goerr.
(** Where streams begin. *)
Variable S : N -> Prop.
(** [a], [b]: OffsetTotal and OffsetStream after the bytes [before ++ used], the
    last of which belong to the current stream. *)
Definition offs (a b : N) : Prop :=
  exists before used post, all = before ++ used ++ post /\ S (lenN before) /\ a = (lenN (before ++ used) mod two64)%N /\ b = (lenN used mod two64)%N.
Definition good_off (e : goerr) : Prop := e = send \/ match e with CorruptInputError a b _ => offs a b | _ => True end.
Definition iv (i : ist) : Prop :=
  i_end i = send /\ exists before used, all = (before ++ used) ++ i_all i /\ S (lenN before) /\ i_total i = (lenN (before ++ used) mod two64)%N /\ i_stream i = (lenN used mod two64)%N.
Lemma iv_ib i b l : iv i -> iv (set_ib i b l). Proof. destruct i; auto. Qed.
Lemma iv_fill i : iv i -> iv (fillIfEmpty i).
Proof.
  destruct i as [src [|x buf] [e|] b l t s c]; unfold fillIfEmpty; cbn [i_buf inputBufferFill]; auto. destruct src as [|[p e] r]; auto.
  unfold iv, i_end, i_all. cbn [i_err i_buf i_src i_total i_stream src_end src_bytes app]. intros [H1 H2]. split; [destruct e; auto|]. destruct e; [rewrite app_nil_r|]; auto.
Qed.
(** [q] has been taken from the buffer and not been counted yet. *)
Definition ivq (q : list N) (i : ist) : Prop :=
  i_end i = send /\ exists before used, all = (before ++ used) ++ q ++ i_all i /\ S (lenN before) /\ i_total i = (lenN (before ++ used) mod two64)%N /\ i_stream i = (lenN used mod two64)%N.
Lemma ivq_nil i : iv i -> ivq [] i. Proof. auto. Qed.
Lemma ivq_fill q i : ivq q i -> ivq q (fillIfEmpty i).
Proof.
  destruct i as [src [|x buf] [e|] b l t s c]; unfold fillIfEmpty; cbn [i_buf inputBufferFill]; auto. destruct src as [|[p e] r]; auto.
  unfold ivq, i_end, i_all. cbn [i_err i_buf i_src i_total i_stream src_end src_bytes app]. intros [H1 H2]. split; [destruct e; auto|]. destruct e; [rewrite app_nil_r|]; auto.
Qed.
Lemma ivq_take q p r i : i_buf i = p ++ r -> ivq q i -> ivq (q ++ p) (set_buf i r).
Proof.
  destruct i as [src buf err b l t s c]. unfold ivq, i_end, i_all. cbn [i_err i_buf i_src i_total i_stream set_buf]. intros -> [H1 [before [used [H2 H3]]]]. split; auto. exists before, used. split; auto. rewrite H2, <- !app_assoc. auto.
Qed.
Lemma ivq_count q i : ivq q i -> iv (i_count i q).
Proof.
  destruct i as [src buf err b l t s c]. unfold ivq, iv, i_end, i_all, i_count, add64. cbn [i_err i_buf i_src i_total i_stream]. intros [H1 [before [used [H2 [H3 [-> ->]]]]]]. split; auto. exists before, (used ++ q).
  rewrite !app_assoc in *. split; auto. split; auto. assert (A : forall x, lenN (x ++ q) = (lenN x + lenN q)%N) by (intros; unfold lenN; rewrite app_length; apply Nat2N.inj_add). rewrite !A.
  split; rewrite N.add_mod_idemp_l; auto; discriminate.
Qed.
Lemma iv_byte i : iv i -> iv (fst (inputByte i)).
Proof.
  intros H. unfold inputByte. pose proof (iv_fill H) as K. destruct (i_buf (fillIfEmpty i)) as [|x r] eqn:E; cbn [fst]; auto.
  apply ivq_count. apply (@ivq_take [] [x] r); auto.
Qed.
Lemma iv_readLoop : forall f i n acc, ivq acc i -> let '(i', p) := bufReadLoop f i n acc in ivq p i'.
Proof.
  induction f as [|f IH]; intros i n acc H; destruct n as [|n]; cbn [bufReadLoop]; auto. destruct (i_buf (fillIfEmpty i)) as [|x r] eqn:E; [apply ivq_fill; auto|]. rewrite <- E. clear E. apply IH.
  apply ivq_take; [symmetry; apply firstn_skipn|]. apply ivq_fill; auto.
Qed.
Lemma iv_readN i n : iv i -> iv (fst (inputBufferReadN i n)).
Proof.
  intros H. unfold inputBufferReadN, inputBitsDiscard. pose proof (iv_ib 0 0 H) as H1. destruct n as [|n]; [exact H1|].
  pose proof (@iv_readLoop (Datatypes.S n) _ (Datatypes.S n) [] H1) as K. destruct (bufReadLoop _ _ _ _) as [i' p]. apply ivq_count; auto.
Qed.
Lemma iv_readU u n i : iv i -> iv (fst (readU u n i)).
Proof. intros H. unfold readU. pose proof (iv_readN n H) as K. destruct (inputBufferReadN i n) as [? []]; exact K. Qed.
Definition fstI {A} (P : ist -> Prop) (x : ist * A) : Prop := P (fst x).
Lemma iv_stringZ : forall f i acc, iv i -> rall (fstI iv) (stringZLoop f i acc).
Proof.
  induction f as [|f IH]; intros i acc H; cbn [stringZLoop]; [exact I|]. pose proof (iv_byte H) as K. destruct (inputByte i) as [i' [ch|]]; [|exact K]. destruct (ch =? 0)%N; [exact K|apply IH; exact K].
Qed.
Section I.
Variable env : renv.
Lemma iv_fillLoop : forall f i n, iv i -> iv (fst (bitsFillLoop env f i n)).
Proof.
  induction f as [|f IH]; intros i n H; cbn [bitsFillLoop]; destruct (_ <? _); auto. pose proof (iv_byte H) as K. destruct (inputByte i) as [i' [ch|]]; [|exact K]. apply IH, iv_ib. exact K.
Qed.
Lemma iv_bitsFill i n : iv i -> rall (fstI iv) (inputBitsFill env i n).
Proof. intros H. unfold inputBitsFill, assertb. destruct (_ <=? _); [|exact I]. apply iv_fillLoop. exact H. Qed.
Lemma iv_commit i n : iv i -> rall iv (inputBitsCommit i n).
Proof. intros H. unfold inputBitsCommit, assertb. destruct (_ <=? _); [|exact I]. apply iv_ib. exact H. Qed.
Lemma iv_getBits i n : iv i -> rall (fstI iv) (getBits env i n).
Proof.
  intros H. unfold getBits. eapply rall_bind; [apply iv_bitsFill; exact H|]. intros [i1 [|]] H1; [|exact H1]. apply rall_any. intros out. eapply rall_bind; [apply iv_commit; exact H1|]. intros i2 H2. exact H2.
Qed.
Lemma iv_symLoop h : forall f i mx n, iv i -> rall (fstI iv) (readSymbolLoop env f i h mx n).
Proof.
  induction f as [|f IH]; intros i mx n H; cbn [readSymbolLoop]; destruct (_ <=? _); try exact I; try exact H.
  eapply rall_bind; [apply iv_bitsFill; exact H|]. intros [i1 [|]] H1; [|exact H1]. apply rall_any. intros out. destruct (dec_decode h n out) as [[[s|] mn] mx'].
  - eapply rall_bind; [apply iv_commit; exact H1|]. intros i2 H2. exact H2.
  - destruct (Nat.eqb mx' 0); [exact H1|]. apply IH. exact H1.
Qed.
Lemma iv_symbol i h : iv i -> rall (fstI iv) (readSymbol env i h).
Proof. apply iv_symLoop. Qed.
Lemma iv_xsizes : forall o i sX, iv i -> rall (fstI iv) (readXSizes env o i sX).
Proof.
  induction o as [|x o IH]; intros i sX H; cbn [readXSizes]; [exact H|]. eapply rall_bind; [apply iv_getBits; exact H|]. intros [i1 [|]] H1; [|exact H1]. apply IH. exact H1.
Qed.
End I.

(** ** The Reader *)
Definition oe (o : ost) : Prop := match o_err o with Some e => good_off e | None => True end.
Definition ofd (d : dst) : Prop := iv (d_in d) /\ oe (d_out d).
Lemma oe_close o e : oe o -> good_off e -> oe (closeWithError o e).
Proof. destruct o as [db h l [x|] t s a c]; unfold oe; cbn; auto. Qed.
Lemma oe_mustFlush o : oe o -> oe (mustFlush o). Proof. destruct o as [[|b db] h l [x|] t s a c]; auto. Qed.
Lemma oe_append o p : oe o -> oe (o_append o p). Proof. destruct o; auto. Qed.
Lemma iv_off i c : iv i -> good_off (CorruptInputError (i_total i) (i_stream i) c).
Proof. intros [_ [before [used [H1 H2]]]]. right. exists before, used, (i_all i). split; auto. rewrite H1, app_assoc. auto. Qed.
Lemma iv_err i e (b : bool) : iv i -> i_err i = Some e -> good_off (match e with EOF => if b then ErrUnexpectedEOF else EOF | _ => e end).
Proof. intros [H _] E. unfold i_end in H. rewrite E in H. destruct e; try (left; auto; fail); destruct b; right; exact I. Qed.
Lemma of_propagate d b : ofd d -> ofd (propagateError d b).
Proof. intros [H1 H2]. unfold propagateError. destruct (i_err (d_in d)) as [e|] eqn:E; [|split; auto]. split; auto. apply oe_close; auto. apply (@iv_err _ e b H1 E). Qed.
Lemma of_corrupt d c : ofd d -> ofd (corruptf d c).
Proof. intros [H1 H2]. split; auto. apply oe_close; auto. apply iv_off; auto. Qed.
Lemma of_set_in d i : ofd d -> iv i -> ofd (DST i (d_out d)). Proof. intros [_ H] K. split; auto. Qed.
Lemma of_set_out d o : ofd d -> oe o -> ofd (DST (d_in d) o). Proof. intros [H _] K. split; auto. Qed.

Section L.
Variable env : renv.
Variables cap win : N.
Lemma oe_tryFlush o : oe o -> oe (tryFlush cap o).
Proof. unfold tryFlush. destruct (_ <=? _)%N; auto using oe_mustFlush. Qed.
Lemma oe_dbWrite : forall f p o, oe o -> rall oe (dbWriteLoop cap f o p).
Proof. induction f; intros [|b p] o H; cbn; auto. apply IHf. apply oe_append. apply oe_tryFlush. auto. Qed.
Lemma oe_write o p : oe o -> rall oe (decodeBufferWrite cap o p). Proof. apply oe_dbWrite. Qed.
Lemma oe_writeByte o c : oe o -> oe (decodeBufferWriteByte cap o c).
Proof. unfold decodeBufferWriteByte. intros H. destruct (_ <? _)%N; auto using oe_append, oe_tryFlush. Qed.
Lemma oe_copy dist : forall n o, oe o -> match copyLoop env cap win o dist n with inl u | inr u => oe u end.
Proof. induction n; intros o H; cbn; auto. destruct (window_lk _ _ _ _); auto. apply IHn. apply oe_writeByte; auto. Qed.

Definition fstP {A} (P : dst -> Prop) (x : dst * A) : Prop := P (fst x).
Ltac inb L := eapply rall_bind; [apply L; match goal with H : ofd ?d |- _ => exact (proj1 H) end|]; intros [? ?] ?K; change (iv _) in K.
Lemma of_decodeLL d s : ofd d -> rall (fstP ofd) (decodeLL env d s).
Proof.
  intros H. unfold decodeLL. destruct (s <? 256)%N; [exact H|]. destruct (s =? 256)%N; [exact H|].
  destruct (decodeLL_entry s) as [[len ab]|]; [|apply of_corrupt; auto].
  destruct (ab =? 0). { apply rall_any; intros t. exact H. }
  eapply rall_bind; [apply iv_getBits; exact (proj1 H)|]. intros [i out] K. pose proof (of_set_in H K) as H1. destruct out; [apply rall_any; intros t; exact H1|apply of_propagate; exact H1].
Qed.
Lemma of_decodeD d s l : ofd d -> rall (fstP ofd) (decodeD env d s l).
Proof.
  intros H. unfold decodeD. destruct (decodeD_entry s) as [[len ab]|]; [|apply of_corrupt; auto].
  destruct (ab =? 0). { apply rall_any; intros t. exact H. }
  eapply rall_bind; [apply iv_getBits; exact (proj1 H)|]. intros [i out] K. pose proof (of_set_in H K) as H1. destruct out; [apply rall_any; intros t; exact H1|apply of_propagate; exact H1].
Qed.
Lemma of_huff hLL hD : forall f d, ofd d -> rall (fstP ofd) (huffLoop env cap win f hLL hD d).
Proof.
  induction f; intros d H; cbn [huffLoop]; [exact Logic.I|].
  eapply rall_bind; [apply iv_symbol; exact (proj1 H)|]. intros [i sym] K. pose proof (of_set_in H K) as H0. destruct sym as [s|]; [|apply of_corrupt; exact H0].
  eapply rall_bind; [apply of_decodeLL; exact H0|]. intros [d1 t] H1. change (ofd d1) in H1.
  destruct t as [t|]; [|exact H1]. destruct (tdist t =? 0)%N.
  { destruct (256 <=? lol t)%N; [exact H1|]. apply IHf. apply of_set_out; auto. apply oe_writeByte. exact (proj2 H1). }
  eapply rall_bind; [apply iv_symbol; exact (proj1 H1)|]. intros [i2 sym2] K2. pose proof (of_set_in H1 K2) as H1'. destruct sym2 as [s2|]; [|apply of_corrupt; exact H1'].
  eapply rall_bind; [apply of_decodeD; exact H1'|]. intros [d2 t2] H2. change (ofd d2) in H2.
  destruct t2 as [t2|]; [|exact H2]. destruct (window_lookupSlice _ _ _ _ _) as [p|]; [|apply of_corrupt; auto].
  eapply rall_bind; [apply oe_write; exact (proj2 H2)|]. intros o H3.
  pose proof (oe_copy (tdist t2) (N.to_nat (lol t2) - length p) H3) as C.
  destruct (copyLoop _ _ _ _ _ _); [apply IHf; exact (of_set_out H2 C)|apply of_corrupt; exact (of_set_out H2 C)].
Qed.
Lemma of_decodeX d s done total : ofd d -> rall (fstP ofd) (decodeX env d s done total).
Proof.
  intros H. assert (R : forall bits base v, rall (fstP ofd) (let* (i, out) := getBits env (d_in d) bits in
    let d := DST i (d_out d) in
    match out with
    | None => Ok (propagateError d true, None)
    | Some out =>
      let count := base + N.to_nat out in
      if total - length done <? count then Ok (corruptf d CRepeatCount, None)
      else Ok (d, Some (done ++ repeat v count))
    end)).
  { intros. eapply rall_bind; [apply iv_getBits; exact (proj1 H)|]. intros [i out] K. pose proof (of_set_in H K) as H1. destruct out; [|apply of_propagate; exact H1]. cbv zeta. match goal with |- context [if ?b then _ else _] => destruct b end; [apply of_corrupt; exact H1|exact H1]. }
  unfold decodeX. destruct (s <? 16)%N; [exact H|]. destruct (s =? 16)%N.
  { destruct (rev done); [apply of_corrupt; auto|apply R]. }
  destruct (s =? 17)%N; [apply R|]. destruct (s =? 18)%N; [apply R|]. exact H.
Qed.
Lemma of_lengths h : forall f d done total, ofd d -> rall (fstP ofd) (lengthsLoop env f h d done total).
Proof.
  induction f; intros d done total H; cbn [lengthsLoop]; destruct (_ <? _); try exact Logic.I; try exact H.
  eapply rall_bind; [apply iv_symbol; exact (proj1 H)|]. intros [i sym] K. pose proof (of_set_in H K) as H0. destruct sym as [s|]; [|apply of_corrupt; exact H0].
  eapply rall_bind; [apply of_decodeX; exact H0|]. intros [d1 t] H1. change (ofd d1) in H1.
  destruct t; auto.
Qed.
Lemma of_trees d : ofd d -> rall (fstP ofd) (readDynamicTrees env d).
Proof.
  intros H. unfold readDynamicTrees. eapply rall_bind; [apply iv_getBits; exact (proj1 H)|]. intros [i out] K. pose proof (of_set_in H K) as H0. destruct out as [out|]; [|apply of_propagate; exact H0].
  cbv zeta.
  match goal with |- rall _ (rbind (readXSizes _ _ (d_in ?D) _) _) => set (d2 := D) end.
  assert (H2 : ofd d2).
  { unfold d2. clear d2. change (ofd (DST i (d_out d))) in H0. revert H0. generalize (DST i (d_out d)). intros D0 HD.
    assert (HD1 : ofd (if logicalNumLLCodes <? 257 + N.to_nat (N.land out 31) then corruptf D0 CHlit else D0))
      by (match goal with |- ofd (if ?b then _ else _) => destruct b end; [apply of_corrupt|]; exact HD).
    revert HD1. generalize (if logicalNumLLCodes <? 257 + N.to_nat (N.land out 31) then corruptf D0 CHlit else D0). intros D1 HD1.
    match goal with |- ofd (if ?b then _ else _) => destruct b end; [apply of_corrupt|]; exact HD1. }
  clearbody d2. eapply rall_bind; [apply iv_xsizes; exact (proj1 H2)|]. intros [i2 sX] K2. pose proof (of_set_in H2 K2) as H2'. destruct sX as [sX|]; [|apply of_propagate; exact H2'].
  destruct (negb _); [apply of_corrupt; exact H2'|].
  eapply rall_bind; [apply of_lengths; exact H2'|]. intros [d3 t] H3. change (ofd d3) in H3.
  destruct t; [|exact H3]. destruct (negb _); [apply of_corrupt; auto|]. destruct (negb _); [apply of_corrupt; auto|exact H3].
Qed.
Lemma of_stored d : ofd d -> rall (fstP ofd) (readFlateBlockStored cap d).
Proof.
  intros H. unfold readFlateBlockStored. pose proof (iv_readU unle16 2 (proj1 H)) as K1. fold readU16le in K1. destruct (readU16le (d_in d)) as [i [l0|]]; pose proof (of_set_in H K1) as H1; [|apply of_propagate; exact H1]. cbn [fst] in *.
  pose proof (iv_readU unle16 2 K1) as K2. fold readU16le in K2. cbn [d_in].
  destruct (readU16le i) as [i1 [l1|]]; pose proof (of_set_in H K2) as H2; [|apply of_propagate; exact H2].
  destruct (negb _); [apply of_corrupt; exact H2|]. cbn [fst d_in] in *.
  match goal with |- context[inputBufferReadN i1 ?n] => pose proof (iv_readN n K2) as K3; destruct (inputBufferReadN i1 n) as [i2 [p|]] end; pose proof (of_set_in H K3) as H3; [|apply of_propagate; exact H3].
  eapply rall_bind; [apply oe_write; exact (proj2 H)|]. intros o Ho. split; [exact (proj1 H3)|exact Ho].
Qed.
End L.
End Off.

Section R.
Variable all : list N.
Variable send : goerr.
(** The positions reported by StreamBegin events. *)
Definition starts (evs : list event) (n : N) : Prop := exists e, In e evs /\ e_type e = StreamBeginEvent /\ e_inTotal e = (n mod two64)%N.
Notation iv := (iv all send).
Notation ofd := (ofd all send).
Notation oe := (oe all send).
Lemma iv_mono (S S' : N -> Prop) i : (forall n, S n -> S' n) -> iv S i -> iv S' i.
Proof. intros M [H [b [u [H1 [H2 H3]]]]]. split; auto. exists b, u. auto. Qed.
Lemma oe_mono (S S' : N -> Prop) o : (forall n, S n -> S' n) -> oe S o -> oe S' o.
Proof. intros M. unfold POff.oe. destruct (o_err o) as [e|]; auto. intros [H|H]; [left; auto|right]. destruct e; auto. destruct H as [b [u [q [H1 [H2 H3]]]]]. exists b, u, q. auto. Qed.
Lemma starts_app evs x n : starts evs n -> starts (evs ++ x) n.
Proof. intros [e [H1 H2]]. exists e. split; auto. apply in_or_app. auto. Qed.
Definition ofr (r : reader) : Prop := ofd (starts (r_events r)) (r_d r).
Definition fstR {A} (P : reader -> Prop) (x : reader * A) : Prop := P (fst x).
Lemma ofr_d r d : ofd (starts (r_events r)) d -> ofr (set_d r d). Proof. destruct r; auto. Qed.
Lemma ofr_in r i : ofr r -> iv (starts (r_events r)) i -> ofr (set_rin r i). Proof. intros [_ H] K. apply ofr_d. split; auto. Qed.
Lemma ofr_out r o : ofr r -> oe (starts (r_events r)) o -> ofr (set_rout r o). Proof. intros [H _] K. apply ofr_d. split; auto. Qed.
Lemma ofr_hdr r h : ofr r -> ofr (set_rhdr r h). Proof. destruct r; auto. Qed.
Lemma ofr_fmt r h : ofr r -> ofr (set_fmt r h). Proof. destruct r; auto. Qed.
Lemma ev_ext r p : exists e, r_events (r_sendEvent r p) = r_events r ++ [e] /\ e_type e = p_type p /\ e_inTotal e = i_total (r_in r).
Proof. destruct r as [o [i ou] n h f ev]. eexists. split; [reflexivity|]. auto. Qed.
Lemma ofr_ev r p : ofr r -> ofr (r_sendEvent r p).
Proof.
  intros [H1 H2]. destruct (ev_ext r p) as [e [E _]]. unfold ofr. rewrite E. assert (D : r_d (r_sendEvent r p) = r_d r) by (destruct r; reflexivity). rewrite D.
  split; [eapply iv_mono; [|exact H1]|eapply oe_mono; [|exact H2]]; intros; apply starts_app; auto.
Qed.
Lemma ofr_prop r b : ofr r -> ofr (r_propagate r b). Proof. intros; apply ofr_d, of_propagate; auto. Qed.
Lemma ofr_corrupt r c : ofr r -> ofr (r_corrupt r c). Proof. intros; apply ofr_d, of_corrupt; auto. Qed.
Lemma ofr_iv r : ofr r -> iv (starts (r_events r)) (r_in r). Proof. intros [H _]. exact H. Qed.
Lemma evs_in r i : r_events (set_rin r i) = r_events r. Proof. destruct r; auto. Qed.
Lemma in_in r i : r_in (set_rin r i) = i. Proof. destruct r; auto. Qed.
#[local] Hint Resolve ofr_hdr ofr_fmt ofr_ev ofr_prop ofr_corrupt : ofdb.
Lemma opt_b {B} (Q : reader * B -> Prop) (x : res (reader * bool)) (f : reader -> res (reader * B)) g :
  rall (fstR ofr) x -> (forall r, ofr r -> rall Q (f r)) -> (forall r, ofr r -> rall Q (g r)) ->
  rall Q (let* (r, ok) := x in if ok then f r else g r).
Proof. intros H F G. eapply rall_bind; [exact H|]. intros [r [|]] Hr; auto. Qed.
(** reading from the input keeps the invariant *)
Lemma ofr_readU u n r : ofr r -> ofr (set_rin r (fst (readU u n (r_in r)))).
Proof. intros H. apply ofr_in; auto. apply iv_readU. apply ofr_iv; auto. Qed.
Lemma ofr_readN n r : ofr r -> ofr (set_rin r (fst (inputBufferReadN (r_in r) n))).
Proof. intros H. apply ofr_in; auto. apply iv_readN. apply ofr_iv; auto. Qed.

Variable env : renv.
Ltac go := cbn [rall fstR fst]; unfold fstR; cbn [fst]; auto 20 with ofdb.
Ltac rd1 r L F := let H := fresh "H" in let K := fresh "K" in assert (H : ofr r) by go; pose proof (L r H) as K; F K; clear H.
Ltac rd := match goal with
  | |- context [readU16le (r_in ?r)] => let H := fresh "H" in let K := fresh "K" in assert (H : ofr r) by go; pose proof (ofr_readU unle16 2 H) as K; fold readU16le in K; destruct (readU16le (r_in r)) as [? [?|]]; cbn [fst] in K; clear H
  | |- context [readU32le (r_in ?r)] => let H := fresh "H" in let K := fresh "K" in assert (H : ofr r) by go; pose proof (ofr_readU unle32 4 H) as K; fold readU32le in K; destruct (readU32le (r_in r)) as [? [?|]]; cbn [fst] in K; clear H
  | |- context [readU32be (r_in ?r)] => let H := fresh "H" in let K := fresh "K" in assert (H : ofr r) by go; pose proof (ofr_readU unbe32 4 H) as K; fold readU32be in K; destruct (readU32be (r_in r)) as [? [?|]]; cbn [fst] in K; clear H
  | |- context [inputBufferReadN (r_in ?r) ?n] => let H := fresh "H" in let K := fresh "K" in assert (H : ofr r) by go; pose proof (ofr_readN n H) as K; destruct (inputBufferReadN (r_in r) n) as [? [?|]]; cbn [fst] in K; clear H
  end.
Lemma ofr_zlib r : ofr r -> ofr (fst (readHeaderZlib env r)).
Proof.
  intros H. unfold readHeaderZlib. repeat (first [rd | match goal with |- context [if ?x then _ else _] => destruct x end]; cbv zeta beta iota; go).
Qed.
Lemma ofr_zfoot r a : ofr r -> ofr (fst (readFooterZlib r a)).
Proof. intros H. unfold readFooterZlib. rd; go. destruct (negb _); go. Qed.
Lemma ofr_gfoot r a : ofr r -> ofr (fst (readFooterGZIP r a)).
Proof. intros H. unfold readFooterGZIP. rd; go. cbv zeta. rd; go. destruct (negb _); go. destruct (negb _); go. Qed.
Lemma ofr_extra r b : ofr r -> rall (fstR ofr) (readGZIPExtra r b).
Proof. intros H. unfold readGZIPExtra. destruct b; go. rd; go. cbv zeta. rd; go. apply rall_any. intros; go. Qed.
Lemma ofr_string u r b : ofr r -> rall (fstR ofr) (readGZIPString u r b).
Proof.
  intros H. unfold readGZIPString. destruct b; go. eapply rall_bind; [unfold inputBufferReadStringZ; apply iv_stringZ; apply ofr_iv; exact H|].
  intros [i [?|]] K; pose proof (ofr_in H K) as K1; cbn [fst] in K1; go.
Qed.
Lemma ofr_crc16 r b c : ofr r -> rall (fstR ofr) (readGZIPCRC16 r b c).
Proof. intros H. unfold readGZIPCRC16. destruct b; go. rd; go. destruct (negb _); go. Qed.
Lemma ofr_gzip r : ofr r -> rall (fstR ofr) (readHeaderGZIP r).
Proof.
  intros H. unfold readHeaderGZIP. 
  assert (H0 : ofr (set_rin r (i_crcreset (r_in r)))).
  { apply ofr_in; auto. destruct (ofr_iv H) as [A [b [u B]]]. split; [|exists b, u]; destruct (r_in r); auto. }
  cbv zeta. rd; go.
  destruct (negb _); go. destruct (negb _); go. cbv zeta. destruct (flag_bit _ 0xe0); go.
  eapply opt_b; [apply ofr_extra; go | intros r1 H1 | intros; go].
  eapply opt_b; [apply ofr_string; go | intros r2 H2 | intros; go].
  eapply opt_b; [apply ofr_string; go | intros r3 H3 | intros; go].
  eapply opt_b; [apply ofr_crc16; go | intros r4 H4 | intros; go]. go.
Qed.
Lemma ofr_raw r : ofr r -> ofr (fst (readHeaderRaw r)). Proof. unfold readHeaderRaw; go. Qed.
Lemma ofr_auto r : ofr r -> rall (fstR ofr) (readHeaderAuto env r).
Proof.
  intros H. unfold readHeaderAuto. cbv zeta. match goal with |- context [length ?q <? 2] => generalize q end. intros p.
  destruct (length p <? 2); [exact (ofr_raw H)|]. destruct (_ && _)%bool; [exact (ofr_gzip H)|].
  destruct (_ && _)%bool; [exact (ofr_zlib H)|exact (ofr_raw H)].
Qed.
(** a new stream begins where the last one ended *)
Definition ofi (r : reader) : Prop := (exists S, iv S (r_in r)) /\ oe (starts (r_events r)) (r_out r).
Lemma ofr_ofi r : ofr r -> ofi r. Proof. intros [H1 H2]. split; [eexists; exact H1|exact H2]. Qed.
Lemma ofr_header r : ofi r -> rall (fun x : reader * bool => if snd x then ofr (fst x) else oe (starts (r_events (fst x))) (r_out (fst x)) /\ exists S, iv S (r_in (fst x))) (readHeader env r).
Proof.
  intros [[S [HE [b [u [H1 [H2 [H3 H4]]]]]]] HO]. unfold readHeader. cbv zeta.
  match goal with |- context [set_rin ?a ?b] => set (r1 := set_rin a b) end.
  assert (J1 : iv (fun n => n = lenN (b ++ u)) (r_in r1)).
  { unfold r1. rewrite in_in. assert (Q : iv (fun n => n = lenN (b ++ u)) (i_streamreset (r_in r))).
    { split; [destruct (r_in r); exact HE|]. exists (b ++ u), []. rewrite app_nil_r. destruct (r_in r); auto. }
    apply iv_fill. destruct r as [? [? ?] ? ? ? ?]; exact Q. }
  assert (E1 : r_events r1 = r_events r) by (unfold r1; destruct r; reflexivity).
  assert (J2 : oe (starts (r_events r1)) (r_out r1)).
  { rewrite E1. unfold r1. destruct r as [op [i o] n h f ev]. unfold r_out in *. cbn in *. destruct o; exact HO. }
  assert (J3 : i_total (r_in r1) = i_total (r_in r)).
  { unfold r1. rewrite in_in. destruct r as [op [i o] n h f ev]. unfold r_in. cbn. destruct i as [src [|? ?] [?|] ? ? ? ? ?]; try reflexivity. destruct src as [|[? ?] ?]; reflexivity. }
  clearbody r1. destruct (i_buf (r_in r1)) eqn:EB.
  { cbn [rall snd fst]. destruct r1 as [op [i o] n h f ev]. unfold r_propagate, propagateError, r_in, r_out in *. cbn in *. destruct (i_err i) as [e|] eqn:EI; cbn; [|split; [exact J2|eexists; exact J1]].
    split; [|eexists; exact J1]. apply oe_close; [exact J2|]. destruct J1 as [J1 _]. unfold i_end in J1. rewrite EI in J1. left. rewrite <- J1. destruct e; auto. }
  clear EB. eapply rall_bind with (P := fstR ofr).
  - match goal with |- context [r_sendEvent ?q (ev_simple StreamBeginEvent)] => set (r2 := q) end.
    assert (H5 : ofr (set_rhdr (r_sendEvent r2 (ev_simple StreamBeginEvent)) header0)).
    { apply ofr_hdr. destruct (ev_ext r2 (ev_simple StreamBeginEvent)) as [e [X1 [X2 X3]]]. unfold ofr. rewrite X1.
      assert (D : r_d (r_sendEvent r2 (ev_simple StreamBeginEvent)) = r_d r2) by (destruct r2; reflexivity). rewrite D.
      assert (I2 : r_in r2 = r_in r1) by (unfold r2; destruct r1 as [? [? ?] ? ? ? ?]; reflexivity).
      assert (E2 : r_events r2 = r_events r1) by (unfold r2; destruct r1 as [? [? ?] ? ? ? ?]; reflexivity).
      split.
      - change (d_in (r_d r2)) with (r_in r2). rewrite I2. destruct J1 as [G0 [b' [u' [G1 [G2 [G3 G4]]]]]]. split; auto. exists b', u'. split; auto. split; auto. 
        exists e. split; [apply in_or_app; cbn; auto|]. split; auto. rewrite X3, I2, J3, G2. exact H3.
      - eapply oe_mono; [intros n0; apply starts_app|]. rewrite E2. unfold r2. destruct r1 as [op [i o] nn hh f ev]. unfold r_out in J2. cbn in *. destruct o; exact J2. }
    destruct (o_format _); [apply ofr_auto|apply ofr_raw|apply ofr_zlib|apply ofr_gzip]; auto.
  - intros [r2 [|]] H2'; change (ofr r2) in H2'; cbn [rall snd fst]; auto with ofdb. split; [exact (proj2 H2')|eexists; exact (proj1 H2')].
Qed.
Lemma ofr_footer r : ofr r -> rall (fstR ofr) (readFooter r).
Proof.
  intros H. unfold readFooter. cbv zeta. assert (H1 : ofr (set_rin r (inputBitsDiscard (r_in r)))) by (apply ofr_in; auto; apply iv_ib; apply ofr_iv; auto).
  eapply opt_b; [| intros; go | intros; go].
  destruct (r_fmt _); [exact I|go|apply ofr_zfoot; go|apply ofr_gfoot; go].
Qed.
Lemma ofr_body r bt fin : ofr r -> rall (fstR ofr) (readBlockBody env r bt fin).
Proof.
  assert (D : forall r x, rall (fstP (ofd (starts (r_events r)))) x -> rall (fstR ofr) (on_d r x)).
  { intros r0 x Hx. unfold on_d. eapply rall_bind; [exact Hx|]. intros [d ok] Hd. apply ofr_d. exact Hd. }
  intros H. unfold readBlockBody. destruct bt.
  - exact (ofr_corrupt _ H).
  - apply D. apply of_stored. exact H.
  - cbv zeta. apply D. apply of_huff. exact (ofr_ev _ H).
  - eapply rall_bind; [apply of_trees; exact H|]. intros [d [t|]] Hd; change (ofd (starts (r_events r)) d) in Hd; [|apply ofr_d; exact Hd].
  apply D. apply of_huff. apply (ofr_ev _ (@ofr_d r d Hd)).
Qed.
Lemma ofr_block r : ofr r -> rall (fstR ofr) (readFlateBlock env r).
Proof.
  intros H. unfold readFlateBlock. eapply rall_bind; [apply iv_getBits; apply ofr_iv; exact H|]. intros [i out] K. pose proof (ofr_in H K) as K1. cbn [fst] in K1. cbv zeta. destruct out; [|go].
  eapply rall_bind; [apply ofr_body; go|]. intros [r1 [|]] H1; change (ofr r1) in H1; [apply ofr_ev|]; exact H1.
Qed.
Lemma ofr_blocks : forall f r, ofr r -> rall ofr (blocksLoop env f r).
Proof.
  induction f; intros r H; cbn; auto. eapply rall_bind; [apply ofr_block; auto|]. intros [r1 [|]] H1; [apply IHf|]; exact H1.
Qed.
Lemma ofr_streams : forall f r, ofi r -> rall ofi (streamsLoop env f r).
Proof.
  induction f; intros r H; cbn [streamsLoop]; destruct (i_err (r_in r)); try exact Logic.I; try exact H.
  eapply rall_bind; [apply ofr_header; auto|]. intros [r1 [|]] H1; cbn [fst snd] in H1; [|split; apply H1].
  eapply rall_bind with (P := ofr).
  { match goal with |- rall _ (blocksLoop env ?f ?r) => refine (@ofr_blocks f r _) end. apply ofr_out; auto. destruct H1 as [_ H1]. unfold r_out. destruct (d_out (r_d r1)); exact H1. }
  intros r2 H2. eapply rall_bind; [apply ofr_footer; apply ofr_out; auto; apply oe_mustFlush; exact (proj2 H2)|]. intros [r3 [|]] H3; [apply IHf; apply ofr_ofi; exact H3|apply ofr_ofi; exact H3].
Qed.
Lemma ofr_thread r : ofi r -> rall (fun r => oe (starts (r_events r)) (r_out r)) (readThread env r).
Proof.
  intros H. unfold readThread. eapply rall_bind; [apply ofr_streams; destruct r; exact H|].
  intros q [[S Hq] Ho]; cbn [rall]. destruct q as [op [i o] n h f ev]. unfold r_propagate, propagateError, r_in, r_out in *. cbn in *. destruct (i_err i) as [e|] eqn:E; cbn.
  - rewrite E. cbn. apply oe_close; [exact Ho|]. destruct Hq as [Hq _]. unfold i_end in Hq. rewrite E in Hq. left. rewrite <- Hq. destruct e; auto.
  - destruct i; cbn. apply oe_close; [exact Ho|]. right. exact I.
Qed.
End R.
Lemma ofi_new src opts : ofi (src_bytes src) (src_end src) (newReader src opts).
Proof.
  split; [|exact I]. exists (fun _ => True). split; [reflexivity|]. exists [], []. repeat split.
Qed.
