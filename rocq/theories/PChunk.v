(** Every chunk the decompression goroutine hands over fits into the decode
    buffer: used for C59. *)
From Verif Require Import Base MCommon MToken MReader PLog.
Section Cap.
Variable cap : N.
Hypothesis Hcap : (0 < cap)%N.
Variable op : options.
Hypothesis Hop : dec_cap op = cap.
Definition small_chunk (a : outact) : Prop := match a with OData p => (lenN p <= cap)%N | OErr _ => True end.
Definition lg (o : ost) : Prop := (lenN (o_dbuf o) <= cap)%N /\ Forall small_chunk (o_log o).
Lemma lg_close o e : lg o -> lg (closeWithError o e).
Proof. destruct o as [db h l [x|] t s a c]; unfold lg; cbn; auto. intros [A B]. split; auto. apply Forall_app. split; auto. repeat constructor. Qed.
Lemma lg_mustFlush o : lg o -> lg (mustFlush o).
Proof.
  destruct o as [[|b db] h l x t s a c]; unfold lg; cbn -[app lenN]; auto.
  intros [A B]. split; [apply N.le_0_l|]. apply Forall_app. split; auto.
Qed.
Lemma lg_mustFlush_nil o : o_dbuf (mustFlush o) = [].
Proof. destruct o as [[|b db] h l x t s a c]; reflexivity. Qed.
Lemma lg_append o p : lg o -> (lenN (o_dbuf o) + lenN p <= cap)%N -> lg (o_append o p).
Proof. destruct o. unfold lg. cbn. intros [A B] H. split; auto. unfold lenN in *. rewrite app_length. clear - H. lia. Qed.
Definition lgd (d : dst) : Prop := lg (d_out d).
Lemma lg_propagate d b : lgd d -> lgd (propagateError d b).
Proof. unfold lgd, propagateError. intros H. destruct (i_err (d_in d)) as [e|]; auto; apply lg_close; auto. Qed.
Lemma lg_corrupt d c : lgd d -> lgd (corruptf d c).
Proof. intros H. apply lg_close; auto. Qed.
Lemma lg_set_in d i : lgd d -> lgd (DST i (d_out d)). Proof. auto. Qed.
Variable env : renv.
Section L.
Variables win : N.
Lemma lg_tryFlush o : lg o -> lg (tryFlush cap o).
Proof. unfold tryFlush. destruct (_ <=? _)%N; auto using lg_mustFlush. Qed.
Lemma lg_dbWrite : forall f p o, lg o -> rall lg (dbWriteLoop cap f o p).
Proof.
  induction f; intros [|b p] o H; cbn -[lenN]; auto. apply IHf. apply lg_append; [apply lg_tryFlush; auto|].
  destruct (lg_tryFlush H) as [K _]. set (x := lenN (o_dbuf _)) in *. clearbody x. set (y := lenN (b :: p)). clearbody y.
  assert (Z : forall n (l : list N), (lenN (firstn n l) <= N.of_nat n)%N) by (intros n l; unfold lenN; pose proof (firstn_le_length n l); lia).
  specialize (Z (N.to_nat (N.min y (cap - x))) (b :: p)). clear - K Z. lia.
Qed.
Lemma lg_write o p : lg o -> rall lg (decodeBufferWrite cap o p). Proof. apply lg_dbWrite. Qed.
Lemma lg_writeByte o c : lg o -> lg (decodeBufferWriteByte cap o c).
Proof. unfold decodeBufferWriteByte. intros H. destruct (_ <? _)%N eqn:E; [|apply lg_tryFlush; auto]. apply lg_append; [apply lg_tryFlush; auto|]. apply N.ltb_lt in E. unfold lenN at 2. cbn [length]. clear - E. lia. Qed.
Lemma lg_copy dist : forall n o, lg o -> match copyLoop env cap win o dist n with inl u | inr u => lg u end.
Proof.
  induction n; intros o H; cbn; auto. destruct (window_lk _ _ _ _); auto. apply IHn. apply lg_writeByte; auto.
Qed.
Definition fstP {A} (P : dst -> Prop) (x : dst * A) : Prop := P (fst x).
Ltac ld := cbn [fst snd d_in d_out]; auto using lg_propagate, lg_corrupt, lg_set_in.
Ltac anyb := apply rall_any; intros [? ?].
Lemma lg_decodeLL d s : lgd d -> rall (fstP lgd) (decodeLL env d s).
Proof.
  intros H. unfold decodeLL. destruct (s <? 256)%N; [exact H|]. destruct (s =? 256)%N; [exact H|].
  destruct (decodeLL_entry s) as [[len ab]|]; [|apply lg_corrupt; auto].
  destruct (ab =? 0). { apply rall_any; intros t. exact H. }
  apply rall_any; intros [i out]. destruct out; [apply rall_any; intros t; exact H|apply lg_propagate; auto].
Qed.
Lemma lg_decodeD d s l : lgd d -> rall (fstP lgd) (decodeD env d s l).
Proof.
  intros H. unfold decodeD. destruct (decodeD_entry s) as [[len ab]|]; [|apply lg_corrupt; auto].
  destruct (ab =? 0). { apply rall_any; intros t. exact H. }
  apply rall_any; intros [i out]. destruct out; [apply rall_any; intros t; exact H|apply lg_propagate; auto].
Qed.
Lemma lg_huff hLL hD : forall f d, lgd d -> rall (fstP lgd) (huffLoop env cap win f hLL hD d).
Proof.
  induction f; intros d H; cbn [huffLoop]; [exact Logic.I|].
  apply rall_any; intros [i sym]. destruct sym as [s|]; [|apply lg_corrupt; auto].
  eapply rall_bind; [apply lg_decodeLL; exact H|]. intros [d1 t] H1. change (lgd d1) in H1.
  destruct t as [t|]; [|exact H1]. destruct (tdist t =? 0)%N.
  { destruct (256 <=? lol t)%N; [exact H1|]. apply IHf. apply lg_writeByte. exact H1. }
  apply rall_any; intros [i2 sym2]. destruct sym2 as [s2|]; [|apply lg_corrupt; auto].
  eapply rall_bind; [apply lg_decodeD; exact H1|]. intros [d2 t2] H2. change (lgd d2) in H2.
  destruct t2 as [t2|]; [|exact H2]. destruct (window_lookupSlice _ _ _ _ _) as [p|]; [|apply lg_corrupt; auto].
  eapply rall_bind; [apply lg_write; exact H2|]. intros o H3.
  pose proof (lg_copy (tdist t2) (N.to_nat (lol t2) - length p) H3) as C.
  destruct (copyLoop _ _ _ _ _ _); [apply IHf; exact C|apply lg_corrupt; exact C].
Qed.
Lemma lg_decodeX d s done total : lgd d -> rall (fstP lgd) (decodeX env d s done total).
Proof.
  intros H. assert (R : forall bits base v, rall (fstP lgd) (let* (i, out) := getBits env (d_in d) bits in
    let d := DST i (d_out d) in
    match out with
    | None => Ok (propagateError d true, None)
    | Some out =>
      let count := base + N.to_nat out in
      if total - length done <? count then Ok (corruptf d CRepeatCount, None)
      else Ok (d, Some (done ++ repeat v count))
    end)).
  { intros. apply rall_any; intros [i out]. destruct out; [|apply lg_propagate; auto]. cbn -[Nat.ltb]. match goal with |- context [if ?b then _ else _] => destruct b end; [apply lg_corrupt; auto|exact H]. }
  unfold decodeX. destruct (s <? 16)%N; [exact H|]. destruct (s =? 16)%N.
  { destruct (rev done); [apply lg_corrupt; auto|apply R]. }
  destruct (s =? 17)%N; [apply R|]. destruct (s =? 18)%N; [apply R|]. exact H.
Qed.
Lemma lg_lengths h : forall f d done total, lgd d -> rall (fstP lgd) (lengthsLoop env f h d done total).
Proof.
  induction f; intros d done total H; cbn [lengthsLoop]; destruct (_ <? _); try exact Logic.I; try exact H.
  apply rall_any; intros [i sym]. destruct sym as [s|]; [|apply lg_corrupt; auto].
  eapply rall_bind; [apply lg_decodeX; exact H|]. intros [d1 t] H1. change (lgd d1) in H1.
  destruct t; auto.
Qed.
Lemma lg_trees d : lgd d -> rall (fstP lgd) (readDynamicTrees env d).
Proof.
  intros H. unfold readDynamicTrees. apply rall_any; intros [i out]. destruct out as [out|]; [|apply lg_propagate; auto].
  cbv zeta.
  match goal with |- rall _ (rbind (readXSizes _ _ (d_in ?D) _) _) => set (d2 := D) end.
  assert (H2 : lgd d2).
  { assert (HD : lgd (DST i (d_out d))) by exact H. unfold d2. clear d2. revert HD. generalize (DST i (d_out d)). intros D0 HD.
    assert (HD1 : lgd (if logicalNumLLCodes <? 257 + N.to_nat (N.land out 31) then corruptf D0 CHlit else D0))
      by (match goal with |- lgd (if ?b then _ else _) => destruct b end; auto using lg_corrupt).
    revert HD1. generalize (if logicalNumLLCodes <? 257 + N.to_nat (N.land out 31) then corruptf D0 CHlit else D0). intros D1 HD1.
    match goal with |- lgd (if ?b then _ else _) => destruct b end; auto using lg_corrupt. }
  clearbody d2. apply rall_any; intros [i2 sX]. destruct sX as [sX|]; [|apply lg_propagate; auto].
  destruct (negb _); [apply lg_corrupt; auto|].
  eapply rall_bind; [apply lg_lengths; exact H2|]. intros [d3 t] H3. change (lgd d3) in H3.
  destruct t; [|exact H3]. destruct (negb _); [apply lg_corrupt; auto|]. destruct (negb _); [apply lg_corrupt; auto|exact H3].
Qed.
Lemma lg_stored d : lgd d -> rall (fstP lgd) (readFlateBlockStored cap d).
Proof.
  intros H. unfold readFlateBlockStored. destruct (readU16le (d_in d)) as [i [l0|]]; [|apply lg_propagate; auto].
  destruct (readU16le _) as [i1 [l1|]]; [|apply lg_propagate; auto].
  destruct (negb _); [apply lg_corrupt; auto|].
  destruct (inputBufferReadN _ _) as [i2 [p|]]; [|apply lg_propagate; auto].
  eapply rall_bind; [apply lg_write; exact H|]. intros o Ho. exact Ho.
Qed.
End L.

Definition lgr (r : reader) : Prop := r_opt r = op /\ lg (r_out r).
Definition fstR {A} (P : reader -> Prop) (x : reader * A) : Prop := P (fst x).
Lemma lgr_d r d : r_opt r = op -> lgd d -> lgr (set_d r d). Proof. destruct r; split; auto. Qed.
Lemma lgr_in r i : lgr r -> lgr (set_rin r i). Proof. destruct r; auto. Qed.
Lemma lgr_out r o : r_opt r = op -> lg o -> lgr (set_rout r o). Proof. destruct r; split; auto. Qed.
Lemma lgr_hdr r h : lgr r -> lgr (set_rhdr r h). Proof. destruct r; auto. Qed.
Lemma lgr_fmt r h : lgr r -> lgr (set_fmt r h). Proof. destruct r; auto. Qed.
Lemma lgr_ev r p : lgr r -> lgr (r_sendEvent r p). Proof. destruct r; auto. Qed.
Lemma lgr_num r : lgr r -> lgr (incr_num r). Proof. destruct r; auto. Qed.
Lemma lgr_prop r b : lgr r -> lgr (r_propagate r b). Proof. intros [A B]; apply lgr_d, lg_propagate; auto. Qed.
Lemma lgr_corrupt r c : lgr r -> lgr (r_corrupt r c). Proof. intros [A B]; apply lgr_d, lg_corrupt; auto. Qed.
#[local] Hint Resolve lgr_in lgr_hdr lgr_fmt lgr_ev lgr_prop lgr_corrupt lgr_num lgr_out : lgdb.
Lemma opt_b {B} (Q : reader * B -> Prop) (x : res (reader * bool)) (f : reader -> res (reader * B)) g :
  rall (fstR lgr) x -> (forall r, lgr r -> rall Q (f r)) -> (forall r, lgr r -> rall Q (g r)) ->
  rall Q (let* (r, ok) := x in if ok then f r else g r).
Proof. intros H F G. eapply rall_bind; [exact H|]. intros [r [|]] Hr; auto. Qed.

Ltac go := cbn [rall fstR fst]; unfold fstR; cbn [fst]; auto 20 with lgdb.
Lemma lgr_zlib r : lgr r -> lgr (fst (readHeaderZlib env r)).
Proof.
  intros H. unfold readHeaderZlib.
  repeat match goal with |- context [let '(_, _) := ?x in _] => destruct x as [? [?|]] | |- context [if ?x then _ else _] => destruct x end; go.
Qed.
Lemma lgr_zfoot r a : lgr r -> lgr (fst (readFooterZlib r a)).
Proof.
  intros H. unfold readFooterZlib. destruct (readU32be _) as [? [?|]]; go. destruct (negb _); go.
Qed.
Lemma lgr_gfoot r a : lgr r -> lgr (fst (readFooterGZIP r a)).
Proof.
  intros H. unfold readFooterGZIP. destruct (readU32le _) as [? [?|]]; go. destruct (readU32le _) as [? [?|]]; go. destruct (negb _); go. destruct (negb _); go.
Qed.
Lemma lgr_extra r b : lgr r -> rall (fstR lgr) (readGZIPExtra r b).
Proof.
  intros H. unfold readGZIPExtra. destruct b; go. destruct (readU16le _) as [? [?|]]; go. destruct (inputBufferReadN _ _) as [? [?|]]; go.
  apply rall_any. intros; go.
Qed.
Lemma lgr_string u r b : lgr r -> rall (fstR lgr) (readGZIPString u r b).
Proof.
  intros H. unfold readGZIPString. destruct b; go. apply rall_any. intros [? [?|]]; go.
Qed.
Lemma lgr_crc16 r b c : lgr r -> rall (fstR lgr) (readGZIPCRC16 r b c).
Proof.
  intros H. unfold readGZIPCRC16. destruct b; go. destruct (readU16le _) as [? [?|]]; go. destruct (negb _); go.
Qed.
Lemma lgr_gzip r : lgr r -> rall (fstR lgr) (readHeaderGZIP r).
Proof.
  intros H. unfold readHeaderGZIP. destruct (inputBufferReadN _ _) as [i [p|]]; go.
  destruct (negb _); go. destruct (negb _); go. cbv zeta. destruct (flag_bit _ 0xe0); go.
  eapply opt_b; [apply lgr_extra; go | intros r1 H1 | intros; go].
  eapply opt_b; [apply lgr_string; go | intros r2 H2 | intros; go].
  eapply opt_b; [apply lgr_string; go | intros r3 H3 | intros; go].
  eapply opt_b; [apply lgr_crc16; go | intros r4 H4 | intros; go]. go.
Qed.
Lemma lgr_raw r : lgr r -> lgr (fst (readHeaderRaw r)). Proof. unfold readHeaderRaw; go. Qed.
Lemma lgr_auto r : lgr r -> rall (fstR lgr) (readHeaderAuto env r).
Proof.
  intros H. unfold readHeaderAuto. cbv zeta. match goal with |- context [length ?q <? 2] => generalize q end. intros p.
  destruct (length p <? 2); [exact (lgr_raw H)|]. destruct (_ && _)%bool; [exact (lgr_gzip H)|].
  destruct (_ && _)%bool; [exact (lgr_zlib H)|exact (lgr_raw H)].
Qed.
Lemma lgr_header r : lgr r -> rall (fstR lgr) (readHeader env r).
Proof.
  intros H. unfold readHeader. cbv zeta.
  match goal with |- context [set_rin ?a ?b] => set (r1 := set_rin a b) end.
  assert (H1 : lgr r1). { unfold r1. apply lgr_in, lgr_d; [apply H|]. unfold lgd; cbn. destruct H as [_ H]. destruct (r_out r); auto. }
  clearbody r1. destruct (i_buf (r_in r1)); [apply lgr_prop; auto|].
  eapply rall_bind with (P := fstR lgr).
  - assert (H2 : lgr (set_rhdr (r_sendEvent (set_fmt (set_rout (incr_num r1) (o_sethist (r_out (incr_num r1)) (rev (opt_dict (r_opt (incr_num r1)))))) DefaultFormat) (ev_simple StreamBeginEvent)) header0)).
    { apply lgr_hdr, lgr_ev, lgr_fmt. apply lgr_num in H1. destruct H1 as [H1 H1']. apply lgr_out; auto. destruct (r_out (incr_num r1)); auto. }
    destruct (o_format _); [apply lgr_auto|apply lgr_raw|apply lgr_zlib|apply lgr_gzip]; auto.
  - intros [r2 [|]] H2; change (lgr r2) in H2; cbn; unfold fstR; cbn; auto with lgdb.
Qed.
Lemma lgr_footer r : lgr r -> rall (fstR lgr) (readFooter r).
Proof.
  intros H. unfold readFooter. cbv zeta. eapply opt_b; [| intros; go | intros; go].
  destruct (r_fmt _); [go|go|apply lgr_zfoot; go|apply lgr_gfoot; go].
Qed.
Lemma lgr_body r bt fin : lgr r -> rall (fstR lgr) (readBlockBody env r bt fin).
Proof.
  assert (D : forall r x, r_opt r = op -> rall (fstP lgd) x -> rall (fstR lgr) (on_d r x)).
  { intros r0 x HO Hx. unfold on_d. eapply rall_bind; [exact Hx|]. intros [d ok] Hd. apply lgr_d; auto. }
  intros H. pose proof H as [HO _]. unfold readBlockBody. rewrite HO, Hop. destruct bt.
  - exact (lgr_corrupt _ H).
  - apply D; auto. apply lg_stored. apply H.
  - cbv zeta. apply D; [apply (lgr_ev _ H)|]. apply lg_huff. exact (proj2 (lgr_ev _ H)).
  - eapply rall_bind; [apply lg_trees; apply H|]. intros [d [t|]] Hd; change (lgd d) in Hd; [|apply lgr_d; auto].
    pose proof (@lgr_d r d HO Hd) as K. apply D; [apply (lgr_ev _ K)|]. apply lg_huff. exact (proj2 (lgr_ev _ K)).
Qed.
Lemma lgr_block r : lgr r -> rall (fstR lgr) (readFlateBlock env r).
Proof.
  intros H. unfold readFlateBlock. apply rall_any; intros [i out]. destruct out; [|apply lgr_prop; go].
  eapply rall_bind; [apply lgr_body; go|]. intros [r1 [|]] H1; change (lgr r1) in H1; [apply lgr_ev|]; exact H1.
Qed.
Lemma lgr_blocks : forall f r, lgr r -> rall lgr (blocksLoop env f r).
Proof.
  induction f; intros r H; cbn; auto. eapply rall_bind; [apply lgr_block; auto|]. intros [r1 [|]] H1; [apply IHf|]; exact H1.
Qed.
Lemma lgr_streams : forall f r, lgr r -> rall lgr (streamsLoop env f r).
Proof.
  induction f; intros r H; cbn [streamsLoop]; destruct (i_err (r_in r)); try exact Logic.I; try exact H.
  eapply rall_bind; [apply lgr_header; auto|]. intros [r1 [|]] H1; change (lgr r1) in H1; [|exact H1].
  eapply rall_bind with (P := lgr); [match goal with |- rall _ (blocksLoop env ?f ?r) => refine (@lgr_blocks f r _) end; destruct H1 as [A H1]; apply lgr_out; auto; destruct (r_out r1); exact H1|]. intros r2 H2.
  eapply rall_bind; [apply lgr_footer; destruct H2 as [A H2]; apply lgr_out, lg_mustFlush; auto|]. intros [r3 [|]] H3; auto.
Qed.
Lemma lgr_thread r : lgr r -> rall lgr (readThread env r).
Proof.
  intros H. unfold readThread. eapply rall_bind; [apply lgr_streams; destruct r; exact H|].
  intros q Hq; cbn [rall]. apply lgr_prop. destruct (i_err (r_in q)); auto. apply lgr_in; auto.
Qed.
End Cap.
