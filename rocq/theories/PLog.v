(** The shape of what the decompression goroutine hands over (MReader.v's
    [o_log]): chunks of data and exactly one error; when that error is io.EOF
    nothing follows it. *)
From Verif Require Import Base MCommon MToken MReader.

Definition data_only (l : list outact) : Prop := Forall (fun a => exists p, a = OData p) l.
Lemma data_only_app a b : data_only (a ++ b) <-> data_only a /\ data_only b.
Proof. apply Forall_app. Qed.
Lemma data_only_snoc a p : data_only a -> data_only (a ++ [OData p]).
Proof. intros. apply data_only_app. split; auto. repeat constructor. eauto. Qed.

Definition lg (o : ost) : Prop :=
  match o_err o with
  | None => data_only (o_log o)
  | Some e => e <> EOF /\ exists a b, o_log o = a ++ OErr e :: b /\ data_only a /\ data_only b
  end.
Definition rall {A} (P : A -> Prop) (x : res A) : Prop := match x with Ok a => P a | _ => True end.
Lemma rall_bind {A B} (P : A -> Prop) (Q : B -> Prop) x f : rall P x -> (forall a, P a -> rall Q (f a)) -> rall Q (rbind x f).
Proof. destruct x; cbn; auto. Qed.
Lemma rall_any {A B} (Q : B -> Prop) (x : res A) f : (forall a, rall Q (f a)) -> rall Q (rbind x f).
Proof. destruct x; cbn; auto. Qed.

Lemma lg_close o e : lg o -> e <> EOF -> lg (closeWithError o e).
Proof.
  destruct o as [db h l [x|] t s a c]; unfold lg; cbn; auto. intros D N. split; auto.
  exists l, []. repeat split; auto. constructor.
Qed.
Lemma lg_mustFlush o : lg o -> lg (mustFlush o).
Proof.
  destruct o as [[|b db] h l [x|] t s a c]; unfold lg; cbn -[app]; auto.
  - intros (N & u & v & -> & A & B). split; auto. exists u, (v ++ [OData (b :: db)]).
    rewrite <- app_assoc. repeat split; auto using data_only_snoc.
  - intros. apply data_only_snoc; auto.
Qed.
Lemma lg_append o p : lg o -> lg (o_append o p). Proof. destruct o; auto. Qed.

Definition lgd (d : dst) : Prop := lg (d_out d).
Lemma lg_propagate d : lgd d -> lgd (propagateError d true).
Proof.
  unfold lgd, propagateError. intros H. destruct (i_err (d_in d)) as [[]|]; auto; apply lg_close; auto; discriminate.
Qed.
Lemma lg_corrupt d c : lgd d -> lgd (corruptf d c).
Proof. intros H. apply lg_close; auto. discriminate. Qed.
Lemma lg_set_in d i : lgd d -> lgd (DST i (d_out d)). Proof. auto. Qed.

Section L.
Variable env : renv.
Variables cap win : N.
Lemma lg_tryFlush o : lg o -> lg (tryFlush cap o).
Proof. unfold tryFlush. destruct (_ <=? _)%N; auto using lg_mustFlush. Qed.
Lemma lg_dbWrite : forall f p o, lg o -> rall lg (dbWriteLoop cap f o p).
Proof.
  induction f; intros [|b p] o H; cbn; auto. apply IHf. apply lg_append. apply lg_tryFlush. auto.
Qed.
Lemma lg_write o p : lg o -> rall lg (decodeBufferWrite cap o p). Proof. apply lg_dbWrite. Qed.
Lemma lg_writeByte o c : lg o -> lg (decodeBufferWriteByte cap o c).
Proof. unfold decodeBufferWriteByte. intros H. destruct (_ <? _)%N; auto using lg_append, lg_tryFlush. Qed.
Lemma lg_copy dist : forall n o, lg o -> match copyLoop env cap win o dist n with inl u | inr u => lg u end.
Proof.
  induction n; intros o H; cbn; auto. destruct (window_lk _ _ _ _); auto. apply IHn. apply lg_writeByte; auto.
Qed.
Definition fstP {A} (P : dst -> Prop) (x : dst * A) : Prop := P (fst x).
Ltac ld := cbn [fst snd d_in d_out]; auto using lg_propagate, lg_corrupt, lg_set_in.
Ltac anyb := apply rall_any; intros [? ?].
Lemma lg_decodeLL d s : lgd d -> rall (fstP lgd) (decodeLL env d s).
Proof.
  intros H. unfold decodeLL. destruct (s <? 256)%N; [exact H|]. destruct (s =? 256)%N; [exact H|].
  destruct (decodeLL_entry s) as [[len ab]|]; [|apply lg_corrupt; auto].
  destruct (ab =? 0). { apply rall_any; intros t. exact H. }
  apply rall_any; intros [i out]. destruct out; [apply rall_any; intros t; exact H|apply lg_propagate; auto].
Qed.
Lemma lg_decodeD d s l : lgd d -> rall (fstP lgd) (decodeD env d s l).
Proof.
  intros H. unfold decodeD. destruct (decodeD_entry s) as [[len ab]|]; [|apply lg_corrupt; auto].
  destruct (ab =? 0). { apply rall_any; intros t. exact H. }
  apply rall_any; intros [i out]. destruct out; [apply rall_any; intros t; exact H|apply lg_propagate; auto].
Qed.
Lemma lg_huff hLL hD : forall f d, lgd d -> rall (fstP lgd) (huffLoop env cap win f hLL hD d).
Proof.
  induction f; intros d H; cbn [huffLoop]; [exact Logic.I|].
  apply rall_any; intros [i sym]. destruct sym as [s|]; [|apply lg_corrupt; auto].
  eapply rall_bind; [apply lg_decodeLL; exact H|]. intros [d1 t] H1. change (lgd d1) in H1.
  destruct t as [t|]; [|exact H1]. destruct (tdist t =? 0)%N.
  { destruct (256 <=? lol t)%N; [exact H1|]. apply IHf. apply lg_writeByte. exact H1. }
  apply rall_any; intros [i2 sym2]. destruct sym2 as [s2|]; [|apply lg_corrupt; auto].
  eapply rall_bind; [apply lg_decodeD; exact H1|]. intros [d2 t2] H2. change (lgd d2) in H2.
  destruct t2 as [t2|]; [|exact H2]. destruct (window_lookupSlice _ _ _ _ _) as [p|]; [|apply lg_corrupt; auto].
  eapply rall_bind; [apply lg_write; exact H2|]. intros o H3.
  pose proof (lg_copy (tdist t2) (N.to_nat (lol t2) - length p) H3) as C.
  destruct (copyLoop _ _ _ _ _ _); [apply IHf; exact C|apply lg_corrupt; exact C].
Qed.
Lemma lg_decodeX d s done total : lgd d -> rall (fstP lgd) (decodeX env d s done total).
Proof.
  intros H. assert (R : forall bits base v, rall (fstP lgd) (let* (i, out) := getBits env (d_in d) bits in
    let d := DST i (d_out d) in
    match out with
    | None => Ok (propagateError d true, None)
    | Some out =>
      let count := base + N.to_nat out in
      if total - length done <? count then Ok (corruptf d CRepeatCount, None)
      else Ok (d, Some (done ++ repeat v count))
    end)).
  { intros. apply rall_any; intros [i out]. destruct out; [|apply lg_propagate; auto]. cbn -[Nat.ltb]. match goal with |- context [if ?b then _ else _] => destruct b end; [apply lg_corrupt; auto|exact H]. }
  unfold decodeX. destruct (s <? 16)%N; [exact H|]. destruct (s =? 16)%N.
  { destruct (rev done); [apply lg_corrupt; auto|apply R]. }
  destruct (s =? 17)%N; [apply R|]. destruct (s =? 18)%N; [apply R|]. exact H.
Qed.
Lemma lg_lengths h : forall f d done total, lgd d -> rall (fstP lgd) (lengthsLoop env f h d done total).
Proof.
  induction f; intros d done total H; cbn [lengthsLoop]; destruct (_ <? _); try exact Logic.I; try exact H.
  apply rall_any; intros [i sym]. destruct sym as [s|]; [|apply lg_corrupt; auto].
  eapply rall_bind; [apply lg_decodeX; exact H|]. intros [d1 t] H1. change (lgd d1) in H1.
  destruct t; auto.
Qed.
Lemma lg_trees d : lgd d -> rall (fstP lgd) (readDynamicTrees env d).
Proof.
  intros H. unfold readDynamicTrees. apply rall_any; intros [i out]. destruct out as [out|]; [|apply lg_propagate; auto].
  cbv zeta.
  match goal with |- rall _ (rbind (readXSizes _ _ (d_in ?D) _) _) => set (d2 := D) end.
  assert (H2 : lgd d2).
  { assert (HD : lgd (DST i (d_out d))) by exact H. unfold d2. clear d2. revert HD. generalize (DST i (d_out d)). intros D0 HD.
    assert (HD1 : lgd (if logicalNumLLCodes <? 257 + N.to_nat (N.land out 31) then corruptf D0 CHlit else D0))
      by (match goal with |- lgd (if ?b then _ else _) => destruct b end; auto using lg_corrupt).
    revert HD1. generalize (if logicalNumLLCodes <? 257 + N.to_nat (N.land out 31) then corruptf D0 CHlit else D0). intros D1 HD1.
    match goal with |- lgd (if ?b then _ else _) => destruct b end; auto using lg_corrupt. }
  clearbody d2. apply rall_any; intros [i2 sX]. destruct sX as [sX|]; [|apply lg_propagate; auto].
  destruct (negb _); [apply lg_corrupt; auto|].
  eapply rall_bind; [apply lg_lengths; exact H2|]. intros [d3 t] H3. change (lgd d3) in H3.
  destruct t; [|exact H3]. destruct (negb _); [apply lg_corrupt; auto|]. destruct (negb _); [apply lg_corrupt; auto|exact H3].
Qed.
Lemma lg_stored d : lgd d -> rall (fstP lgd) (readFlateBlockStored cap d).
Proof.
  intros H. unfold readFlateBlockStored. destruct (readU16le (d_in d)) as [i [l0|]]; [|apply lg_propagate; auto].
  destruct (readU16le _) as [i1 [l1|]]; [|apply lg_propagate; auto].
  destruct (negb _); [apply lg_corrupt; auto|].
  destruct (inputBufferReadN _ _) as [i2 [p|]]; [|apply lg_propagate; auto].
  eapply rall_bind; [apply lg_write; exact H|]. intros o Ho. exact Ho.
Qed.
End L.

Definition lgr (r : reader) : Prop := lg (r_out r).
Definition fstR {A} (P : reader -> Prop) (x : reader * A) : Prop := P (fst x).
Lemma lgr_d r d : lgd d -> lgr (set_d r d). Proof. destruct r; auto. Qed.
Lemma lgr_in r i : lgr r -> lgr (set_rin r i). Proof. destruct r; auto. Qed.
Lemma lgr_out r o : lg o -> lgr (set_rout r o). Proof. destruct r; auto. Qed.
Lemma lgr_hdr r h : lgr r -> lgr (set_rhdr r h). Proof. destruct r; auto. Qed.
Lemma lgr_fmt r h : lgr r -> lgr (set_fmt r h). Proof. destruct r; auto. Qed.
Lemma lgr_ev r p : lgr r -> lgr (r_sendEvent r p). Proof. destruct r; auto. Qed.
Lemma lgr_num r : lgr r -> lgr (incr_num r). Proof. destruct r; auto. Qed.
Lemma lgr_prop r : lgr r -> lgr (r_propagate r true). Proof. intros; apply lgr_d, lg_propagate; auto. Qed.
Lemma lgr_corrupt r c : lgr r -> lgr (r_corrupt r c). Proof. intros; apply lgr_d, lg_corrupt; auto. Qed.
#[local] Hint Resolve lgr_in lgr_hdr lgr_fmt lgr_ev lgr_prop lgr_corrupt lgr_num lgr_out : lgdb.
Lemma opt_b {B} (Q : reader * B -> Prop) (x : res (reader * bool)) (f : reader -> res (reader * B)) g :
  rall (fstR lgr) x -> (forall r, lgr r -> rall Q (f r)) -> (forall r, lgr r -> rall Q (g r)) ->
  rall Q (let* (r, ok) := x in if ok then f r else g r).
Proof. intros H F G. eapply rall_bind; [exact H|]. intros [r [|]] Hr; auto. Qed.

(** exactly one error; and io.EOF comes last *)
Definition log_shape (o : ost) : Prop :=
  exists e a b, o_err o = Some e /\ o_log o = a ++ OErr e :: b /\ data_only a /\ data_only b /\ (e = EOF -> b = []).
Lemma final_propagate q e : lgr q -> i_err (r_in q) = Some e -> log_shape (r_out (r_propagate q false)).
Proof.
  intros Hq E. unfold r_propagate, propagateError. change (i_err (d_in (r_d q))) with (i_err (r_in q)). rewrite E.
  assert (E' : (match e with EOF => if false then ErrUnexpectedEOF else EOF | _ => e end) = e) by (destruct e; auto). rewrite E'.
  destruct q as [op [i o] n h f ev]. unfold lgr, lg in Hq. cbn in *. destruct o as [db hi l [x|] t s a c]; cbn in *.
  - destruct Hq as (N & u & v & -> & A & B). exists x, u, v. cbn. repeat split; auto; congruence.
  - exists e, l, []. cbn. repeat split; auto. constructor.
Qed.
Lemma propagate_either q : lgr q -> lgr (r_propagate q false) \/ log_shape (r_out (r_propagate q false)).
Proof.
  intros H. destruct (i_err (r_in q)) as [e|] eqn:E; [right; eapply final_propagate; eauto|left].
  unfold r_propagate, propagateError. change (i_err (d_in (r_d q))) with (i_err (r_in q)). rewrite E. destruct q; exact H.
Qed.
Lemma propagate_shape q : log_shape (r_out q) -> log_shape (r_out (r_propagate q false)).
Proof.
  intros (e & a & b & E & X). unfold r_propagate, propagateError. destruct (i_err (d_in (r_d q))) as [x|].
  2:{ exists e, a, b. destruct q; auto. }
  destruct q as [op [i o] n h f ev]. cbn in *. exists e, a, b. destruct o as [db hi l [y|] t s a' c]; cbn in *; [auto|discriminate].
Qed.

Section R.
Variable env : renv.
Ltac go := cbn [rall fstR fst]; unfold fstR; cbn [fst]; auto 20 with lgdb.
Lemma lgr_zlib r : lgr r -> lgr (fst (readHeaderZlib env r)).
Proof.
  intros H. unfold readHeaderZlib.
  repeat match goal with |- context [let '(_, _) := ?x in _] => destruct x as [? [?|]] | |- context [if ?x then _ else _] => destruct x end; go.
Qed.
Lemma lgr_zfoot r a : lgr r -> lgr (fst (readFooterZlib r a)).
Proof.
  intros H. unfold readFooterZlib. destruct (readU32be _) as [? [?|]]; go. destruct (negb _); go.
Qed.
Lemma lgr_gfoot r a : lgr r -> lgr (fst (readFooterGZIP r a)).
Proof.
  intros H. unfold readFooterGZIP. destruct (readU32le _) as [? [?|]]; go. destruct (readU32le _) as [? [?|]]; go. destruct (negb _); go. destruct (negb _); go.
Qed.
Lemma lgr_extra r b : lgr r -> rall (fstR lgr) (readGZIPExtra r b).
Proof.
  intros H. unfold readGZIPExtra. destruct b; go. destruct (readU16le _) as [? [?|]]; go. destruct (inputBufferReadN _ _) as [? [?|]]; go.
  apply rall_any. intros; go.
Qed.
Lemma lgr_string u r b : lgr r -> rall (fstR lgr) (readGZIPString u r b).
Proof.
  intros H. unfold readGZIPString. destruct b; go. apply rall_any. intros [? [?|]]; go.
Qed.
Lemma lgr_crc16 r b c : lgr r -> rall (fstR lgr) (readGZIPCRC16 r b c).
Proof.
  intros H. unfold readGZIPCRC16. destruct b; go. destruct (readU16le _) as [? [?|]]; go. destruct (negb _); go.
Qed.
Lemma lgr_gzip r : lgr r -> rall (fstR lgr) (readHeaderGZIP r).
Proof.
  intros H. unfold readHeaderGZIP. destruct (inputBufferReadN _ _) as [i [p|]]; go.
  destruct (negb _); go. destruct (negb _); go. cbv zeta. destruct (flag_bit _ 0xe0); go.
  eapply opt_b; [apply lgr_extra; go | intros r1 H1 | intros; go].
  eapply opt_b; [apply lgr_string; go | intros r2 H2 | intros; go].
  eapply opt_b; [apply lgr_string; go | intros r3 H3 | intros; go].
  eapply opt_b; [apply lgr_crc16; go | intros r4 H4 | intros; go]. go.
Qed.
Lemma lgr_raw r : lgr r -> lgr (fst (readHeaderRaw r)). Proof. unfold readHeaderRaw; go. Qed.
Lemma lgr_auto r : lgr r -> rall (fstR lgr) (readHeaderAuto env r).
Proof.
  intros H. unfold readHeaderAuto. cbv zeta. match goal with |- context [length ?q <? 2] => generalize q end. intros p.
  destruct (length p <? 2); [exact (lgr_raw H)|]. destruct (_ && _)%bool; [exact (lgr_gzip H)|].
  destruct (_ && _)%bool; [exact (lgr_zlib H)|exact (lgr_raw H)].
Qed.
Lemma lgr_header r : lgr r -> rall (fun x : reader * bool => if snd x then lgr (fst x) else lgr (fst x) \/ log_shape (r_out (fst x))) (readHeader env r).
Proof.
  intros H. unfold readHeader. cbv zeta.
  match goal with |- context [set_rin ?a ?b] => set (r1 := set_rin a b) end.
  assert (H1 : lgr r1). { unfold r1. apply lgr_in, lgr_d. unfold lgd; cbn. unfold lgr, lg in *. destruct (r_out r); auto. }
  clearbody r1. destruct (i_buf (r_in r1)); [apply propagate_either; auto|].
  eapply rall_bind with (P := fstR lgr).
  - assert (H2 : lgr (set_rhdr (r_sendEvent (set_fmt (set_rout (incr_num r1) (o_sethist (r_out (incr_num r1)) (rev (opt_dict (r_opt (incr_num r1)))))) DefaultFormat) (ev_simple StreamBeginEvent)) header0)).
    { apply lgr_hdr, lgr_ev, lgr_fmt, lgr_out. apply lgr_num in H1. unfold lgr in H1. destruct (r_out (incr_num r1)); auto. }
    destruct (o_format _); [apply lgr_auto|apply lgr_raw|apply lgr_zlib|apply lgr_gzip]; auto.
  - intros [r2 [|]] H2; change (lgr r2) in H2; cbn; auto with lgdb.
Qed.
Lemma lgr_footer r : lgr r -> rall (fstR lgr) (readFooter r).
Proof.
  intros H. unfold readFooter. cbv zeta. eapply opt_b; [| intros; go | intros; go].
  destruct (r_fmt _); [go|go|apply lgr_zfoot; go|apply lgr_gfoot; go].
Qed.
Lemma lgr_body r bt fin : lgr r -> rall (fstR lgr) (readBlockBody env r bt fin).
Proof.
  assert (D : forall r x, rall (fstP lgd) x -> rall (fstR lgr) (on_d r x)).
  { intros r0 x Hx. unfold on_d. eapply rall_bind; [exact Hx|]. intros [d ok] Hd. apply lgr_d. exact Hd. }
  intros H. unfold readBlockBody. destruct bt.
  - exact (lgr_corrupt _ H).
  - apply D. apply lg_stored. exact H.
  - cbv zeta. apply D. apply lg_huff. exact (lgr_ev _ H).
  - eapply rall_bind; [apply lg_trees; exact H|]. intros [d [t|]] Hd; change (lgd d) in Hd; [|apply lgr_d; exact Hd].
  apply D. apply lg_huff. apply (lgr_ev _ (@lgr_d r d Hd)).
Qed.
Lemma lgr_block r : lgr r -> rall (fstR lgr) (readFlateBlock env r).
Proof.
  intros H. unfold readFlateBlock. apply rall_any; intros [i out]. destruct out; [|apply lgr_prop; go].
  eapply rall_bind; [apply lgr_body; go|]. intros [r1 [|]] H1; change (lgr r1) in H1; [apply lgr_ev|]; exact H1.
Qed.
Lemma lgr_blocks : forall f r, lgr r -> rall lgr (blocksLoop env f r).
Proof.
  induction f; intros r H; cbn; auto. eapply rall_bind; [apply lgr_block; auto|]. intros [r1 [|]] H1; [apply IHf|]; exact H1.
Qed.
Lemma lgr_streams : forall f r, lgr r -> rall (fun r => lgr r \/ log_shape (r_out r)) (streamsLoop env f r).
Proof.
  induction f; intros r H; cbn [streamsLoop]; destruct (i_err (r_in r)); try exact Logic.I; try (left; exact H).
  eapply rall_bind; [apply lgr_header; auto|]. intros [r1 [|]] H1; cbn in H1; [|exact H1].
  eapply rall_bind with (P := lgr); [match goal with |- rall _ (blocksLoop env ?f ?r) => refine (@lgr_blocks f r _) end; apply lgr_out; unfold lgr in H1; destruct (r_out r1); exact H1|]. intros r2 H2.
  eapply rall_bind; [apply lgr_footer; apply lgr_out, lg_mustFlush; exact H2|]. intros [r3 [|]] H3; auto. left; exact H3.
Qed.

Lemma lgr_thread r : lgr r -> rall (fun r => log_shape (r_out r)) (readThread env r).
Proof.
  intros H. unfold readThread. eapply rall_bind; [apply lgr_streams; destruct r; exact H|].
  intros q Hq; cbn [rall].
  destruct (i_err (r_in q)) as [e|] eqn:E.
  - destruct Hq as [Hq|Hq]; [eapply final_propagate; eauto|apply propagate_shape; auto].
  - destruct Hq as [Hq|Hq]; [apply final_propagate with (e := EOF); [apply lgr_in; auto|]|apply propagate_shape].
    + destruct q as [? [[] ?] ? ? ? ?]; reflexivity.
    + destruct q as [? [? ?] ? ? ? ?]; exact Hq.
Qed.
End R.
