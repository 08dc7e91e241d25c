(** How much a Reader can produce from its input: an account of bits. *)
From Verif Require Import Base MCommon MToken MReader SpecReader PInput PLog SpecHuffman PHuffman.

(** bits not consumed yet *)
Definition nb (i : ist) : nat := ibl i + 8 * length (i_all i).
Lemma nb_fill i : nb (fillIfEmpty i) = nb i.
Proof.
  destruct i as [src [|x buf] [e|] b l t s c]; unfold fillIfEmpty, nb, i_all; cbn [i_buf inputBufferFill i_err ibl i_src]; auto. destruct src as [|[p [e|]] r]; cbn [app src_bytes i_buf i_err i_src ibl]; auto. rewrite app_nil_r; auto.
Qed.
Lemma nb_set_ib i b l : nb (set_ib i b l) + ibl i = nb i + l.
Proof. destruct i; unfold nb, i_all; cbn. lia. Qed.
Lemma nb_take i p r : i_buf i = p ++ r -> nb (set_buf i r) + 8 * length p = nb i.
Proof. destruct i as [src buf err b l t s c]. unfold nb, i_all. cbn. intros ->. rewrite !app_length. lia. Qed.
Lemma nb_count i p : nb (i_count i p) = nb i. Proof. destruct i; auto. Qed.
Lemma ibl_fill i : ibl (fillIfEmpty i) = ibl i.
Proof. destruct i as [src [|x buf] [e|] b l t s c]; unfold fillIfEmpty; cbn; auto. destruct src as [|[p e] r]; auto. Qed.
Lemma nb_byte i : match inputByte i with (i', Some _) => nb i' + 8 = nb i /\ ibl i' = ibl i | (i', None) => nb i' = nb i end.
Proof.
  unfold inputByte. pose proof (nb_fill i) as F. pose proof (ibl_fill i) as G. destruct (i_buf (fillIfEmpty i)) as [|x r] eqn:E; auto.
  rewrite nb_count. pose proof (@nb_take _ [x] r E) as T. cbn [length] in T. split; [lia|]. rewrite <- G. destruct (fillIfEmpty i); reflexivity.
Qed.
Lemma nb_byte_le i : nb (fst (inputByte i)) <= nb i.
Proof. pose proof (nb_byte i) as H. destruct (inputByte i) as [i' [c|]]; cbn; lia. Qed.
Lemma nb_readLoop : forall f i n acc, let '(i', p) := bufReadLoop f i n acc in nb i' + 8 * length p = nb i + 8 * length acc.
Proof.
  induction f as [|f IH]; intros i n acc; destruct n as [|n]; cbn [bufReadLoop]; auto. pose proof (nb_fill i) as F. destruct (i_buf (fillIfEmpty i)) as [|x r] eqn:E; [lia|]. rewrite <- E. clear E.
  set (p := firstn (S n) (i_buf (fillIfEmpty i))). specialize (IH (set_buf (fillIfEmpty i) (skipn (S n) (i_buf (fillIfEmpty i)))) (S n - length p) (acc ++ p)).
  destruct (bufReadLoop _ _ _ _) as [i' q]. rewrite IH, app_length. pose proof (@nb_take (fillIfEmpty i) p (skipn (S n) (i_buf (fillIfEmpty i)))) as T. rewrite <- F, <- T; [|unfold p; symmetry; apply firstn_skipn]. lia.
Qed.
Lemma nb_readN i n : match inputBufferReadN i n with (i', Some p) => nb i' + 8 * length p <= nb i | (i', None) => nb i' <= nb i end.
Proof.
  unfold inputBufferReadN, inputBitsDiscard. pose proof (nb_set_ib i 0 0) as D. destruct n as [|n]; [cbn [length]; lia|].
  pose proof (@nb_readLoop (S n) (set_ib i 0 0) (S n) []) as K. destruct (bufReadLoop _ _ _ _) as [i' p]. rewrite nb_count. cbn [length] in K. destruct (Nat.eqb _ _); lia.
Qed.
Lemma nb_readN_le i n : nb (fst (inputBufferReadN i n)) <= nb i.
Proof. pose proof (nb_readN i n) as H. destruct (inputBufferReadN i n) as [i' [p|]]; cbn; lia. Qed.
Lemma nb_readU u n i : nb (fst (readU u n i)) <= nb i.
Proof. unfold readU. pose proof (nb_readN_le i n) as K. destruct (inputBufferReadN i n) as [? []]; exact K. Qed.
Lemma nb_stringZ : forall f i acc, rall (fun x : ist * option (list N) => nb (fst x) <= nb i) (stringZLoop f i acc).
Proof.
  induction f as [|f IH]; intros i acc; cbn [stringZLoop]; [exact I|]. pose proof (nb_byte i) as K. destruct (inputByte i) as [i' [ch|]]; [|cbn; lia]. destruct (ch =? 0)%N; [cbn; lia|].
  specialize (IH i' (acc ++ [ch])). destruct (stringZLoop f i' _); cbn in *; auto; lia.
Qed.
Section I.
Variable env : renv.
Lemma nb_fillLoop : forall f i n, nb (fst (bitsFillLoop env f i n)) = nb i.
Proof.
  induction f as [|f IH]; intros i n; cbn [bitsFillLoop]; destruct (_ <? _); auto. pose proof (nb_byte i) as K. destruct (inputByte i) as [i' [ch|]]; [|exact K]. rewrite IH.
  match goal with |- nb (set_ib i' ?b ?l) = _ => pose proof (nb_set_ib i' b l) end. lia.
Qed.
Lemma nb_bitsFill i n : rall (fun x : ist * bool => nb (fst x) = nb i) (inputBitsFill env i n).
Proof. unfold inputBitsFill, assertb. destruct (_ <=? _); [|exact I]. apply nb_fillLoop. Qed.
Lemma nb_commit i n : rall (fun i' => nb i' + n = nb i) (inputBitsCommit i n).
Proof. unfold inputBitsCommit, assertb. destruct (Nat.leb_spec n (ibl i)); [|exact I]. cbn [rall]. match goal with |- nb (set_ib i ?b ?l) + _ = _ => pose proof (nb_set_ib i b l) end. lia. Qed.
Lemma nb_getBits i n : rall (fun x : ist * option N => nb (fst x) <= nb i) (getBits env i n).
Proof.
  unfold getBits. eapply rall_bind; [apply nb_bitsFill|]. intros [i1 [|]] H1; cbn [fst] in H1; [|cbn; lia]. apply rall_any. intros out. eapply rall_bind; [apply nb_commit|]. intros i2 H2. cbn in *. lia.
Qed.
(** codes are not empty *)
Definition dec_pos (h : decoder) : Prop := Forall (fun e => snd e <> []) (dec_table h).
Lemma mk_dec_pos sizes : dec_pos (mk_decoder sizes).
Proof.
  unfold dec_pos, mk_decoder. cbn [dec_table]. apply Forall_forall. intros e H. apply in_map_iff in H. destruct H as [k [<- H]]. apply filter_In in H. destruct H as [_ H]. cbn [snd]. intros E.
  apply (f_equal (@length bool)) in E. rewrite length_codeword in E. unfold code_size in E. rewrite Nat2N.id in E. cbn in E. rewrite E in H. discriminate.
Qed.
Lemma dec_decode_pos h n b s x y : dec_pos h -> dec_decode h n b = (Some s, x, y) -> 1 <= n.
Proof.
  unfold dec_decode. intros H E. destruct (find _ _) as [e|] eqn:F; [|discriminate]. apply find_some in F. destruct F as [F1 F2]. apply filter_In in F1. destruct F1 as [F1 _].
  apply Nat.eqb_eq in F2. rewrite <- F2. eapply Forall_forall in H; [|exact F1]. destruct (snd e); [congruence|]. cbn. lia.
Qed.
Definition used1 (i : ist) (x : ist * option N) : Prop := nb (fst x) + (match snd x with Some _ => 1 | None => 0 end) <= nb i.
Lemma nb_symLoop h : dec_pos h -> forall f i mx n, rall (used1 i) (readSymbolLoop env f i h mx n).
Proof.
  intros HP. induction f as [|f IH]; intros i mx n; cbn [readSymbolLoop]; destruct (_ <=? _); try exact I; try (unfold used1; cbn; lia).
  eapply rall_bind; [apply nb_bitsFill|]. intros [i1 [|]] H1; cbn [fst] in H1; [|unfold used1; cbn; lia]. apply rall_any. intros out. destruct (dec_decode h n out) as [[[s|] mn] mx'] eqn:ED.
  - eapply rall_bind; [apply nb_commit|]. intros i2 H2. pose proof (dec_decode_pos HP ED). cbn [fst] in *. unfold used1; cbn. lia.
  - destruct (Nat.eqb mx' 0); [unfold used1; cbn; lia|]. specialize (IH i1 mx mn). destruct (readSymbolLoop env f i1 h mx mn); cbn in *; auto. unfold used1 in *. lia.
Qed.
Lemma nb_symbol i h : dec_pos h -> rall (used1 i) (readSymbol env i h).
Proof. intros H. apply nb_symLoop; auto. Qed.
Lemma nb_xsizes : forall o i sX, rall (fun x : ist * option (list nat) => nb (fst x) <= nb i) (readXSizes env o i sX).
Proof.
  induction o as [|x o IH]; intros i sX; cbn [readXSizes]; [cbn; lia|]. eapply rall_bind; [apply nb_getBits|]. intros [i1 [|]] H1; cbn [fst] in H1; [|cbn; lia].
  match goal with |- rall _ (readXSizes _ _ _ ?s) => specialize (IH i1 s); destruct (readXSizes env o i1 s) end; cbn in *; auto; lia.
Qed.
End I.

(** ** Output *)
Definition olen (o : ost) : nat := length (log_data (o_log o)) + length (o_dbuf o).
Lemma log_data_snoc l a : log_data (l ++ [a]) = log_data l ++ match a with OData p => p | OErr _ => [] end.
Proof. unfold log_data. rewrite flat_map_app. cbn. now rewrite app_nil_r. Qed.
Lemma olen_close o e : olen (closeWithError o e) = olen o.
Proof. destruct o as [db h l [x|] t s a c]; unfold olen; cbn; auto. rewrite log_data_snoc, app_nil_r. auto. Qed.
Lemma olen_mustFlush o : olen (mustFlush o) = olen o.
Proof. destruct o as [[|b db] h l x t s a c]; auto. unfold olen. cbn [mustFlush o_log o_dbuf]. rewrite log_data_snoc, app_length. cbn [length]. lia. Qed.
Lemma olen_append o p : olen (o_append o p) = olen o + length p.
Proof. destruct o; unfold olen; cbn. rewrite app_length. lia. Qed.

Section L.
Variable env : renv.
Variables cap win : N.
Lemma olen_tryFlush o : olen (tryFlush cap o) = olen o.
Proof. unfold tryFlush. destruct (_ <=? _)%N; auto using olen_mustFlush. Qed.
Lemma olen_dbWrite : forall f p o, rall (fun o' => olen o' = olen o + length p) (dbWriteLoop cap f o p).
Proof.
  induction f; intros [|b p] o; cbn [dbWriteLoop]; cbn [rall length]; auto. set (nn := N.to_nat _). pose proof (IHf (skipn nn (b :: p)) (o_append (tryFlush cap o) (firstn nn (b :: p)))) as K.
  destruct (dbWriteLoop cap f _ _); cbn [rall] in *; auto. rewrite K, olen_append, olen_tryFlush, firstn_length, skipn_length. cbn [length]. lia.
Qed.
Lemma olen_write o p : rall (fun o' => olen o' = olen o + length p) (decodeBufferWrite cap o p). Proof. apply olen_dbWrite. Qed.
Lemma olen_writeByte o c : olen (decodeBufferWriteByte cap o c) <= olen o + 1.
Proof. unfold decodeBufferWriteByte. destruct (_ <? _)%N; rewrite ?olen_append, olen_tryFlush; cbn [length]; lia. Qed.
Lemma olen_copy dist : forall n o, match copyLoop env cap win o dist n with inl u | inr u => olen u <= olen o + n end.
Proof.
  induction n; intros o; cbn [copyLoop]; [lia|]. destruct (window_lk _ _ _ _); [|lia]. specialize (IHn (decodeBufferWriteByte cap o n0)). pose proof (olen_writeByte o n0).
  destruct (copyLoop env cap win _ dist n); lia.
Qed.
Lemma slice_length : forall k h d p, window_slice env win h d k = Some p -> length p = k.
Proof.
  induction k; intros h d p; cbn [window_slice]; [intros E; inversion E; auto|]. destruct (window_lk _ _ _ _); [|discriminate]. destruct (window_slice _ _ _ _ _) eqn:E; [|discriminate]. intros X. inversion X. cbn. f_equal. eauto.
Qed.
Lemma lookup_length h d l p : window_lookupSlice env win h d l = Some p -> length p <= N.to_nat l.
Proof. unfold window_lookupSlice. destruct (window_lk _ _ _ _); [|discriminate]. intros E. apply slice_length in E. lia. Qed.

(** The account: every bit consumed allows 129 bytes. *)
Variable K : nat.
Definition ac (x : nat) (d : dst) : Prop := olen (d_out d) + 129 * nb (d_in d) + x <= K.
Notation ac0 := (ac 0).
Definition fstP {A} (P : dst -> Prop) (x : dst * A) : Prop := P (fst x).
Lemma ac_le x y d : ac x d -> y <= x -> ac y d. Proof. unfold ac. lia. Qed.
Lemma ac_close x d e : ac x d -> ac x (DST (d_in d) (closeWithError (d_out d) e)).
Proof. unfold ac. cbn [d_in d_out]. rewrite olen_close. auto. Qed.
Lemma ac_propagate x d b : ac x d -> ac x (propagateError d b).
Proof. intros H. unfold propagateError. destruct (i_err (d_in d)); auto. apply ac_close; auto. Qed.
Lemma ac_corrupt x d c : ac x d -> ac x (corruptf d c). Proof. apply ac_close. Qed.
Lemma ac_in x d i : ac x d -> nb i <= nb (d_in d) -> ac x (DST i (d_out d)). Proof. unfold ac. cbn. lia. Qed.

(** a token takes at most 258 bytes *)
Definition tok_ok (t : token) : Prop := (lol t <= 258)%N.
Lemma copy_tok l d : rall tok_ok (makeCopyToken l d).
Proof. unfold makeCopyToken, assertb. destruct (_ <=? _)%N; [|exact I]. destruct (N.leb_spec l 258); [|exact I]. destruct (_ <=? _)%N; [|exact I]. destruct (_ <=? _)%N; [|exact I]. exact H. Qed.
Definition tk (x : nat) (y : dst * option token) : Prop := ac x (fst y) /\ match snd y with Some t => tok_ok t | None => True end.
Lemma ac_decodeLL x d s : ac x d -> rall (tk x) (decodeLL env d s).
Proof.
  intros H. unfold decodeLL. destruct (N.ltb_spec s 256). { split; auto. unfold tok_ok. cbn. lia. } destruct (s =? 256)%N. { split; auto. unfold tok_ok. cbn. lia. }
  destruct (decodeLL_entry s) as [[len ab]|]; [|split; [apply ac_corrupt; auto|exact I]].
  destruct (ab =? 0). { eapply rall_bind; [apply copy_tok|]. intros t Ht. split; auto. }
  eapply rall_bind; [apply nb_getBits|]. intros [i out] Hi. pose proof (ac_in H Hi) as H1. cbn [fst] in H1. destruct out; [|split; [apply ac_propagate; exact H1|exact I]].
  eapply rall_bind; [apply copy_tok|]. intros t Ht. split; auto.
Qed.
Lemma ac_decodeD x d s l : ac x d -> rall (tk x) (decodeD env d s l).
Proof.
  intros H. unfold decodeD. destruct (decodeD_entry s) as [[len ab]|]; [|split; [apply ac_corrupt; auto|exact I]].
  destruct (ab =? 0). { eapply rall_bind; [apply copy_tok|]. intros t Ht. split; auto. }
  eapply rall_bind; [apply nb_getBits|]. intros [i out] Hi. pose proof (ac_in H Hi) as H1. cbn [fst] in H1. destruct out; [|split; [apply ac_propagate; exact H1|exact I]].
  eapply rall_bind; [apply copy_tok|]. intros t Ht. split; auto.
Qed.
Lemma ac_huff hLL hD : dec_pos hLL -> dec_pos hD -> forall f d, ac0 d -> rall (fstP ac0) (huffLoop env cap win f hLL hD d).
Proof.
  intros P1 P2. induction f; intros d H; cbn [huffLoop]; [exact I|].
  eapply rall_bind; [apply nb_symbol; auto|]. intros [i [s|]] Hi; unfold used1 in Hi; cbn [fst snd] in Hi; [|apply ac_corrupt; unfold ac in *; cbn; lia].
  assert (H1 : ac 129 (DST i (d_out d))) by (unfold ac in *; cbn; lia).
  eapply rall_bind; [apply ac_decodeLL; exact H1|]. intros [d1 [t|]] [H2 Ht]; cbn [fst snd] in *; [|eapply ac_le; [exact H2|lia]].
  destruct (tdist t =? 0)%N.
  { destruct (256 <=? lol t)%N; [eapply ac_le; [exact H2|lia]|]. apply IHf. pose proof (olen_writeByte (d_out d1) (lol t)). unfold ac in *. cbn. lia. }
  eapply rall_bind; [apply nb_symbol; auto|]. intros [i2 [s2|]] Hi2; unfold used1 in Hi2; cbn [fst snd] in Hi2; [|apply ac_corrupt; unfold ac in *; cbn; lia].
  assert (H3 : ac 258 (DST i2 (d_out d1))) by (unfold ac in *; cbn; lia).
  eapply rall_bind; [apply ac_decodeD; exact H3|]. intros [d2 [t2|]] [H4 Ht2]; cbn [fst snd] in *; [|eapply ac_le; [exact H4|lia]].
  destruct (window_lookupSlice _ _ _ _ _) as [p|] eqn:EL; [|apply ac_corrupt; eapply ac_le; [exact H4|lia]].
  apply lookup_length in EL. eapply rall_bind; [apply olen_write|]. intros o Ho.
  pose proof (olen_copy (tdist t2) (N.to_nat (lol t2) - length p) o) as C. unfold tok_ok in Ht2.
  destruct (copyLoop _ _ _ _ _ _); [apply IHf|apply ac_corrupt]; unfold ac in *; cbn; lia.
Qed.
Lemma ac_decodeX x d s done total : ac x d -> rall (fstP (ac x)) (decodeX env d s done total).
Proof.
  intros H. assert (R : forall bits base v, rall (fstP (ac x)) (let* (i, out) := getBits env (d_in d) bits in
    let d := DST i (d_out d) in
    match out with
    | None => Ok (propagateError d true, None)
    | Some out =>
      let count := base + N.to_nat out in
      if total - length done <? count then Ok (corruptf d CRepeatCount, None)
      else Ok (d, Some (done ++ repeat v count))
    end)).
  { intros. eapply rall_bind; [apply nb_getBits|]. intros [i out] Hi. pose proof (ac_in H Hi) as H1. cbn [fst] in H1. destruct out; [|apply ac_propagate; exact H1]. cbv zeta. match goal with |- context [if ?b then _ else _] => destruct b end; [apply ac_corrupt; exact H1|exact H1]. }
  unfold decodeX. destruct (s <? 16)%N; [exact H|]. destruct (s =? 16)%N.
  { destruct (rev done); [apply ac_corrupt; auto|apply R]. }
  destruct (s =? 17)%N; [apply R|]. destruct (s =? 18)%N; [apply R|]. exact H.
Qed.
Lemma ac_lengths h : dec_pos h -> forall f d done total, ac0 d -> rall (fstP ac0) (lengthsLoop env f h d done total).
Proof.
  intros HP. induction f; intros d done total H; cbn [lengthsLoop]; destruct (_ <? _); try exact I; try exact H.
  eapply rall_bind; [apply nb_symbol; auto|]. intros [i sym] Hi. assert (H0 : ac0 (DST i (d_out d))) by (unfold used1, ac in *; cbn [fst snd d_in d_out] in *; lia). destruct sym as [s|]; [|apply ac_corrupt; exact H0].
  eapply rall_bind; [apply ac_decodeX; exact H0|]. intros [d1 t] H1. destruct t; auto.
Qed.
Lemma ac_trees d : ac0 d -> rall (fstP ac0) (readDynamicTrees env d).
Proof.
  intros H. unfold readDynamicTrees. eapply rall_bind; [apply nb_getBits|]. intros [i out] Hi. pose proof (ac_in H Hi) as H0. cbn [fst] in H0. destruct out as [out|]; [|apply ac_propagate; exact H0].
  cbv zeta.
  match goal with |- rall _ (rbind (readXSizes _ _ (d_in ?D) _) _) => set (d2 := D) end.
  assert (H2 : ac0 d2).
  { unfold d2. clear d2. revert H0. generalize (DST i (d_out d)). intros D0 HD.
    assert (HD1 : ac0 (if logicalNumLLCodes <? 257 + N.to_nat (N.land out 31) then corruptf D0 CHlit else D0))
      by (match goal with |- ac0 (if ?b then _ else _) => destruct b end; [apply ac_corrupt|]; exact HD).
    revert HD1. generalize (if logicalNumLLCodes <? 257 + N.to_nat (N.land out 31) then corruptf D0 CHlit else D0). intros D1 HD1.
    match goal with |- ac0 (if ?b then _ else _) => destruct b end; [apply ac_corrupt|]; exact HD1. }
  clearbody d2. eapply rall_bind; [apply nb_xsizes|]. intros [i2 sX] K2. pose proof (ac_in H2 K2) as H2'. cbn [fst] in H2'. destruct sX as [sX|]; [|apply ac_propagate; exact H2'].
  destruct (negb _); [apply ac_corrupt; exact H2'|].
  eapply rall_bind; [apply ac_lengths; [apply mk_dec_pos|exact H2']|]. intros [d3 t] H3. change (ac0 d3) in H3.
  destruct t; [|exact H3]. destruct (negb _); [apply ac_corrupt; auto|]. destruct (negb _); [apply ac_corrupt; auto|exact H3].
Qed.
Lemma ac_stored d : ac0 d -> rall (fstP ac0) (readFlateBlockStored cap d).
Proof.
  intros H. unfold readFlateBlockStored. pose proof (nb_readU unle16 2 (d_in d)) as K1. fold readU16le in K1. destruct (readU16le (d_in d)) as [i [l0|]]; pose proof (ac_in H K1) as H1; [|apply ac_propagate; exact H1]. cbn [fst] in *.
  pose proof (nb_readU unle16 2 i) as K2. fold readU16le in K2. cbn [d_in].
  destruct (readU16le i) as [i1 [l1|]]; pose proof (ac_in H1 K2) as H2; [|apply ac_propagate; exact H2].
  destruct (negb _); [apply ac_corrupt; exact H2|]. cbn [fst d_in d_out] in *.
  match goal with |- context[inputBufferReadN i1 ?n] => pose proof (nb_readN i1 n) as K3; destruct (inputBufferReadN i1 n) as [i2 [p|]] end.
  - eapply rall_bind; [apply olen_write|]. intros o Ho. unfold fstP, ac in *. cbn in *. lia.
  - apply ac_propagate. unfold ac in *. cbn in *. lia.
Qed.
End L.

Section R.
Variable K : nat.
Notation ac0 := (ac K 0).
Definition acr (r : reader) : Prop := ac0 (r_d r).
Definition fstR {A} (P : reader -> Prop) (x : reader * A) : Prop := P (fst x).
Lemma acr_d r d : ac0 d -> acr (set_d r d). Proof. destruct r; auto. Qed.
Lemma acr_in r i : acr r -> nb i <= nb (r_in r) -> acr (set_rin r i). Proof. intros H L. apply acr_d. apply ac_in; auto. Qed.
Lemma acr_out r o : acr r -> olen o <= olen (r_out r) -> acr (set_rout r o). Proof. destruct r as [op [i u] n h f ev]. unfold acr, r_out, ac. cbn. lia. Qed.
Lemma acr_hdr r h : acr r -> acr (set_rhdr r h). Proof. destruct r; auto. Qed.
Lemma acr_fmt r h : acr r -> acr (set_fmt r h). Proof. destruct r; auto. Qed.
Lemma acr_ev r p : acr r -> acr (r_sendEvent r p). Proof. destruct r; auto. Qed.
Lemma acr_prop r b : acr r -> acr (r_propagate r b). Proof. intros; apply acr_d, ac_propagate; auto. Qed.
Lemma acr_corrupt r c : acr r -> acr (r_corrupt r c). Proof. intros; apply acr_d, ac_corrupt; auto. Qed.
#[local] Hint Resolve acr_hdr acr_fmt acr_ev acr_prop acr_corrupt : acdb.
Lemma opt_b {B} (Q : reader * B -> Prop) (x : res (reader * bool)) (f : reader -> res (reader * B)) g :
  rall (fstR acr) x -> (forall r, acr r -> rall Q (f r)) -> (forall r, acr r -> rall Q (g r)) ->
  rall Q (let* (r, ok) := x in if ok then f r else g r).
Proof. intros H F G. eapply rall_bind; [exact H|]. intros [r [|]] Hr; auto. Qed.
Lemma acr_readU u n r : acr r -> acr (set_rin r (fst (readU u n (r_in r)))).
Proof. intros H. apply acr_in; auto. apply nb_readU. Qed.
Lemma acr_readN n r : acr r -> acr (set_rin r (fst (inputBufferReadN (r_in r) n))).
Proof. intros H. apply acr_in; auto. apply nb_readN_le. Qed.

Variable env : renv.
Ltac go := cbn [rall fstR fst]; unfold fstR; cbn [fst]; auto 20 with acdb.
Ltac rd := match goal with
  | |- context [readU16le (r_in ?r)] => let H := fresh "H" in let K := fresh "K" in assert (H : acr r) by go; pose proof (acr_readU unle16 2 H) as K; fold readU16le in K; destruct (readU16le (r_in r)) as [? [?|]]; cbn [fst] in K; clear H
  | |- context [readU32le (r_in ?r)] => let H := fresh "H" in let K := fresh "K" in assert (H : acr r) by go; pose proof (acr_readU unle32 4 H) as K; fold readU32le in K; destruct (readU32le (r_in r)) as [? [?|]]; cbn [fst] in K; clear H
  | |- context [readU32be (r_in ?r)] => let H := fresh "H" in let K := fresh "K" in assert (H : acr r) by go; pose proof (acr_readU unbe32 4 H) as K; fold readU32be in K; destruct (readU32be (r_in r)) as [? [?|]]; cbn [fst] in K; clear H
  | |- context [inputBufferReadN (r_in ?r) ?n] => let H := fresh "H" in let K := fresh "K" in assert (H : acr r) by go; pose proof (acr_readN n H) as K; destruct (inputBufferReadN (r_in r) n) as [? [?|]]; cbn [fst] in K; clear H
  end.
Lemma acr_zlib r : acr r -> acr (fst (readHeaderZlib env r)).
Proof.
  intros H. unfold readHeaderZlib. repeat (first [rd | match goal with |- context [if ?x then _ else _] => destruct x end]; cbv zeta beta iota; go).
Qed.
Lemma acr_zfoot r a : acr r -> acr (fst (readFooterZlib r a)).
Proof. intros H. unfold readFooterZlib. rd; go. destruct (negb _); go. Qed.
Lemma acr_gfoot r a : acr r -> acr (fst (readFooterGZIP r a)).
Proof. intros H. unfold readFooterGZIP. rd; go. cbv zeta. rd; go. destruct (negb _); go. destruct (negb _); go. Qed.
Lemma acr_extra r b : acr r -> rall (fstR acr) (readGZIPExtra r b).
Proof. intros H. unfold readGZIPExtra. destruct b; go. rd; go. cbv zeta. rd; go. apply rall_any. intros; go. Qed.
Lemma acr_string u r b : acr r -> rall (fstR acr) (readGZIPString u r b).
Proof.
  intros H. unfold readGZIPString. destruct b; go. eapply rall_bind; [unfold inputBufferReadStringZ; apply nb_stringZ|].
  intros [i [?|]] L; pose proof (acr_in H L) as K1; cbn [fst] in K1; go.
Qed.
Lemma acr_crc16 r b c : acr r -> rall (fstR acr) (readGZIPCRC16 r b c).
Proof. intros H. unfold readGZIPCRC16. destruct b; go. rd; go. destruct (negb _); go. Qed.
Lemma acr_gzip r : acr r -> rall (fstR acr) (readHeaderGZIP r).
Proof.
  intros H. unfold readHeaderGZIP. 
  assert (H0 : acr (set_rin r (i_crcreset (r_in r)))).
  { apply acr_in; auto. destruct (r_in r); unfold nb; cbn; auto. }
  cbv zeta. rd; go.
  destruct (negb _); go. destruct (negb _); go. cbv zeta. destruct (flag_bit _ 0xe0); go.
  eapply opt_b; [apply acr_extra; go | intros r1 H1 | intros; go].
  eapply opt_b; [apply acr_string; go | intros r2 H2 | intros; go].
  eapply opt_b; [apply acr_string; go | intros r3 H3 | intros; go].
  eapply opt_b; [apply acr_crc16; go | intros r4 H4 | intros; go]. go.
Qed.
Lemma acr_raw r : acr r -> acr (fst (readHeaderRaw r)). Proof. unfold readHeaderRaw; go. Qed.
Lemma acr_auto r : acr r -> rall (fstR acr) (readHeaderAuto env r).
Proof.
  intros H. unfold readHeaderAuto. cbv zeta. match goal with |- context [length ?q <? 2] => generalize q end. intros p.
  destruct (length p <? 2); [exact (acr_raw H)|]. destruct (_ && _)%bool; [exact (acr_gzip H)|].
  destruct (_ && _)%bool; [exact (acr_zlib H)|exact (acr_raw H)].
Qed.
Lemma acr_header r : acr r -> rall (fstR acr) (readHeader env r).
Proof.
  intros H. unfold readHeader. cbv zeta.
  match goal with |- context [set_rin ?a ?b] => set (r1 := set_rin a b) end.
  assert (H1 : acr r1).
  { unfold r1. destruct r as [op [i o] n h f ev]. unfold acr, ac in *. cbn in *. rewrite nb_fill. destruct i, o. unfold nb, olen, i_all in *. cbn in *. exact H. }
  clearbody r1. destruct (i_buf (r_in r1)). { cbn [rall]. unfold fstR. cbn [fst]. go. }
  eapply rall_bind with (P := fstR acr).
  - match goal with |- context [r_sendEvent ?q (ev_simple StreamBeginEvent)] => set (r2 := q) end.
    assert (H5 : acr (set_rhdr (r_sendEvent r2 (ev_simple StreamBeginEvent)) header0)).
    { apply acr_hdr, acr_ev. unfold r2. destruct r1 as [op [i o] nn hh f ev]. unfold acr, ac in *. cbn in *. destruct o; exact H1. }
    destruct (o_format _); [apply acr_auto|apply acr_raw|apply acr_zlib|apply acr_gzip]; auto.
  - intros [r2 [|]] H2'; change (acr r2) in H2'; go.
Qed.
Lemma acr_footer r : acr r -> rall (fstR acr) (readFooter r).
Proof.
  intros H. unfold readFooter. cbv zeta. assert (H1 : acr (set_rin r (inputBitsDiscard (r_in r)))) by (apply acr_in; auto; unfold inputBitsDiscard; pose proof (nb_set_ib (r_in r) 0 0); lia).
  eapply opt_b; [| intros; go | intros; go].
  destruct (r_fmt _); [exact I|go|apply acr_zfoot; go|apply acr_gfoot; go].
Qed.
Lemma acr_body r bt fin : acr r -> rall (fstR acr) (readBlockBody env r bt fin).
Proof.
  assert (D : forall r x, rall (fstP ac0) x -> rall (fstR acr) (on_d r x)).
  { intros r0 x Hx. unfold on_d. eapply rall_bind; [exact Hx|]. intros [d ok] Hd. apply acr_d. exact Hd. }
  intros H. unfold readBlockBody. destruct bt.
  - exact (acr_corrupt _ H).
  - apply D. apply ac_stored. exact H.
  - cbv zeta. apply D. apply ac_huff; try apply mk_dec_pos. exact (acr_ev _ H).
  - eapply rall_bind; [apply ac_trees; exact H|]. intros [d [t|]] Hd; change (ac0 d) in Hd; [|apply acr_d; exact Hd].
  apply D. apply ac_huff; try apply mk_dec_pos. apply (acr_ev _ (@acr_d r d Hd)).
Qed.
Lemma acr_block r : acr r -> rall (fstR acr) (readFlateBlock env r).
Proof.
  intros H. unfold readFlateBlock. eapply rall_bind; [apply nb_getBits|]. intros [i out] L. pose proof (acr_in H L) as K1. cbn [fst] in K1. cbv zeta. destruct out; [|go].
  eapply rall_bind; [apply acr_body; go|]. intros [r1 [|]] H1; change (acr r1) in H1; [apply acr_ev|]; exact H1.
Qed.
Lemma acr_blocks : forall f r, acr r -> rall acr (blocksLoop env f r).
Proof.
  induction f; intros r H; cbn; auto. eapply rall_bind; [apply acr_block; auto|]. intros [r1 [|]] H1; [apply IHf|]; exact H1.
Qed.
Lemma acr_streams : forall f r, acr r -> rall acr (streamsLoop env f r).
Proof.
  induction f; intros r H; cbn [streamsLoop]; destruct (i_err (r_in r)); try exact Logic.I; try exact H.
  eapply rall_bind; [apply acr_header; auto|]. intros [r1 [|]] H1; change (acr r1) in H1; [|exact H1].
  eapply rall_bind with (P := acr).
  { match goal with |- rall _ (blocksLoop env ?f ?r) => refine (@acr_blocks f r _) end. apply acr_out; auto. unfold r_out. destruct (d_out (r_d r1)); unfold olen; cbn; auto. }
  intros r2 H2. eapply rall_bind; [apply acr_footer; apply acr_out; auto; rewrite olen_mustFlush; auto|]. intros [r3 [|]] H3; [apply IHf; exact H3|exact H3].
Qed.
Lemma acr_thread r : acr r -> rall (fun r => olen (r_out r) <= K) (readThread env r).
Proof.
  intros H. unfold readThread. eapply rall_bind; [apply acr_streams; destruct r; exact H|].
  intros q Hq; cbn [rall]. unfold acr, ac in Hq. destruct q as [op [i o] n h f ev]. unfold r_propagate, propagateError, r_in, r_out in *. cbn in *. destruct (i_err i) as [e|] eqn:E; cbn.
  - rewrite E. cbn. rewrite olen_close. lia.
  - destruct i; cbn in *. rewrite olen_close. lia.
Qed.
End R.
