(** A Reader on a 32-bit and on a 64-bit platform, side by side (used for C87). *)
From Verif Require Import Base SpecHuffman MCommon MToken MReader SpecReader PHuffman PBits PInput PLog POff.

(** The same library on a platform with words of [n] bytes. *)
Definition set_bpb (n : nat) (env : renv) : renv := REnv n (e_acc env) (e_far env) (e_slice env) (e_iszero env) (e_peek2 env).

Lemma rq_bind {A B} (P : A -> Prop) (x y : res A) (f g : A -> res B) : x = y -> rall P x -> (forall a, P a -> f a = g a) -> rbind x f = rbind y g.
Proof. intros -> H K. destruct y; cbn; auto. Qed.
Lemma rall_true {A} (x : res A) : rall (fun _ => True) x.
Proof. destruct x; exact I. Qed.
Lemma rall_impl {A} (P Q : A -> Prop) (x : res A) : (forall a, P a -> Q a) -> rall P x -> rall Q x.
Proof. destruct x; cbn; auto. Qed.
Lemma rall_conj {A} (P Q : A -> Prop) (x : res A) : rall P x -> rall Q x -> rall (fun a => P a /\ Q a) x.
Proof. destruct x; cbn; auto. Qed.

(** ** How many bits are asked for at a time *)
Lemma decodeLL_bits s len ab : decodeLL_entry s = Some (len, ab) -> ab <= 24.
Proof. unfold decodeLL_entry. intros H. repeat match type of H with context [if ?b then _ else _] => destruct b end; inversion H; subst; lia. Qed.
Lemma decodeD_bits s len ab : decodeD_entry s = Some (len, ab) -> ab <= 24.
Proof.
  unfold decodeD_entry. destruct (s <? 4)%N; [intros H; inversion H; subst; lia|]. destruct (N.ltb_spec s (N.of_nat logicalNumDCodes)) as [L|L]; [|discriminate].
  intros H. assert (E : N.to_nat (N.shiftr (s - 2) 1) = ab) by (cbv zeta in H; congruence). subst ab. change (N.of_nat logicalNumDCodes) with 30%N in L. rewrite N.shiftr_div_pow2. change (2 ^ 1)%N with 2%N.
  assert ((s - 2) / 2 <= 14)%N by (apply N.div_le_upper_bound; lia). lia.
Qed.
Section Sizes.
Variable env : renv.
Lemma peek_le i n x : inputBitsPeek env i n = Ok x -> n <= r_bits env -> (x < 2 ^ N.of_nat n)%N.
Proof.
  intros E H. unfold inputBitsPeek, assertb in E. destruct (n <=? ibl i); [|discriminate E]. injection E as <-.
  assert (EM : makeMask (r_bits env) n = N.ones (N.of_nat n)).
  { unfold makeMask. destruct (Nat.eqb_spec n 0) as [->|Hn]; [reflexivity|]. destruct (Nat.leb_spec (r_bits env) n); [f_equal; f_equal; lia|]. rewrite N.ones_equiv, N.shiftl_1_l, N.pred_sub. reflexivity. }
  rewrite EM, N.land_ones. apply N.mod_lt. apply N.pow_nonzero. discriminate.
Qed.
Lemma getBits_lt i n : n <= r_bits env -> rall (fun x => match snd x with Some v => (v < 2 ^ N.of_nat n)%N | None => True end) (getBits env i n).
Proof.
  intros H. unfold getBits. destruct (inputBitsFill env i n) as [[i1 [|]]|p|]; cbn [rbind]; try exact I.
  destruct (inputBitsPeek env i1 n) as [v|p|] eqn:E; cbn [rbind]; try exact I. destruct (inputBitsCommit i1 n) as [i2|p|]; cbn [rbind]; try exact I. cbn. eapply peek_le; eauto.
Qed.
Hypothesis Hb : 24 <= r_bits env.
Lemma set_nth_le m l : forall i v, sizes_le m l -> v <= m -> sizes_le m (set_nth l i v).
Proof. unfold sizes_le. induction l as [|x l IH]; intros i v H Hv; [destruct i; constructor|]. inversion H; subst. destruct i; cbn; constructor; auto. Qed.
Lemma xsizes_le : forall o i sX, sizes_le 24 sX -> rall (fun x => match snd x with Some l => sizes_le 24 l | None => True end) (readXSizes env o i sX).
Proof.
  induction o as [|s o IH]; intros i sX H; cbn [readXSizes]; [exact H|].
  eapply rall_bind; [apply (@getBits_lt i 3); lia|]. intros [i1 [v|]] L; [|exact I]. cbn [snd] in L. apply IH. apply set_nth_le; auto. change (2 ^ N.of_nat 3)%N with 8%N in L. lia.
Qed.
Lemma decodeX_le d s done total : sizes_le 24 done -> rall (fun x => match snd x with Some l => sizes_le 24 l | None => True end) (decodeX env d s done total).
Proof.
  intros H. assert (R : forall bits base v, v <= 24 -> rall (fun x : dst * option (list nat) => match snd x with Some l => sizes_le 24 l | None => True end) (let* (i, out) := getBits env (d_in d) bits in
    let d := DST i (d_out d) in
    match out with
    | None => Ok (propagateError d true, None)
    | Some out =>
      let count := base + N.to_nat out in
      if total - length done <? count then Ok (corruptf d CRepeatCount, None)
      else Ok (d, Some (done ++ repeat v count))
    end)).
  { intros bits base v Hv. eapply rall_bind with (P := fun _ => True); [apply rall_true|]. intros [i [out|]] _; [|exact I]. cbv zeta. match goal with |- context [if ?b then _ else _] => destruct b end; [exact I|]. cbn.
    apply Forall_app. split; auto. apply Forall_forall. intros y Hy. apply repeat_spec in Hy. lia. }
  unfold decodeX. destruct (N.ltb_spec s 16) as [L|L]. { cbn. apply Forall_app. split; auto. constructor; [lia|constructor]. }
  destruct (s =? 16)%N. { destruct (rev done) as [|l r] eqn:E; [exact I|]. apply R. assert (K : In l done) by (apply in_rev; rewrite E; left; auto). unfold sizes_le in H. rewrite Forall_forall in H. apply H; auto. }
  destruct (s =? 17)%N; [apply R; lia|]. destruct (s =? 18)%N; [apply R; lia|]. exact H.
Qed.
Lemma lengths_le h : forall f d done total, sizes_le 24 done -> rall (fun x => match snd x with Some l => sizes_le 24 l | None => True end) (lengthsLoop env f h d done total).
Proof.
  induction f as [|f IH]; intros d done total H; cbn [lengthsLoop]; destruct (_ <? _); try exact I; try exact H.
  eapply rall_bind with (P := fun _ => True); [apply rall_true|]. intros [i [s|]] _; [|exact I].
  eapply rall_bind; [apply decodeX_le; exact H|]. intros [d1 [l|]] L; [|exact I]. apply IH. exact L.
Qed.
Lemma trees_le d : rall (fun x => match snd x with Some t => sizes_le 24 (t_lls t) /\ sizes_le 24 (t_ds t) | None => True end) (readDynamicTrees env d).
Proof.
  assert (Z : forall n, sizes_le 24 (repeat 0 n)) by (intros n; apply Forall_forall; intros y Hy; apply repeat_spec in Hy; lia).
  unfold readDynamicTrees. eapply rall_bind with (P := fun _ => True); [apply rall_true|]. intros [i [out|]] _; [|exact I]. cbv zeta.
  eapply rall_bind with (P := fun _ => True); [apply rall_true|]. intros [i2 [sX|]] _; [|exact I]. destruct (negb _); [exact I|].
  eapply rall_bind; [apply lengths_le; constructor|]. intros [d3 [c|]] L; [|exact I]. cbn [snd] in L. destruct (negb _); [exact I|]. destruct (negb _); [exact I|]. cbn.
  unfold sizes_le in *. split; apply Forall_app; split; auto.
  - rewrite Forall_forall in *. intros y Hy. apply L. rewrite <- (firstn_skipn (257 + N.to_nat (N.land out 31)) c). apply in_or_app. left. exact Hy.
  - rewrite Forall_forall in *. intros y Hy. apply L. rewrite <- (firstn_skipn (257 + N.to_nat (N.land out 31)) c). apply in_or_app. right. exact Hy.
Qed.
End Sizes.

Section W.
Variable all : list N.
Variable send : goerr.
Hypothesis Ball : bytes_ok all.
Variable env : renv.
Variable n1 n2 : nat.
Hypothesis Hn1 : n1 = 4 \/ n1 = 8.
Hypothesis Hn2 : n2 = 4 \/ n2 = 8.
Lemma bits24 n : n = 4 \/ n = 8 -> 24 <= r_bits (set_bpb n env) - 8.
Proof. unfold r_bits. cbn [r_bpb set_bpb]. intros [-> | ->]; lia. Qed.
Lemma bits24' n : n = 4 \/ n = 8 -> 24 <= r_bits (set_bpb n env).
Proof. intros H. pose proof (bits24 H). lia. Qed.
Lemma zeros_le n : sizes_le 24 (repeat 0 n).
Proof. apply Forall_forall. intros y Hy. apply repeat_spec in Hy. lia. Qed.
Lemma fixed_small_ll : dec_max (mk_decoder fixedSizesLL) <= 24.
Proof. apply dec_max_le. apply Forall_forall. intros y Hy. assert (K : forallb (fun b => b <=? 24) fixedSizesLL = true) by (vm_compute; reflexivity). rewrite forallb_forall in K. apply Nat.leb_le. apply K. exact Hy. Qed.
Lemma fixed_small_d : dec_max (mk_decoder fixedSizesD) <= 24.
Proof. apply dec_max_le. apply Forall_forall. intros y Hy. assert (K : forallb (fun b => b <=? 24) fixedSizesD = true) by (vm_compute; reflexivity). rewrite forallb_forall in K. apply Nat.leb_le. apply K. exact Hy. Qed.
Notation e1 := (set_bpb n1 env).
Notation e2 := (set_bpb n2 env).

Section Input.
Variable S : N -> Prop.
Notation iv := (iv all send S).
Notation oe := (oe all send S).
Notation ofd := (ofd all send S).
Lemma q_byte i : iv i -> match snd (inputByte i) with Some c => is_byte c | None => True end.
Proof.
  intros H. pose proof (iv_fill H) as K. unfold inputByte. destruct (i_buf (fillIfEmpty i)) as [|x r] eqn:E; cbn [snd]; auto.
  destruct K as [_ [before [used [K _]]]]. unfold i_all in K. rewrite E in K. rewrite K in Ball. apply bytes_ok_app in Ball. destruct Ball as [_ B]. inversion B; auto.
Qed.
Lemma q_blk n c k m : is_byte c -> k < m -> m <= r_bits (set_bpb n env) - 8 -> r_blk (set_bpb n env) (N.shiftl c (N.of_nat k)) = N.shiftl c (N.of_nat k).
Proof.
  intros Hc Hk Hm. unfold r_blk. apply N.mod_small. rewrite N.shiftl_mul_pow2. unfold is_byte in Hc.
  apply N.lt_le_trans with (256 * 2 ^ N.of_nat k)%N; [apply N.mul_lt_mono_pos_r; auto; apply pow2_pos|].
  change 256%N with (2 ^ 8)%N. rewrite <- N.pow_add_r. apply N.pow_le_mono_r; lia.
Qed.
Lemma q_fillLoop m : m <= r_bits e1 - 8 -> m <= r_bits e2 - 8 -> forall f i, iv i -> bitsFillLoop e1 f i m = bitsFillLoop e2 f i m.
Proof.
  intros H1 H2. induction f as [|f IH]; intros i H; cbn [bitsFillLoop]; destruct (Nat.ltb_spec (ibl i) m) as [L|L]; auto.
  pose proof (iv_byte H) as K. pose proof (q_byte H) as Q. destruct (inputByte i) as [i' [ch|]] eqn:E; auto. cbn [fst snd] in *.
  assert (EL : ibl i' = ibl i).
  { clear - E. unfold inputByte in E. destruct i as [src [|x buf] [e|] b l t s c]; unfold fillIfEmpty in E; cbn [i_buf inputBufferFill] in E; try discriminate E; try (inversion E; subst; reflexivity). destruct src as [|[[|x p] e] r]; cbn in E; try discriminate E; inversion E; subst; reflexivity. }
  rewrite EL, (@q_blk n1 ch (ibl i) m Q L H1), (@q_blk n2 ch (ibl i) m Q L H2). apply IH. apply iv_ib. exact K.
Qed.
Lemma q_mask n m : m <= r_bits (set_bpb n env) -> makeMask (r_bits (set_bpb n env)) m = N.ones (N.of_nat m).
Proof.
  intros H. unfold makeMask. destruct (Nat.eqb_spec m 0) as [->|Hn]; [reflexivity|].
  destruct (Nat.leb_spec (r_bits (set_bpb n env)) m); [f_equal; f_equal; lia|].
  rewrite N.ones_equiv, N.shiftl_1_l, N.pred_sub. reflexivity.
Qed.
(** After a fill, peeking at as many bits is the same. *)
Lemma q_fill_peek {B} i m (k1 k2 : N -> ist -> res B) k0 : iv i -> m <= 24 ->
  (forall i' out, iv i' -> k1 out i' = k2 out i') ->
  (let* (i', ok) := inputBitsFill e1 i m in if ok then (let* out := inputBitsPeek e1 i' m in k1 out i') else k0 i') =
  (let* (i', ok) := inputBitsFill e2 i m in if ok then (let* out := inputBitsPeek e2 i' m in k2 out i') else k0 i').
Proof.
  intros H Hm K. pose proof (bits24 Hn1) as B1. pose proof (bits24 Hn2) as B2. unfold inputBitsFill, assertb.
  destruct (Nat.leb_spec m (r_bits e1 - 8)) as [L1|L1]; [|lia].
  destruct (Nat.leb_spec m (r_bits e2 - 8)) as [L2|L2]; [|lia].
  cbn [rbind]. rewrite (@q_fillLoop m L1 L2 m i H). pose proof (iv_fillLoop e2 m m H) as V. destruct (bitsFillLoop e2 m i m) as [i' [|]]; [|reflexivity]. cbn [fst] in V.
  unfold inputBitsPeek. rewrite (@q_mask n1 m), (@q_mask n2 m) by lia. unfold assertb. destruct (m <=? ibl i'); [|reflexivity]. cbn [rbind]. apply K. exact V.
Qed.
Lemma q_getBits i m : iv i -> m <= 24 -> getBits e1 i m = getBits e2 i m.
Proof. intros H Hm. unfold getBits. apply (@q_fill_peek _ i m _ _ (fun i' => Ok (i', None)) H Hm). auto. Qed.
Lemma q_symLoop h : forall f i mx m, iv i -> mx <= 24 -> readSymbolLoop e1 f i h mx m = readSymbolLoop e2 f i h mx m.
Proof.
  induction f as [|f IH]; intros i mx m H Hm; cbn [readSymbolLoop]; destruct (Nat.leb_spec m mx) as [L|L]; try reflexivity.
  apply (@q_fill_peek _ i m _ _ (fun i' => Ok (i', None)) H); [lia|]. intros i' out V. destruct (dec_decode h m out) as [[[s|] mn] mx']; [reflexivity|]. destruct (Nat.eqb mx' 0); [reflexivity|]. apply IH; auto.
Qed.
Definition small (h : decoder) : Prop := dec_max h <= 24.
Lemma q_symbol i h : iv i -> small h -> readSymbol e1 i h = readSymbol e2 i h.
Proof. apply q_symLoop. Qed.
Lemma q_xsizes : forall o i sX, iv i -> readXSizes e1 o i sX = readXSizes e2 o i sX.
Proof.
  induction o as [|x o IH]; intros i sX H; cbn [readXSizes]; [reflexivity|]. eapply rq_bind; [apply q_getBits; [auto|lia]|apply iv_getBits; exact H|]. intros [i1 [|]] H1; [|reflexivity]. apply IH. exact H1.
Qed.

Variables cap win : N.
Lemma q_decodeLL d s : ofd d -> decodeLL e1 d s = decodeLL e2 d s.
Proof.
  intros H. unfold decodeLL. destruct (s <? 256)%N; [reflexivity|]. destruct (s =? 256)%N; [reflexivity|].
  destruct (decodeLL_entry s) as [[len ab]|] eqn:EE; [|reflexivity]. destruct (ab =? 0); [reflexivity|].
  eapply rq_bind; [apply q_getBits; [exact (proj1 H)|eapply decodeLL_bits; exact EE]|apply iv_getBits; exact (proj1 H)|]. intros [i out] K. reflexivity.
Qed.
Lemma q_decodeD d s l : ofd d -> decodeD e1 d s l = decodeD e2 d s l.
Proof.
  intros H. unfold decodeD. destruct (decodeD_entry s) as [[len ab]|] eqn:EE; [|reflexivity]. destruct (ab =? 0); [reflexivity|].
  eapply rq_bind; [apply q_getBits; [exact (proj1 H)|eapply decodeD_bits; exact EE]|apply iv_getBits; exact (proj1 H)|]. intros [i out] K. reflexivity.
Qed.
Lemma q_huff hLL hD : small hLL -> small hD -> forall f d, ofd d -> huffLoop e1 cap win f hLL hD d = huffLoop e2 cap win f hLL hD d.
Proof.
  intros S1 S2. induction f; intros d H; cbn [huffLoop]; [reflexivity|].
  eapply rq_bind; [apply q_symbol; [exact (proj1 H)|exact S1]|apply iv_symbol; exact (proj1 H)|]. intros [i sym] K. pose proof (of_set_in H K) as H0. destruct sym as [s|]; [|reflexivity].
  eapply rq_bind; [apply q_decodeLL; exact H0|apply of_decodeLL; exact H0|]. intros [d1 t] H1. change (ofd d1) in H1.
  destruct t as [t|]; [|reflexivity]. destruct (tdist t =? 0)%N.
  { destruct (256 <=? lol t)%N; [reflexivity|]. apply IHf. apply of_set_out; auto. apply oe_writeByte. exact (proj2 H1). }
  eapply rq_bind; [apply q_symbol; [exact (proj1 H1)|exact S2]|apply iv_symbol; exact (proj1 H1)|]. intros [i2 sym2] K2. pose proof (of_set_in H1 K2) as H1'. destruct sym2 as [s2|]; [|reflexivity].
  eapply rq_bind; [apply q_decodeD; exact H1'|apply of_decodeD; exact H1'|]. intros [d2 t2] H2. change (ofd d2) in H2.
  destruct t2 as [t2|]; [|reflexivity]. change (window_lookupSlice e1 win) with (window_lookupSlice e2 win). destruct (window_lookupSlice _ _ _ _ _) as [p|]; [|reflexivity].
  eapply rq_bind; [reflexivity|apply oe_write; exact (proj2 H2)|]. intros o H3.
  pose proof (@oe_copy all send S e2 cap win (tdist t2) (N.to_nat (lol t2) - length p) _ H3) as C. change (copyLoop e1 cap win) with (copyLoop e2 cap win).
  destruct (copyLoop _ _ _ _ _ _); [apply IHf; exact (of_set_out H2 C)|reflexivity].
Qed.
Lemma q_decodeX d s done total : ofd d -> decodeX e1 d s done total = decodeX e2 d s done total.
Proof.
  intros H. assert (R : forall bits base v, bits <= 24 -> (let* (i, out) := getBits e1 (d_in d) bits in
    let d := DST i (d_out d) in
    match out with
    | None => Ok (propagateError d true, None)
    | Some out =>
      let count := base + N.to_nat out in
      if total - length done <? count then Ok (corruptf d CRepeatCount, None)
      else Ok (d, Some (done ++ repeat v count))
    end) = (let* (i, out) := getBits e2 (d_in d) bits in
    let d := DST i (d_out d) in
    match out with
    | None => Ok (propagateError d true, None)
    | Some out =>
      let count := base + N.to_nat out in
      if total - length done <? count then Ok (corruptf d CRepeatCount, None)
      else Ok (d, Some (done ++ repeat v count))
    end)).
  { intros bits base v Hbits. eapply rq_bind; [apply q_getBits; [exact (proj1 H)|exact Hbits]|apply iv_getBits; exact (proj1 H)|]. intros [i out] K. reflexivity. }
  unfold decodeX. destruct (s <? 16)%N; [reflexivity|]. destruct (s =? 16)%N.
  { destruct (rev done); [reflexivity|apply R; lia]. }
  destruct (s =? 17)%N; [apply R; lia|]. destruct (s =? 18)%N; [apply R; lia|]. reflexivity.
Qed.
Lemma q_lengths h : small h -> forall f d done total, ofd d -> lengthsLoop e1 f h d done total = lengthsLoop e2 f h d done total.
Proof.
  intros S1. induction f; intros d done total H; cbn [lengthsLoop]; destruct (_ <? _); try reflexivity.
  eapply rq_bind; [apply q_symbol; [exact (proj1 H)|exact S1]|apply iv_symbol; exact (proj1 H)|]. intros [i sym] K. pose proof (of_set_in H K) as H0. destruct sym as [s|]; [|reflexivity].
  eapply rq_bind; [apply q_decodeX; exact H0|apply of_decodeX; exact H0|]. intros [d1 t] H1. change (ofd d1) in H1.
  destruct t; [|reflexivity]. apply IHf. exact H1.
Qed.
Lemma q_trees d : ofd d -> readDynamicTrees e1 d = readDynamicTrees e2 d.
Proof.
  intros H. unfold readDynamicTrees. eapply rq_bind; [apply q_getBits; [exact (proj1 H)|lia]|apply iv_getBits; exact (proj1 H)|]. intros [i out] K. pose proof (of_set_in H K) as H0. destruct out as [out|]; [|reflexivity].
  cbv zeta.
  match goal with |- rbind (readXSizes _ _ (d_in ?D) _) _ = _ => set (d2 := D) end.
  assert (H2 : ofd d2).
  { unfold d2. clear d2. change (ofd (DST i (d_out d))) in H0. revert H0. generalize (DST i (d_out d)). intros D0 HD.
    assert (HD1 : ofd (if logicalNumLLCodes <? 257 + N.to_nat (N.land out 31) then corruptf D0 CHlit else D0))
      by (match goal with |- ofd (if ?b then _ else _) => destruct b end; [apply of_corrupt|]; exact HD).
    revert HD1. generalize (if logicalNumLLCodes <? 257 + N.to_nat (N.land out 31) then corruptf D0 CHlit else D0). intros D1 HD1.
    match goal with |- ofd (if ?b then _ else _) => destruct b end; [apply of_corrupt|]; exact HD1. }
  clearbody d2. eapply rq_bind; [apply q_xsizes; exact (proj1 H2)|apply rall_conj; [apply iv_xsizes; exact (proj1 H2)|apply (xsizes_le (bits24' Hn1)); apply zeros_le]|]. intros [i2 sX] [K2 KX]. pose proof (of_set_in H2 K2) as H2'. destruct sX as [sX|]; [|reflexivity].
  change (e_acc e1) with (e_acc e2). destruct (negb _); [reflexivity|].
  eapply rq_bind; [apply q_lengths; [apply dec_max_le; exact KX|exact H2']|apply of_lengths; exact H2'|]. intros [d3 t] H3. reflexivity.
Qed.
End Input.

(** ** The Reader *)
Notation ofr := (ofr all send).
Notation ofi := (ofi all send).
Lemma q_body r bt fin : ofr r -> readBlockBody e1 r bt fin = readBlockBody e2 r bt fin.
Proof.
  intros H. unfold readBlockBody. destruct bt; try reflexivity.
  - cbv zeta. unfold on_d. eapply rq_bind with (P := fun _ => True); [unfold decodeHuffmanBlock; eapply q_huff; [apply fixed_small_ll|apply fixed_small_d|exact (ofr_ev _ H)]|apply rall_true|]. intros [] _; reflexivity.
  - eapply rq_bind; [eapply q_trees; exact H|apply rall_conj; [apply of_trees; exact H|apply (trees_le (bits24' Hn1))]|]. intros [d [t|]] [Hd Ht]; [|reflexivity]. cbv zeta. unfold on_d.
    eapply rq_bind with (P := fun _ => True); [unfold decodeHuffmanBlock; eapply q_huff; [apply dec_max_le; apply Ht|apply dec_max_le; apply Ht|exact (ofr_ev _ (@ofr_d all send r d Hd))]|apply rall_true|]. intros [] _; reflexivity.
Qed.
Lemma q_block r : ofr r -> readFlateBlock e1 r = readFlateBlock e2 r.
Proof.
  intros H. unfold readFlateBlock. eapply rq_bind; [eapply q_getBits; [apply ofr_iv; exact H|lia]|apply iv_getBits; apply ofr_iv; exact H|]. intros [i out] K. pose proof (ofr_in H K) as K1. cbv zeta. destruct out; [|reflexivity].
  eapply rq_bind with (P := fun _ => True); [apply q_body; apply ofr_ev; exact K1|apply rall_true|]. intros [] _; reflexivity.
Qed.
Lemma q_blocks : forall f r, ofr r -> blocksLoop e1 f r = blocksLoop e2 f r.
Proof.
  induction f; intros r H; cbn [blocksLoop]; [reflexivity|]. eapply rq_bind with (P := fstR ofr); [apply q_block; auto|apply ofr_block; auto|]. intros [r1 [|]] H1; [apply IHf; exact H1|reflexivity].
Qed.
Lemma q_streams : forall f r, ofi r -> streamsLoop e1 f r = streamsLoop e2 f r.
Proof.
  induction f; intros r H; cbn [streamsLoop]; destruct (i_err (r_in r)); try reflexivity.
  change (readHeader e1) with (readHeader e2).
  eapply rq_bind with (P := fun x : reader * bool => if snd x then ofr (fst x) else True); [reflexivity|eapply rall_impl; [|apply ofr_header; exact H]; intros [? [|]] Hx; [exact Hx|exact I]|]. intros [r1 [|]] H1; cbn [fst snd] in H1; [|reflexivity].
  assert (H1' : ofr (set_rout r1 (o_sumreset (r_out r1)))).
  { apply ofr_out; auto. destruct H1 as [_ H1]. unfold r_out. destruct (d_out (r_d r1)); exact H1. }
  cbv zeta. eapply rq_bind with (P := ofr); [apply q_blocks; exact H1'|apply ofr_blocks; exact H1'|].
  intros r2 H2. eapply rq_bind with (P := fstR ofr); [reflexivity|apply ofr_footer; apply ofr_out; auto; apply oe_mustFlush; exact (proj2 H2)|]. intros [r3 [|]] H3; [apply IHf; apply ofr_ofi; exact H3|reflexivity].
Qed.
Lemma q_thread r : ofi r -> readThread e1 r = readThread e2 r.
Proof.
  intros H. unfold readThread. eapply rq_bind with (P := fun _ => True); [apply q_streams; destruct r; exact H|apply rall_true|]. intros q _. reflexivity.
Qed.
End W.
