(** Properties of the Writer that are false of the code: witnesses. *)
From Verif Require Import Base SpecChecksum SpecHuffman SpecDeflate SpecEvents MChecksum MToken MCommon MWriter SpecLib SpecSession MSession
  PToken PHuffman PTree PBits PActs PBlocks PCompress PInst Demo PDemo.

(** ** C05: PartialFlush does not push all bits.  Twenty bytes are accepted,
    Flush(PartialFlush) succeeds, and not a single byte has reached the
    underlying writer. *)
Theorem C05_refuted :
  lib_ok demo_wenv /\
  exists w, w_run demo_wenv (newWriter [WithFormat RawFormat; WithMemoryLevel 1]) [OWrite (repeat 97%N 20); OFlush PartialFlush] = Ok (w, None) /\
    sink (w_out w) = [].
Proof. split; [apply demo_lib_ok|]. eexists. split; vm_compute; reflexivity. Qed.

(** ** C23: FixedStrategy does not force static codes.  The output starts with
    a block of type 2 (dynamic codes). *)
Definition nomatch_env : wenv :=
  WEnv 8 (fun _ _ _ _ => None) (fun _ => N.to_nat 4096) flat_huff (fun _ _ => None) (fun _ => None) (fun _ => None).
Lemma nomatch_lib_ok : lib_ok nomatch_env.
Proof.
  constructor.
  - right. reflexivity.
  - intros n freq Hn Hl. apply flat_huff_ok; auto.
  - intros calls o hist buf d len E. discriminate.
Qed.
Theorem C23_refuted :
  lib_ok nomatch_env /\
  exists w b rest, w_session nomatch_env (newWriter [WithFormat RawFormat; WithMemoryLevel 1; WithStrategy FixedStrategy]) [OWrite (repeat 200%N 40)] = Ok (w, None) /\
    sink (w_out w) = b :: rest /\ firstn 3 (bits_of_N 8 b) = [false; false; true].
Proof. split; [apply nomatch_lib_ok|]. eexists _, _, _. split; [|split]; vm_compute; reflexivity. Qed.

(** ** C26: the automatically detected text flag of a first stream is inherited
    by the next one: the bytes 0 1 2 are marked as text (FTEXT is bit 0 of the
    fourth byte of the second header), although a Writer that only writes this
    stream marks them as binary. *)
Theorem C26_refuted :
  lib_ok demo_wenv /\
  (exists w s1 s2 rest, w_session demo_wenv (newWriter [WithFormat GZIPFormat; WithMemoryLevel 1])
      [OWrite [97; 98; 99]%N; OFlush FinishFlush; OWrite [0; 1; 2]%N] = Ok (w, None) /\
     sink (w_out w) = s1 ++ s2 /\ length s1 = 33 /\ s2 = [0x1f; 0x8b; 8; 3]%N ++ rest) /\
  (exists w rest, w_session demo_wenv (newWriter [WithFormat GZIPFormat; WithMemoryLevel 1]) [OWrite [0; 1; 2]%N] = Ok (w, None) /\
     sink (w_out w) = [0x1f; 0x8b; 8; 2]%N ++ rest).
Proof.
  split; [apply demo_lib_ok|]. split.
  - eexists _, (firstn 33 _), (skipn 33 _), _. split; [vm_compute; reflexivity|]. split; [symmetry; apply firstn_skipn|]. split; vm_compute; reflexivity.
  - eexists _, _. split; vm_compute; reflexivity.
Qed.

(** ** C08: a Writer whose underlying writer failed in its Flush method keeps
    pending bits over Close and Reset and puts them before the next stream. *)
Definition flush_fails_env : wenv :=
  WEnv 8 demo_match (fun _ => N.to_nat 4096) flat_huff (fun _ _ => None) (fun n => if Nat.eqb n 0 then Some (IOErr 7) else None) (fun _ => None).
Lemma flush_fails_lib_ok : lib_ok flush_fails_env.
Proof. destruct demo_lib_ok as [A B C]. constructor; auto. Qed.
Theorem C08_refuted :
  lib_ok flush_fails_env /\
  exists w1 w2 w3 w4 w5,
    w_run flush_fails_env (newWriter [WithFormat RawFormat; WithMemoryLevel 1]) [OWrite (repeat 97%N 20); OFlush BlockFlush] = Ok (w1, Some (IOErr 7)) /\
    w_Close flush_fails_env w1 = Ok (w2, Some (IOErr 7)) /\
    w_Reset w2 [] = Ok w3 /\
    w_session flush_fails_env w3 [OWrite [98]%N] = Ok (w4, None) /\
    w_session demo_wenv (newWriter [WithFormat RawFormat; WithMemoryLevel 1]) [OWrite [98]%N] = Ok (w5, None) /\
    sink (w_out w5) = [0; 1; 0; 254; 255; 98; 1; 0; 0; 255; 255]%N /\
    sink (w_out w4) = [74; 196; 2; 0]%N ++ sink (w_out w5).
Proof.
  split; [apply flush_fails_lib_ok|]. eexists _, _, _, _, _.
  repeat (split; [vm_compute; reflexivity|]). vm_compute. reflexivity.
Qed.

(** ** C09: incompressible data makes the Writer panic, whatever the libraries do. *)
(** every byte value 256 times, 65536 bytes in all *)
Definition all_bytes : list N := map N.of_nat (seq 0 256).
Definition flat_data : list N := concat (repeat all_bytes 256).

Lemma concat_repeat_len {A} (l : list A) k : length (concat (repeat l k)) = k * length l.
Proof. induction k as [|k IH]; cbn [repeat concat]; auto. rewrite app_length, IH. lia. Qed.
Lemma flat_data_len : lenN flat_data = 65536%N.
Proof. unfold lenN, flat_data. rewrite concat_repeat_len. unfold all_bytes. rewrite map_length, seq_length. lia. Qed.
Lemma flat_data_in c : In c flat_data -> (c < 256)%N.
Proof.
  unfold flat_data. intros H. apply in_concat in H. destruct H as [l [H1 H2]]. apply repeat_spec in H1. subst l.
  unfold all_bytes in H2. apply in_map_iff in H2. destruct H2 as [x [<- H]]. apply in_seq in H. lia.
Qed.

Lemma no_match env calls opt hist buf : lz_contract env -> o_strategy opt = HuffmanOnlyStrategy ->
  e_match env calls (hybridOptions opt) hist buf = None.
Proof.
  intros H E. destruct (e_match env calls (hybridOptions opt) hist buf) as [[d len]|] eqn:EM; auto. exfalso.
  apply H in EM. unfold hybridOptions in EM. rewrite E in EM. cbn in EM. lia.
Qed.
Lemma set_lz_lz w l : w_lz (set_in (set_lz w l) (w_in w)) = l.
Proof. destruct w; reflexivity. Qed.
Lemma literal_loop env opt : lz_contract env -> o_strategy opt = HuffmanOnlyStrategy -> forall fuel w, lz_o (w_lz w) = hybridOptions opt ->
  length (lz_buf (w_lz w)) <= fuel ->
  exists w', compressSlowLoop env fuel w = Ok (w', lz_buf (w_lz w), map makeLiteralToken (lz_buf (w_lz w))).
Proof.
  intros HL HS. induction fuel as [|f IH]; intros w HO Hf.
  - destruct (lz_buf (w_lz w)) as [|x l] eqn:E; [|cbn in Hf; lia]. exists w. cbn [compressSlowLoop]. rewrite E. reflexivity.
  - cbn [compressSlowLoop]. destruct (lz_buf (w_lz w)) as [|x l] eqn:E.
    { exists w. reflexivity. }
    rewrite <- E. unfold inputBufferAdvance. rewrite HO, no_match by auto. unfold lz_take. rewrite E. cbn [fst snd firstn skipn].
    set (w1 := set_in _ _). assert (E1 : w_lz w1 = LZ (lz_o (w_lz w)) (rev [x] ++ lz_hist (w_lz w)) l (S (lz_calls (w_lz w)))).
    { unfold w1. destruct w; reflexivity. }
    destruct (IH w1) as [w' R].
    { rewrite E1. cbn [lz_o]. auto. }
    { rewrite E1. cbn [lz_buf]. cbn [length] in Hf. lia. }
    rewrite R. cbn [rbind]. rewrite E1. cbn [lz_buf]. exists w'. reflexivity.
Qed.

(** lengths of the bits of action lists *)
Definition bits_act (a : act) : Prop := match a with ABits n _ => n <= 32 | AEv _ => True | _ => False end.
Definition act_len (a : act) : nat := match a with ABits n _ => n | _ => 0 end.
Lemma acts_len l : Forall bits_act l -> forall pos, length (acts_bits pos l) = list_sum (map act_len l).
Proof.
  induction 1 as [|a l Ha Hl IH]; intros pos; [reflexivity|]. cbn [acts_bits map list_sum fold_right]. rewrite app_length, IH.
  destruct a; cbn [bits_act] in Ha; try contradiction; cbn [act_bits act_len length]; rewrite ?length_bits_of_N; reflexivity.
Qed.
Lemma acts_len_le l : Forall bits_act l -> list_sum (map act_len l) <= 32 * length l.
Proof.
  induction 1 as [|a l Ha Hl IH]; [cbn; lia|]. cbn [map list_sum fold_right length]. unfold list_sum in IH.
  destruct a; cbn [bits_act] in Ha; try contradiction; cbn [act_len]; lia.
Qed.
Lemma list_sum_app l1 l2 : list_sum (l1 ++ l2) = list_sum l1 + list_sum l2.
Proof. induction l1; cbn [app list_sum fold_right]; auto. unfold list_sum in *. lia. Qed.

Lemma kraft_bound ll : Forall (fun b => 1 <= b <= 15) ll ->
  (128 * N.of_nat (length ll) + 64 * (8 * N.of_nat (length ll)) <= kraft ll + 64 * N.of_nat (list_sum ll))%N.
Proof.
  induction 1 as [|b l Hb Hl IH]; [reflexivity|]. cbn [length kraft fold_right list_sum]. unfold kraft in IH. unfold list_sum in IH.
  assert (K : (640 <= (if Nat.eqb b 0 then 0 else 2 ^ N.of_nat (15 - b)) + 64 * N.of_nat b)%N).
  { destruct Hb as [H1 H2].
    do 16 (destruct b as [|b]; [try lia; vm_compute; discriminate|]). lia. }
  lia.
Qed.
Lemma kraft_app a b : kraft (a ++ b) = (kraft a + kraft b)%N.
Proof. induction a as [|x a IH]; cbn [app kraft fold_right]; auto. unfold kraft in *. lia. Qed.


Definition plain (a : act) : Prop := match a with ABits _ _ | AEv _ => True | _ => False end.
Lemma plain_bits l : Forall plain l -> acts_ok l -> Forall bits_act l.
Proof.
  intros H1 H2. apply Forall_forall. intros a Ha. unfold acts_ok in H2. rewrite Forall_forall in H1, H2. specialize (H1 a Ha). specialize (H2 a Ha).
  destruct a; cbn in *; auto.
Qed.
Lemma plain_flat {A} (f : A -> list act) l : (forall x, Forall plain (f x)) -> Forall plain (flat_map f l).
Proof. intros H. induction l; cbn [flat_map]; auto. apply Forall_app. auto. Qed.
Lemma plain_opt n x : Forall plain (opt_bits n x).
Proof. unfold opt_bits. destruct (Nat.eqb n 0); repeat constructor. Qed.
Lemma plain_tok ll d t : Forall plain (tok_acts ll d t).
Proof.
  unfold tok_acts. destruct (symbolLL t) as [[[[sl|] nl] xl]| |]; auto. destruct (symbolD t) as [[[sd nd] xd]| |]; auto.
  constructor; [exact I|]. apply Forall_app. split; [apply plain_opt|]. destruct sd; [|constructor]. constructor; [exact I|apply plain_opt].
Qed.
Lemma plain_x x t : Forall plain (x_acts x t).
Proof. unfold x_acts. destruct (symbolX t) as [[[sx|] n] v]; auto. constructor; [exact I|apply plain_opt]. Qed.
Lemma plain_dyn a b c n m x k t f : Forall plain (dyn_acts a b c n m x k t f).
Proof.
  unfold dyn_acts. repeat (apply Forall_app; split); try (repeat constructor; fail).
  - apply Forall_forall. intros y Hy. apply in_map_iff in Hy. destruct Hy as [i [<- _]]. exact I.
  - apply plain_flat, plain_x.
  - apply plain_flat, plain_tok.
Qed.
Lemma lit_acts ll d c : (c < 256)%N -> tok_acts ll d (makeLiteralToken c) = [hc_act ll c].
Proof. intros H. unfold tok_acts. rewrite symbolLL_lit by auto. reflexivity. Qed.
Lemma lits_len ll d data : (forall c, In c data -> c < 256)%N ->
  list_sum (map act_len (flat_map (tok_acts ll d) (map makeLiteralToken data))) = list_sum (map (fun c => code_size ll c) data).
Proof.
  induction data as [|c data IH]; intros H; [reflexivity|]. cbn [map flat_map]. rewrite lit_acts by (apply H; left; auto).
  rewrite map_app, list_sum_app, IH by (intros x Hx; apply H; right; auto). unfold hc_act, enc_code. cbn [map act_len fst]. cbn [list_sum fold_right]. fold (list_sum (map (fun c0 => code_size ll c0) data)). lia.
Qed.
Lemma len_flat {A C} (f : A -> list C) k l : (forall x, length (f x) <= k) -> length (flat_map f l) <= k * length l.
Proof. intros H. induction l as [|x l IH]; cbn [flat_map length]; [lia|]. rewrite app_length. specialize (H x). lia. Qed.
Lemma len_opt n x : length (opt_bits n x) <= 1.
Proof. unfold opt_bits. destruct (Nat.eqb n 0); cbn; lia. Qed.
Lemma len_tok ll d t : length (tok_acts ll d t) <= 4.
Proof.
  unfold tok_acts. destruct (symbolLL t) as [[[[sl|] nl] xl]| |]; cbn [length]; try lia. destruct (symbolD t) as [[[sd nd] xd]| |]; cbn [length]; try lia.
  rewrite app_length. pose proof (len_opt nl xl). destruct sd; cbn [length]; [|lia]. pose proof (len_opt nd xd). lia.
Qed.
Lemma len_xacts x t : length (x_acts x t) <= 2.
Proof. unfold x_acts. destruct (symbolX t) as [[[sx|] n] v]; cbn [length]; try lia. pose proof (len_opt n v). lia. Qed.
Lemma XTok_len done ts out : XTok done ts out -> length ts <= length out.
Proof. induction 1; cbn [length] in *; rewrite ?app_length, ?repeat_length; lia. Qed.
Lemma trim_le n sx : trim_numX n sx <= n.
Proof. induction n as [|n IH]; cbn [trim_numX]; auto. destruct (_ && _)%bool; lia. Qed.
Lemma sum_repeat {A} (f : A -> nat) l k : list_sum (map f (concat (repeat l k))) = k * list_sum (map f l).
Proof. induction k as [|k IH]; cbn [repeat concat]; auto. rewrite map_app, list_sum_app, IH. lia. Qed.

Lemma map_nth_firstn (l : list nat) k : k <= length l -> map (fun i => nth i l 0) (seq 0 k) = firstn k l.
Proof.
  revert k. induction l as [|x l IH]; intros [|k] H; cbn [length] in H; try reflexivity; [lia|]. cbn [seq map firstn nth]. f_equal.
  rewrite <- seq_shift, map_map. apply IH. lia.
Qed.

Section Panic.
Variable env : wenv.
Hypothesis HL : lib_ok env.


Lemma flat_lts_ok : Forall ltok_ok (map TLit flat_data).
Proof. apply Forall_map, Forall_forall. intros c Hc. apply flat_data_in. auto. Qed.
Lemma flat_toks : toks (map TLit flat_data) = map makeLiteralToken flat_data ++ [makeStopToken].
Proof. unfold toks. rewrite map_map. reflexivity. Qed.
Lemma flat_in c : (c < 256)%N -> In c flat_data.
Proof.
  intros H. unfold flat_data. apply in_concat. exists all_bytes. split.
  - change 256 with (S 255). left. auto.
  - unfold all_bytes. apply in_map_iff. exists (N.to_nat c). split; [apply N2Nat.id|apply in_seq; lia].
Qed.
(** The code lengths of the 256 literals sum up to more than 2048. *)
Lemma flat_sum ll : length ll = 288 -> sizes_le 15 ll -> (kraft ll <= 32768)%N -> (forall c, c < 257 -> 0 < nth c ll 0) ->
  2049 <= list_sum (firstn 256 ll).
Proof.
  intros L H15 HK HP.
  assert (E : ll = firstn 256 ll ++ skipn 256 ll) by (symmetry; apply firstn_skipn).
  assert (L1 : length (firstn 256 ll) = 256) by (rewrite firstn_length; lia).
  assert (B : Forall (fun b => 1 <= b <= 15) (firstn 256 ll)).
  { apply Forall_forall. intros b Hb. apply In_nth with (d := 0) in Hb. destruct Hb as [i [Hi <-]].
    rewrite L1 in Hi. assert (EN : nth i (firstn 256 ll) 0 = nth i ll 0) by (rewrite E at 2; rewrite app_nth1; auto; lia).
    rewrite EN. split; [apply HP; lia|]. unfold sizes_le in H15. rewrite Forall_forall in H15. apply H15. apply nth_In. lia. }
  pose proof (kraft_bound B) as K. rewrite L1 in K.
  rewrite E, kraft_app in HK.
  assert (K2 : (1 <= kraft (skipn 256 ll))%N).
  { assert (EN : nth 256 ll 0 = nth 0 (skipn 256 ll) 0) by (rewrite E at 1; rewrite app_nth2; [rewrite L1; reflexivity|lia]).
    pose proof (HP 256 ltac:(lia)) as Q. rewrite EN in Q. destruct (skipn 256 ll) as [|b r]; [cbn in Q; lia|]. cbn [nth] in Q.
    cbn [kraft fold_right]. destruct (Nat.eqb_spec b 0); [lia|]. assert (0 < 2 ^ N.of_nat (15 - b))%N by (apply N.neq_0_lt_0, N.pow_nonzero; lia). lia. }
  lia.
Qed.
Lemma flat_dyn (p : plan (map TLit flat_data)) : plan_ok env p -> (lenN flat_data * 8 + 35 < dyn_len p false)%N.
Proof.
  intros P. destruct (po_len P) as [L1 L2]. destruct (po_proper P) as [P1 P2]. pose proof (po_codes P) as HC. rewrite flat_toks in HC.
  apply Forall_app in HC. destruct HC as [HC1 HC2].
  assert (HP : forall c, c < 257 -> 0 < nth c (pl_ll p) 0).
  { intros c Hc. destruct (Nat.eq_dec c 256) as [->|].
    - inversion HC2 as [|? ? [Q _] _]; subst. apply (Q 256%N). reflexivity.
    - rewrite Forall_forall in HC1. destruct (HC1 (makeLiteralToken (N.of_nat c))) as [Q _].
      { apply in_map, flat_in. lia. }
      specialize (Q (N.of_nat c)). unfold code_size in Q. rewrite Nat2N.id in Q. apply Q. unfold llsym. rewrite symbolLL_lit by lia. reflexivity. }
  pose proof (proper_le15 P1) as H15.
  assert (HK : (kraft (pl_ll p) <= 32768)%N).
  { destruct P1 as [_ [K|[K|[K _]]]]; [unfold complete_code in K; lia|exfalso..].
    - unfold used_symbols in K. pose proof (HP 0 ltac:(lia)) as Q. destruct (pl_ll p) as [|b r]; [cbn in Q; lia|]. cbn [nth filter] in *.
      destruct (Nat.eqb_spec b 0); [lia|]. cbn in K. discriminate.
    - unfold used_symbols in K. pose proof (HP 0 ltac:(lia)) as Q. pose proof (HP 1 ltac:(lia)) as Q1. destruct (pl_ll p) as [|b [|b' r]]; [cbn in Q; lia|cbn in Q1; lia|]. cbn [nth filter] in *.
      destruct (Nat.eqb_spec b 0); [lia|]. destruct (Nat.eqb_spec b' 0); [lia|]. cbn in K. discriminate. }
  pose proof (flat_sum L1 H15 HK HP) as HS.
  assert (HB : Forall bits_act (pl_dyn p false)).
  { apply plain_bits; [apply plain_dyn|]. eapply dyn_ok; eauto; [apply flat_lts_ok|apply (po_dyn P)]. }
  unfold dyn_len. rewrite acts_len by auto.
  assert (LO : 256 * list_sum (firstn 256 (pl_ll p)) <= list_sum (map act_len (pl_dyn p false))).
  { unfold pl_dyn, dyn_acts. rewrite flat_toks. rewrite !map_app, !list_sum_app, flat_map_app, map_app, list_sum_app.
    rewrite lits_len by (intros; apply flat_data_in; auto).
    assert (E : list_sum (map (fun c => code_size (pl_ll p) c) flat_data) = 256 * list_sum (firstn 256 (pl_ll p))).
    { unfold flat_data. rewrite sum_repeat. f_equal. unfold all_bytes. rewrite map_map. f_equal. etransitivity; [|apply (@map_nth_firstn (pl_ll p) 256); rewrite L1; lia].
      apply map_ext. intros a. unfold code_size. rewrite Nat2N.id. reflexivity. }
    rewrite E. lia. }
  assert (UP : list_sum (map act_len (pl_dyn p false)) <= 32 * (5 + 19 + 2 * 320 + 1 + 4 * (length flat_data + 1) + 1)).
  { etransitivity; [apply acts_len_le; auto|]. apply Nat.mul_le_mono_l. unfold pl_dyn, dyn_acts. rewrite !app_length, map_length, seq_length. cbn [length].
    assert (X1 : length (flat_map (x_acts (pl_x p)) (pl_xt p)) <= 2 * length (pl_xt p)) by (apply len_flat, len_xacts).
    assert (X2 : length (flat_map (tok_acts (pl_ll p) (pl_d p)) (toks (map TLit flat_data))) <= 4 * length (toks (map TLit flat_data))) by (apply len_flat, len_tok).
    assert (X3 : length (toks (map TLit flat_data)) = length flat_data + 1) by (unfold toks; rewrite app_length, !map_length; reflexivity).
    pose proof (XTok_len (dp_tok (po_dyn P))) as X4. rewrite app_length, !firstn_length in X4.
    pose proof (trim_le physicalNumXCodes (pl_x p)) as X5. rewrite <- (dp_numX (po_dyn P)) in X5. change physicalNumXCodes with 19 in X5. lia. }
  pose proof flat_data_len as LD. unfold cnt. unfold lenN in *.
  set (t := list_sum (map act_len (pl_dyn p false))) in *. set (ld := length flat_data) in *. set (sm := list_sum (firstn 256 (pl_ll p))) in *. clearbody t ld sm.
  rewrite N.mod_small by (unfold two64; lia). lia.
Qed.

(** Write panics for the default options apart from the strategy (raw format
    only to keep the statement free of the underlying writer's behaviour). *)
Theorem C09_refuted : w_Write env (newWriter [WithFormat RawFormat; WithStrategy HuffmanOnlyStrategy]) flat_data = Panic PAssert.
Proof.
  set (opts := [WithFormat RawFormat; WithStrategy HuffmanOnlyStrategy]).
  unfold w_Write. change (w_state (newWriter opts)) with noStream. cbv iota.
  destruct flat_data as [|c0 rest] eqn:EF; [apply (f_equal lenN) in EF; rewrite flat_data_len in EF; discriminate|].
  assert (X : exists n, 2 * length (c0 :: rest) + 2 = S n) by (exists (2 * length (c0 :: rest) + 1); lia). destruct X as [n ->].
  cbn [writeLoop]. rewrite <- EF in *. unfold lz_write.
  assert (EC : lz_cap (w_lz (newWriter opts)) = 131072%N) by reflexivity. rewrite EC. change (lz_buf (w_lz (newWriter opts))) with (@nil N). cbn [lenN length].
  change (lenN (@nil N)) with 0%N. rewrite flat_data_len. change (N.min 65536 (131072 - 0)) with 65536%N.
  assert (EL : N.to_nat 65536 = length flat_data) by (rewrite <- flat_data_len; unfold lenN; lia).
  rewrite EL, firstn_all, Nat.ltb_irrefl. rewrite Bool.orb_false_r.
  assert (EN : Nat.eqb (length flat_data) 0 = false) by (apply Nat.eqb_neq; rewrite EF; discriminate). rewrite EN. cbn [app].
  set (w1 := set_lz _ _). assert (EB : lz_buf (w_lz w1) = flat_data) by reflexivity.
  unfold compressImpl. rewrite EB, EF. rewrite <- EF. change (w_state w1) with noStream. cbn [rbind]. cbv iota.
  assert (HW : exists w2, writeHeader env w1 = Ok (w2, true) /\ w_lz w2 = w_lz w1 /\ w_cfg w2 = w_cfg w1).
  { unfold writeHeader. eexists. split; [reflexivity|]. split; reflexivity. }
  destruct HW as [w2 [-> [H1 H2]]]. cbn [rbind].
  assert (H1' : w_lz (w_setstate w2 openStream) = w_lz w1) by (rewrite <- H1; destruct w2; reflexivity).
  assert (H2' : w_cfg (w_setstate w2 openStream) = w_cfg w1) by (rewrite <- H2; destruct w2; reflexivity).
  change (w_state w1) with noStream. cbv iota. cbn [rbind]. rewrite H2'. change (isStoreConfig (w_cfg w1)) with false. cbv iota.
  set (w3 := w_setstate w2 openStream) in *. clearbody w3. clear w2 H1 H2.
  unfold compressSlow. rewrite H1', EB, flat_data_len. change (65536 <? compressedBlockSize)%N with false. cbn [andb].
  destruct (@literal_loop env (w_opt (newWriter opts)) (lib_lz HL) eq_refl (length flat_data) w3) as [w4 R].
  { rewrite H1'. reflexivity. }
  { rewrite H1', EB. auto. }
  rewrite H1', EB in R. rewrite R. cbn [rbind]. rewrite <- flat_toks.
  destruct (plan_exists (lib_bpb HL) (lib_huff HL) flat_lts_ok) as [p P].
  rewrite (compressTokens_eq (lib_bpb HL) (bw_writer env) w4 flat_data false flat_lts_ok P).
  pose proof (flat_dyn P) as HD. apply N.ltb_lt in HD. rewrite HD. rewrite writeStored_panic by (rewrite flat_data_len; lia). reflexivity.
Qed.
End Panic.
Print Assumptions C09_refuted.
