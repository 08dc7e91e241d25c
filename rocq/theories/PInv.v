(** The session invariant of the Writer and its preservation by every method. *)
From Verif Require Import Base SpecChecksum SpecEvents SpecHuffman SpecDeflate SpecFormats MChecksum PChecksum MToken MCommon MWriter MReader SpecLib
  PToken PHuffman PTree PBits PActs SpecBlocks PAt PBlocks PCompress PWriter PSession.

Definition lz_adv (l : lz77) (p : list N) : lz77 :=
  LZ (lz_o l) (rev p ++ lz_hist l) (skipn (length p) (lz_buf l)) (S (lz_calls l)).

Lemma skipn_firstn_len {A} n (l : list A) : skipn (length (firstn n l)) l = skipn n l.
Proof.
  rewrite firstn_length. destruct (Nat.le_gt_cases n (length l)).
  - rewrite Nat.min_l by lia. reflexivity.
  - rewrite Nat.min_r by lia. rewrite !skipn_all2 by lia. reflexivity.
Qed.

Lemma copy_match lk d : forall len hist buf, len <= length buf ->
  (forall i, i < len -> lk (rev (firstn i buf) ++ hist) d = nth_error buf i) ->
  copy_bytes lk hist d len = Some (rev (firstn len buf) ++ hist).
Proof.
  induction len as [|len IH]; intros hist buf Hl H; auto.
  destruct buf as [|c buf]; [cbn in Hl; lia|]. cbn [length] in Hl.
  pose proof (H 0) as H0. cbn [firstn rev app nth_error] in H0. cbn [copy_bytes]. rewrite H0 by lia.
  rewrite (IH (c :: hist) buf).
  - cbn [firstn rev]. now rewrite <- app_assoc.
  - lia.
  - intros i Hi. specialize (H (S i) ltac:(lia)). cbn [firstn rev nth_error] in H. rewrite <- app_assoc in H. exact H.
Qed.

(** The events of a session beside the bits written (C83). *)
Inductive ELog (opt : options) : list (list N) -> evst -> list bool -> list pre_event -> Prop :=
| el_nil : ELog opt [] EvIdle [] []
| el_begin ds w es h : ELog opt ds EvIdle w es -> header_ok h ->
    ELog opt ds EvOpen (w ++ bits_of_bytes (hdr_bytes opt h)) (es ++ [ev_simple StreamBeginEvent; ev_header h])
| el_block ds w es fin wb bes : ELog opt ds EvOpen w es -> BlockS proper_code (length w) fin wb bes ->
    ELog opt ds (if fin then EvLast else EvOpen) (w ++ wb) (es ++ bes)
| el_end ds w es d pad : ELog opt ds EvLast w es -> length pad < 8 -> (length w + length pad) mod 8 = 0 ->
    ELog opt (ds ++ [d]) EvIdle (w ++ pad ++ bits_of_bytes (ftr_bytes opt d))
      (es ++ [ev_footer (spec_adler32 d) (spec_crc32 d); ev_simple StreamCloseEvent]).

Section Inv.
Variable env : wenv.
Hypothesis Hbpb : bytesPerBlock env = 4 \/ bytesPerBlock env = 8.
Hypothesis Hhuff : huff_ok env.
Variable opt : options.
Hypothesis Hopt : wopt_ok opt.
Variable B : blockpred.
Variable lk : list N -> N -> option N.
Variable i0 t0 : N.          (* totals at the start of the session *)
Variable ev0 : list event.   (* events sent before *)
Variable MP : Prop.          (* may the size assertion of a stored block fail? *)
Notation store := (isStoreConfig (compressConfig opt)).
Hypothesis HBstored : forall pos hist fin data, (lenN data <= 65535)%N -> bytes_ok data ->
  B pos hist fin (acts_bits pos (stored_acts data fin)) (rev data ++ hist).
Variable pf : Prop.            (* may PartialFlush be called? *)
Hypothesis HBempty : pf -> forall pos hist, B pos hist false (acts_bits pos (static_acts [makeStopToken] false)) hist.
Hypothesis HBtok : store = false -> forall pos hist fin w hist',
  Block proper_code lk pos hist fin w hist' -> zero_padded pos w -> B pos hist fin w hist'.
Hypothesis HBmono : forall pos h fin w h' r, B pos h fin w h' -> B pos (h ++ r) fin w (h' ++ r).
Hypothesis Hmatch : store = false -> match_ok env (hybridOptions opt) lk.

Record wok (w : writer) : Prop := WOk {
  k_opt : w_opt w = opt; k_cfg : w_cfg w = compressConfig opt;
  k_lzo : lz_o (w_lz w) = hybridOptions opt; k_buf : bytes_ok (lz_buf (w_lz w));
  k_cap : (lenN (lz_buf (w_lz w)) <= lz_cap (w_lz w))%N;
  k_hdr : header_ok (w_hdr w); k_out : out_ok env (w_out w); k_cnt : counters_ok (w_out w);
  k_err : werr (w_out w) = None }.

(** Events and totals; [c] are the bytes of the open stream consumed so far. *)
Definition WEv (ds : list (list N)) (b : evst) (c : list N) (w : writer) : Prop :=
  exists evs, w_events w = ev0 ++ evs /\ SEvs ds b (map pre_of evs) /\
    EvCnt evs (i0 + tlen ds + lenN c) (t0 + lenN (sink (w_out w))) /\
    inTotal (w_in w) = ((i0 + tlen ds + lenN c) mod two64)%N /\
    outTotal (w_out w) = ((t0 + lenN (sink (w_out w))) mod two64)%N /\
    ELog opt ds b (obits (w_out w)) (map pre_of evs).

(** A stream is open.  [mark] are bits already written when the output was
    [base] (newest first), [d0] the data of this stream up to there; [c] is the
    consumed data, of which [p] is not yet in any block. *)
Record wopen (hd : header) (mark : list bool) (base d0 c p : list N) (ds : list (list N)) (w : writer) : Prop := WOpen {
  q_ok : wok w;
  q_hdr : w_hdr w = hd;
  q_state : w_state w = openStream;
  q_sums : sums_of (w_in w) c;
  q_c : bytes_ok c;
  q_bits : exists w2 d2 h r, obits (w_out w) = mark ++ w2 /\
    Blocks B (length mark) base w2 (rev d2 ++ base) /\
    rev d2 ++ base = h ++ r /\ lz_hist (w_lz w) = rev p ++ h /\ c = d0 ++ d2 ++ p;
  q_ev : WEv ds EvOpen c w }.

Definition post (P : writer -> Prop) (r : res (writer * bool)) : Prop :=
  match r with
  | Ok (w, true) => P w
  | Ok (w, false) => wfailed env w
  | Panic p => p = PAssert /\ MP
  | NoFuel => False
  end.
Lemma post_bind (P Q : writer -> Prop) x k : post P x -> (forall w, P w -> post Q (k w)) ->
  post Q (let? w := x in k w).
Proof. intros H1 H2. destruct x as [[w []]| |]; cbn [rbind post] in *; auto. Qed.
Lemma post_impl (P Q : writer -> Prop) x : post P x -> (forall w, P w -> Q w) -> post Q x.
Proof. intros H1 H2. destruct x as [[w []]| |]; cbn [post] in *; auto. Qed.
Lemma post0_post (P : writer -> Prop) x : post0 env P x -> post P x.
Proof. intros H. destruct x as [[w []]| |]; cbn [post post0] in *; auto; contradiction. Qed.

(** ** Frames *)
Lemma add64_mod a b : add64 (a mod two64) b = ((a + b) mod two64)%N.
Proof. unfold add64. rewrite N.add_mod_idemp_l by discriminate. reflexivity. Qed.
Lemma add64_exists x k : (x < two64)%N -> exists s, x = add64 s k.
Proof.
  intros H. exists (x + (two64 - k mod two64))%N. unfold add64.
  assert (K : (k mod two64 < two64)%N) by (apply N.mod_lt; discriminate).
  rewrite <- N.add_mod_idemp_r by discriminate.
  replace (x + (two64 - k mod two64) + k mod two64)%N with (x + 1 * two64)%N by lia.
  rewrite N.mod_add by discriminate. symmetry. apply N.mod_small. auto.
Qed.

(** Running actions with block events keeps the events invariant. *)
Lemma ran_ev w w' acts ds c fin : w_ran env w w' acts true -> counters_ok (w_out w) ->
  descr fin acts -> WEv ds EvOpen c w -> WEv ds (if fin then EvLast else EvOpen) c w'.
Proof.
  intros [F [[[p [Hp X]] [_ [_ BI]]]  [evs' [pres [rest [E1 [E2 [E3 E4]]]]]]]] Hc [HB HBS] [evs [G1 [G2 [G3 [G4 [G5 G6]]]]]].
  specialize (E3 eq_refl). subst rest. rewrite app_nil_r in E2.
  set (k := (t0 + lenN (sink (w_out w)))%N) in *.
  assert (A1 : outTotal (w_out w) = add64 0 k) by (rewrite G5; unfold add64; f_equal).
  destruct (@add64_exists (outStream (w_out w)) k) as [s A2]; [apply Hc|].
  destruct (E4 0%N s k A1 A2) as [k' [T1 T2]]. destruct (T2 eq_refl) as [T3 [T4 T5]].
  assert (EK : k' = (t0 + lenN (sink (w_out w')))%N) by (unfold k in T5; unfold lenN in *; lia).
  destruct F as [F1 [F2 [F3 [F4 F5]]]].
  exists (evs ++ evs'). rewrite E1, G1, <- app_assoc. split; auto. split.
  { rewrite map_app. rewrite (map_pre_trace T1), <- E2. eapply se_block; eauto. }
  split; [|split; [|split]].
  4:{ rewrite map_app, (map_pre_trace T1), <- E2, BI. eapply el_block; eauto. }
  - rewrite <- EK. eapply EvCnt_trace; eauto.
  - rewrite F4. auto.
  - rewrite T3, EK. unfold add64. now rewrite N.add_0_l.
Qed.

Lemma ran_ok w w' acts : wok w -> w_ran env w w' acts true -> wok w'.
Proof.
  intros [a b c d e f g h i] [[F1 [F2 [F3 [F4 [F5 [F6 F7]]]]]] [[[p [Hp X]] [C [O Bi]]] _]].
  constructor; try congruence; auto; try (rewrite F3; assumption).
  rewrite (oe_err X). auto.
Qed.
Lemma ran_state w w' acts : w_ran env w w' acts true -> w_state w' = w_state w.
Proof. intros [_ [[[p [Hp X]] _] _]]. unfold w_state. apply (oe_state X). Qed.

(** ** Emitting a non-final block for the pending bytes *)
Lemma emit_block hd mark base d0 c p ds w acts :
  wopen hd mark base d0 c p ds w -> acts_ok acts -> descr false acts ->
  (forall pos h, lz_hist (w_lz w) = rev p ++ h -> B pos h false (acts_bits pos acts) (rev p ++ h)) ->
  post (fun w' => wopen hd mark base d0 c [] ds w' /\ w_lz w' = w_lz w) (run (bw_writer env) acts w).
Proof.
  intros H Ha He HBk. destruct (@run_writer env Hbpb acts Ha w (k_out (q_ok H)) (k_cnt (q_ok H))) as [w' [ok [E R]]].
  rewrite E. cbn [post]. destruct ok.
  - split; [|apply R]. destruct (q_bits H) as [w2 [d2 [h [r [Q1 [Q2 [Q3 [Q4 Q5]]]]]]]].
    assert (FL : w_lz w' = w_lz w) by apply R. assert (FI : w_in w' = w_in w) by apply R.
    constructor.
    + eapply ran_ok; eauto. apply (q_ok H).
    + assert (w_hdr w' = w_hdr w) by apply R. pose proof (q_hdr H). congruence.
    + rewrite (ran_state R). apply (q_state H).
    + rewrite FI. apply (q_sums H).
    + apply (q_c H).
    + pose proof R as [_ [[_ [_ [_ Bi]]] _]].
      exists (w2 ++ acts_bits (length (obits (w_out w))) acts), (d2 ++ p), (rev p ++ h), r.
      rewrite Bi. rewrite Q1 at 1. rewrite <- app_assoc. split; auto.
      rewrite rev_app_distr, <- app_assoc, Q3. split; [|split; [apply app_assoc|split]].
      * eapply blocks_snoc; [exact Q2|]. rewrite Q3, Q1, app_length, (app_assoc (rev p) h r).
        apply HBmono. apply HBk. auto.
      * rewrite FL. auto.
      * rewrite app_nil_r. auto.
    + apply (@ran_ev w w' acts ds c false); auto; [apply (k_cnt (q_ok H))|apply (q_ev H)].
  - destruct R as [_ [[F _] _]]. eapply o_failed_wfailed; eauto.
Qed.

(** ** Consuming input *)
Definition advance (w : writer) (p : list N) (n : nat) : writer :=
  set_in (set_lz w (LZ (lz_o (w_lz w)) (rev p ++ lz_hist (w_lz w)) (skipn (length p) (lz_buf (w_lz w))) (lz_calls (w_lz w) + n)))
         (sum_bytes (w_in w) p).

Lemma adv_fields w p n : w_opt (advance w p n) = w_opt w /\ w_cfg (advance w p n) = w_cfg w /\
  w_out (advance w p n) = w_out w /\ w_hdr (advance w p n) = w_hdr w /\ w_num (advance w p n) = w_num w /\
  w_events (advance w p n) = w_events w /\ w_in (advance w p n) = sum_bytes (w_in w) p /\
  lz_o (w_lz (advance w p n)) = lz_o (w_lz w) /\ lz_hist (w_lz (advance w p n)) = rev p ++ lz_hist (w_lz w) /\
  lz_buf (w_lz (advance w p n)) = skipn (length p) (lz_buf (w_lz w)) /\ lz_calls (w_lz (advance w p n)) = lz_calls (w_lz w) + n.
Proof. destruct w; cbn. repeat split. Qed.

Lemma adv_ok w p q n : wok w -> lz_buf (w_lz w) = p ++ q -> wok (advance w p n).
Proof.
  intros [a b c d e f g h i] Hb. destruct (adv_fields w p n) as [A1 [A2 [A3 [A4 [A5 [A6 [A7 [A8 [A9 [A10 A11]]]]]]]]]].
  constructor; try congruence.
  - rewrite A10, Hb, skipn_app, skipn_all, Nat.sub_diag. cbn [skipn app]. rewrite Hb in d. apply bytes_ok_app in d. tauto.
  - rewrite A10. unfold lz_cap in *. rewrite A8. unfold lenN in *. rewrite skipn_length. lia.
Qed.

Lemma adv_open hd mark base d0 c p0 p q ds w n : wopen hd mark base d0 c p0 ds w -> lz_buf (w_lz w) = p ++ q ->
  wopen hd mark base d0 (c ++ p) (p0 ++ p) ds (advance w p n).
Proof.
  intros H Hb. destruct (adv_fields w p n) as [A1 [A2 [A3 [A4 [A5 [A6 [A7 [A8 [A9 [A10 A11]]]]]]]]]].
  pose proof (k_buf (q_ok H)) as Hd. rewrite Hb in Hd. apply bytes_ok_app in Hd. destruct Hd as [Hp Hq].
  constructor.
  - eapply adv_ok; eauto. apply (q_ok H).
  - rewrite A4. apply (q_hdr H).
  - unfold w_state. rewrite A3. apply (q_state H).
  - rewrite A7. apply sums_app; auto; apply H.
  - apply bytes_ok_app. split; auto. apply (q_c H).
  - destruct (q_bits H) as [w2 [d2 [h [r [Q1 [Q2 [Q3 [Q4 Q5]]]]]]]].
    exists w2, d2, h, r. rewrite A3, A9, Q4, Q5, rev_app_distr, !app_assoc. repeat split; auto.
  - destruct (q_ev H) as [evs [G1 [G2 [G3 [G4 [G5 G6]]]]]]. exists evs. rewrite A6, A7, A3.
    split; auto. split; auto. rewrite lenN_app. split; [eapply ec_weaken; eauto; lia|]. split; auto.
    cbn [sum_bytes inTotal]. rewrite G4, add64_mod. f_equal. lia.
Qed.

Lemma read_advance w n : inputBufferRead w n = (advance w (firstn n (lz_buf (w_lz w))) 1, firstn n (lz_buf (w_lz w))).
Proof.
  unfold inputBufferRead, lz_take, advance. rewrite skipn_firstn_len, Nat.add_1_r. reflexivity.
Qed.

Lemma slow_loop : store = false -> forall fuel w hd mark base d0 c p0 ds, wopen hd mark base d0 c p0 ds w ->
  length (lz_buf (w_lz w)) <= fuel ->
  exists w' lts, compressSlowLoop env fuel w = Ok (w', lz_buf (w_lz w), map tok_of lts) /\
    Forall ltok_ok lts /\
    expand lk (lz_hist (w_lz w)) lts = Some (rev (lz_buf (w_lz w)) ++ lz_hist (w_lz w)) /\
    wopen hd mark base d0 (c ++ lz_buf (w_lz w)) (p0 ++ lz_buf (w_lz w)) ds w' /\
    lz_buf (w_lz w') = [] /\ lz_hist (w_lz w') = rev (lz_buf (w_lz w)) ++ lz_hist (w_lz w).
Proof.
  intros Hst. induction fuel as [|f IH]; intros w hd mark base d0 c p0 ds H Hf.
  - destruct (lz_buf (w_lz w)) as [|x l] eqn:E; [|cbn in Hf; lia].
    exists w, []. cbn [compressSlowLoop]. rewrite E. rewrite !app_nil_r. auto 10.
  - cbn [compressSlowLoop]. destruct (lz_buf (w_lz w)) as [|x l] eqn:E.
    { exists w, []. rewrite !app_nil_r. auto 10. }
    rewrite <- E in *. unfold inputBufferAdvance. rewrite (k_lzo (q_ok H)).
    destruct (e_match env (lz_calls (w_lz w)) (hybridOptions opt) (lz_hist (w_lz w)) (lz_buf (w_lz w))) as [[d len]|] eqn:EM.
    + destruct (Hmatch Hst EM) as [M1 [M2 [M3 M4]]]. unfold lz_take. cbn [fst snd].
      set (p := firstn (N.to_nat len) (lz_buf (w_lz w))).
      assert (Lp : length p = N.to_nat len) by (unfold p; rewrite firstn_length; unfold lenN in M2; lia).
      assert (EA : set_in (set_lz w (LZ (lz_o (w_lz w)) (rev p ++ lz_hist (w_lz w)) (skipn (N.to_nat len) (lz_buf (w_lz w))) (S (lz_calls (w_lz w)))))
                   (sum_bytes (w_in w) p) = advance w p 1).
      { unfold advance. rewrite Lp, Nat.add_1_r. reflexivity. }
      rewrite EA. unfold assertb. destruct (N.leb_spec 3 len); [|lia]. destruct (N.leb_spec 1 d); [|lia].
      rewrite !N.mod_small by (unfold two16; lia).
      assert (ET : makeCopyToken len d = Ok (tok_of (TCopy len d))).
      { unfold makeCopyToken, assertb. cbn [tok_of].
        repeat match goal with |- context [if ?b then _ else _] => let X := fresh in destruct b eqn:X; [|exfalso; lia] end. reflexivity. }
      rewrite ET. cbn [rbind].
      assert (EB : lz_buf (w_lz w) = p ++ skipn (N.to_nat len) (lz_buf (w_lz w))) by (unfold p; symmetry; apply firstn_skipn).
      pose proof (@adv_open hd mark base d0 c p0 p _ ds w 1 H EB) as HA.
      destruct (adv_fields w p 1) as [A1 [A2 [A3 [A4 [A5 [A6 [A7 [A8 [A9 [A10 A11]]]]]]]]]].
      destruct (IH _ _ _ _ _ _ _ _ HA) as [w' [lts [R1 [R2 [R3 [R4 [R5 R6]]]]]]].
      { rewrite A10, skipn_length. lia. }
      rewrite R1. cbn [rbind]. rewrite A10, A9, Lp in *. set (q := skipn (N.to_nat len) (lz_buf (w_lz w))) in *.
      exists w', (TCopy len d :: lts). rewrite EB at 1. split; [reflexivity|].
      split; [constructor; auto; cbn; lia|]. rewrite EB. rewrite !app_assoc, rev_app_distr.
      split; [|split; [exact R4|split; [exact R5|rewrite R6; now rewrite app_assoc]]].
      cbn [expand]. rewrite (@copy_match lk d (N.to_nat len) (lz_hist (w_lz w)) (lz_buf (w_lz w))).
      * fold p. rewrite R3. now rewrite app_assoc.
      * unfold lenN in M2. lia.
      * intros i Hi. apply M4. lia.
    + unfold lz_take. cbn [fst snd].
      assert (EA : set_in (set_lz w (LZ (lz_o (w_lz w)) (rev (firstn 1 (lz_buf (w_lz w))) ++ lz_hist (w_lz w)) (skipn 1 (lz_buf (w_lz w))) (S (lz_calls (w_lz w)))))
                   (sum_bytes (w_in w) (firstn 1 (lz_buf (w_lz w)))) = advance w [x] 1).
      { unfold advance. rewrite E, Nat.add_1_r. reflexivity. }
      rewrite EA. assert (EF : firstn 1 (lz_buf (w_lz w)) = [x]) by (rewrite E; reflexivity). rewrite EF.
      assert (EB : lz_buf (w_lz w) = [x] ++ l) by auto.
      pose proof (@adv_open hd mark base d0 c p0 [x] _ ds w 1 H EB) as HA.
      destruct (adv_fields w [x] 1) as [A1 [A2 [A3 [A4 [A5 [A6 [A7 [A8 [A9 [A10 A11]]]]]]]]]].
      assert (A10' : lz_buf (w_lz (advance w [x] 1)) = l) by (rewrite A10, E; reflexivity).
      destruct (IH _ _ _ _ _ _ _ _ HA) as [w' [lts [R1 [R2 [R3 [R4 [R5 R6]]]]]]].
      { rewrite A10'. rewrite E in Hf. cbn [length] in Hf. lia. }
      rewrite R1. cbn [rbind]. rewrite A10', A9 in *.
      exists w', (TLit x :: lts). rewrite E. split; [reflexivity|].
      assert (Hx : (x < 256)%N) by (pose proof (k_buf (q_ok H)) as Hd; rewrite E in Hd; inversion Hd; auto).
      split; [constructor; auto|]. cbn [expand rev app] in *.
      rewrite <- !app_assoc in *. cbn [app] in *. split; [exact R3|]. split; [exact R4|]. split; [exact R5|exact R6].
Qed.

Lemma cap_eq w : wok w -> lz_cap (w_lz w) = (2 ^ (o_mlevel opt + 8))%N.
Proof. intros H. unfold lz_cap. rewrite (k_lzo H). unfold hybridOptions. destruct (o_strategy opt); reflexivity. Qed.

(** A stream is open and the data written to it so far is [cur]. *)
Definition openT hd mark base d0 cur ds w : Prop :=
  exists c, wopen hd mark base d0 c [] ds w /\ cur = c ++ lz_buf (w_lz w).

Definition big (n : N) : Prop := store = false /\ (65535 < n)%N.
(** Less than a block of input is left after each call. *)
Definition blockSize : N := N.min (if store then storedBlockSize else compressedBlockSize) (2 ^ (o_mlevel opt + 8)).
Definition short (w : writer) : Prop := (lenN (lz_buf (w_lz w)) < blockSize)%N.
Lemma short_nil w : lz_buf (w_lz w) = [] -> short w.
Proof.
  intros E. unfold short, blockSize. rewrite E, lenN_nil. apply N.min_glb_lt; [|apply N.neq_0_lt_0, N.pow_nonzero; discriminate].
  case (isStoreConfig (compressConfig opt)); reflexivity.
Qed.
Lemma short_kept w n : wok w -> n = (if store then storedBlockSize else compressedBlockSize) ->
  (lenN (lz_buf (w_lz w)) <? n)%N = true -> lz_isFull (w_lz w) = false -> short w.
Proof.
  intros H -> E1 E2. unfold short, blockSize. apply N.ltb_lt in E1. unfold lz_isFull in E2. apply N.leb_gt in E2.
  rewrite (cap_eq H) in E2. apply N.min_glb_lt; auto.
Qed.
Lemma short_small w : short w -> store = false -> (lenN (lz_buf (w_lz w)) < compressedBlockSize)%N.
Proof. unfold short, blockSize. intros H E. rewrite E in H. eapply N.lt_le_trans; [exact H|apply N.le_min_l]. Qed.
Lemma compressSlow_post hd mark base d0 cur ds w all : store = false -> openT hd mark base d0 cur ds w ->
  (big (lenN (lz_buf (w_lz w))) -> MP) ->
  post (fun w' => openT hd mark base d0 cur ds w' /\
    ((all = true \/ lz_isFull (w_lz w) = true) -> lz_buf (w_lz w') = []) /\ short w') (compressSlow env w all).
Proof.
  intros Hst [c [H EC]] HM. unfold compressSlow.
  destruct ((lenN (lz_buf (w_lz w)) <? compressedBlockSize)%N && negb all && negb (lz_isFull (w_lz w)))%bool eqn:EQ.
  { cbn [post]. split; [exists c; auto|]. apply andb_prop in EQ. destruct EQ as [EQ1 EQ2]. apply andb_prop in EQ1. destruct EQ1 as [EQ0 EQ1].
    split; [|eapply short_kept; [apply (q_ok H)|rewrite Hst; reflexivity|exact EQ0|destruct (lz_isFull (w_lz w)); [discriminate|auto]]]. intros [-> | E]; [discriminate|]. rewrite E in EQ2. discriminate. }
  destruct (slow_loop Hst H (le_n _)) as [w' [lts [R1 [R2 [R3 [R4 [R5 R6]]]]]]]. rewrite R1. cbn [rbind].
  set (data := lz_buf (w_lz w)) in *. cbn [app] in R4.
  assert (Hd : bytes_ok data) by apply (k_buf (q_ok H)).
  fold (toks lts). destruct (@compressTokens_ok env Hbpb Hhuff lts data false R2 Hd) as [[acts [A1 [A2 [A3 A4]]]]|[A1 A2]].
  - rewrite A3. eapply post_impl.
    + eapply (emit_block R4); auto.
      intros pos h Hh. rewrite R6 in Hh. apply app_inv_head in Hh. subst h.
      match goal with |- B _ ?x _ _ _ => destruct (A4 lk pos x) as [Y1 Y2]; [auto|] end. apply HBtok; auto.
    + intros w2 [Hw2 El]. split; [exists (c ++ data); split; auto; rewrite El, R5, app_nil_r; auto|].
      assert (El0 : lz_buf (w_lz w2) = []) by congruence. split; auto. apply short_nil; auto.
  - rewrite A2. cbn [post]. split; auto. apply HM. split; auto.
Qed.

Lemma firstn_bound n (l : list N) : (lenN (firstn (N.to_nat n) l) <= n)%N.
Proof. unfold lenN. rewrite firstn_length. lia. Qed.

Lemma store_loop : forall fuel w hd mark base d0 cur ds, openT hd mark base d0 cur ds w ->
  length (lz_buf (w_lz w)) <= fuel ->
  post (fun w' => openT hd mark base d0 cur ds w' /\ lz_buf (w_lz w') = []) (compressStoreLoop env fuel w).
Proof.
  induction fuel as [|f IH]; intros w hd mark base d0 cur ds H Hf.
  - destruct (lz_buf (w_lz w)) as [|x l] eqn:E; [|cbn in Hf; lia]. cbn [compressStoreLoop]. rewrite E. cbn [post]. auto.
  - cbn [compressStoreLoop]. destruct (lz_buf (w_lz w)) as [|x l] eqn:E; [cbn [post]; auto|]. rewrite <- E in *.
    rewrite read_advance. set (p := firstn (N.to_nat storedBlockSize) (lz_buf (w_lz w))).
    assert (Lp : (lenN p <= 61440)%N) by apply firstn_bound.
    assert (Pp : p <> []).
    { unfold p. rewrite E. assert (exists k, N.to_nat storedBlockSize = S k) as [k ->].
      { exists (N.to_nat (storedBlockSize - 1)). unfold storedBlockSize. lia. } discriminate. }
    destruct H as [c [H EC]].
    assert (EB : lz_buf (w_lz w) = p ++ skipn (N.to_nat storedBlockSize) (lz_buf (w_lz w))) by (unfold p; symmetry; apply firstn_skipn).
    pose proof (@adv_open hd mark base d0 c [] p _ ds w 1 H EB) as HA. cbn [app] in HA.
    destruct (adv_fields w p 1) as [A1 [A2 [A3 [A4 [A5 [A6 [A7 [A8 [A9 [A10 A11]]]]]]]]]].
    assert (Hp : bytes_ok p) by (pose proof (k_buf (q_ok H)) as Hd; rewrite EB in Hd; apply bytes_ok_app in Hd; tauto).
    rewrite writeStored_run by lia.
    eapply post_bind.
    + apply (emit_block HA); [apply stored_ok; auto|apply stored_descr; [auto|lia]|].
      intros pos h _. apply HBstored; auto. lia.
    + intros w1 [H1 El]. apply IH.
      * exists (c ++ p). split; auto. rewrite El, A10. rewrite EC, <- app_assoc. f_equal. unfold p at 2. rewrite skipn_firstn_len. auto.
      * rewrite El, A10, skipn_length. destruct p; [congruence|]. cbn [length]. lia.
Qed.

Lemma compress_post hd mark base d0 cur ds w all : openT hd mark base d0 cur ds w ->
  (big (lenN (lz_buf (w_lz w))) -> MP) ->
  post (fun w' => openT hd mark base d0 cur ds w' /\
    ((all = true \/ lz_isFull (w_lz w) = true) -> lz_buf (w_lz w') = []) /\ short w')
   (if isStoreConfig (w_cfg w) then compressStore env w all else compressSlow env w all).
Proof.
  intros H HM. assert (EC : w_cfg w = compressConfig opt) by (destruct H as [c [H _]]; apply (k_cfg (q_ok H))). rewrite EC.
  assert (Hst : store = true \/ store = false) by (destruct (isStoreConfig (compressConfig opt)); auto).
  destruct Hst as [Hst|Hst]; rewrite Hst.
  - unfold compressStore.
    destruct ((lenN (lz_buf (w_lz w)) <? storedBlockSize)%N && negb all && negb (lz_isFull (w_lz w)))%bool eqn:EQ.
    + cbn [post]. split; auto.
      apply andb_prop in EQ. destruct EQ as [EQ1 EQ2]. apply andb_prop in EQ1. destruct EQ1 as [EQ0 EQ1].
      split; [|destruct H as [c [H _]]; eapply short_kept; [apply (q_ok H)|rewrite Hst; reflexivity|exact EQ0|destruct (lz_isFull (w_lz w)); [discriminate|auto]]].
      intros [-> | E]; [discriminate|]. rewrite E in EQ2. discriminate.
    + eapply post_impl; [apply store_loop; eauto|]. intros w' [H1 H2]. split; auto. split; auto. apply short_nil; auto.
  - apply compressSlow_post; auto.
Qed.

(** ** Between streams *)
(** The last event sent closed a stream and carries the current totals. *)
Definition LastClose (w : writer) : Prop :=
  exists evs e, w_events w = evs ++ [e] /\ e_type e = StreamCloseEvent /\
    e_inTotal e = inTotal (w_in w) /\ e_outTotal e = outTotal (w_out w).
Record widle (hd : header) (ds : list (list N)) (w : writer) : Prop := WIdle {
  i_ok : wok w;
  i_hdr : w_hdr w = hd;
  i_state : w_state w = match ds with [] => noStream | _ => closedStream end;
  i_len : obLen (w_out w) = 0;
  i_ev : WEv ds EvIdle [] w;
  i_last : ds <> [] -> LastClose w }.

Definition dictb : list N := dict_bytes (o_dict opt).

(** writeHeader before the format specific part *)
Definition hdr_prep (w : writer) : writer :=
  let w := set_in w (match w_in w with WSum a c t _ => WSum a c t 0 end) in
  let w := set_out w (set_outstream (w_out w) 0) in
  let w := set_num w (w_num w + 1)%N in
  let w := set_lz w (lz_windowClear (w_lz w)) in
  let w := match o_dict (w_opt w) with Some d => set_lz w (lz_setWindow (w_lz w) d) | None => w end in
  let w := sendEvent w (ev_simple StreamBeginEvent) in
  let h := w_hdr w in
  let h := match h_datatype h with
           | UnknownData =>
               let buf := firstn (Nat.min (e_peek env (lz_calls (w_lz w))) (N.to_nat 4096)) (lz_buf (w_lz w)) in
               set_datatype h (if isText buf then TextData else BinaryData)
           | _ => h end in
  let h := if (h_os h =? OSTypeUnknown)%N then set_os h OSTypeUnix else h in
  let h := set_levels h (o_wbits (w_opt w)) (o_clevel (w_opt w)) in
  set_hdr w h.
Definition hdr_done (w : writer) : writer :=
  let w := sendEvent w (ev_header (w_hdr w)) in
  set_in w (match w_in w with WSum _ _ t s => WSum adler_reset crc_reset t s end).
Lemma writeHeader_eq w : writeHeader env w =
  let? w := (match o_format (w_opt (hdr_prep w)) with
             | RawFormat => Ok (hdr_prep w, true)
             | ZlibFormat => writeHeaderZlib env (hdr_prep w)
             | GZIPFormat => writeHeaderGZIP env (hdr_prep w)
             | DefaultFormat => Panic PAssert
             end) in Ok (hdr_done w, true).
Proof. reflexivity. Qed.

Lemma hnorm_of o h b wb cl : o_wbits o = wb -> o_clevel o = cl ->
  hnorm o h (let h := match h_datatype h with
           | UnknownData => set_datatype h (if b : bool then TextData else BinaryData)
           | _ => h end in
  let h := if (h_os h =? OSTypeUnknown)%N then set_os h OSTypeUnix else h in set_levels h wb cl).
Proof.
  intros <- <-. destruct h as [nm cm mt dt os ex wb' cl'].
  destruct (os =? OSTypeUnknown)%N eqn:E; destruct dt, b; cbn [h_datatype set_datatype h_os]; rewrite E; constructor;
    cbn [h_name h_comment h_mtime h_extra h_os h_datatype h_wbits h_clevel set_os set_levels]; rewrite ?E; auto; intros; congruence.
Qed.

Lemma prep_facts hd ds w : widle hd ds w ->
  w_opt (hdr_prep w) = opt /\ w_cfg (hdr_prep w) = compressConfig opt /\
  w_lz (hdr_prep w) = LZ (lz_o (w_lz w)) (rev dictb) (lz_buf (w_lz w)) (lz_calls (w_lz w)) /\
  hnorm opt hd (w_hdr (hdr_prep w)) /\ w_out (hdr_prep w) = set_outstream (w_out w) 0 /\
  inTotal (w_in (hdr_prep w)) = inTotal (w_in w) /\ inStream (w_in (hdr_prep w)) = 0%N /\
  exists e, w_events (hdr_prep w) = w_events w ++ [e] /\ pre_of e = ev_simple StreamBeginEvent /\
    e_inTotal e = inTotal (w_in w) /\ e_outTotal e = outTotal (w_out w).
Proof.
  intros [K <- S L E]. destruct K as [k1 k2 k3 k4 k5 k6 k7 k8 k9]. unfold hdr_prep, dictb.
  destruct w as [o cfg [lo lh lb lc] [ia ic it is] ou nu h fl sy ev]. cbn [w_opt] in k1. subst o.
  cbn [w_cfg] in k2.
  cbn [w_opt w_cfg w_lz w_in w_out w_hdr w_num w_events set_in set_out set_num set_lz set_hdr lz_windowClear lz_setWindow lz_o lz_hist lz_buf lz_calls inTotal inStream].
  assert (D : rev (dict_bytes (o_dict opt)) = match o_dict opt with Some d => rev d | None => [] end) by (destruct (o_dict opt); reflexivity).
  rewrite D. destruct (o_dict opt);
  cbn [w_opt w_cfg w_lz w_in w_out w_hdr w_num w_events set_in set_out set_num set_lz set_hdr sendEvent add_event lz_windowClear lz_setWindow lz_o lz_hist lz_buf lz_calls inTotal inStream].
  - split; [auto|]. split; [auto|]. split; [auto|]. split; [apply hnorm_of; auto|]. split; [auto|]. split; [auto|]. split; [auto|].
    eexists. split; [reflexivity|]. split; [reflexivity|]. split; [reflexivity|]. destruct ou; reflexivity.
  - split; [auto|]. split; [auto|]. split; [auto|]. split; [apply hnorm_of; auto|]. split; [auto|]. split; [auto|]. split; [auto|].
    eexists. split; [reflexivity|]. split; [reflexivity|]. split; [reflexivity|]. destruct ou; reflexivity.
Qed.

Lemma aligned_bits0 o : outBuf o = [] -> obLen o = 0 -> obits o = bits_of_bytes (sink o).
Proof. intros H1 H2. unfold obits. rewrite H1, H2. cbn [bits_of_N]. now rewrite !app_nil_r. Qed.
Lemma writeHeader_post hd ds w : widle hd ds w ->
  post (fun w' => exists hd', hnorm opt hd hd' /\
    openT hd' (bits_of_bytes (sink (w_out w) ++ hdr_bytes opt hd')) (rev dictb) [] (lz_buf (w_lz w)) ds (w_setstate w' openStream) /\
    lz_buf (w_lz w') = lz_buf (w_lz w))
   (writeHeader env w).
Proof.
  intros H. rewrite writeHeader_eq.
  destruct (prep_facts H) as [P1 [P2 [P3 [P4 [P5 [P6 [P7 [e1 [P8 [P9 [P10 P11]]]]]]]]]]].
  set (w1 := hdr_prep w) in *. clearbody w1. destruct (i_ok H) as [k1 k2 k3 k4 k5 k6 k7 k8 k9].
  assert (O1 : out_ok env (w_out w1)) by (rewrite P5; destruct (w_out w); exact k7).
  assert (C1 : counters_ok (w_out w1)).
  { rewrite P5. destruct k8 as [k8 _]. destruct (w_out w); split; [exact k8|reflexivity]. }
  assert (L1 : obLen (w_out w1) = 0) by (rewrite P5; pose proof (i_len H); destruct (w_out w); auto).
  assert (Hh1 : header_ok (w_hdr w1)) by (eapply hnorm_ok; eauto; rewrite <- (i_hdr H); auto).
  assert (S1 : sink (w_out w1) = sink (w_out w) /\ outTotal (w_out w1) = outTotal (w_out w) /\ werr (w_out w1) = werr (w_out w) /\ wstate (w_out w1) = wstate (w_out w)).
  { rewrite P5. destruct (w_out w); auto. }
  destruct S1 as [S1 [S2 [S3 S4]]].
  eapply post_bind.
  { apply post0_post. apply (@header_post env Hbpb w1 O1 C1 L1 Hh1). rewrite P1. apply (wo_format Hopt). }
  intros w2 [F [E2 [T1 [T2 [T3 [T4 [T5 [T6 T7]]]]]]]]. cbn [post].
  rewrite P1 in T1, T2. exists (w_hdr w1). split; auto.
  destruct F as [f1 [f2 [f3 [f4 [f5 [f6 [f7 f8]]]]]]]. rewrite P1 in f1.
  assert (Q : exists e2, w_setstate (hdr_done w2) openStream =
     Writer (w_opt w2) (w_cfg w2) (w_lz w2) (WSum adler_reset crc_reset (inTotal (w_in w2)) (inStream (w_in w2)))
       (set_state (w_out w2) openStream (werr (w_out w2))) (w_num w2) (w_hdr w2) (w_flushes w2) (w_syncs w2) (w_events w2 ++ [e2])
     /\ pre_of e2 = ev_header (w_hdr w2) /\ e_inTotal e2 = inTotal (w_in w2) /\ e_outTotal e2 = outTotal (w_out w2)
     /\ lz_buf (w_lz (hdr_done w2)) = lz_buf (w_lz w2)).
  { destruct w2 as [o cfg lz [ia ic it is] ou nu h fl sy ev]. cbn. eexists. split; [reflexivity|]. cbn. auto. }
  destruct Q as [e2 [Q1 [Q2 [Q3 [Q4 Q5]]]]].
  split; [|rewrite Q5, f3, P3; reflexivity].
  exists []. rewrite Q1. cbn [w_lz]. split; [|rewrite f3, P3; reflexivity].
  destruct (i_ev H) as [evs [G1 [G2 [G3 [G4 [G5 G6]]]]]].
  constructor; cbn [w_opt w_cfg w_lz w_in w_out w_hdr w_num w_events].
  - constructor; cbn [w_opt w_cfg w_lz w_in w_out w_hdr w_num w_events]; try congruence.
    + rewrite f3, P3. cbn. auto.
    + rewrite f3, P3. cbn. auto.
    + rewrite f3, P3. cbn. auto.
    + destruct (w_out w2); exact T5.
    + destruct (w_out w2); exact T6.
    + destruct (w_out w2); cbn in *; congruence.
  - auto.
  - unfold w_state; cbn. destruct (w_out w2); reflexivity.
  - rewrite f4, P7. apply sums_reset. auto.
  - constructor.
  - exists [], [], (rev dictb), []. rewrite app_nil_r. cbn [rev app]. rewrite app_nil_r.
    split; [|split; [constructor|split; [auto|split; [rewrite f3, P3; reflexivity|auto]]]].
    unfold obits. destruct T5 as [T5 _].
    assert (EO : outBuf (set_state (w_out w2) openStream (werr (w_out w2))) = [] /\ sink (set_state (w_out w2) openStream (werr (w_out w2))) = sink (w_out w2)
       /\ obLen (set_state (w_out w2) openStream (werr (w_out w2))) = 0) by (destruct (w_out w2); auto).
    destruct EO as [-> [-> ->]]. cbn [bits_of_N]. rewrite !app_nil_r, T1, S1. reflexivity.
  - unfold WEv; cbn [w_opt w_cfg w_lz w_in w_out w_hdr w_num w_events].
    exists (evs ++ [e1; e2]). rewrite E2, P8, G1, <- !app_assoc. split; [reflexivity|]. split.
    { rewrite map_app. cbn [map]. rewrite P9, Q2. apply se_begin. auto. }
    assert (EO : sink (set_state (w_out w2) openStream (werr (w_out w2))) = sink (w_out w2) /\
       outTotal (set_state (w_out w2) openStream (werr (w_out w2))) = outTotal (w_out w2)) by (destruct (w_out w2); auto).
    destruct EO as [-> ->]. cbn [inTotal].
    assert (U : outTotal (w_out w2) = ((t0 + lenN (sink (w_out w2))) mod two64)%N).
    { rewrite T2, S2, G5, add64_mod, T1, S1, lenN_app. f_equal. lia. }
    assert (V : inTotal (w_in w2) = ((i0 + tlen ds + lenN (@nil N)) mod two64)%N) by (rewrite f4, P6; auto).
    split; [|split; [auto|split; [auto|]]].
    2:{ rewrite map_app. cbn [map]. rewrite P9, Q2, f6.
        assert (EO : obits (set_state (w_out w2) openStream (werr (w_out w2))) = obits (w_out w) ++ bits_of_bytes (hdr_bytes opt (w_hdr w1))).
        { destruct (i_ok H) as [_ _ _ _ _ _ [KO _] _ _]. pose proof (i_len H) as KL. destruct T5 as [T5 _].
          rewrite (aligned_bits0 KO KL), <- bits_of_bytes_app, <- S1, <- T1. assert (EO : outBuf (set_state (w_out w2) openStream (werr (w_out w2))) = [] /\ sink (set_state (w_out w2) openStream (werr (w_out w2))) = sink (w_out w2) /\ obLen (set_state (w_out w2) openStream (werr (w_out w2))) = 0) by (destruct (w_out w2); auto). destruct EO as [EO1 [EO2 EO3]]. rewrite aligned_bits0 by auto. rewrite EO2. reflexivity. }
        rewrite EO. apply el_begin; auto. }
    change [e1; e2] with ([e1] ++ [e2]). rewrite app_assoc.
    eapply ec_snoc; [eapply ec_snoc; [exact G3|reflexivity|reflexivity| |]| | | |]; try reflexivity; try congruence.
    rewrite T1, S1, lenN_app. lia.
Qed.

(** ** The end of a stream *)
(** A stored block leaves the output byte aligned. *)
Lemma stored_aligned w w' data fin : bytes_ok data -> out_ok env (w_out w) -> counters_ok (w_out w) ->
  run (bw_writer env) (stored_acts data fin) w = Ok (w', true) -> obLen (w_out w') = 0.
Proof.
  intros Hd Ho Hc HE.
  set (l1 := [AEv (ev_block BlockBeginEvent StoredBlock fin); ABits 3 (if fin then 1 else 0)%N; AFlush;
   AU16 (lenN data mod two16)%N; AU16 (65535 - lenN data mod two16)%N]).
  assert (HL : stored_acts data fin = l1 ++ [ABuf data; AEv (ev_block BlockEndEvent StoredBlock fin)]) by reflexivity.
  assert (A1 : acts_ok l1).
  { pose proof (@stored_ok data fin Hd) as A. rewrite HL in A. apply acts_ok_app in A. tauto. }
  rewrite HL, run_app in HE. clearbody l1.
  destruct (@run_writer env Hbpb l1 A1 w Ho Hc) as [w1 [ok [E1 R1]]]. rewrite E1 in HE. cbn [rbind] in HE.
  destruct ok; [|discriminate]. destruct R1 as [_ [[_ [C1 [O1 _]]] _]].
  rewrite run_cons in HE. cbn [do_act bw_writer bw_bufferWrite] in HE. unfold w_bufferWrite, on_out in HE. fold (cap_of w1) in HE.
  destruct (@o_bufferWrite_ok env Hbpb (cap_of w1) (w_out w1) data (cap_pos w1) O1 C1 Hd) as [o [ok [E2 [L2 _]]]].
  rewrite E2 in HE. cbn [rbind] in HE. destruct ok; [|discriminate].
  rewrite run_cons in HE. cbn [do_act bw_writer bw_event rbind] in HE. unfold run in HE. cbn [for_each] in HE.
  inversion HE. subst w'. unfold sendEvent.
  assert (E : forall w e, w_out (add_event w e) = w_out w) by (intros [] ?; reflexivity).
  rewrite E, w_out_set. auto.
Qed.

Lemma setstate_fields w s : w_opt (w_setstate w s) = w_opt w /\ w_cfg (w_setstate w s) = w_cfg w /\ w_lz (w_setstate w s) = w_lz w /\
  w_in (w_setstate w s) = w_in w /\ w_hdr (w_setstate w s) = w_hdr w /\ w_events (w_setstate w s) = w_events w /\
  w_out (w_setstate w s) = set_state (w_out w) s (werr (w_out w)).
Proof. destruct w; cbn. repeat split. Qed.
Lemma setstate_out o s e : sink (set_state o s e) = sink o /\ outTotal (set_state o s e) = outTotal o /\ obLen (set_state o s e) = obLen o /\
  outBuf (set_state o s e) = outBuf o /\ werr (set_state o s e) = e /\ wstate (set_state o s e) = s /\
  (out_ok env o -> out_ok env (set_state o s e)) /\ (counters_ok o -> counters_ok (set_state o s e)) /\ obits (set_state o s e) = obits o.
Proof. destruct o; unfold out_ok, counters_ok, obits; cbn. auto 15. Qed.

Lemma setlz_fields w l : w_opt (set_lz w l) = w_opt w /\ w_cfg (set_lz w l) = w_cfg w /\ w_lz (set_lz w l) = l /\
  w_in (set_lz w l) = w_in w /\ w_hdr (set_lz w l) = w_hdr w /\ w_events (set_lz w l) = w_events w /\
  w_out (set_lz w l) = w_out w.
Proof. destruct w; cbn. repeat split. Qed.

Definition Closed (mark : list bool) (base d0 cur s : list N) : Prop :=
  exists w2 h w3 pad d2, length pad < 8 /\
    bits_of_bytes s = mark ++ w2 ++ w3 ++ pad ++ bits_of_bytes (ftr_bytes opt cur) /\
    Blocks B (length mark) base w2 h /\ B (length mark + length w2) h true w3 (rev d2 ++ base) /\ cur = d0 ++ d2.

(** closingStream: the final block is written, the footer is not *)
Record wclosing (hd : header) (mark : list bool) (base d0 cur : list N) (ds : list (list N)) (w : writer) : Prop := WClosing {
  c_ok : wok w; c_hdr : w_hdr w = hd; c_state : w_state w = closingStream;
  c_sums : sums_of (w_in w) cur; c_empty : lz_buf (w_lz w) = [];
  c_bits : exists w2 h w3 d2, obits (w_out w) = mark ++ w2 ++ w3 /\
    Blocks B (length mark) base w2 h /\ B (length mark + length w2) h true w3 (rev d2 ++ base) /\ cur = d0 ++ d2;
  c_ev : WEv ds EvLast cur w }.

Lemma flush_final hd mark base d0 cur ds w : openT hd mark base d0 cur ds w -> lz_buf (w_lz w) = [] ->
  post (wclosing hd mark base d0 cur ds) (flushGuts env w FinishFlush).
Proof.
  intros [c [H EC]] Hb. rewrite Hb, app_nil_r in EC. subst cur. unfold flushGuts.
  rewrite writeStored_run by (unfold lenN; cbn; lia).
  assert (Ha : acts_ok (stored_acts [] true)) by (apply stored_ok; constructor).
  destruct (@run_writer env Hbpb _ Ha w (k_out (q_ok H)) (k_cnt (q_ok H))) as [w' [ok [E R]]].
  rewrite E. cbn [rbind]. destruct ok; cbn [post].
  2:{ destruct R as [_ [[F _] _]]. eapply o_failed_wfailed; eauto. }
  pose proof (ran_ok (q_ok H) R) as [k1 k2 k3 k4 k5 k6 k7 k8 k9].
  assert (HE : WEv ds EvLast c w') by (apply (@ran_ev w w' (stored_acts [] true) ds c true); auto; [apply (k_cnt (q_ok H))|apply stored_descr; [constructor|vm_compute; discriminate]|apply (q_ev H)]).
  pose proof R as [[f1 [f2 [f3 [f4 [f5 [f6 [f7 f8]]]]]]] [[_ [_ [_ Bi]]] _]].
  destruct (q_bits H) as [w2 [d2 [h [r [Q1 [Q2 [Q3 [Q4 Q5]]]]]]]].
  set (w1 := set_lz w' (lz_windowClear (w_lz w'))).
  destruct (setlz_fields w' (lz_windowClear (w_lz w'))) as [g1 [g2 [g3 [g4 [g5 [g6 g7]]]]]]. fold w1 in g1, g2, g3, g4, g5, g6, g7. clearbody w1.
  destruct (setstate_fields w1 closingStream) as [s1 [s2 [s3 [s4 [s5 [s6 s7]]]]]].
  destruct (setstate_out (w_out w1) closingStream (werr (w_out w1))) as [u1 [u2 [u3 [u4 [u5 [u6 [u7 [u8 u9]]]]]]]].
  constructor.
  - constructor; rewrite ?s1, ?s2, ?s3, ?s5, ?s7, ?g1, ?g2, ?g3, ?g5, ?g7; auto.
    + rewrite <- g7 in *. auto.
    + rewrite <- g7 in *. auto.
    + rewrite <- g7 in *. rewrite u5. auto.
  - rewrite s5, g5, f6. apply (q_hdr H).
  - unfold w_state. rewrite s7, u6. auto.
  - rewrite s4, g4, f4. apply (q_sums H).
  - rewrite s3, g3. cbn. rewrite f3. auto.
  - exists w2, (rev d2 ++ base), (acts_bits (length (obits (w_out w))) (stored_acts [] true)), d2.
    rewrite s7, u9, g7, Bi. rewrite Q1 at 1. rewrite <- app_assoc. split; auto. split; auto. split.
    + rewrite Q1, app_length. pose proof (@HBstored (length mark + length w2) (rev d2 ++ base) true []) as X. cbn [rev app] in X.
      apply X; [vm_compute; discriminate|constructor].
    + rewrite Q5, app_nil_r. reflexivity.
  - destruct HE as [evs [G1 [G2 [G3 [G4 [G5 G6]]]]]]. exists evs. rewrite s6, s7, s4, u1, u2, u9, g6, g7, g4. auto 10.
Qed.

Lemma aligned_bits o : outBuf o = [] -> obLen o = 0 -> obits o = bits_of_bytes (sink o).
Proof. intros H1 H2. unfold obits. rewrite H1, H2. cbn [bits_of_N]. now rewrite !app_nil_r. Qed.

Lemma footer_idle hd mark base d0 cur ds w : wclosing hd mark base d0 cur ds w ->
  post (fun w' => widle hd (ds ++ [cur]) (w_setstate w' closedStream) /\
    Closed mark base d0 cur (sink (w_out w')) /\ lz_buf (w_lz w') = []) (writeFooter env w).
Proof.
  intros H. unfold writeFooter. destruct (c_ok H) as [k1 k2 k3 k4 k5 k6 k7 k8 k9].
  (* bitsFlush *)
  destruct (@o_bitsFlush_ok env Hbpb (cap_of w) (w_out w) (cap_pos w) k7 k8) as [o1 [ok1 [E1 [L1 [B1 R1]]]]].
  unfold w_bitsFlush, on_out. fold (cap_of w). rewrite E1. cbn [rbind]. destruct ok1.
  2:{ cbn [post]. eapply o_failed_wfailed with (o := w_out w). rewrite w_out_set. apply R1. }
  destruct R1 as [X1 [C1 [O1 Bi1]]].
  set (w1 := set_out w o1).
  assert (F1 : w_frame w w1) by apply w_frame_set. assert (V1 : w_events w1 = w_events w) by apply w_events_set.
  assert (U1 : w_out w1 = o1) by apply w_out_set. clearbody w1. subst o1.
  destruct F1 as [f1 [f2 [f3 [f4 [f5 [f6 [f7 f8]]]]]]].
  pose proof (c_sums H) as HS. assert (HS1 := HS). destruct HS1 as [HS1 [HS2 _]].
  set (w2 := sendEvent w1 (ev_footer (inAdler (w_in w1)) (inCRC (w_in w1)))).
  assert (Q : exists e, w2 = add_event w1 e /\ pre_of e = ev_footer (spec_adler32 cur) (spec_crc32 cur) /\
     e_inTotal e = inTotal (w_in w1) /\ e_outTotal e = outTotal (w_out w1)).
  { eexists. split; [reflexivity|]. cbn. rewrite f4, HS1, HS2. auto. }
  destruct Q as [e1 [Q1 [Q2 [Q3 Q4]]]]. clearbody w2.
  assert (W2 : w_out w2 = w_out w1 /\ w_opt w2 = w_opt w1 /\ w_in w2 = w_in w1 /\ w_events w2 = w_events w1 ++ [e1] /\
     w_cfg w2 = w_cfg w1 /\ w_lz w2 = w_lz w1 /\ w_hdr w2 = w_hdr w1).
  { subst w2. destruct w1; cbn. repeat split. }
  destruct W2 as [a1 [a2 [a3 [a4 [a5 [a6 a7]]]]]]. rewrite <- a3.
  eapply post_bind.
  { apply post0_post. apply (@footer_post env Hbpb w2 cur).
    - rewrite a1. auto.
    - rewrite a1. auto.
    - rewrite a1. auto.
    - rewrite a2, f1, k1. apply (wo_format Hopt).
    - rewrite a3, f4. auto. }
  intros w3 [[b1 [b2 [b3 [b4 [b5 [b6 [b7 b8]]]]]]] [E2 [T1 [T2 [T3 [T4 [T5 [T6 T7]]]]]]]]. cbn [post].
  assert (EO : w_opt w2 = opt) by congruence. rewrite EO in T1, T2.
  set (w4 := sendEvent w3 (ev_simple StreamCloseEvent)).
  assert (Q : exists e, w4 = add_event w3 e /\ pre_of e = ev_simple StreamCloseEvent /\
     e_inTotal e = inTotal (w_in w3) /\ e_outTotal e = outTotal (w_out w3)).
  { eexists. split; [reflexivity|]. cbn. auto. }
  destruct Q as [e2 [R1 [R2 [R3 R4]]]]. clearbody w4.
  assert (W4 : w_out w4 = w_out w3 /\ w_opt w4 = w_opt w3 /\ w_in w4 = w_in w3 /\ w_events w4 = w_events w3 ++ [e2] /\
     w_cfg w4 = w_cfg w3 /\ w_lz w4 = w_lz w3 /\ w_hdr w4 = w_hdr w3).
  { subst w4. destruct w3; cbn. repeat split. }
  destruct W4 as [d1 [d2 [d3 [d4 [d5 [d6 d7]]]]]].
  destruct (setstate_fields w4 closedStream) as [s1 [s2 [s3 [s4 [s5 [s6 s7]]]]]].
  destruct (setstate_out (w_out w4) closedStream (werr (w_out w4))) as [u1 [u2 [u3 [u4 [u5 [u6 [u7 [u8 u9]]]]]]]].
  assert (LZ4 : w_lz w4 = w_lz w) by congruence.
  assert (SK : sink (w_out w4) = sink (w_out w1) ++ ftr_bytes opt cur) by (rewrite d1, T1, a1; reflexivity).
  split; [|split].
  - constructor.
    + constructor; rewrite ?s1, ?s2, ?s3, ?s5, ?s7.
      * congruence. * congruence. * rewrite LZ4. auto. * rewrite LZ4. auto. * rewrite LZ4. auto.
      * assert (EH : w_hdr w4 = w_hdr w) by congruence. rewrite EH. auto.
      * apply u7. rewrite d1. auto.
      * apply u8. rewrite d1. auto.
      * rewrite u5, d1, T4, a1, (oe_err X1). auto.
    + rewrite s5. rewrite <- (c_hdr H). congruence.
    + unfold w_state. rewrite s7, u6. destruct (ds ++ [cur]) eqn:ED; auto. apply app_eq_nil in ED. destruct ED; discriminate.
    + rewrite s7, u3, d1. auto.
    + destruct (c_ev H) as [evs [G1 [G2 [G3 [G4 [G5 G6]]]]]].
      exists (evs ++ [e1; e2]). rewrite s6, d4, E2, a4, V1, G1, <- !app_assoc. split; [reflexivity|]. split.
      { rewrite map_app. cbn [map]. rewrite Q2, R2. apply se_end. auto. }
      rewrite s7, u1, u2, s4, d3, b4, a3, f4, tlen_snoc, lenN_nil, d1.
      assert (Y1 : outTotal (w_out w1) = ((t0 + lenN (sink (w_out w1))) mod two64)%N).
      { rewrite (oe_total X1), (oe_sink X1), G5, add64_mod, lenN_app. f_equal. lia. }
      assert (Y2 : outTotal (w_out w3) = ((t0 + lenN (sink (w_out w3))) mod two64)%N).
      { rewrite T2, T1, a1, Y1, add64_mod, lenN_app. f_equal. lia. }
      assert (Y3 : (i0 + (tlen ds + lenN cur) + 0 = i0 + tlen ds + lenN cur)%N) by lia. rewrite Y3.
      split; [|split; [auto|split; [auto|]]].
      2:{ rewrite map_app. cbn [map]. rewrite Q2, R2.
          assert (EO3 : obits (set_state (w_out w3) closedStream (werr (w_out w3))) = obits (w_out w) ++ repeat false (pad8 (length (obits (w_out w)))) ++ bits_of_bytes (ftr_bytes opt cur)).
          { rewrite <- d1, u9, aligned_bits0; [|rewrite d1; apply T5|rewrite d1; auto].
            rewrite SK, bits_of_bytes_app, <- (aligned_bits0 (o := w_out w1)), Bi1, <- app_assoc; auto. apply O1. }
          rewrite EO3. apply el_end; auto; rewrite repeat_length; [apply pad8_lt|apply pad8_aligned]. }
      change [e1; e2] with ([e1] ++ [e2]). rewrite app_assoc.
      eapply ec_snoc; [eapply ec_snoc; [exact G3|reflexivity| | |exact (eq_trans Q4 Y1)]| | | |]; try reflexivity; try congruence.
      * rewrite (oe_sink X1), lenN_app. lia.
      * rewrite T1, a1, lenN_app. lia.
    + intros _. exists (w_events w3), e2. rewrite s6, s4, s7, u2, d1, d3. split; auto. split; [exact (f_equal p_type R2)|]. auto.
  - destruct (c_bits H) as [x2 [h [x3 [dd [Z1 [Z2 [Z3 Z4]]]]]]].
    exists x2, h, x3, (repeat false (pad8 (length (obits (w_out w))))), dd. rewrite repeat_length.
    split; [apply pad8_lt|]. split; [|auto].
    rewrite SK, bits_of_bytes_app, <- (aligned_bits (o := w_out w1)), Bi1, Z1; auto; [|apply O1].
    rewrite <- !app_assoc. reflexivity.
  - rewrite LZ4. apply (c_empty H).
Qed.

Lemma post_setstate (P : writer -> Prop) s x : post (fun w => P (w_setstate w s)) x ->
  post P (let? w := x in Ok (w_setstate w s, true)).
Proof. destruct x as [[w []]| |]; cbn [rbind post]; auto. Qed.

Lemma openT_clear hd mark base d0 cur ds w : openT hd mark base d0 cur ds w ->
  openT hd mark base d0 cur ds (set_lz w (lz_windowClear (w_lz w))).
Proof.
  intros [c [H EC]]. exists c.
  destruct (setlz_fields w (lz_windowClear (w_lz w))) as [g1 [g2 [g3 [g4 [g5 [g6 g7]]]]]].
  destruct (q_ok H) as [k1 k2 k3 k4 k5 k6 k7 k8 k9]. split; [|rewrite g3; exact EC].
  constructor.
  - constructor; rewrite ?g1, ?g2, ?g3, ?g5, ?g7; auto.
  - rewrite g5. apply (q_hdr H).
  - unfold w_state. rewrite g7. apply (q_state H).
  - rewrite g4. apply (q_sums H).
  - apply (q_c H).
  - destruct (q_bits H) as [w2 [d2 [h [r [Q1 [Q2 [Q3 [Q4 Q5]]]]]]]].
    exists w2, d2, [], (rev d2 ++ base). rewrite g7, g3. cbn. auto 10.
  - destruct (q_ev H) as [evs G]. exists evs. rewrite g6, g7, g4. auto.
Qed.

(** after FullFlush: a new mark with empty history *)
Lemma openT_mark hd mark base d0 cur ds w : openT hd mark base d0 cur ds w -> lz_buf (w_lz w) = [] -> lz_hist (w_lz w) = [] ->
  openT hd (obits (w_out w)) [] cur cur ds w.
Proof.
  intros [c [H EC]] Hb Hh. rewrite Hb, app_nil_r in EC. subst c. exists cur. rewrite Hb, app_nil_r. split; auto.
  constructor; try apply H. exists [], [], [], []. rewrite !app_nil_r. cbn. repeat split; auto. constructor.
Qed.

Definition sync_like (ft : flushtype) : bool := match ft with SyncFlush | FullFlush => true | _ => false end.

Lemma emit_stored hd mark base d0 cur ds w : openT hd mark base d0 cur ds w -> lz_buf (w_lz w) = [] ->
  post (fun w' => openT hd mark base d0 cur ds w' /\ lz_buf (w_lz w') = [] /\ obLen (w_out w') = 0)
    (writeStoredBlock (bw_writer env) w [] false).
Proof.
  intros [c [H EC]] Hb. rewrite writeStored_run by (unfold lenN; cbn; lia).
  assert (HE : post (fun w' => wopen hd mark base d0 c [] ds w' /\ w_lz w' = w_lz w) (run (bw_writer env) (stored_acts [] false) w)).
  { apply (emit_block H); [apply stored_ok; constructor|apply stored_descr; [constructor|vm_compute; discriminate]|].
    intros pos h _. apply HBstored; [vm_compute; discriminate|constructor]. }
  destruct (run (bw_writer env) (stored_acts [] false) w) as [[w' []]| |] eqn:ER; cbn [post] in *; auto.
  destruct HE as [H1 H2]. split; [exists c; rewrite H2; auto|]. split; [rewrite H2; auto|].
  eapply stored_aligned; eauto; [constructor|apply (k_out (q_ok H))|apply (k_cnt (q_ok H))].
Qed.

Lemma flushGuts_post hd mark base d0 cur ds w ft : openT hd mark base d0 cur ds w -> lz_buf (w_lz w) = [] -> is_finish ft = false -> (ft = PartialFlush -> pf) ->
  post (fun w' => openT hd mark base d0 cur ds w' /\ lz_buf (w_lz w') = [] /\
    (sync_like ft = true -> obLen (w_out w') = 0) /\ (ft = FullFlush -> lz_hist (w_lz w') = []))
   (flushGuts env w ft).
Proof.
  intros H Hb Hf Hpf. destruct ft; try discriminate; unfold flushGuts; cbn [sync_like].
  - cbn [post]. repeat split; auto; discriminate.
  - destruct H as [c [H EC]].
    pose proof (@writeStatic_run writer (bw_writer env) w [] false (Forall_nil _)) as E. unfold toks in E; cbn [map app] in E. rewrite E.
    pose proof (@static_ok [] false (Forall_nil _)) as A. unfold toks in A; cbn [map app] in A.
    eapply post_impl; [apply (emit_block H); [exact A|exact (@static_descr [] false (Forall_nil _))|]|].
    + intros pos h _. cbn [rev app]. apply HBempty. auto.
    + intros w' [H1 H2]. split; [exists c; rewrite H2; auto|]. rewrite H2. repeat split; auto; discriminate.
  - eapply post_impl; [apply (emit_stored H); auto|]. intros w' [H1 [H2 H3]]. repeat split; auto; discriminate.
  - eapply post_bind; [apply (emit_stored H); auto|]. intros w' [H1 [H2 H3]]. cbn [post].
    destruct (setlz_fields w' (lz_windowClear (w_lz w'))) as [g1 [g2 [g3 [g4 [g5 [g6 g7]]]]]].
    split; [apply openT_clear; auto|]. rewrite g3, g7. auto.
Qed.

(** flushImpl after the state machine: Flush and Sync of the underlying writer *)
Definition fl_sync (w : writer) : res (writer * bool) :=
  let fl := e_flushw env (w_flushes w) in
  let w := set_calls w (S (w_flushes w)) (w_syncs w) in
  match fl with
  | Some e => Ok (w_fail w e, false)
  | None =>
    let sy := e_syncw env (w_syncs w) in
    let w := set_calls w (w_flushes w) (S (w_syncs w)) in
    match sy with
    | None => Ok (w, true)
    | Some EINVAL => Ok (w, true)
    | Some e => Ok (w_fail w e, false)
    end
  end.
Lemma calls_fields w a b : w_opt (set_calls w a b) = w_opt w /\ w_cfg (set_calls w a b) = w_cfg w /\ w_lz (set_calls w a b) = w_lz w /\
  w_in (set_calls w a b) = w_in w /\ w_hdr (set_calls w a b) = w_hdr w /\ w_events (set_calls w a b) = w_events w /\
  w_out (set_calls w a b) = w_out w.
Proof. destruct w; cbn. repeat split. Qed.
Definition same_core (w w' : writer) : Prop :=
  w_opt w' = w_opt w /\ w_cfg w' = w_cfg w /\ w_lz w' = w_lz w /\ w_in w' = w_in w /\ w_hdr w' = w_hdr w /\
  w_events w' = w_events w /\ w_out w' = w_out w.
Lemma fl_sync_post w : post (same_core w) (fl_sync w).
Proof.
  assert (HF : forall w e, from_env env e -> wfailed env (w_fail w e)).
  { intros w0 e He. unfold w_fail, wfailed, w_state. rewrite w_out_set. destruct (w_out w0); cbn. eauto. }
  unfold fl_sync. destruct (e_flushw env (w_flushes w)) as [e|] eqn:E1.
  - cbn [post]. apply HF. right. left. eauto.
  - assert (ES : forall a b a' b', same_core w (set_calls (set_calls w a b) a' b')) by (intros; destruct w; repeat split).
    cbn [w_flushes]. set (w1 := set_calls w _ _).
    assert (EY : w_syncs w1 = w_syncs w) by (unfold w1; destruct w; reflexivity).
    destruct (e_syncw env (w_syncs w1)) as [e|] eqn:E2; [|apply ES].
    destruct e; try apply ES; cbn [post]; apply HF; right; right; exists (w_syncs w1); (split; [auto|discriminate]).
Qed.

Lemma openT_core hd mark base d0 cur ds w w' : same_core w w' -> openT hd mark base d0 cur ds w -> openT hd mark base d0 cur ds w'.
Proof.
  intros [g1 [g2 [g3 [g4 [g5 [g6 g7]]]]]] [c [H EC]]. exists c. rewrite g3. split; auto.
  destruct (q_ok H) as [k1 k2 k3 k4 k5 k6 k7 k8 k9]. constructor; try (apply H).
  - constructor; rewrite ?g1, ?g2, ?g3, ?g5, ?g7; auto.
  - rewrite g5. apply H.
  - unfold w_state. rewrite g7. apply (q_state H).
  - rewrite g4. apply H.
  - rewrite g7, g3. apply H.
  - destruct (q_ev H) as [evs G]. exists evs. rewrite g6, g7, g4. auto.
Qed.
Lemma widle_core hd ds w w' : same_core w w' -> widle hd ds w -> widle hd ds w'.
Proof.
  intros [g1 [g2 [g3 [g4 [g5 [g6 g7]]]]]] H.
  destruct (i_ok H) as [k1 k2 k3 k4 k5 k6 k7 k8 k9]. constructor.
  - constructor; rewrite ?g1, ?g2, ?g3, ?g5, ?g7; auto.
  - rewrite g5. apply H.
  - unfold w_state. rewrite g7. apply (i_state H).
  - rewrite g7. apply H.
  - destruct (i_ev H) as [evs G]. exists evs. rewrite g6, g7, g4. auto.
  - unfold LastClose. rewrite g6, g7, g4. apply (i_last H).
Qed.

(** ** compressImpl *)
Lemma compressImpl_open hd mark base d0 cur ds w all : openT hd mark base d0 cur ds w ->
  (big (lenN (lz_buf (w_lz w))) -> MP) ->
  post (fun w' => openT hd mark base d0 cur ds w' /\
    ((all = true \/ lz_isFull (w_lz w) = true) -> lz_buf (w_lz w') = []) /\ short w') (compressImpl env w all).
Proof.
  intros H HM. unfold compressImpl. destruct (lz_buf (w_lz w)) as [|x l] eqn:E.
  { cbn [post]. split; auto. split; auto. apply short_nil; auto. }
  rewrite <- E in *.
  assert (HS : w_state w = openStream) by (destruct H as [c [H _]]; apply (q_state H)).
  rewrite HS. cbn [rbind]. rewrite HS. cbn [rbind]. apply compress_post; auto.
Qed.

(** the mark of a stream that started at byte offset [length s] *)
Definition smark (s : list N) (hd : header) : list bool := bits_of_bytes (s ++ hdr_bytes opt hd).

Lemma compressImpl_idle hd ds w all : widle hd ds w -> lz_buf (w_lz w) <> [] ->
  (big (lenN (lz_buf (w_lz w))) -> MP) ->
  post (fun w' => exists hd', hnorm opt hd hd' /\
    openT hd' (smark (sink (w_out w)) hd') (rev dictb) [] (lz_buf (w_lz w)) ds w' /\
    ((all = true \/ lz_isFull (w_lz w) = true) -> lz_buf (w_lz w') = []) /\ short w') (compressImpl env w all).
Proof.
  intros H Hb HM. unfold compressImpl. destruct (lz_buf (w_lz w)) as [|x l] eqn:E; [congruence|]. rewrite <- E in *.
  assert (HS : w_state w = noStream \/ w_state w = closedStream) by (rewrite (i_state H); destruct ds; auto).
  set (Q := fun w1 => exists hd', hnorm opt hd hd' /\
    openT hd' (smark (sink (w_out w)) hd') (rev dictb) [] (lz_buf (w_lz w)) ds w1 /\ lz_buf (w_lz w1) = lz_buf (w_lz w) /\ lz_isFull (w_lz w1) = lz_isFull (w_lz w)).
  assert (H1 : post Q (let? w := writeHeader env w in Ok (w_setstate w openStream, true))).
  { apply post_setstate. eapply post_impl; [apply writeHeader_post; eauto|].
    intros w1 [hd' [A1 [A2 A3]]]. exists hd'. split; auto. split; [exact A2|].
    destruct (setstate_fields w1 openStream) as [_ [_ [s3 _]]]. rewrite s3. split; auto.
    destruct A2 as [c [A2 _]]. pose proof (cap_eq (q_ok A2)) as C1. rewrite s3 in C1. pose proof (cap_eq (i_ok H)) as C2.
    unfold lz_isFull. rewrite C1, C2, A3. reflexivity. }
  assert (H2 : post Q (let? w0 := Ok (w, true) in match w_state w0 with
       | noStream | closedStream => let? w1 := writeHeader env w0 in Ok (w_setstate w1 openStream, true)
       | _ => Ok (w0, true) end)).
  { cbn [rbind]. destruct HS as [-> | ->]; exact H1. }
  assert (EQ : (match w_state w with closingStream => let? w0 := writeFooter env w in Ok (w_setstate w0 closedStream, true) | _ => Ok (w, true) end) = Ok (w, true)).
  { destruct HS as [-> | ->]; reflexivity. }
  rewrite EQ. cbn [rbind] in *. eapply post_bind; [exact H2|].
  intros w1 [hd' [A1 [A2 [A3 A4]]]]. eapply post_impl; [apply compress_post; [exact A2|rewrite A3; exact HM]|].
  intros w2 [B1 B2]. exists hd'. rewrite <- A4. auto.
Qed.

(** ** flushImpl *)
Definition fl_state (w : writer) (ft : flushtype) : res (writer * bool) :=
  let? w := (if is_finish ft then
               match w_state w with
               | noStream => let? w := writeHeader env w in Ok (w_setstate w openStream, true)
               | _ => Ok (w, true) end
             else Ok (w, true)) in
  let? w := (match w_state w with openStream => flushGuts env w ft | _ => Ok (w, true) end) in
  let? w := (match w_state w with
             | closingStream => let? w := writeFooter env w in Ok (w_setstate w closedStream, true)
             | _ => Ok (w, true) end) in
  fl_sync w.
Lemma flushImpl_eq w ft : flushImpl env w ft = let? w := compressImpl env w true in fl_state w ft.
Proof. reflexivity. Qed.

Definition flushed_open hd mark base d0 cur ds ft w' : Prop :=
  openT hd mark base d0 cur ds w' /\ lz_buf (w_lz w') = [] /\
  (sync_like ft = true -> obLen (w_out w') = 0) /\ (ft = FullFlush -> lz_hist (w_lz w') = []).
Definition finished hd mark base d0 cur ds w' : Prop :=
  widle hd (ds ++ [cur]) w' /\ Closed mark base d0 cur (sink (w_out w')) /\ lz_buf (w_lz w') = [].

Lemma fl_state_open hd mark base d0 cur ds w ft : openT hd mark base d0 cur ds w -> lz_buf (w_lz w) = [] -> (ft = PartialFlush -> pf) ->
  post (if is_finish ft then finished hd mark base d0 cur ds else flushed_open hd mark base d0 cur ds ft) (fl_state w ft).
Proof.
  intros H Hb Hpf. unfold fl_state.
  assert (HS : w_state w = openStream) by (destruct H as [c [H _]]; apply (q_state H)).
  destruct (is_finish ft) eqn:Hf.
  - rewrite HS. cbn [rbind]. rewrite HS. assert (ft = FinishFlush) by (destruct ft; auto; discriminate). subst ft.
    eapply post_bind; [apply flush_final; eauto|]. intros w1 H1. rewrite (c_state H1).
    eapply post_bind.
    + apply (@post_setstate (finished hd mark base d0 cur ds)). eapply post_impl; [apply footer_idle; eauto|].
      intros w2 [A1 [A2 A3]]. destruct (setstate_fields w2 closedStream) as [s1 [s2 [s3 [s4 [s5 [s6 s7]]]]]].
      split; auto. rewrite s3, s7. destruct (setstate_out (w_out w2) closedStream (werr (w_out w2))) as [u1 _]. rewrite u1. auto.
    + intros w3 [H3 [H4 H5]]. eapply post_impl; [apply fl_sync_post|]. intros w4 HC.
      assert (HC2 := HC). destruct HC2 as [g1 [g2 [g3 [g4 [g5 [g6 g7]]]]]].
      split; [eapply widle_core; eauto|]. rewrite g3, g7. auto.
  - cbn [rbind]. rewrite HS. eapply post_bind; [apply (flushGuts_post H); auto|].
    intros w1 [H1 [H2 [H3 H4]]].
    assert (HS1 : w_state w1 = openStream) by (destruct H1 as [c1 [H1 _]]; apply (q_state H1)).
    rewrite HS1. cbn [rbind]. eapply post_impl; [apply fl_sync_post|]. intros w4 HC.
    assert (HC2 := HC). destruct HC2 as [g1 [g2 [g3 [g4 [g5 [g6 g7]]]]]].
    split; [eapply openT_core; eauto|]. rewrite g3, g7. auto.
Qed.

Lemma flushImpl_open hd mark base d0 cur ds w ft : openT hd mark base d0 cur ds w -> (ft = PartialFlush -> pf) ->
  (big (lenN (lz_buf (w_lz w))) -> MP) ->
  post (if is_finish ft then finished hd mark base d0 cur ds else flushed_open hd mark base d0 cur ds ft) (flushImpl env w ft).
Proof.
  intros H Hpf HM. rewrite flushImpl_eq. eapply post_bind; [apply compressImpl_open; eauto|].
  intros w1 [H1 [H2 _]]. apply fl_state_open; auto.
Qed.

Lemma idle_setstate_buf hd ds w : widle hd ds w -> lz_buf (w_lz w) = [] -> compressImpl env w true = Ok (w, true).
Proof. intros H Hb. unfold compressImpl. rewrite Hb. reflexivity. Qed.

Lemma flushImpl_idle hd ds w ft : widle hd ds w -> lz_buf (w_lz w) = [] -> is_finish ft = false \/ ds <> [] ->
  post (fun w' => widle hd ds w' /\ lz_buf (w_lz w') = [] /\ sink (w_out w') = sink (w_out w)) (flushImpl env w ft).
Proof.
  intros H Hb Hc. rewrite flushImpl_eq, (idle_setstate_buf H Hb). cbn [rbind]. unfold fl_state.
  assert (HS : w_state w = noStream /\ is_finish ft = false \/ w_state w = closedStream).
  { rewrite (i_state H). destruct ds; auto. destruct Hc; auto; congruence. }
  assert (E1 : (if is_finish ft then match w_state w with
               | noStream => let? w := writeHeader env w in Ok (w_setstate w openStream, true)
               | _ => Ok (w, true) end else Ok (w, true)) = Ok (w, true)).
  { destruct HS as [[-> ->] | ->]; auto. destruct (is_finish ft); auto. }
  rewrite E1. cbn [rbind].
  assert (E2 : (match w_state w with openStream => flushGuts env w ft | _ => Ok (w, true) end) = Ok (w, true)).
  { destruct HS as [[-> _] | ->]; auto. }
  rewrite E2. cbn [rbind].
  assert (E3 : (match w_state w with closingStream => let? w := writeFooter env w in Ok (w_setstate w closedStream, true)
             | _ => Ok (w, true) end) = Ok (w, true)).
  { destruct HS as [[-> _] | ->]; auto. }
  rewrite E3. cbn [rbind]. eapply post_impl; [apply fl_sync_post|]. intros w4 HC.
  assert (HC2 := HC). destruct HC2 as [g1 [g2 [g3 [g4 [g5 [g6 g7]]]]]].
  split; [eapply widle_core; eauto|]. rewrite g3, g7. auto.
Qed.

Lemma flushImpl_first hd w : widle hd [] w -> lz_buf (w_lz w) = [] ->
  post (fun w' => exists hd', hnorm opt hd hd' /\ finished hd' (smark (sink (w_out w)) hd') (rev dictb) [] [] [] w')
    (flushImpl env w FinishFlush).
Proof.
  intros H Hb. rewrite flushImpl_eq, (idle_setstate_buf H Hb). cbn [rbind].
  pose proof (i_state H) as HS. cbn in HS.
  set (Q := fun w1 => exists hd', hnorm opt hd hd' /\
    openT hd' (smark (sink (w_out w)) hd') (rev dictb) [] [] [] w1 /\ lz_buf (w_lz w1) = []).
  assert (H1 : post Q (let? w := writeHeader env w in Ok (w_setstate w openStream, true))).
  { apply post_setstate. eapply post_impl; [apply writeHeader_post; eauto|].
    intros w1 [hd' [A1 [A2 A3]]]. exists hd'. split; auto. rewrite Hb in A2. split; [exact A2|].
    destruct (setstate_fields w1 openStream) as [_ [_ [s3 _]]]. rewrite s3. congruence. }
  assert (EQ : fl_state w FinishFlush = let? w1 := (let? w := writeHeader env w in Ok (w_setstate w openStream, true)) in
     let? w := (match w_state w1 with openStream => flushGuts env w1 FinishFlush | _ => Ok (w1, true) end) in
     let? w := (match w_state w with
             | closingStream => let? w := writeFooter env w in Ok (w_setstate w closedStream, true)
             | _ => Ok (w, true) end) in fl_sync w).
  { unfold fl_state. cbn [is_finish]. rewrite HS. reflexivity. }
  rewrite EQ. eapply post_bind; [exact H1|]. intros w1 [hd' [A1 [A2 A3]]].
  pose proof (@fl_state_open hd' _ _ _ _ _ w1 FinishFlush A2 A3 ltac:(discriminate)) as A4. cbn [is_finish] in A4.
  unfold fl_state in A4. cbn [is_finish] in A4.
  assert (HS1 : w_state w1 = openStream) by (destruct A2 as [c1 [A2 _]]; apply (q_state A2)).
  rewrite HS1 in A4. cbn [rbind] in A4. rewrite HS1 in A4. rewrite HS1.
  eapply post_impl; [exact A4|]. intros w2 A5. exists hd'. auto.
Qed.

(** ** Write *)
Definition lz_put (l : lz77) (p : list N) : lz77 := LZ (lz_o l) (lz_hist l) (lz_buf l ++ p) (lz_calls l).
Lemma put_ok w p : wok w -> bytes_ok p -> (lenN (lz_buf (w_lz w)) + lenN p <= lz_cap (w_lz w))%N ->
  wok (set_lz w (lz_put (w_lz w) p)).
Proof.
  intros [k1 k2 k3 k4 k5 k6 k7 k8 k9] Hp Hl.
  destruct (setlz_fields w (lz_put (w_lz w) p)) as [g1 [g2 [g3 [g4 [g5 [g6 g7]]]]]].
  constructor; rewrite ?g1, ?g2, ?g3, ?g5, ?g7; auto; cbn [lz_put lz_o lz_hist lz_buf lz_calls].
  - apply bytes_ok_app. auto.
  - rewrite lenN_app. unfold lz_cap in *. cbn. auto.
Qed.
Lemma put_open hd mark base d0 cur ds w p : openT hd mark base d0 cur ds w -> bytes_ok p ->
  (lenN (lz_buf (w_lz w)) + lenN p <= lz_cap (w_lz w))%N ->
  openT hd mark base d0 (cur ++ p) ds (set_lz w (lz_put (w_lz w) p)).
Proof.
  intros [c [H EC]] Hp Hl. exists c.
  destruct (setlz_fields w (lz_put (w_lz w) p)) as [g1 [g2 [g3 [g4 [g5 [g6 g7]]]]]].
  split; [|rewrite g3; cbn; rewrite EC; now rewrite app_assoc].
  constructor.
  - apply put_ok; auto. apply (q_ok H).
  - rewrite g5. apply H.
  - unfold w_state. rewrite g7. apply (q_state H).
  - rewrite g4. apply H.
  - apply H.
  - rewrite g7, g3. apply (q_bits H).
  - destruct (q_ev H) as [evs G]. exists evs. rewrite g6, g7, g4. auto.
Qed.
Lemma put_idle hd ds w p : widle hd ds w -> bytes_ok p ->
  (lenN (lz_buf (w_lz w)) + lenN p <= lz_cap (w_lz w))%N -> widle hd ds (set_lz w (lz_put (w_lz w) p)).
Proof.
  intros H Hp Hl. destruct (setlz_fields w (lz_put (w_lz w) p)) as [g1 [g2 [g3 [g4 [g5 [g6 g7]]]]]].
  constructor.
  - apply put_ok; auto. apply (i_ok H).
  - rewrite g5. apply H.
  - unfold w_state. rewrite g7. apply (i_state H).
  - rewrite g7. apply H.
  - destruct (i_ev H) as [evs G]. exists evs. rewrite g6, g7, g4. auto.
  - unfold LastClose. rewrite g6, g7, g4. apply (i_last H).
Qed.

Lemma writeLoop_open : forall fuel w hd mark base d0 cur ds buf, openT hd mark base d0 cur ds w -> bytes_ok buf ->
  2 * length buf + (if lz_isFull (w_lz w) then 1 else 0) < fuel ->
  (big (N.min (lz_cap (w_lz w)) (lenN (lz_buf (w_lz w)) + lenN buf)) -> MP) ->
  post (fun w' => openT hd mark base d0 (cur ++ buf) ds w' /\ (short w \/ buf <> [] -> short w')) (writeLoop env fuel w buf).
Proof.
  induction fuel as [|f IH]; intros w hd mark base d0 cur ds buf H Hb Hf HM; [lia|].
  cbn [writeLoop]. destruct buf as [|x l] eqn:EB; [cbn [post]; rewrite app_nil_r; split; auto; intros [|]; [auto|congruence]|]. rewrite <- EB in *.
  assert (Lb : 1 <= length buf) by (subst buf; cbn; lia). clear EB x l.
  set (nn := N.to_nat (N.min (lenN buf) (lz_cap (w_lz w) - lenN (lz_buf (w_lz w))))).
  assert (EW : lz_write (w_lz w) buf = (lz_put (w_lz w) (firstn nn buf), nn, nn <? length buf)) by reflexivity.
  rewrite EW.
  assert (HK : wok w) by (destruct H as [c [H _]]; apply (q_ok H)).
  assert (Hn : nn <= length buf) by (unfold nn, lenN; lia).
  assert (Hcap : (0 < lz_cap (w_lz w))%N) by apply pow2_pos.
  assert (Hsplit : bytes_ok (firstn nn buf) /\ bytes_ok (skipn nn buf)) by (apply bytes_ok_app; rewrite firstn_skipn; auto).
  destruct Hsplit as [Hb1 Hb2].
  assert (Hfit : (lenN (lz_buf (w_lz w)) + lenN (firstn nn buf) <= lz_cap (w_lz w))%N).
  { pose proof (k_cap HK). unfold lenN at 2. rewrite firstn_length. unfold nn, lenN in *. lia. }
  pose proof (put_open H Hb1 Hfit) as HP.
  assert (Hzero : nn = 0 -> lz_isFull (w_lz w) = true).
  { intros E. unfold lz_isFull. apply N.leb_le. unfold nn, lenN in *. lia. }
  assert (HC0 : lz_cap (w_lz w) = (2 ^ (o_mlevel opt + 8))%N) by (apply cap_eq; auto).
  clearbody nn. set (all := (Nat.eqb nn 0 || (nn <? length buf))%bool).
  assert (EB1 : lz_buf (w_lz (set_lz w (lz_put (w_lz w) (firstn nn buf)))) = lz_buf (w_lz w) ++ firstn nn buf).
  { destruct (setlz_fields w (lz_put (w_lz w) (firstn nn buf))) as [g1 [g2 [g3 [g4 [g5 [g6 g7]]]]]]. rewrite g3. reflexivity. }
  assert (Hl1 : (lenN (firstn nn buf) <= lenN buf)%N) by (unfold lenN; rewrite firstn_length; lia).
  eapply post_bind; [apply (compressImpl_open all HP)|].
  { rewrite EB1, lenN_app. intros [Q1 Q2]. apply HM. split; auto. lia. }
  intros w1 [H1 [H2 H3]].
  replace (cur ++ buf) with ((cur ++ firstn nn buf) ++ skipn nn buf) by (rewrite <- app_assoc, firstn_skipn; auto).
  destruct (Nat.eq_dec nn (length buf)) as [En|En].
  - assert (ES : skipn nn buf = []) by (rewrite En; apply skipn_all). rewrite ES, app_nil_r. destruct f; cbn [writeLoop post]; auto.
  - eapply post_impl; [apply (IH w1 hd mark base d0 (cur ++ firstn nn buf) ds (skipn nn buf) H1 Hb2)|].
    2:{ intros [Q1 Q2]. apply HM. split; auto. assert (Ebuf : lz_buf (w_lz w1) = []).
        { apply H2. left. unfold all. destruct (Nat.ltb_spec nn (length buf)); [apply orb_true_r|lia]. }
        assert (K1 : wok w1) by (destruct H1 as [c1 [H1 _]]; apply (q_ok H1)).
        rewrite (cap_eq K1), <- HC0, Ebuf, lenN_nil in Q2. assert ((lenN (skipn nn buf) <= lenN buf)%N) by (unfold lenN; rewrite skipn_length; lia).
        lia. }
    2:{ intros w2 [X1 X2]. split; auto. }
    rewrite skipn_length.
    assert (Eall : all = true) by (unfold all; destruct (Nat.ltb_spec nn (length buf)); [apply orb_true_r|lia]).
    assert (Ebuf : lz_buf (w_lz w1) = []) by auto.
    assert (Efull : lz_isFull (w_lz w1) = false).
    { unfold lz_isFull. rewrite Ebuf, lenN_nil. apply N.leb_gt.
      assert (K1 : wok w1) by (destruct H1 as [c1 [H1 _]]; apply (q_ok H1)). rewrite (cap_eq K1). apply pow2_pos. }
    rewrite Efull. destruct (Nat.eq_dec nn 0) as [Z|Z]; [rewrite (Hzero Z) in Hf|]; lia.
Qed.

Lemma writeLoop_idle hd ds w buf : widle hd ds w -> lz_buf (w_lz w) = [] -> bytes_ok buf -> buf <> [] ->
  (big (N.min (lz_cap (w_lz w)) (lenN buf)) -> MP) ->
  post (fun w' => exists hd', hnorm opt hd hd' /\ openT hd' (smark (sink (w_out w)) hd') (rev dictb) [] buf ds w' /\ short w')
    (writeLoop env (2 * length buf + 2) w buf).
Proof.
  intros H Hbuf Hb Hne HM. replace (2 * length buf + 2) with (S (2 * length buf + 1)) by lia.
  cbn [writeLoop]. destruct buf as [|x l] eqn:EB; [congruence|]. rewrite <- EB in *.
  assert (Lb : 1 <= length buf) by (subst buf; cbn; lia). clear EB x l.
  set (nn := N.to_nat (N.min (lenN buf) (lz_cap (w_lz w) - lenN (lz_buf (w_lz w))))).
  assert (EW : lz_write (w_lz w) buf = (lz_put (w_lz w) (firstn nn buf), nn, nn <? length buf)) by reflexivity.
  rewrite EW.
  assert (HK : wok w) by apply (i_ok H).
  assert (Hn : nn <= length buf) by (unfold nn, lenN; lia).
  assert (Hcap : (0 < lz_cap (w_lz w))%N) by apply pow2_pos.
  assert (Hsplit : bytes_ok (firstn nn buf) /\ bytes_ok (skipn nn buf)) by (apply bytes_ok_app; rewrite firstn_skipn; auto).
  destruct Hsplit as [Hb1 Hb2].
  assert (Hfit : (lenN (lz_buf (w_lz w)) + lenN (firstn nn buf) <= lz_cap (w_lz w))%N).
  { pose proof (k_cap HK). unfold lenN at 2. rewrite firstn_length. unfold nn, lenN in *. lia. }
  pose proof (put_idle H Hb1 Hfit) as HP.
  assert (Hpos : 1 <= nn) by (unfold nn; rewrite Hbuf, lenN_nil; unfold lenN; lia).
  clearbody nn. set (all := (Nat.eqb nn 0 || (nn <? length buf))%bool).
  destruct (setlz_fields w (lz_put (w_lz w) (firstn nn buf))) as [g1 [g2 [g3 [g4 [g5 [g6 g7]]]]]].
  assert (EB1 : lz_buf (w_lz (set_lz w (lz_put (w_lz w) (firstn nn buf)))) = firstn nn buf) by (rewrite g3; cbn; rewrite Hbuf; auto).
  assert (Hne1 : firstn nn buf <> []).
  { intros E. apply (f_equal (@length N)) in E. rewrite firstn_length in E. cbn in E. lia. }
  assert (Hl1 : (lenN (firstn nn buf) <= lenN buf)%N) by (unfold lenN; rewrite firstn_length; lia).
  assert (Hl2 : (lenN (skipn nn buf) <= lenN buf)%N) by (unfold lenN; rewrite skipn_length; lia).
  assert (HC0 : lz_cap (w_lz w) = (2 ^ (o_mlevel opt + 8))%N) by (apply cap_eq; auto).
  eapply post_bind; [apply (compressImpl_idle all HP); rewrite EB1; auto|].
  { intros [Q1 Q2]. apply HM. split; auto. rewrite Hbuf, lenN_nil in Hfit. lia. }
  intros w1 [hd' [A1 [A2 [A3 A4]]]]. rewrite EB1 in A2. rewrite g7 in A2.
  eapply post_impl; [apply (writeLoop_open A2 Hb2)|].
  - rewrite skipn_length. destruct (lz_isFull (w_lz w1)); lia.
  - intros [Q1 Q2]. apply HM. split; auto.
    assert (K1 : wok w1) by (destruct A2 as [c1 [A2 _]]; apply (q_ok A2)).
    rewrite (cap_eq K1), <- HC0 in Q2.
    destruct (Nat.eq_dec nn (length buf)) as [En|En].
    + rewrite En, skipn_all, lenN_nil in Q2. apply (fun H => short_small H Q1) in A4. unfold compressedBlockSize in A4. lia.
    + rewrite A3 in Q2; [rewrite lenN_nil in Q2; lia|].
      left. unfold all. destruct (Nat.ltb_spec nn (length buf)); [apply orb_true_r|lia].
  - intros w2 [H2 H3]. rewrite firstn_skipn in H2. exists hd'. auto.
Qed.
End Inv.

(** The assertion can fail only with compression and memory level 8 or 9. *)
Definition may_panic (opt : options) : Prop := isStoreConfig (compressConfig opt) = false /\ (8 <= o_mlevel opt)%N.
Lemma big_may_panic opt n : (n <= 2 ^ (o_mlevel opt + 8))%N -> big opt n -> may_panic opt.
Proof.
  intros K [H1 H2]. split; auto. destruct (N.le_gt_cases 8 (o_mlevel opt)); auto. exfalso.
  assert (2 ^ (o_mlevel opt + 8) <= 2 ^ 15)%N by (apply N.pow_le_mono_r; lia). change (2 ^ 15)%N with 32768%N in *. lia.
Qed.
