(** compressTokens: one block of the grammar, or the assertion of writeStoredBlock. *)
From Verif Require Import Base SpecChecksum SpecEvents SpecHuffman SpecDeflate MChecksum PChecksum MToken MCommon MWriter MReader SpecLib
  PToken PHuffman PTree PBits PActs SpecBlocks PAt PBlocks.

Lemma stored_evs data fin : block_evs fin (acts_evs (stored_acts data fin)).
Proof. cbn. constructor. Qed.
Lemma static_evs tokens fin : block_evs fin (acts_evs (static_acts tokens fin)).
Proof.
  unfold static_acts. rewrite !acts_evs_app, (@no_evs_flat token).
  - cbn. constructor. auto.
  - intros. apply no_evs_tok.
Qed.
Lemma dyn_evs sLL sD xt numLL numD sX numX tokens fin :
  block_evs fin (acts_evs (dyn_acts sLL sD xt numLL numD sX numX tokens fin)).
Proof.
  unfold dyn_acts. rewrite !acts_evs_app, (@no_evs_flat token (x_acts sX)), (@no_evs_flat token (tok_acts sLL sD)).
  - assert (E : acts_evs (map (fun i => ABits 3 (N.of_nat (nth (nth i scramble 0) sX 0))) (seq 0 numX)) = []).
    { generalize (seq 0 numX). intros l. induction l as [|i l IH]; auto. }
    rewrite E. cbn. constructor. auto.
  - intros. apply no_evs_tok.
  - intros. apply no_evs_x.
Qed.

(** What the events of a block say is true of its bits. *)
Definition descr (fin : bool) (acts : list act) : Prop :=
  block_evs fin (acts_evs acts) /\ forall pos, BlockS proper_code pos fin (acts_bits pos acts) (acts_evs acts).
Lemma stored_descr data fin : bytes_ok data -> (lenN data <= 65535)%N -> descr fin (stored_acts data fin).
Proof. intros H1 H2. split; [apply stored_evs|]. intros pos. apply stored_blockS; auto. Qed.
Lemma static_descr lts fin : Forall ltok_ok lts -> descr fin (static_acts (toks lts) fin).
Proof.
  intros H. split; [apply static_evs|]. intros pos.
  replace (acts_evs (static_acts (toks lts) fin)) with [ev_block BlockBeginEvent StaticBlock fin; ev_trees StaticBlock fin (Trees 0 0 0 [] fixed_ll fixed_d); ev_block BlockEndEvent StaticBlock fin]; [apply static_blockS; auto|].
  unfold static_acts. rewrite !acts_evs_app, (@no_evs_flat token) by (intros; apply no_evs_tok). cbn [acts_evs app]. rewrite fixedLL_eq, fixedD_eq. reflexivity.
Qed.
Lemma dyn_descr env sLL sD xt numLL numD sX numX lts fin : Forall ltok_ok lts ->
  length sLL = 288 -> length sD = 32 -> proper_code sLL -> proper_code sD ->
  sizesAllZeroes (skipn 286 sLL) = true -> sizesAllZeroes (skipn 30 sD) = true ->
  Forall (tok_codes sLL sD) (toks lts) -> dyn_plan env sLL sD xt numLL numD sX numX ->
  descr fin (dyn_acts sLL sD xt numLL numD sX numX (toks lts) fin).
Proof.
  intros H L1 L2 P1 P2 Z1 Z2 HC P. split; [apply dyn_evs|]. intros pos.
  destruct (@dyn_bits env pos sLL sD xt numLL numD sX numX lts fin) as [wt [w [-> [HT HW]]]]; auto.
  assert (EE : acts_evs (dyn_acts sLL sD xt numLL numD sX numX (toks lts) fin) =
    [ev_block BlockBeginEvent DynamicBlock fin; ev_trees DynamicBlock fin (Trees (N.of_nat numX) (N.of_nat numLL) (N.of_nat numD) sX sLL sD); ev_block BlockEndEvent DynamicBlock fin]).
  { unfold dyn_acts. rewrite !acts_evs_app, (@no_evs_flat token (x_acts sX)), (@no_evs_flat token (tok_acts sLL sD)) by (intros; first [apply no_evs_tok|apply no_evs_x]).
    assert (E : acts_evs (map (fun i => ABits 3 (N.of_nat (nth (nth i scramble 0) sX 0))) (seq 0 numX)) = []).
    { generalize (seq 0 numX). intros l. induction l as [|i l IH]; auto. }
    rewrite E. reflexivity. }
  rewrite EE. eapply blockS_dynamic; eauto.
Qed.

Lemma allzero_nth l n : (forall i, n <= i < length l -> nth i l 0 = 0) -> sizesAllZeroes (skipn n l) = true.
Proof.
  intros H. unfold sizesAllZeroes. apply forallb_forall. intros x Hx.
  apply In_nth with (d := 0) in Hx. destruct Hx as [i [Hi <-]]. rewrite skipn_length in Hi.
  assert (E : nth i (skipn n l) 0 = nth (n + i) l 0).
  { clear. revert l; induction n as [|n IH]; intros l; auto. destruct l as [|x l]; cbn [skipn Nat.add nth]; auto. destruct i; auto. }
  rewrite E, H by lia. reflexivity.
Qed.

Section Env.
Variable env : wenv.
Hypothesis Hbpb : bytesPerBlock env = 4 \/ bytesPerBlock env = 8.
Hypothesis Hhuff : huff_ok env.

(** The three candidate encodings of a block. *)
Record plan (lts : list ltoken) := Plan {
  pl_ll : list nat; pl_d : list nat; pl_xt : list token; pl_nll : nat; pl_nd : nat; pl_x : list nat; pl_nx : nat }.
Definition pl_dyn lts (p : plan lts) (fin : bool) : list act :=
  dyn_acts (pl_ll p) (pl_d p) (pl_xt p) (pl_nll p) (pl_nd p) (pl_x p) (pl_nx p) (toks lts) fin.

Record plan_ok lts (p : plan lts) : Prop := {
  po_dyn : dyn_plan env (pl_ll p) (pl_d p) (pl_xt p) (pl_nll p) (pl_nd p) (pl_x p) (pl_nx p);
  po_freq : exists fLL fD, studyFrequenciesLLD (toks lts) = Ok (fLL, fD) /\
     pl_ll p = e_huff env physicalNumLLCodes fLL /\ pl_d p = e_huff env physicalNumDCodes fD;
  po_len : length (pl_ll p) = 288 /\ length (pl_d p) = 32;
  po_proper : proper_code (pl_ll p) /\ proper_code (pl_d p);
  po_zero : sizesAllZeroes (skipn 286 (pl_ll p)) = true /\ sizesAllZeroes (skipn 30 (pl_d p)) = true;
  po_codes : Forall (tok_codes (pl_ll p) (pl_d p)) (toks lts) }.

Lemma plan_exists lts : Forall ltok_ok lts -> exists p : plan lts, plan_ok p.
Proof.
  intros H. pose proof (toks_valid H) as HV.
  destruct (studyLLD_ok HV) as [fLL [fD [E [L1 [L2 [F1 F2]]]]]].
  destruct (@Hhuff 288 fLL ltac:(lia) L1) as [A1 [A2 [A3 A4]]]. destruct (@Hhuff 32 fD ltac:(lia) L2) as [B1 [B2 [B3 B4]]].
  cbn [Nat.eqb] in A2, B2.
  rewrite Forall_forall in HV.
  assert (HC : Forall (tok_codes (e_huff env 288 fLL) (e_huff env 32 fD)) (toks lts)).
  { apply Forall_forall. intros t Ht.
    destruct (tok_symbols (HV t Ht)) as [sl [nl [xl [sd [nd [xd [E1 [E2 [E3 [E4 [E5 E6]]]]]]]]]]].
    split; intros s Hs; unfold code_size.
    - assert (s < 286)%N by (unfold llsym in Hs; rewrite E1 in Hs; inversion Hs; subst; auto).
      pose proof (count_pos Ht Hs) as P. rewrite <- F1 in P by lia.
      destruct (Nat.eq_dec (nth (N.to_nat s) (e_huff env 288 fLL) 0) 0) as [Z|Z]; [|lia].
      apply A4 in Z; lia.
    - assert (s < 30)%N by (unfold dsym in Hs; rewrite E2 in Hs; inversion Hs; subst; auto).
      pose proof (count_pos Ht Hs) as P. rewrite <- F2 in P by lia.
      destruct (Nat.eq_dec (nth (N.to_nat s) (e_huff env 32 fD) 0) 0) as [Z|Z]; [|lia].
      apply B4 in Z; lia. }
  destruct (@dyn_plan_exists env Hhuff (e_huff env 288 fLL) (e_huff env 32 fD)) as [xt [nLL [nD [sX [nX P]]]]];
    auto; try congruence.
  { rewrite Forall_forall in HC. destruct (HC makeStopToken) as [C _].
    - unfold toks. apply in_or_app. right. left. auto.
    - apply C. reflexivity. }
  exists (Plan lts (e_huff env 288 fLL) (e_huff env 32 fD) xt nLL nD sX nX).
  constructor; cbn [pl_ll pl_d pl_xt pl_nll pl_nd pl_x pl_nx]; auto.
  - exists fLL, fD. auto.
  - split; congruence.
  - split; apply allzero_nth; intros i Hi.
    + rewrite A1, L1 in Hi. apply A4; [lia|]. rewrite <- (Nat2N.id i), F1 by lia. apply count_zero.
      intros t Ht Hs. destruct (tok_symbols (HV t Ht)) as [sl [nl [xl [sd [nd [xd [E1 [E2 [E3 [E4 [E5 E6]]]]]]]]]]].
      unfold llsym in Hs. rewrite E1 in Hs. inversion Hs. subst. lia.
    + rewrite B1, L2 in Hi. apply B4; [lia|]. rewrite <- (Nat2N.id i), F2 by lia. apply count_zero.
      intros t Ht Hs. destruct (tok_symbols (HV t Ht)) as [sl [nl [xl [sd [nd [xd [E1 [E2 [E3 [E4 [E5 E6]]]]]]]]]]].
      unfold dsym in Hs. rewrite E2 in Hs. inversion Hs. subst. lia.
Qed.

(** number of bits of the static and dynamic encodings (as counted, from bit 0) *)
Definition static_len lts fin : N := cnt (length (acts_bits 0 (static_acts (toks lts) fin))).
Definition dyn_len lts (p : plan lts) fin : N := cnt (length (acts_bits 0 (pl_dyn p fin))).

Lemma compressTokens_eq lts (p : plan lts) {S} (bw : bitwriter S) s data fin : Forall ltok_ok lts -> plan_ok p ->
  compressTokens env bw s data (toks lts) fin =
  if (lenN data * 8 + 35 <? dyn_len p fin)%N then writeStoredBlock bw s data fin
  else if (static_len lts fin <=? dyn_len p fin)%N then run bw (static_acts (toks lts) fin) s
  else run bw (pl_dyn p fin) s.
Proof.
  intros H P. destruct (po_freq P) as [fLL [fD [E1 [E2 E3]]]]. destruct (po_proper P) as [P1 P2].
  unfold compressTokens. rewrite E1. cbn [rbind]. rewrite <- E2, <- E3.
  rewrite (writeDynamic_run _ _ _ H (po_dyn P)).
  change 0%N with (cnt 0) at 1. rewrite (run_counter Hbpb) by (eapply dyn_ok; eauto; apply (po_dyn P)). cbn [rbind].
  rewrite (writeStatic_run _ _ _ H).
  change 0%N with (cnt 0) at 1. rewrite (run_counter Hbpb) by (apply static_ok; auto). cbn [rbind].
  rewrite (writeStatic_run _ _ _ H), (writeDynamic_run _ _ _ H (po_dyn P)). reflexivity.
Qed.

Lemma stored_padded data pos fin : zero_padded pos (acts_bits pos (stored_acts data fin)).
Proof.
  unfold stored_acts. cbn [acts_bits act_bits app length]. rewrite Nat.add_0_r.
  assert (E : bits_of_N 3 (if fin then 1 else 0) = [fin; false; false]) by (destruct fin; reflexivity).
  rewrite E. cbn [app length zero_padded]. fold (pad8 (pos + 3)).
  rewrite firstn_app, repeat_length, Nat.sub_diag, firstn_O, app_nil_r.
  apply firstn_all2. rewrite repeat_length. apply le_n.
Qed.
Lemma static_padded ts pos fin : zero_padded pos (acts_bits pos (static_acts ts fin)).
Proof. unfold static_acts. cbn [acts_bits act_bits app length]. destruct fin; exact I. Qed.
Lemma dyn_padded lts (p : plan lts) pos fin : zero_padded pos (acts_bits pos (pl_dyn p fin)).
Proof. unfold pl_dyn, dyn_acts. cbn [acts_bits act_bits app length]. destruct fin; exact I. Qed.

Lemma compressTokens_ok lts data fin : Forall ltok_ok lts -> bytes_ok data ->
  (exists acts, acts_ok acts /\ descr fin acts /\
    (forall {S} (bw : bitwriter S) s, compressTokens env bw s data (toks lts) fin = run bw acts s) /\
    forall lk pos hist, expand lk hist lts = Some (rev data ++ hist) ->
      Block proper_code lk pos hist fin (acts_bits pos acts) (rev data ++ hist) /\ zero_padded pos (acts_bits pos acts))
  \/ ((65535 < lenN data)%N /\
      forall {S} (bw : bitwriter S) s, compressTokens env bw s data (toks lts) fin = Panic PAssert).
Proof.
  intros H Hd. destruct (plan_exists H) as [p P].
  destruct (lenN data * 8 + 35 <? dyn_len p fin)%N eqn:C1.
  - destruct (N.le_gt_cases (lenN data) 65535) as [Hl|Hl].
    + left. exists (stored_acts data fin). split; [apply stored_ok; auto|]. split; [apply stored_descr; auto|]. split.
      * intros S bw s. rewrite (compressTokens_eq bw s data fin H P), C1. apply writeStored_run; auto.
      * intros lk pos hist HE. split; [apply stored_block; auto|apply stored_padded].
    + right. split; auto. intros S bw s. rewrite (compressTokens_eq bw s data fin H P), C1.
      apply writeStored_panic; auto.
  - left. destruct (static_len lts fin <=? dyn_len p fin)%N eqn:C2.
    + exists (static_acts (toks lts) fin). split; [apply static_ok; auto|]. split; [apply static_descr; auto|]. split.
      * intros S bw s. rewrite (compressTokens_eq bw s data fin H P), C1, C2. reflexivity.
      * intros lk pos hist HE. split; [apply static_block; auto|apply static_padded].
    + exists (pl_dyn p fin). destruct (po_proper P). split; [eapply dyn_ok; eauto; apply (po_dyn P)|]. split; [destruct (po_len P), (po_zero P); eapply dyn_descr; eauto; [apply (po_codes P)|apply (po_dyn P)]|]. split.
      * intros S bw s. rewrite (compressTokens_eq bw s data fin H P), C1, C2. reflexivity.
      * intros lk pos hist HE. destruct (po_len P), (po_zero P). split; [|apply dyn_padded].
        eapply dyn_block; eauto; try apply (po_dyn P). apply (po_codes P).
Qed.
End Env.
