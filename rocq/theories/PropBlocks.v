(** Theorems about the contents of blocks: the symbols of RFC 1951 section
    3.2.5 (C18), the code length code (C19), the choice of the block type (C22)
    and stored blocks (C49). *)
From Verif Require Import Base SpecChecksum SpecHuffman SpecDeflate SpecBlocks PAt SpecEvents MChecksum PChecksum MToken MCommon MWriter MReader SpecLib SpecReader SpecSession MSession
  PToken PHuffman PTree PBits PActs PBlocks PCompress PGram PInput POutput PDecode PDynamic PBlockDec Demo PDemo PropBits.

(** ** C18 *)
(** The RFC's table assigns to a length a symbol and extra bits; 258 belongs to
    symbol 285 (and not to 284 with extra bits 31). *)
Definition RfcLength (l s : N) (n : nat) (e : N) : Prop :=
  exists b, len_entry s = Some (b, n) /\ (e < 2 ^ N.of_nat n)%N /\ (b + e = l)%N /\ (l = 258 -> s = 285)%N.
Definition RfcDistance (d s : N) (n : nat) (e : N) : Prop :=
  exists b, dist_entry s = Some (b, n) /\ (e < 2 ^ N.of_nat n)%N /\ (b + e = d)%N.

Definition later (t : list (N * nat)) (i j : nat) : bool :=
  match nth_error t i, nth_error t j with
  | Some (b, n), Some (b', _) => (b + 2 ^ N.of_nat n <=? b')%N
  | _, _ => true
  end.
Lemma later_spec t k : forallb (fun i => forallb (fun j => if i <? j then later t i j else true) (seq 0 k)) (seq 0 k) = true ->
  forall i j b n b' n' , i < j < k -> nth_error t i = Some (b, n) -> nth_error t j = Some (b', n') -> (b + 2 ^ N.of_nat n <= b')%N.
Proof.
  intros H i j b n b' n' Hij E1 E2. pose proof (proj1 (forallb_forall _ _) H i ltac:(apply in_seq; lia)) as H1. cbv beta in H1.
  pose proof (proj1 (forallb_forall _ _) H1 j ltac:(apply in_seq; lia)) as H2. cbv beta in H2.
  destruct (Nat.ltb_spec i j); [|lia]. unfold later in H2. rewrite E1, E2 in H2. apply N.leb_le. exact H2.
Qed.
Lemma dist_unique d s n e s' n' e' : RfcDistance d s n e -> RfcDistance d s' n' e' -> s = s' /\ n = n' /\ e = e'.
Proof.
  intros [b [E1 [E2 E3]]] [b' [F1 [F2 F3]]].
  pose proof (dist_entry_range E1) as [R1 _]. pose proof (dist_entry_range F1) as [R2 _]. unfold dist_entry in *.
  assert (L : forall i j b n b' n', i < j < 30 -> nth_error dist_table i = Some (b, n) -> nth_error dist_table j = Some (b', n') -> (b + 2 ^ N.of_nat n <= b')%N)
    by (apply later_spec; vm_compute; reflexivity).
  destruct (N.lt_trichotomy s s') as [C|[C|C]].
  - pose proof (L (N.to_nat s) (N.to_nat s') b n b' n' ltac:(lia) E1 F1). lia.
  - subst s'. rewrite E1 in F1. inversion F1; subst. repeat split; auto. lia.
  - pose proof (L (N.to_nat s') (N.to_nat s) b' n' b n ltac:(lia) F1 E1). lia.
Qed.
Lemma len_unique l s n e s' n' e' : RfcLength l s n e -> RfcLength l s' n' e' -> s = s' /\ n = n' /\ e = e'.
Proof.
  intros [b [E1 [E2 [E3 E4]]]] [b' [F1 [F2 [F3 F4]]]].
  pose proof (len_entry_range E1) as [R1 _]. pose proof (len_entry_range F1) as [R2 _].
  assert (A : s = s').
  { unfold len_entry in *. destruct (N.ltb_spec s 257), (N.ltb_spec s' 257); try lia.
    assert (L : forall i j b n b' n', i < j < 28 -> nth_error len_table i = Some (b, n) -> nth_error len_table j = Some (b', n') -> (b + 2 ^ N.of_nat n <= b')%N)
      by (apply later_spec; vm_compute; reflexivity).
    destruct (N.eq_dec s 285) as [->|K1].
    { change (nth_error len_table (N.to_nat (285 - 257))) with (Some (258%N, 0)) in E1. inversion E1; subst. change (2 ^ N.of_nat 0)%N with 1%N in E2. rewrite F4; lia. }
    destruct (N.eq_dec s' 285) as [->|K2].
    { change (nth_error len_table (N.to_nat (285 - 257))) with (Some (258%N, 0)) in F1. inversion F1; subst. change (2 ^ N.of_nat 0)%N with 1%N in F2. rewrite E4; lia. }
    destruct (N.lt_trichotomy s s') as [C|[C|C]]; auto.
    - pose proof (L (N.to_nat (s - 257)) (N.to_nat (s' - 257)) b n b' n' ltac:(lia) E1 F1). lia.
    - pose proof (L (N.to_nat (s' - 257)) (N.to_nat (s - 257)) b' n' b n ltac:(lia) F1 E1). lia. }
  subst s'. rewrite E1 in F1. inversion F1; subst. repeat split; auto. lia.
Qed.

(** The Writer's symbols are exactly the RFC's. *)
Theorem C18_writer_symbols :
  forall l d, (3 <= l <= 258)%N -> (1 <= d <= 32768)%N ->
    (forall s n e, symbolLL (Token l d) = Ok (Some s, n, e) <-> RfcLength l s n e) /\
    (forall s n e, symbolD (Token l d) = Ok (Some s, n, e) <-> RfcDistance d s n e).
Proof.
  intros l d Hl Hd. split.
  - destruct (@symbolLL_copy l d Hl) as [s0 [b0 [n0 [e0 [E1 [E2 [E3 E4]]]]]]]; [lia|].
    assert (R : RfcLength l s0 n0 e0).
    { exists b0. repeat split; auto. intros ->. unfold symbolLL in E1. cbn [lol tdist] in E1. destruct (N.eqb_spec d 0); [lia|]. cbn in E1. inversion E1. auto. }
    intros s n e. rewrite E1. split.
    + intros H. inversion H; subst. auto.
    + intros H. destruct (len_unique H R) as [-> [-> ->]]. auto.
  - destruct (@symbolD_copy l d Hd) as [s0 [b0 [n0 [e0 [E1 [E2 [E3 E4]]]]]]].
    assert (R : RfcDistance d s0 n0 e0) by (exists b0; auto).
    intros s n e. rewrite E1. split.
    + intros H. inversion H; subst. auto.
    + intros H. destruct (dist_unique H R) as [-> [-> ->]]. auto.
Qed.
(** It emits, in this order, the length code, the length's extra bits, the
    distance code and the distance's extra bits. *)
Theorem C18_writer_emits :
  forall l d sl nl el sd nd ed ll dd, (3 <= l <= 258)%N -> (1 <= d <= 32768)%N ->
    RfcLength l sl nl el -> RfcDistance d sd nd ed ->
    forall env w w', bytesPerBlock env = 4 \/ bytesPerBlock env = 8 -> out_ok env (w_out w) -> counters_ok (w_out w) ->
      sizes_le 15 ll -> sizes_le 15 dd -> encodeLLD (bw_writer env) ll dd (Token l d) w = Ok (w', true) ->
      obits (w_out w') = obits (w_out w) ++ codeword ll sl ++ bits_of_N nl el ++ codeword dd sd ++ bits_of_N nd ed.
Proof.
  intros l d sl nl el sd nd ed ll dd Hl Hd HL HD env w w' Hb O1 O2 W1 W2 E.
  destruct (C18_writer_symbols Hl Hd) as [S1 S2]. apply S1 in HL. apply S2 in HD.
  assert (V : tok_valid (Token l d)) by (right; exists (TCopy l d); cbn; auto).
  rewrite (encodeLLD_run _ _ _ _ V) in E.
  destruct (run_writer Hb (tok_acts_ok W1 W2 V) O1 O2) as [w1 [ok [E1 R]]]. rewrite E in E1. inversion E1; subst w1 ok.
  destruct R as [_ [[_ [_ [_ R]]] _]]. rewrite R. f_equal. unfold tok_acts. rewrite HL, HD.
  cbn [acts_bits app]. rewrite hc_bits, acts_bits_app, opt_bits_bits. cbn [acts_bits]. rewrite hc_bits, opt_bits_bits. auto.
Qed.
(** The Reader inverts this, for every symbol of the tables. *)
Theorem C18_reader_inverts :
  forall env dst s b n e rest, rlib_ok env ->
    iok (d_in dst) -> bok (d_in dst) -> ibl (d_in dst) < 8 ->
    (e < 2 ^ N.of_nat n)%N -> av (d_in dst) = bits_of_N n e ++ rest ->
    (len_entry s = Some (b, n) -> exists dst', decodeLL env dst s = Ok (dst', Some (Token (b + e) 1)) /\ av (d_in dst') = rest) /\
    (dist_entry s = Some (b, n) -> forall len, (3 <= len <= 258)%N ->
       exists dst', decodeD env dst s len = Ok (dst', Some (Token len (b + e))) /\ av (d_in dst') = rest).
Proof.
  intros env dst s b n e rest Hb H1 H2 H3 He HA. split.
  - intros HL. pose proof (len_entry_range HL) as [R _].
    destruct (decodeLL_spec Hb (cap := 1) ltac:(lia) H1 H2 H3 (s := s)) as [dst' [t [E1 [E2 E3]]]]; [lia|]. exists dst'. destruct t as [t|].
    + destruct E3 as [_ [_ [_ [lb [ln [e' [F1 [F2 [F3 ->]]]]]]]]]. rewrite HL in F1. inversion F1; subst lb ln.
      rewrite HA in F3. apply bits_app_inj in F3; auto. destruct F3 as [-> ->]. auto.
    + exfalso. destruct E3 as [[F _]|[lb [ln [i [F1 [F2 _]]]]]]; [congruence|]. rewrite HL in F1. inversion F1; subst.
      rewrite HA, app_length, length_bits_of_N in F2. lia.
  - intros HL len Hlen.
    destruct (@decodeD_spec env Hb 1%N ltac:(lia) dst s len H1 H2 H3 Hlen) as [dst' [t [E1 [E2 E3]]]]. exists dst'. destruct t as [t|].
    + destruct E3 as [_ [_ [_ [lb [ln [e' [F1 [F2 [F3 ->]]]]]]]]]. rewrite HL in F1. inversion F1; subst lb ln.
      rewrite HA in F3. apply bits_app_inj in F3; auto. destruct F3 as [-> ->]. auto.
    + exfalso. destruct E3 as [[F _]|[lb [ln [i [F1 [F2 _]]]]]]; [congruence|]. rewrite HL in F1. inversion F1; subst.
      rewrite HA, app_length, length_bits_of_N in F2. lia.
Qed.
(** Symbols outside the tables (286 and 287; 30 and 31) are rejected as corrupt
    input without touching the output. *)
Theorem C18_reader_rejects :
  forall env d s len,
    ((286 <= s)%N -> decodeLL env d s = Ok (corruptf d CBadLL, None)) /\
    ((30 <= s)%N -> decodeD env d s len = Ok (corruptf d CBadD, None)).
Proof.
  intros env d s len. split; intros H.
  - unfold decodeLL. destruct (N.ltb_spec s 256); [lia|]. destruct (N.eqb_spec s 256); [lia|].
    rewrite decodeLL_entry_spec by lia. unfold len_entry. destruct (N.ltb_spec s 257); [lia|].
    rewrite nth_error_None_ge; auto. change (length len_table) with 29. lia.
  - unfold decodeD. rewrite decodeD_entry_spec. unfold dist_entry. rewrite nth_error_None_ge; auto. change (length dist_table) with 30. lia.
Qed.
Example C18_example : RfcLength 258 285 0 0 /\ RfcLength 100 279 4 1 /\ RfcDistance 32768 29 13 8191.
Proof.
  split; [exists 258%N; repeat split; auto; lia|]. split; [exists 99%N; repeat split; auto; discriminate|].
  exists 24577%N. repeat split; auto.
Qed.

(** ** C19.  The RFC's meaning of a sequence of code length symbols. *)
Fixpoint cl_expand (acc : list nat) (syms : list (N * N)) : option (list nat) :=
  match syms with
  | [] => Some acc
  | (s, e) :: r =>
      if (s <? 16)%N then cl_expand (acc ++ [N.to_nat s]) r
      else if (s =? 16)%N then
        match rev acc with
        | [] => None
        | p :: _ => cl_expand (acc ++ repeat p (3 + N.to_nat e)) r
        end
      else if (s =? 17)%N then cl_expand (acc ++ repeat 0 (3 + N.to_nat e)) r
      else if (s =? 18)%N then cl_expand (acc ++ repeat 0 (11 + N.to_nat e)) r
      else None
  end.
(** Width of the extra field of a symbol. *)
Definition cl_width (s : N) : nat := if (s =? 16)%N then 2 else if (s =? 17)%N then 3 else if (s =? 18)%N then 7 else 0.
Definition cl_syms (ts : list token) : list (option N * nat * N) := map symbolX ts.
(** [ts] is written as the symbols [syms], each with the extra field of the right width. *)
Definition WrittenAs (ts : list token) (syms : list (N * N)) : Prop :=
  Forall2 (fun t se => symbolX t = (Some (fst se), cl_width (fst se), snd se) /\ (snd se < 2 ^ N.of_nat (cl_width (fst se)))%N) ts syms.
Lemma XTok_expand done ts out : XTok done ts out -> exists syms, WrittenAs ts syms /\ cl_expand done syms = Some (done ++ out).
Proof.
  induction 1 as [done|done n ts out Hn H [sy [W IH]]|done p k ts out Hk H [sy [W IH]]|done k ts out Hk H [sy [W IH]]|done k ts out Hk H [sy [W IH]]].
  - exists []. rewrite app_nil_r. split; [constructor|auto].
  - exists ((N.of_nat n, 0%N) :: sy). split.
    + constructor; auto. cbn [fst snd]. unfold symbolX; cbn [lol tdist]. change (0 =? 0)%N with true. cbn [negb].
      assert (K : cl_width (N.of_nat n) = 0) by (unfold cl_width; repeat match goal with |- context [(?a =? ?b)%N] => destruct (N.eqb_spec a b); try lia end).
      rewrite K. split; [|cbn; lia].
      repeat match goal with |- context [(?a <? ?b)%N] => destruct (N.ltb_spec a b); try lia
                               | |- context [(?a <=? ?b)%N] => destruct (N.leb_spec a b); try lia end.
      cbn [andb]. repeat f_equal. lia.
    + cbn [cl_expand]. destruct (N.ltb_spec (N.of_nat n) 16); [|lia]. rewrite Nat2N.id, IH, <- app_assoc. auto.
  - exists ((16, N.of_nat (k - 3))%N :: sy). split.
    + constructor; auto. cbn [fst snd]. unfold symbolX; cbn [lol tdist]. change (0 =? 0)%N with true. cbn [negb].
      split; [|change (2 ^ N.of_nat (cl_width 16))%N with 4%N; lia].
      repeat match goal with |- context [(?a <? ?b)%N] => destruct (N.ltb_spec a b); try lia
                               | |- context [(?a <=? ?b)%N] => destruct (N.leb_spec a b); try lia end;
      cbn [andb]; repeat f_equal; lia.
    + cbn [cl_expand]. change (16 <? 16)%N with false. change (16 =? 16)%N with true. cbv iota. rewrite rev_app_distr. cbn [rev app].
      replace (3 + N.to_nat (N.of_nat (k - 3))) with k by lia. rewrite IH, <- !app_assoc. auto.
  - exists ((17, N.of_nat (k - 3))%N :: sy). split.
    + constructor; auto. cbn [fst snd]. unfold symbolX; cbn [lol tdist]. change (0 =? 0)%N with true. cbn [negb].
      split; [|change (2 ^ N.of_nat (cl_width 17))%N with 8%N; lia].
      repeat match goal with |- context [(?a <? ?b)%N] => destruct (N.ltb_spec a b); try lia
                               | |- context [(?a <=? ?b)%N] => destruct (N.leb_spec a b); try lia end;
      cbn [andb]; repeat f_equal; lia.
    + cbn [cl_expand]. change (17 <? 16)%N with false. change (17 =? 16)%N with false. change (17 =? 17)%N with true. cbv iota.
      replace (3 + N.to_nat (N.of_nat (k - 3))) with k by lia. rewrite IH, <- !app_assoc. auto.
  - exists ((18, N.of_nat (k - 11))%N :: sy). split.
    + constructor; auto. cbn [fst snd]. unfold symbolX; cbn [lol tdist]. change (0 =? 0)%N with true. cbn [negb].
      split; [|change (2 ^ N.of_nat (cl_width 18))%N with 128%N; lia].
      repeat match goal with |- context [(?a <? ?b)%N] => destruct (N.ltb_spec a b); try lia
                               | |- context [(?a <=? ?b)%N] => destruct (N.leb_spec a b); try lia end;
      cbn [andb]; repeat f_equal; lia.
    + cbn [cl_expand]. change (18 <? 16)%N with false. change (18 =? 16)%N with false. change (18 =? 17)%N with false. change (18 =? 18)%N with true. cbv iota.
      replace (11 + N.to_nat (N.of_nat (k - 11))) with k by lia. rewrite IH, <- !app_assoc. auto.
Qed.

(** For every pair of codes with lengths up to 15 whose end-of-block symbol has
    a code: the token list expands to the first [hlit] + [hdist] lengths, the
    others are zero, and the counts are in range when the reserved symbols are
    not used. *)
Theorem C19_code_lengths_lossless :
  forall ll d, length ll = 288 -> length d = 32 -> sizes_le 15 ll -> sizes_le 15 d -> nth 256 ll 0 <> 0 ->
    exists t1 xt hlit hdist syms,
      encodeTreeTokens [] ll 257 = Ok (t1, hlit) /\ encodeTreeTokens t1 d 1 = Ok (xt, hdist) /\
      WrittenAs xt syms /\ cl_expand [] syms = Some (firstn hlit ll ++ firstn hdist d) /\
      257 <= hlit <= 288 /\ 1 <= hdist <= 32 /\
      (forall i, hlit <= i -> nth i ll 0 = 0) /\ (forall i, hdist <= i -> nth i d 0 = 0) /\
      ((forall i, 286 <= i -> nth i ll 0 = 0) -> hlit <= 286) /\ ((forall i, 30 <= i -> nth i d 0 = 0) -> hdist <= 30).
Proof.
  intros ll d L1 L2 H1 H2 H256.
  destruct (@encodeTreeTokens_ok [] ll 257 []) as [t1 [hlit [E1 [X1 R1]]]]; auto; [lia| |].
  { intros i Hi. destruct (sizesAllZeroes (skipn i ll)) eqn:E; auto. exfalso.
    apply zeroes_repeat in E. apply H256.
    rewrite <- (firstn_skipn i ll), app_nth2; rewrite firstn_length in *; [|lia]. rewrite E. apply nth_repeat. }
  destruct (@encodeTreeTokens_ok t1 d 1 (firstn hlit ll)) as [t2 [hdist [E2 [X2 R2]]]]; auto; [lia|intros i Hi; lia|].
  cbn [app] in E1. assert (X : XTok [] (t1 ++ t2) (firstn hlit ll ++ firstn hdist d)) by (eapply XTok_app; eauto).
  destruct (XTok_expand X) as [syms [W EX]].
  assert (Z : forall l n m, tree_result l m n -> forall i, n <= i -> nth i l 0 = 0).
  { intros l n m R i Hi. rewrite (tree_result_pad R). destruct R as [[_ R] _].
    destruct (le_lt_dec (length l) i); [apply nth_overflow; rewrite app_length, firstn_length, repeat_length; lia|].
    rewrite app_nth2; rewrite firstn_length, Nat.min_l by lia; [apply nth_repeat|lia]. }
  exists t1, (t1 ++ t2), hlit, hdist, syms. split; auto. split; auto. split; auto. split; auto.
  pose proof R1 as [B1 _]. pose proof R2 as [B2 _]. split; [lia|]. split; [lia|]. split; [eapply Z; eauto|]. split; [eapply Z; eauto|]. split.
  - intros HZ. eapply tree_result_le; eauto; [lia|]. apply allzero_nth. intros i Hi. apply HZ. lia.
  - intros HZ. eapply tree_result_le; eauto; [lia|]. apply allzero_nth. intros i Hi. apply HZ. lia.
Qed.
(** The bits a dynamic block consists of: the header describes exactly the two
    codes with which the tokens are then written. *)
Theorem C19_dynamic_block_bits :
  forall env w w' ll d lts fin, lib_ok env -> out_ok env (w_out w) -> counters_ok (w_out w) ->
    length ll = 288 -> length d = 32 -> proper_code ll -> proper_code d ->
    (forall i, 286 <= i -> nth i ll 0 = 0) -> (forall i, 30 <= i -> nth i d 0 = 0) ->
    Forall ltok_ok lts -> Forall (tok_codes ll d) (toks lts) ->
    writeDynamicBlock env (bw_writer env) w ll d (toks lts) fin = Ok (w', true) ->
    exists wt wd, obits (w_out w') = obits (w_out w) ++ [fin; false; true] ++ wt ++ wd /\
      DynTrees proper_code ll d wt /\ TokensEnc ll d lts wd.
Proof.
  intros env w w' ll d lts fin HL O1 O2 L1 L2 P1 P2 Z1 Z2 Hok HC E.
  destruct (@dyn_plan_exists env (lib_huff HL) ll d) as [xt [nl [nd [sx [nx P]]]]]; auto; try (apply proper_le15; auto).
  { rewrite Forall_forall in HC. destruct (HC makeStopToken) as [C _]; [apply in_or_app; right; left; auto|]. apply C. reflexivity. }
  rewrite (writeDynamic_run _ _ _ Hok P) in E.
  destruct (run_writer (lib_bpb HL) (dyn_ok fin Hok P1 P2 P) O1 O2) as [w1 [ok [E1 R]]]. rewrite E in E1. inversion E1; subst w1 ok.
  destruct R as [_ [[_ [_ [_ R]]] _]].
  destruct (@dyn_bits env (length (obits (w_out w))) ll d xt nl nd sx nx lts fin) as [wt [wd [B1 [B2 B3]]]]; auto.
  { apply allzero_nth. intros i Hi. apply Z1. lia. }
  { apply allzero_nth. intros i Hi. apply Z2. lia. }
  exists wt, wd. rewrite R, B1. apply at_trees in B2. auto.
Qed.

(** ** C22: which of the three encodings of a block is written *)
Inductive encoding := AsStored | AsStatic | AsDynamic (ll d : list nat).
Definition encode env {S} (bw : bitwriter S) (s : S) (data : list N) (tokens : list token) (fin : bool) (c : encoding) : res (S * bool) :=
  match c with
  | AsStored => writeStoredBlock bw s data fin
  | AsStatic => writeStaticBlock bw s tokens fin
  | AsDynamic ll d => writeDynamicBlock env bw s ll d tokens fin
  end.
(** Predicted sizes: those of Huffman encodings are the dry runs of C21; for a
    stored block 3 bits of header, 32 of lengths and 8 per byte (padding is not
    counted). *)
Definition size_of env (data : list N) (tokens : list token) (fin : bool) (c : encoding) (n : N) : Prop :=
  match c with
  | AsStored => n = (8 * lenN data + 35)%N
  | AsStatic => writeStaticBlock (bitcounter env) 0%N tokens fin = Ok (n, true)
  | AsDynamic ll d => writeDynamicBlock env (bitcounter env) 0%N ll d tokens fin = Ok (n, true)
  end.
(** Missing from the English property: a stored block is chosen whenever it
    beats the dynamic encoding, without looking at the static one. *)
Theorem C22_choice_partial :
  forall env lts data fin, lib_ok env -> Forall ltok_ok lts ->
    exists fll fd c n ns nd,
      studyFrequenciesLLD (toks lts) = Ok (fll, fd) /\
      (let codes := AsDynamic (e_huff env 288 fll) (e_huff env 32 fd) in
       (forall S (bw : bitwriter S) s, compressTokens env bw s data (toks lts) fin = encode env bw s data (toks lts) fin c) /\
       (c = AsStored \/ c = AsStatic \/ c = codes) /\
       size_of env data (toks lts) fin c n /\
       size_of env data (toks lts) fin AsStatic ns /\ size_of env data (toks lts) fin codes nd /\
       (n <= 8 * lenN data + 35)%N /\ (n <= nd)%N /\ (c <> AsStored -> n <= ns)%N).
Proof.
  intros env lts data fin [Hb Hh _] H. destruct (plan_exists Hb Hh H) as [p P].
  destruct (po_freq P) as [fLL [fD [E1 [E2 E3]]]]. destruct (po_proper P) as [P1 P2].
  change physicalNumLLCodes with 288 in E2. change physicalNumDCodes with 32 in E3.
  assert (SS : size_of env data (toks lts) fin AsStatic (static_len lts fin)).
  { unfold size_of. rewrite (writeStatic_run _ _ _ H). change 0%N with (cnt 0). rewrite (run_counter Hb) by (apply static_ok; auto). reflexivity. }
  assert (SD : size_of env data (toks lts) fin (AsDynamic (e_huff env 288 fLL) (e_huff env 32 fD)) (dyn_len p fin)).
  { unfold size_of. rewrite <- E2, <- E3. rewrite (writeDynamic_run _ _ _ H (po_dyn P)).
    change 0%N with (cnt 0). rewrite (run_counter Hb) by (eapply dyn_ok; eauto; apply (po_dyn P)). reflexivity. }
  exists fLL, fD.
  destruct (lenN data * 8 + 35 <? dyn_len p fin)%N eqn:C1; [apply N.ltb_lt in C1 as L1|apply N.ltb_ge in C1 as L1].
  - exists AsStored, (8 * lenN data + 35)%N, (static_len lts fin), (dyn_len p fin). split; auto. cbv zeta. split.
    { intros S bw s. rewrite (compressTokens_eq Hb bw s data fin H P), C1. reflexivity. }
    split; auto. split; [reflexivity|]. split; auto. split; auto. split; [lia|]. split; [lia|]. congruence.
  - destruct (static_len lts fin <=? dyn_len p fin)%N eqn:C2; [apply N.leb_le in C2 as L2|apply N.leb_gt in C2 as L2].
    + exists AsStatic, (static_len lts fin), (static_len lts fin), (dyn_len p fin). split; auto. cbv zeta. split.
      { intros S bw s. rewrite (compressTokens_eq Hb bw s data fin H P), C1, C2. cbn [encode]. symmetry. apply writeStatic_run; auto. }
      split; auto. split; auto. split; auto. split; auto. split; [lia|]. split; [lia|]. intros _. lia.
    + exists (AsDynamic (e_huff env 288 fLL) (e_huff env 32 fD)), (dyn_len p fin), (static_len lts fin), (dyn_len p fin). split; auto. cbv zeta. split.
      { intros S bw s. rewrite (compressTokens_eq Hb bw s data fin H P), C1, C2. cbn [encode]. rewrite <- E2, <- E3. symmetry. apply writeDynamic_run; auto. apply (po_dyn P). }
      split; auto. split; auto. split; auto. split; auto. split; [lia|]. split; [lia|]. intros _. lia.
Qed.
(** The property itself is false: one byte is written as a stored block of 48
    bits (from the byte boundary) where the static block takes 18. *)
Theorem C22_refuted :
  lib_ok demo_wenv /\
  (exists n, size_of demo_wenv [97]%N (toks [TLit 97]) false AsStatic n /\ (n = 18)%N) /\
  (forall n, size_of demo_wenv [97]%N (toks [TLit 97]) false AsStored n -> (n = 43)%N) /\
  (exists w, compressTokens demo_wenv (bw_writer demo_wenv) (newWriter []) [97]%N (toks [TLit 97]) false = Ok (w, true) /\
     compressTokens demo_wenv (bw_writer demo_wenv) (newWriter []) [97]%N (toks [TLit 97]) false
       = encode demo_wenv (bw_writer demo_wenv) (newWriter []) [97]%N (toks [TLit 97]) false AsStored) /\
  (exists w, w_session demo_wenv (newWriter [WithFormat RawFormat; WithMemoryLevel 1]) [OWrite [97]%N] = Ok (w, None) /\
     sink (w_out w) = [0; 1; 0; 254; 255; 97; 1; 0; 0; 255; 255]%N).
Proof.
  split; [apply demo_lib_ok|]. split; [eexists; split; vm_compute; reflexivity|]. split; [intros n ->; reflexivity|].
  split; [eexists; split; vm_compute; reflexivity|].
  eexists. split; vm_compute; reflexivity.
Qed.

(** ** C49: stored blocks *)
Definition stored_bits (pos : nat) (data : list N) (fin : bool) : list bool :=
  [fin; false; false] ++ repeat false (pad8 (pos + 3)) ++
  bits_of_N 16 (lenN data) ++ bits_of_N 16 (65535 - lenN data) ++ bits_of_bytes data.
Theorem C49_writer_stored :
  forall env w data fin, (bytesPerBlock env = 4 \/ bytesPerBlock env = 8) -> out_ok env (w_out w) -> counters_ok (w_out w) -> bytes_ok data ->
    ((65535 < lenN data)%N -> writeStoredBlock (bw_writer env) w data fin = Panic PAssert) /\
    ((lenN data <= 65535)%N -> exists w' ok, writeStoredBlock (bw_writer env) w data fin = Ok (w', ok) /\
       (ok = true -> obits (w_out w') = obits (w_out w) ++ stored_bits (length (obits (w_out w))) data fin) /\
       (ok = false -> werr (w_out w') <> None)).
Proof.
  intros env w data fin Hb H1 H2 Hd. split; intros L; [apply writeStored_panic; auto|].
  rewrite writeStored_run by auto. destruct (run_writer Hb (stored_ok fin Hd) H1 H2) as [w' [ok [E R]]].
  exists w', ok. split; auto. destruct R as [_ [R _]]. split; intros ->.
  - destruct R as [_ [_ [_ R]]]. rewrite R. f_equal. set (pos := length (obits (w_out w))). clearbody pos. clear R E.
    unfold stored_bits, stored_acts. cbn [acts_bits act_bits app length]. rewrite Nat.add_0_r.
    rewrite length_bits_of_N, app_nil_r, N.mod_small by (unfold two16; lia).
    set (pd := repeat false (pad8 (pos + 3))).
    assert (LP : length pd = pad8 (pos + 3)) by apply repeat_length.
    assert (A0 : (pos + 3 + length pd) mod 8 = 0) by (rewrite LP; apply pad8_aligned).
    rewrite (pad8_0 A0). cbn [repeat app]. rewrite !length_bits_of_bytes. cbn [length le16].
    assert (A1 : (pos + 3 + length pd + 8 * 2) mod 8 = 0).
    { rewrite (Nat.mul_comm 8 2), Nat.mod_add; auto. }
    rewrite (pad8_0 A1). cbn [repeat app]. rewrite length_bits_of_bytes. cbn [length le16].
    assert (A2 : (pos + 3 + length pd + 8 * 2 + 8 * 2) mod 8 = 0).
    { rewrite (Nat.mul_comm 8 2), !Nat.mod_add; auto. }
    rewrite (pad8_0 A2). cbn [repeat app]. rewrite !bits_le16. destruct fin; reflexivity.
  - destruct R as [[_ [n [buf [k [e [_ [R _]]]]]]] _]. congruence.
Qed.
(** The Reader: the two 16-bit numbers at the next byte boundary of the input
    are LEN and NLEN; unless they are complementary the block is rejected as
    corrupt and not a byte of it is delivered. *)
Theorem C49_reader_rejects :
  forall cap d a b c e rest, iok (d_in d) -> i_all (d_in d) = a :: b :: c :: e :: rest ->
    (c + 256 * e <> 65535 - (a + 256 * b))%N ->
    exists i, readFlateBlockStored cap d = Ok (corruptf (DST i (d_out d)) CStoredLen, false).
Proof.
  intros cap d a b c e rest H HA HN. unfold readFlateBlockStored, readU16le.
  destruct (readU_spec unle16 2 H) as [i1 [out [E1 [X1 [B1 [L1 R1]]]]]]. rewrite E1. pose proof (irel_iok H X1) as K1.
  destruct out as [x|]; [|destruct R1 as [R1 _]; rewrite HA in R1; cbn in R1; lia].
  destruct R1 as [p1 [Y1 [LP1 ->]]]. pose proof (ix_all Y1) as A1. rewrite HA in A1.
  destruct p1 as [|a' [|b' [|? ?]]]; try discriminate. cbn [app] in A1. inversion A1; subst a' b'.
  destruct (readU_spec unle16 2 K1) as [i2 [out [E2 [X2 [B2 [L2 R2]]]]]]. cbn [d_in d_out]. rewrite E2.
  destruct out as [x|]; [|destruct R2 as [R2 _]; rewrite <- H3 in R2; cbn in R2; lia].
  destruct R2 as [p2 [Y2 [LP2 ->]]]. pose proof (ix_all Y2) as A2. rewrite <- H3 in A2.
  destruct p2 as [|c' [|e' [|? ?]]]; try discriminate. cbn [app] in A2. inversion A2; subst c' e'.
  unfold unle16, nthN. cbn [nth].
  destruct (N.eqb_spec (c + 256 * e) (65535 - (a + 256 * b))) as [Q|Q]; [contradiction|]. cbn [negb d_in d_out]. eauto.
Qed.
Example C49_example : exists d, iok (d_in d) /\ i_all (d_in d) = [1; 0; 0; 0; 97]%N /\ (0 + 256 * 0 <> 65535 - (1 + 256 * 0))%N.
Proof.
  exists (DST (r_in (newReader [([1; 0; 0; 0; 97]%N, None)] [])) (r_out (newReader [] []))). split; [|split; [reflexivity|discriminate]].
  constructor; try reflexivity; cbn; repeat constructor; discriminate.
Qed.
