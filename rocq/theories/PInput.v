(** The input side of the Reader: bytes and bits taken from the source. *)
From Verif Require Import Base SpecChecksum SpecHuffman SpecDeflate MChecksum PChecksum MToken MCommon MWriter MReader PToken PHuffman PBits.
From Verif Require Export SpecReader.

Definition i_all (i : ist) : list N := i_buf i ++ match i_err i with Some _ => [] | None => src_bytes (i_src i) end.
Definition i_end (i : ist) : goerr := match i_err i with Some e => e | None => src_end (i_src i) end.
Definition polite (i : ist) : Prop := match i_err i with Some _ => True | None => polite_src (i_src i) end.
Definition detached (i : ist) : Prop := match i_err i with Some _ => i_buf i = [] | None => detached_src (i_src i) end.

Definition cuts (i : ist) : list nat := match i_err i with Some _ => [0] | None => src_cuts (i_src i) end.

Record iok (i : ist) : Prop := IOk {
  ik_polite : polite i;
  ik_bytes : bytes_ok (i_all i);
  ik_total : (i_total i < two64)%N;
  ik_stream : (i_stream i < two64)%N;
  ik_crc : (i_crc i < two32)%N }.

(** [i'] is [i] after taking the bytes [p] from the source. *)
Record iext (i i' : ist) (p : list N) : Prop := IExt {
  ix_all : i_all i = p ++ i_all i';
  ix_end : i_end i' = i_end i;
  ix_polite : polite i';
  ix_det : detached i -> detached i';
  ix_left : src_left i = length p + src_left i';
  ix_total : i_total i' = add64 (i_total i) (lenN p);
  ix_stream : i_stream i' = add64 (i_stream i) (lenN p);
  ix_crc : i_crc i' = crc_update (i_crc i) p;
  ix_cuts : incl (cuts i') (cuts i) }.

Lemma crc_update_nil c : crc_update c [] = c.
Proof. reflexivity. Qed.

Lemma iext_refl i : iok i -> iext i i [].
Proof.
  intros [H1 H2 H3 H4 H5]. constructor; auto; [| |apply incl_refl].
  - change (lenN []) with 0%N. now rewrite add64_0.
  - change (lenN []) with 0%N. now rewrite add64_0.
Qed.
Lemma iext_iok i i' p : iok i -> iext i i' p -> iok i' /\ bytes_ok p.
Proof.
  intros [H1 H2 H3 H4 H5] [E1 E2 E3 E4 E5 E6 E7 E8]. rewrite E1 in H2. apply bytes_ok_app in H2.
  split; [|tauto]. constructor; auto; try tauto; rewrite ?E6, ?E7, ?E8; try apply add64_lt. apply crc_update_lt; tauto.
Qed.
Lemma iext_trans i i1 i2 p q : iok i -> iext i i1 p -> iext i1 i2 q -> iext i i2 (p ++ q).
Proof.
  intros H E1 E2. destruct (iext_iok H E1) as [K1 K2]. destruct (iext_iok K1 E2) as [K3 K4].
  destruct E1 as [A1 A2 A3 A4 A5 A6 A7 A8], E2 as [B1 B2 B3 B4 B5 B6 B7 B8]. constructor; auto; [| | | | | |eapply incl_tran; eauto].
  - now rewrite A1, B1, app_assoc.
  - congruence.
  - rewrite A5, B5, app_length. lia.
  - rewrite B6, A6, add64_assoc, lenN_app. auto.
  - rewrite B7, A7, add64_assoc, lenN_app. auto.
  - rewrite B8, A8, crc_update_app; auto. apply H.
Qed.
Lemma iext_nil i i' : iok i -> iext i i' [] -> i_all i' = i_all i /\ i_total i' = i_total i /\ i_stream i' = i_stream i /\ i_crc i' = i_crc i.
Proof.
  intros [H1 H2 H3 H4 H5] [A1 A2 A3 A4 A5 A6 A7 A8]. change (lenN []) with 0%N in *.
  rewrite add64_0 in A6, A7; auto.
Qed.

(** ** The buffer *)
Lemma fill_spec i : iok i -> iext i (fillIfEmpty i) [] /\ ib (fillIfEmpty i) = ib i /\ ibl (fillIfEmpty i) = ibl i /\
  (i_buf (fillIfEmpty i) = [] -> i_all i = [] /\ i_err (fillIfEmpty i) = Some (i_end i)).
Proof.
  intros H. unfold fillIfEmpty. destruct (i_buf i) as [|x b] eqn:EB.
  2:{ split; [apply iext_refl; auto|]. split; auto. split; auto. rewrite EB. discriminate. }
  destruct i as [src buf err b l t s c]. cbn in EB. subst buf. unfold inputBufferFill.
  destruct err as [e|].
  { split; [apply iext_refl; auto|]. cbn. auto. }
  destruct H as [H1 H2 H3 H4 H5]. cbn in *.
  assert (EC : crc_update c [] = c) by apply crc_update_nil.
  destruct src as [|[p [e|]] r]; cbn in *.
  - split; [|auto]. constructor; cbn; auto; try (rewrite add64_0; auto). apply incl_refl.
  - split; [|split; auto; split; auto].
    + constructor; cbn; auto; try (rewrite add64_0; auto; fail);
      try (intros x Hx; unfold cuts in *; cbn in *; tauto);
      unfold i_all, src_left, list_sum; cbn; rewrite ?app_nil_r; auto; lia.
  - destruct H1 as [H1 H1']. split; [|split; auto; split; auto].
    + constructor; cbn; auto; try (rewrite add64_0; auto; fail);
      try (intros x Hx; unfold cuts in *; cbn in *; tauto);
      unfold i_all, src_left, list_sum; cbn; rewrite ?app_nil_r, ?app_length; auto; lia.
    + intros ->. congruence.
Qed.

(** Removing a prefix of the buffer. *)
Lemma take_spec i p r : iok i -> i_buf i = p ++ r -> iext i (i_count (set_buf i r) p) p.
Proof.
  intros [H1 H2 H3 H4 H5] E. destruct i as [src buf err b l t s c]. cbn in *. subst buf.
  constructor; cbn; auto.
  - unfold i_all. cbn. now rewrite app_assoc.
  - unfold detached; cbn. destruct err; auto. intros D. apply app_eq_nil in D. tauto.
  - unfold src_left; cbn. rewrite app_length. lia.
  - apply incl_refl.
Qed.

Lemma inputByte_spec i : iok i ->
  match inputByte i with
  | (i', Some ch) => iext i i' [ch] /\ ib i' = ib i /\ ibl i' = ibl i
  | (i', None) => iext i i' [] /\ i_all i = [] /\ i_err i' = Some (i_end i) /\ ib i' = ib i /\ ibl i' = ibl i
  end.
Proof.
  intros H. unfold inputByte. destruct (fill_spec H) as [E1 [E2 [E3 E4]]].
  destruct (i_buf (fillIfEmpty i)) as [|ch r] eqn:EB.
  - destruct E4; auto.
  - destruct (iext_iok H E1) as [K _]. pose proof (@take_spec _ [ch] r K EB) as T.
    pose proof (iext_trans H E1 T) as T'. cbn [app] in T'. split; auto.
    destruct (fillIfEmpty i); cbn in *. auto.
Qed.

(** ** Bits *)
Definition av (i : ist) : list bool := bits_of_N (ibl i) (ib i) ++ bits_of_bytes (i_all i).
Definition bok (i : ist) : Prop := (ib i < 2 ^ N.of_nat (ibl i))%N.

Lemma av_length i : length (av i) = ibl i + 8 * length (i_all i).
Proof. unfold av. rewrite app_length, length_bits_of_N, length_bits_of_bytes. auto. Qed.
Lemma all_le_left i : length (i_all i) <= src_left i.
Proof.
  unfold i_all, src_left. rewrite app_length. destruct (i_err i); cbn [length]; [lia|].
  assert (forall s, length (src_bytes s) <= list_sum (map (fun c => length (fst c)) s)).
  { induction s as [|[p [e|]] s IH]; unfold list_sum in *; cbn [src_bytes map fold_right fst length]; rewrite ?app_length; try (unfold list_sum in IH; lia); lia. }
  specialize (H (i_src i)). lia.
Qed.
Lemma av_le_left i : length (av i) <= bits_left i.
Proof. rewrite av_length. unfold bits_left. pose proof (all_le_left i). lia. Qed.

Section Bits.
Variable env : renv.
Hypothesis Hbpb : r_bpb env = 4 \/ r_bpb env = 8.
Lemma r_bits_cases : r_bits env = 32 \/ r_bits env = 64.
Proof. unfold r_bits. destruct Hbpb as [-> | ->]; auto. Qed.

Lemma bitsFillLoop_spec : forall fuel i n, iok i -> bok i -> n <= r_bits env - 8 -> n <= fuel + ibl i ->
  match bitsFillLoop env fuel i n with
  | (i', true) => (exists p, iext i i' p) /\ bok i' /\ av i' = av i /\ n <= ibl i' /\ (ibl i' <= ibl i \/ ibl i' < n + 8)
  | (i', false) => (exists p, iext i i' p) /\ bok i' /\ av i' = av i /\ length (av i) < n /\ i_all i' = [] /\ i_err i' = Some (i_end i)
  end.
Proof.
  induction fuel as [|f IH]; intros i n H HB Hn Hf; cbn [bitsFillLoop].
  - destruct (Nat.ltb_spec (ibl i) n); [lia|]. split; [exists []; apply iext_refl; auto|]. repeat split; auto; lia.
  - destruct (Nat.ltb_spec (ibl i) n) as [Hl|Hl].
    2:{ split; [exists []; apply iext_refl; auto|]. repeat split; auto; lia. }
    pose proof (inputByte_spec H) as S. destruct (inputByte i) as [i1 [ch|]].
    + destruct S as [S1 [S2 S3]]. rewrite S2, S3. destruct (iext_iok H S1) as [K1 K2].
      inversion K2 as [|? ? Hch _]; subst.
      set (v := N.lor (ib i) (r_blk env (N.shiftl ch (N.of_nat (ibl i))))).
      assert (Hsh : r_blk env (N.shiftl ch (N.of_nat (ibl i))) = N.shiftl ch (N.of_nat (ibl i))).
      { unfold r_blk. apply N.mod_small. rewrite N.shiftl_mul_pow2. unfold is_byte in Hch.
        apply N.lt_le_trans with (256 * 2 ^ N.of_nat (ibl i))%N; [apply N.mul_lt_mono_pos_r; auto; apply pow2_pos|].
        change 256%N with (2 ^ 8)%N. rewrite <- N.pow_add_r. apply N.pow_le_mono_r; lia. }
      assert (Hv : v = (ib i + 2 ^ N.of_nat (ibl i) * ch)%N).
      { unfold v. rewrite Hsh. apply lor_disjoint. exact HB. }
      assert (Hbits : bits_of_N (ibl i + 8) v = bits_of_N (ibl i) (ib i) ++ bits_of_N 8 ch).
      { rewrite bits_of_N_app. f_equal.
        - rewrite <- (bits_of_N_mod (ibl i) v), Hv. rewrite (N.mul_comm _ ch), N.mod_add by (apply N.pow_nonzero; lia).
          rewrite N.mod_small; auto.
        - f_equal. rewrite Hv, N.add_comm, (N.mul_comm _ ch), N.div_add_l by (apply N.pow_nonzero; lia). rewrite N.div_small; auto. lia. }
      assert (Hlt : (v < 2 ^ N.of_nat (ibl i + 8))%N).
      { rewrite Nat2N.inj_add, N.pow_add_r. change (2 ^ N.of_nat 8)%N with 256%N. unfold is_byte in Hch. red in HB. nia. }
      clearbody v. set (i2 := set_ib i1 v (ibl i + 8)).
      assert (X2 : iext i i2 [ch]) by (destruct S1; destruct i1; constructor; cbn in *; auto).
      destruct (iext_iok H X2) as [K3 _].
      assert (A2 : av i2 = av i).
      { pose proof (ix_all X2) as A. unfold av. rewrite A. cbn [app]. rewrite bits_of_bytes_cons.
        replace (ibl i2) with (ibl i + 8) by (destruct i1; reflexivity). replace (ib i2) with v by (destruct i1; reflexivity).
        rewrite Hbits, <- app_assoc. reflexivity. }
      assert (L2 : ibl i2 = ibl i + 8) by (destruct i1; reflexivity).
      assert (B2 : bok i2) by (unfold bok; rewrite L2; destruct i1; exact Hlt).
      clearbody i2. pose proof (IH i2 n K3 B2 Hn ltac:(lia)) as G.
      destruct (bitsFillLoop env f i2 n) as [i3 []]; destruct G as [[p G1] G2].
      * split; [exists ([ch] ++ p); eapply iext_trans; eauto|]. rewrite A2 in G2. destruct G2 as [G2 [G3 [G4 G5]]].
        repeat split; auto. right. lia.
      * split; [exists ([ch] ++ p); eapply iext_trans; eauto|]. rewrite A2 in G2.
        rewrite (ix_end X2) in G2. auto.
    + destruct S as [S1 [S2 [S3 [S4 S5]]]]. split; [exists []; auto|].
      destruct (iext_nil H S1) as [N1 _]. unfold bok, av. rewrite S4, S5, N1. assert (L : length (bits_of_N (ibl i) (ib i) ++ bits_of_bytes (i_all i)) < n) by (rewrite app_length, length_bits_of_N, S2; cbn; lia).
      repeat split; auto.
Qed.

Lemma inputBitsFill_spec i n : iok i -> bok i -> n <= r_bits env - 8 ->
  exists i' ok, inputBitsFill env i n = Ok (i', ok) /\
  if ok : bool then (exists p, iext i i' p) /\ bok i' /\ av i' = av i /\ n <= ibl i' /\ (ibl i' <= ibl i \/ ibl i' < n + 8)
  else (exists p, iext i i' p) /\ bok i' /\ av i' = av i /\ length (av i) < n /\ i_all i' = [] /\ i_err i' = Some (i_end i).
Proof.
  intros H HB Hn. unfold inputBitsFill, assertb. destruct (Nat.leb_spec n (r_bits env - 8)); [|lia].
  pose proof (@bitsFillLoop_spec n i n H HB Hn ltac:(lia)) as G. destruct (bitsFillLoop env n i n) as [i' ok].
  exists i', ok. split; [reflexivity|]. destruct ok; exact G.
Qed.

Lemma peek_spec i n : n <= ibl i -> n <= r_bits env -> inputBitsPeek env i n = Ok (ib i mod 2 ^ N.of_nat n)%N.
Proof.
  intros H H2. unfold inputBitsPeek, assertb. destruct (Nat.leb_spec n (ibl i)); [|lia]. f_equal.
  assert (EM : makeMask (r_bits env) n = N.ones (N.of_nat n)).
  { unfold makeMask. destruct (Nat.eqb_spec n 0) as [->|Hn]; [reflexivity|].
    destruct (Nat.leb_spec (r_bits env) n); [f_equal; f_equal; lia|].
    rewrite N.ones_equiv, N.shiftl_1_l, N.pred_sub. reflexivity. }
  rewrite EM. apply N.land_ones.
Qed.
Lemma commit_spec i n : iok i -> bok i -> n <= ibl i -> exists i', inputBitsCommit i n = Ok i' /\
  iext i i' [] /\ bok i' /\ ibl i' = ibl i - n /\ av i = bits_of_N n (ib i mod 2 ^ N.of_nat n) ++ av i'.
Proof.
  intros H HB Hn. unfold inputBitsCommit, assertb. destruct (Nat.leb_spec n (ibl i)); [|lia].
  eexists. split; [reflexivity|]. set (i' := set_ib _ _ _).
  assert (X : iext i i' []) by (pose proof (iext_refl H) as R; destruct R; destruct i; constructor; cbn in *; auto).
  assert (L : ibl i' = ibl i - n) by (destruct i; reflexivity).
  assert (V : ib i' = (ib i / 2 ^ N.of_nat n)%N) by (destruct i; cbn; apply N.shiftr_div_pow2).
  split; auto. split; [|split; auto].
  - unfold bok. rewrite L, V. apply N.div_lt_upper_bound; [apply N.pow_nonzero; lia|]. rewrite <- N.pow_add_r.
    replace (N.of_nat n + N.of_nat (ibl i - n))%N with (N.of_nat (ibl i)) by lia. exact HB.
  - destruct (iext_nil H X) as [A _]. unfold av. rewrite A, L, V, app_assoc. f_equal.
    rewrite bits_of_N_mod. replace (ibl i) with (n + (ibl i - n)) at 1 by lia. apply bits_of_N_app.
Qed.

(** Reading [n] bits: success exactly when that many are available. *)
Lemma getBits_spec i n : iok i -> bok i -> ibl i < 8 -> n <= r_bits env - 8 ->
  exists i' out, getBits env i n = Ok (i', out) /\ (exists p, iext i i' p) /\ bok i' /\
  match out with
  | Some v => ibl i' < 8 /\ (v < 2 ^ N.of_nat n)%N /\ av i = bits_of_N n v ++ av i'
  | None => length (av i) < n /\ i_all i' = [] /\ i_err i' = Some (i_end i)
  end.
Proof.
  intros H HB H8 Hn. unfold getBits. destruct (inputBitsFill_spec H HB Hn) as [i1 [ok [E S]]]. rewrite E. cbn [rbind].
  destruct ok; destruct S as [[p S1] [S2 [S3 S4]]].
  - destruct S4 as [S4 S5]. destruct (iext_iok H S1) as [K1 _]. rewrite peek_spec by (auto; lia). cbn [rbind].
    destruct (commit_spec K1 S2 S4) as [i2 [E2 [X2 [B2 [L2 A2]]]]]. rewrite E2. cbn [rbind]. eexists; eexists; split; [reflexivity|].
    split; [exists (p ++ []); eapply iext_trans; eauto|]. split; auto. split; [lia|]. split; [apply N.mod_lt; apply N.pow_nonzero; lia|].
    rewrite <- S3. exact A2.
  - eexists; eexists; split; [reflexivity|]. split; [eauto|]. split; auto.
Qed.

(** ** Huffman symbols *)
Lemma firstn_bits_av i n : n <= ibl i -> firstn n (av i) = bits_of_N n (ib i).
Proof.
  intros H. unfold av. rewrite firstn_app, length_bits_of_N. replace (n - ibl i) with 0 by lia. cbn [firstn].
  rewrite app_nil_r. apply firstn_bits_of_N. auto.
Qed.
Lemma readSymbolLoop_spec sizes max : sizes_le 15 sizes -> not_oversubscribed sizes -> max <= 15 ->
  max = dec_max (mk_decoder sizes) ->
  forall fuel i n, iok i -> bok i -> ibl i < 8 + n -> max < fuel + n ->
  (forall s w r x, HasCode sizes s w -> av i ++ x = w ++ r -> n <= length w) ->
  exists i' out, readSymbolLoop env fuel i (mk_decoder sizes) max n = Ok (i', out) /\ (exists p, iext i i' p) /\ bok i' /\
  match out with
  | Some s => ibl i' < 8 /\ exists w, HasCode sizes s w /\ av i = w ++ av i'
  | None => (i_all i' = [] /\ i_err i' = Some (i_end i) /\ forall s w r x, HasCode sizes s w -> av i ++ x = w ++ r -> length (av i) < length w)
            \/ forall s w r x, HasCode sizes s w -> av i ++ x <> w ++ r
  end.
Proof.
  intros Hs Hk Hm Emax. induction fuel as [|f IH]; intros i n H HB H8 Hf Hn; cbn [readSymbolLoop].
  { destruct (Nat.leb_spec n max); [lia|]. exists i, None. split; auto. split; [exists []; apply iext_refl; auto|].
    split; auto. right. intros s w r x Hw E. specialize (Hn _ _ _ _ Hw E). apply dec_range in Hw. lia. }
  destruct (Nat.leb_spec n max) as [Hle|Hle].
  2:{ exists i, None. split; auto. split; [exists []; apply iext_refl; auto|].
      split; auto. right. intros s w r x Hw E. specialize (Hn _ _ _ _ Hw E). apply dec_range in Hw. lia. }
  assert (Hnb : n <= r_bits env - 8) by (destruct r_bits_cases; lia).
  destruct (inputBitsFill_spec H HB Hnb) as [i1 [ok [E S]]]. rewrite E. cbn [rbind].
  destruct ok; destruct S as [[p S1] [S2 [S3 S4]]].
  2:{ exists i1, None. split; auto. split; [eauto|]. split; auto. left. destruct S4 as [S4 [S5 S6]]. split; auto. split; auto.
      intros s w r x Hw EA. specialize (Hn _ _ _ _ Hw EA). lia. }
  destruct S4 as [S4 S5]. destruct (iext_iok H S1) as [K1 _]. rewrite peek_spec by (auto; lia). cbn [rbind].
  set (q := bits_of_N n (ib i1)).
  assert (Lq : length q = n) by apply length_bits_of_N.
  assert (Fq : firstn n (av i) = q) by (rewrite <- S3; apply firstn_bits_av; auto).
  assert (La : n <= length (av i)) by (rewrite <- S3, av_length; lia).
  assert (Eq : (ib i1 mod 2 ^ N.of_nat n)%N = N_of_bits q) by (unfold q; now rewrite N_of_bits_of_N).
  pose proof (dec_decode_spec sizes q) as D. rewrite Lq in D. rewrite Eq.
  destruct (dec_decode (mk_decoder sizes) n (N_of_bits q)) as [[[s|] mn] mx].
  - destruct (commit_spec K1 S2 S4) as [i2 [E2 [X2 [B2 [L2 A2]]]]]. rewrite E2. cbn [rbind]. exists i2, (Some s). split; auto.
    split; [exists (p ++ []); eapply iext_trans; eauto|]. split; auto. split; [lia|]. exists q. split; auto.
    rewrite <- S3, A2. f_equal. rewrite bits_of_N_mod. auto.
  - destruct D as [D1 [D2 D3]].
    assert (P : forall s w r x, HasCode sizes s w -> av i ++ x = w ++ r -> exists t, w = q ++ t).
    { intros s w r x Hw EA. pose proof (Hn _ _ _ _ Hw EA) as Hl. exists (skipn n w). rewrite <- Fq.
      apply (f_equal (firstn n)) in EA. rewrite !firstn_app in EA.
      replace (n - length w) with 0 in EA by lia. replace (n - length (av i)) with 0 in EA by lia.
      cbn [firstn] in EA. rewrite !app_nil_r in EA. rewrite EA. now rewrite firstn_skipn. }
    destruct (Nat.eqb_spec mx 0) as [->|Hmx].
    + exists i1, None. split; auto. split; [eauto|]. split; auto. right. intros s w r x Hw EA.
      destruct (P _ _ _ _ Hw EA) as [t Ht]. pose proof (D2 _ _ _ Hw Ht). pose proof (HasCode_length Hs Hw). lia.
    + destruct (D3 Hmx) as [D4 _].
      destruct (IH i1 mn K1 S2 ltac:(lia) ltac:(lia)) as [i2 [out [E2 [[p2 X2] R]]]].
      { intros s w r x Hw EA. rewrite S3 in EA. destruct (P _ _ _ _ Hw EA) as [t Ht]. pose proof (D2 _ _ _ Hw Ht). lia. }
      exists i2, out. split; auto. split; [exists (p ++ p2); eapply iext_trans; eauto|]. rewrite S3, (ix_end S1) in R. auto.
Qed.
Lemma readSymbol_spec sizes i : sizes_le 15 sizes -> not_oversubscribed sizes -> iok i -> bok i -> ibl i < 8 ->
  exists i' out, readSymbol env i (mk_decoder sizes) = Ok (i', out) /\ (exists p, iext i i' p) /\ bok i' /\
  match out with
  | Some s => ibl i' < 8 /\ exists w, HasCode sizes s w /\ av i = w ++ av i'
  | None => (i_all i' = [] /\ i_err i' = Some (i_end i) /\ forall s w r x, HasCode sizes s w -> av i ++ x = w ++ r -> length (av i) < length w)
            \/ forall s w r x, HasCode sizes s w -> av i ++ x <> w ++ r
  end.
Proof.
  intros Hs Hk H HB H8. unfold readSymbol. apply readSymbolLoop_spec; auto; try lia.
  - apply dec_max_le. auto.
  - intros s w r x Hw _. apply dec_range in Hw. lia.
Qed.
End Bits.

(** ** Whole bytes (the bits left over in the current byte are dropped) *)
Lemma discard_spec i : iok i -> iext i (inputBitsDiscard i) [] /\ bok (inputBitsDiscard i) /\ ibl (inputBitsDiscard i) = 0.
Proof.
  intros H. pose proof (iext_refl H) as R. destruct R. destruct i. split; [constructor; cbn in *; auto|]. split; auto. red. cbn. lia.
Qed.
(** Without the counting. *)
Record irest (i i' : ist) (p : list N) : Prop := IRest {
  ir_all : i_all i = p ++ i_all i'; ir_end : i_end i' = i_end i; ir_polite : polite i';
  ir_det : detached i -> detached i'; ir_left : src_left i = length p + src_left i';
  ir_total : i_total i' = i_total i; ir_stream : i_stream i' = i_stream i; ir_crc : i_crc i' = i_crc i;
  ir_ib : ib i' = ib i; ir_ibl : ibl i' = ibl i; ir_cuts : incl (cuts i') (cuts i) }.
Lemma irest_iok i i' p : iok i -> irest i i' p -> iok i'.
Proof.
  intros [H1 H2 H3 H4 H5] [E1 E2 E3 E4 E5 E6 E7 E8]. rewrite E1 in H2. apply bytes_ok_app in H2.
  constructor; auto; try tauto; congruence.
Qed.
Lemma bufReadLoop_spec : forall fuel i want acc, iok i -> want <= fuel ->
  exists i' p, bufReadLoop fuel i want acc = (i', acc ++ p) /\ irest i i' p /\ length p <= want /\
   (length p < want -> i_all i' = [] /\ i_err i' = Some (i_end i)).
Proof.
  induction fuel as [|f IH]; intros i want acc H Hw.
  { assert (want = 0) by lia. subst. exists i, []. cbn. rewrite app_nil_r. split; auto. split; [constructor; auto; try apply incl_refl; apply H|]. split; lia. }
  cbn [bufReadLoop]. destruct want as [|n].
  { exists i, []. rewrite app_nil_r. split; auto. split; [constructor; auto; try apply incl_refl; apply H|]. cbn; split; lia. }
  destruct (fill_spec H) as [E1 [E2 [E3 E4]]]. destruct (iext_nil H E1) as [N1 [N2 [N3 N4]]].
  destruct (iext_iok H E1) as [K1 _]. destruct E1 as [A1 A2 A3 A4 A5 _ _ _ A9].
  set (i1 := fillIfEmpty i) in *. clearbody i1. set (w := S n) in *.
  destruct (i_buf i1) as [|x b] eqn:EB.
  - exists i1, []. rewrite app_nil_r. destruct E4 as [E4 E5]; auto. split; auto. split; [constructor; auto|].
    cbn. split; [lia|]. intros _. split; auto. congruence.
  - rewrite <- EB. set (p := firstn w (i_buf i1)). set (r := skipn w (i_buf i1)).
    assert (Lp : 0 < length p <= w) by (unfold p, w; rewrite firstn_length, EB; cbn [length]; lia).
    assert (R1 : irest i (set_buf i1 r) p).
    { assert (EP : i_buf i1 = p ++ r) by (symmetry; apply firstn_skipn). clearbody p r.
      destruct i1 as [src buf err bb l t s c]; cbn in *; subst.
      constructor; cbn; auto; try congruence.
      - rewrite A1. unfold i_all. cbn [i_buf i_err i_src]. rewrite EP, <- app_assoc. reflexivity.
      - intros D. specialize (A4 D). unfold detached in *. cbn in *. destruct err; auto. rewrite EP in A4. apply app_eq_nil in A4. tauto.
      - rewrite A5. unfold src_left. cbn [i_buf i_src]. rewrite EP, app_length. lia. }
    pose proof (irest_iok H R1) as K2.
    destruct (IH (set_buf i1 r) (w - length p) (acc ++ p) K2 ltac:(lia)) as [i2 [q [Q1 [Q2 [Q3 Q4]]]]].
    exists i2, (p ++ q). rewrite Q1, app_assoc. split; auto. destruct R1, Q2. split; [|split].
    + constructor; auto; try congruence; [| |eapply incl_tran; eauto].
      * rewrite ir_all0, ir_all1, app_assoc. auto.
      * rewrite ir_left0, ir_left1, app_length. lia.
    + rewrite app_length. lia.
    + rewrite app_length. intros L. rewrite <- ir_end0. apply Q4. lia.
Qed.
Lemma readN_spec i n : iok i ->
  exists i' out, inputBufferReadN i n = (i', out) /\ (exists p, iext i i' p) /\ bok i' /\ ibl i' = 0 /\
  match out with
  | Some p => iext i i' p /\ length p = n
  | None => length (i_all i) < n /\ i_all i' = [] /\ i_err i' = Some (i_end i)
  end.
Proof.
  intros H. unfold inputBufferReadN. destruct (discard_spec H) as [X1 [B1 L1]]. destruct (iext_iok H X1) as [K1 _].
  set (i1 := inputBitsDiscard i) in *. clearbody i1. destruct n as [|n].
  { exists i1, (Some []). split; auto. split; [eauto|]. repeat split; auto; apply X1. }
  destruct (@bufReadLoop_spec (S n) i1 (S n) [] K1 ltac:(lia)) as [i2 [p [E [R [Lp Hp]]]]]. rewrite E. cbn [app].
  assert (X2 : iext i1 (i_count i2 p) p).
  { destruct R. destruct i2 as [src buf err bb l t s c]. cbn in *. subst. constructor; auto. }
  pose proof (iext_trans H X1 X2) as X3. cbn [app] in X3.
  exists (i_count i2 p), (if length p =? S n then Some p else None). split; auto. split; [eauto|].
  destruct R as [R1 R2 R3 R4 R5 R6 R7 R8 R9 R10].
  split; [unfold bok in *; destruct i2; cbn in *; subst; auto|]. split; [destruct i2; cbn in *; congruence|].
  destruct (Nat.eqb_spec (length p) (S n)) as [El|El]; auto.
  destruct Hp as [Hp1 Hp2]; [lia|]. split; [|split].
  - pose proof (ix_all X3) as A. rewrite A, app_length. destruct i2; cbn in *. unfold i_all in *; cbn in *. rewrite Hp1. cbn. lia.
  - destruct i2; exact Hp1.
  - destruct i2; cbn in *. rewrite Hp2. f_equal. apply X1.
Qed.
Lemma readU_spec un n i : iok i ->
  exists i' out, readU un n i = (i', out) /\ (exists p, iext i i' p) /\ bok i' /\ ibl i' = 0 /\
  match out with
  | Some x => exists p, iext i i' p /\ length p = n /\ x = un p
  | None => length (i_all i) < n /\ i_all i' = [] /\ i_err i' = Some (i_end i)
  end.
Proof.
  intros H. unfold readU. destruct (readN_spec n H) as [i' [out [E [S1 [S2 [S3 S4]]]]]]. rewrite E.
  destruct out as [p|].
  - exists i', (Some (un p)). repeat split; auto. exists p. tauto.
  - exists i', None. auto.
Qed.

Lemma stringZLoop_spec : forall fuel i acc, iok i -> length (i_all i) < fuel ->
  exists i' out, stringZLoop fuel i acc = Ok (i', out) /\ (exists p, iext i i' p) /\ ib i' = ib i /\ ibl i' = ibl i /\
  match out with
  | Some s => exists p, s = acc ++ p /\ ~ In 0%N p /\ iext i i' (p ++ [0%N])
  | None => ~ In 0%N (i_all i) /\ i_all i' = [] /\ i_err i' = Some (i_end i)
  end.
Proof.
  induction fuel as [|f IH]; intros i acc H Hf; [lia|]. cbn [stringZLoop].
  pose proof (inputByte_spec H) as S. destruct (inputByte i) as [i1 [ch|]].
  - destruct S as [S1 [S2 S3]]. destruct (iext_iok H S1) as [K1 _]. destruct (N.eqb_spec ch 0) as [->|Hc].
    + exists i1, (Some acc). split; auto. split; [eauto|]. repeat split; auto. exists []. rewrite app_nil_r. auto.
    + pose proof (ix_all S1) as A. cbn [app] in A.
      destruct (IH i1 (acc ++ [ch]) K1) as [i2 [out [E [[p X] [R1 [R2 R3]]]]]]; [rewrite A in Hf; cbn in Hf; lia|].
      exists i2, out. split; auto. split; [exists ([ch] ++ p); eapply iext_trans; eauto|]. split; [congruence|]. split; [congruence|].
      destruct out as [s|].
      * destruct R3 as [q [-> [Q1 Q2]]]. exists (ch :: q). rewrite <- app_assoc. split; auto. split; [intros [Z|Z]; [congruence|auto]|].
        change ((ch :: q) ++ [0%N]) with ([ch] ++ (q ++ [0%N])). eapply iext_trans; eauto.
      * destruct R3 as [Q1 [Q2 Q3]]. rewrite A. split; [intros [Z|Z]; [congruence|auto]|]. split; auto. rewrite Q3. f_equal. apply S1.
  - destruct S as [S1 [S2 [S3 [S4 S5]]]]. destruct (iext_nil H S1) as [N1 _]. exists i1, None. split; auto. split; [eauto|].
    repeat split; auto; rewrite ?N1, ?S2; auto.
Qed.
