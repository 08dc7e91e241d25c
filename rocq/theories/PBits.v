(** The bit-level output of the Writer (writer.go:811-913). *)
From Verif Require Import Base SpecHuffman MChecksum PChecksum MToken MCommon MWriter.

Lemma add64_0 a : (a < two64)%N -> add64 a 0 = a.
Proof. intros H. unfold add64. rewrite N.add_0_r. now apply N.mod_small. Qed.
Lemma add64_assoc a b c : add64 (add64 a b) c = add64 a (b + c)%N.
Proof. unfold add64. rewrite N.add_mod_idemp_l by discriminate. f_equal. lia. Qed.
Lemma add64_lt a b : (add64 a b < two64)%N.
Proof. unfold add64. apply N.mod_lt. discriminate. Qed.

Lemma lenN_app {A} (a b : list A) : lenN (a ++ b) = (lenN a + lenN b)%N.
Proof. unfold lenN. rewrite app_length. lia. Qed.

(** ** little endian bytes of a block *)
Lemma le_bytes_ok n x : bytes_ok (le_bytes n x).
Proof.
  revert x; induction n as [|n IH]; intros x; cbn [le_bytes]; constructor; auto; [|apply IH].
  unfold is_byte. lia.
Qed.
Lemma length_le_bytes n x : length (le_bytes n x) = n.
Proof. revert x; induction n as [|n IH]; intros x; cbn [le_bytes length]; auto. Qed.
Lemma bits_le_bytes n x : bits_of_bytes (le_bytes n x) = bits_of_N (8 * n) x.
Proof.
  revert x; induction n as [|n IH]; intros x; auto.
  cbn [le_bytes]. rewrite bits_of_bytes_cons, IH.
  replace (8 * S n) with (8 + 8 * n) by lia. rewrite bits_of_N_app. f_equal.
  change 256%N with (2 ^ N.of_nat 8)%N. apply bits_of_N_mod.
Qed.
Lemma firstn_le_bytes k n x : k <= n -> firstn k (le_bytes n x) = le_bytes k x.
Proof.
  revert k x; induction n as [|n IH]; intros k x H.
  - assert (k = 0) by lia. subst. reflexivity.
  - destruct k as [|k]; auto. cbn [le_bytes firstn]. rewrite IH by lia. reflexivity.
Qed.

Definition pad8 (n : nat) : nat := (8 - n mod 8) mod 8.
Lemma pad8_bytes n : 8 * ((n + 7) / 8) = n + pad8 n.
Proof.
  unfold pad8. destruct (Nat.eq_dec (n mod 8) 0) as [E|E].
  - rewrite E. change ((8 - 0) mod 8) with 0. lia.
  - rewrite (Nat.mod_small (8 - n mod 8)) by lia. lia.
Qed.
Lemma pad8_add8 n k : pad8 (8 * k + n) = pad8 n.
Proof. unfold pad8. replace (8 * k + n) with (n + k * 8) by lia. rewrite Nat.mod_add by lia. reflexivity. Qed.
Lemma pad8_lt n : pad8 n < 8.
Proof. unfold pad8. apply Nat.mod_upper_bound. lia. Qed.
Lemma pad8_aligned n : (n + pad8 n) mod 8 = 0.
Proof. rewrite <- pad8_bytes. rewrite Nat.mul_comm. apply Nat.mod_mul. lia. Qed.

Lemma pending_bits len x : (x < 2 ^ N.of_nat len)%N ->
  bits_of_bytes (le_bytes ((len + 7) / 8) x) = bits_of_N len x ++ repeat false (pad8 len).
Proof.
  intros H. rewrite bits_le_bytes, pad8_bytes, bits_of_N_app. f_equal.
  rewrite N.div_small by auto. apply bits_of_N_0.
Qed.

Lemma out_fuel_ok buf : length buf < out_fuel buf.
Proof. unfold out_fuel. lia. Qed.

Lemma lor_disjoint a b n : (a < 2 ^ n)%N -> N.lor a (N.shiftl b n) = (a + 2 ^ n * b)%N.
Proof.
  intros H. rewrite N.shiftl_mul_pow2, (N.mul_comm b).
  rewrite <- N.lxor_lor.
  - rewrite N.add_nocarry_lxor; auto.
    rewrite N.mul_comm, <- N.shiftl_mul_pow2.
    apply N.bits_inj. intros m. rewrite N.land_spec, N.bits_0.
    destruct (N.lt_ge_cases m n).
    + rewrite N.shiftl_spec_low by auto. apply andb_false_r.
    + rewrite <- (N.mod_small a (2 ^ n)) by auto. rewrite N.mod_pow2_bits_high by auto. reflexivity.
  - rewrite N.mul_comm, <- N.shiftl_mul_pow2.
    apply N.bits_inj. intros m. rewrite N.land_spec, N.bits_0.
    destruct (N.lt_ge_cases m n).
    + rewrite N.shiftl_spec_low by auto. apply andb_false_r.
    + rewrite <- (N.mod_small a (2 ^ n)) by auto. rewrite N.mod_pow2_bits_high by auto. reflexivity.
Qed.

Lemma bits_concat a n b m : (a < 2 ^ N.of_nat n)%N -> 
  bits_of_N (n + m) (a + 2 ^ N.of_nat n * b) = bits_of_N n a ++ bits_of_N m b.
Proof.
  intros H. rewrite bits_of_N_app. f_equal.
  - rewrite <- (bits_of_N_mod n). f_equal.
    rewrite N.mul_comm, N.mod_add by (apply N.pow_nonzero; lia). now apply N.mod_small.
  - f_equal. rewrite N.mul_comm, N.div_add by (apply N.pow_nonzero; lia).
    rewrite N.div_small by auto. lia.
Qed.

Lemma pow2_pos n : (0 < 2 ^ n)%N.
Proof. apply N.neq_0_lt_0, N.pow_nonzero. lia. Qed.

Lemma merge_lt blk0 len x sb : (blk0 < 2 ^ N.of_nat len)%N ->
  (blk0 + 2 ^ N.of_nat len * (x mod 2 ^ N.of_nat sb) < 2 ^ N.of_nat (len + sb))%N.
Proof.
  intros H. assert (A : (x mod 2 ^ N.of_nat sb < 2 ^ N.of_nat sb)%N) by (apply N.mod_lt, N.pow_nonzero; lia).
  rewrite Nat2N.inj_add, N.pow_add_r. pose proof (pow2_pos (N.of_nat len)).
  assert (B : (2 ^ N.of_nat len * (x mod 2 ^ N.of_nat sb) + 2 ^ N.of_nat len <= 2 ^ N.of_nat len * 2 ^ N.of_nat sb)%N).
  { rewrite <- N.mul_succ_r. apply N.mul_le_mono_l. lia. }
  lia.
Qed.


Section Env.
Variable env : wenv.
Hypothesis Hbpb : bytesPerBlock env = 4 \/ bytesPerBlock env = 8.
Notation bpb := (bitsPerBlock env).

Lemma bpb_cases : bpb = 32 \/ bpb = 64.
Proof. unfold bitsPerBlock. destruct Hbpb as [-> | ->]; auto. Qed.

(** All bits written so far. *)
Definition obits (o : wout) : list bool :=
  bits_of_bytes (sink o ++ outBuf o) ++ bits_of_N (obLen o) (obBlock o).

Definition out_ok (o : wout) : Prop :=
  outBuf o = [] /\ (obBlock o < 2 ^ N.of_nat (obLen o))%N /\ obLen o < bpb /\
  bytes_ok (sink o) /\ (outCRC o < two32)%N.

(** [o_ext o o' p]: the bytes [p] were accepted by the underlying writer. *)
Record o_ext (o o' : wout) (p : list N) : Prop := OExt {
  oe_sink : sink o' = sink o ++ p;
  oe_buf : outBuf o' = [];
  oe_crc : outCRC o' = crc_update (outCRC o) p;
  oe_total : outTotal o' = add64 (outTotal o) (lenN p);
  oe_stream : outStream o' = add64 (outStream o) (lenN p);
  oe_state : wstate o' = wstate o;
  oe_err : werr o' = werr o;
  oe_calls : sinkCalls o <= sinkCalls o' }.

(** The underlying writer failed: the Writer is in the error state with the
    error that the underlying writer returned. *)
Definition o_failed (o o' : wout) : Prop :=
  wstate o' = errorState /\
  exists n buf k e, e_sink env n buf = Some (k, e) /\ werr o' = Some e /\ sinkCalls o <= n /\
    exists q, sink o' = sink o ++ q.

Definition counters_ok (o : wout) : Prop := (outTotal o < two64)%N /\ (outStream o < two64)%N.

Lemma o_ext_refl o : outBuf o = [] -> counters_ok o -> o_ext o o [].
Proof.
  intros H [H1 H2]. constructor; auto.
  - now rewrite app_nil_r.
  - symmetry. now apply add64_0.
  - symmetry. now apply add64_0.
Qed.

Lemma o_ext_trans o o1 o2 p q : (outCRC o < two32)%N -> bytes_ok p -> bytes_ok q ->
  o_ext o o1 p -> o_ext o1 o2 q -> o_ext o o2 (p ++ q).
Proof.
  intros Hc Hp Hq [a b c d e f g h] [a' b' c' d' e' f' g' h'].
  constructor; try congruence; try lia.
  - rewrite a', a, app_assoc. auto.
  - rewrite c', c. apply crc_update_app; auto.
  - rewrite d', d, add64_assoc, lenN_app. auto.
  - rewrite e', e, add64_assoc, lenN_app. auto.
Qed.

Lemma o_failed_trans o o1 o2 p : o_ext o o1 p -> o_failed o1 o2 -> o_failed o o2.
Proof.
  intros H [F1 [n [buf [k [e [F2 [F3 [F4 [q F5]]]]]]]]]. split; auto.
  exists n, buf, k, e. repeat split; auto.
  - destruct H; lia.
  - exists (p ++ q). rewrite F5, (oe_sink H), app_assoc. auto.
Qed.

(** ** outputBufferWrite's loop *)
Lemma outputBufferLoop_ok cap : (0 < cap)%N -> forall fuel o buf,
  outBuf o = [] -> counters_ok o -> (outCRC o < two32)%N -> bytes_ok buf ->
  length buf < fuel ->
  exists o' ok, outputBufferLoop env fuel cap o buf = Ok (o', ok) /\
    obBlock o' = obBlock o /\ obLen o' = obLen o /\
    (if ok then o_ext o o' buf /\ counters_ok o' else o_failed o o').
Proof.
  intros Hcap. induction fuel as [|fuel IH]; intros o buf Hb Hc Hcrc Hok Hf; [lia|].
  cbn [outputBufferLoop]. destruct buf as [|x buf].
  - exists o, true. repeat split; auto; try apply o_ext_refl; auto; apply Hc.
  - set (B := x :: buf) in *.
    set (nn := N.to_nat (N.min (lenN B) (cap - lenN (outBuf o)))).
    assert (Hnn : 1 <= nn <= length B).
    { unfold nn. rewrite Hb. unfold lenN. cbn [length]. unfold B. cbn [length]. lia. }
    destruct o as [a b ob snk n c t st s e]. cbn [outBuf outCRC] in Hb, Hcrc. subst ob. cbn [app].
    unfold outputBufferFlush.
    destruct (e_sink env n (firstn nn B)) as [[k err]|] eqn:Hs.
    + eexists _, false. split; [reflexivity|]. split; [reflexivity|]. split; [reflexivity|]. split; [reflexivity|].
      exists n, (firstn nn B), k, err. cbn [werr sinkCalls sink]. repeat split; auto. eauto.
    + cbn [app].
      assert (Hfn : bytes_ok (firstn nn B)).
      { apply (bytes_ok_app (firstn nn B) (skipn nn B)). now rewrite firstn_skipn. }
      assert (Hsn : bytes_ok (skipn nn B)).
      { apply (bytes_ok_app (firstn nn B) (skipn nn B)). now rewrite firstn_skipn. }
      edestruct (IH (WOut a b [] (snk ++ firstn nn B) (S n) (crc_update c (firstn nn B))
           (add64 t (N.of_nat nn)) (add64 st (N.of_nat nn)) s e) (skipn nn B)) as [o' [ok [-> [E1 [E2 E3]]]]].
      * reflexivity.
      * split; apply add64_lt.
      * cbn [outCRC]. apply crc_update_lt; auto.
      * auto.
      * rewrite skipn_length. fold nn in Hnn. lia.
      * exists o', ok. split; [reflexivity|]. split; [exact E1|]. split; [exact E2|].
        assert (X : o_ext (WOut a b [] snk n c t st s e) (WOut a b [] (snk ++ firstn nn B) (S n) (crc_update c (firstn nn B))
           (add64 t (N.of_nat nn)) (add64 st (N.of_nat nn)) s e) (firstn nn B)).
        { assert (L : lenN (firstn nn B) = N.of_nat nn) by (unfold lenN; rewrite firstn_length; lia).
          constructor; cbn [sink outBuf outCRC outTotal outStream wstate werr sinkCalls]; rewrite ?L; auto. }
        destruct ok.
        -- destruct E3 as [E3 E4]. split; auto. rewrite <- (firstn_skipn nn B).
           eapply o_ext_trans; eauto.
        -- eapply o_failed_trans; eauto.
Qed.

Lemma obits_len o : outBuf o = [] -> length (obits o) = 8 * length (sink o) + obLen o.
Proof. intros H. unfold obits. rewrite H, app_nil_r, app_length, length_bits_of_bytes, length_bits_of_N. auto. Qed.

(** ** outputBitsFlush *)
Lemma o_bitsFlush_gen cap o : (0 < cap)%N -> outBuf o = [] -> (obBlock o < 2 ^ N.of_nat (obLen o))%N ->
  obLen o <= bpb -> bytes_ok (sink o) -> (outCRC o < two32)%N -> counters_ok o ->
  exists o' ok, o_bitsFlush env cap o = Ok (o', ok) /\
    obLen o' = 0 /\ obBlock o' = 0%N /\
    (if ok then o_ext o o' (le_bytes ((obLen o + 7) / 8) (obBlock o)) /\ counters_ok o' /\ out_ok o' /\
                obits o' = obits o ++ repeat false (pad8 (length (obits o)))
     else o_failed o o').
Proof.
  intros Hcap Hb Hlt Hle Hs Hcrc Hc. unfold o_bitsFlush.
  assert (Hp8 : pad8 (length (obits o)) = pad8 (obLen o)).
  { rewrite obits_len by auto. apply pad8_add8. }
  pose proof bpb_cases as Hbc.
  destruct (Nat.eqb_spec (obLen o) 0) as [H0|H0].
  - assert (Hz : obBlock o = 0%N) by (rewrite H0 in Hlt; change (2 ^ N.of_nat 0)%N with 1%N in Hlt; lia).
    exists o, true. split; [reflexivity|]. split; [auto|]. split; [auto|].
    rewrite Hp8, H0, Hz. cbn [Nat.add Nat.div]. change ((0 + 7) / 8) with 0. cbn [le_bytes].
    change (pad8 0) with 0. cbn [repeat]. rewrite app_nil_r. split; [now apply o_ext_refl|]. split; auto. split; auto.
    unfold out_ok. rewrite H0, Hz. repeat split; auto. lia.
  - rewrite firstn_le_bytes.
    2:{ unfold bitsPerBlock in Hle. lia. }
    set (p := le_bytes ((obLen o + 7) / 8) (obBlock o)).
    destruct (@outputBufferLoop_ok cap Hcap (out_fuel p) (set_ob o 0 0) p) as [o' [ok [E [E1 [E2 E3]]]]].
    + destruct o; exact Hb.
    + destruct o; exact Hc.
    + destruct o; exact Hcrc.
    + apply le_bytes_ok.
    + apply out_fuel_ok.
    + exists o', ok. split; [exact E|]. split; [destruct o; exact E2|]. split; [destruct o; exact E1|].
      destruct ok.
      * destruct E3 as [E3 E4].
        assert (X : o_ext o o' p).
        { destruct o; destruct E3; constructor; auto. }
        split; auto. split; auto.
        assert (Hsk : sink o' = sink o ++ p) by (destruct X; auto).
        assert (Hob : outBuf o' = []) by (destruct X; auto).
        split.
        -- unfold out_ok. rewrite (oe_sink X), (oe_crc X), (oe_buf X).
           assert (obLen o' = 0) by (destruct o; exact E2). assert (obBlock o' = 0%N) by (destruct o; exact E1).
           rewrite H, H1. repeat split; auto; try lia.
           ++ apply bytes_ok_app; split; auto. apply le_bytes_ok.
           ++ apply crc_update_lt; auto. apply le_bytes_ok.
        -- rewrite Hp8. unfold obits. rewrite Hsk, Hob, Hb, !app_nil_r.
           assert (obLen o' = 0) by (destruct o; exact E2). rewrite H. cbn [bits_of_N]. rewrite app_nil_r.
           rewrite bits_of_bytes_app. unfold p. rewrite pending_bits by auto. now rewrite app_assoc.
      * destruct o; exact E3.
Qed.

Lemma o_bitsFlush_ok cap o : (0 < cap)%N -> out_ok o -> counters_ok o ->
  exists o' ok, o_bitsFlush env cap o = Ok (o', ok) /\
    obLen o' = 0 /\ obBlock o' = 0%N /\
    (if ok then o_ext o o' (le_bytes ((obLen o + 7) / 8) (obBlock o)) /\ counters_ok o' /\ out_ok o' /\
                obits o' = obits o ++ repeat false (pad8 (length (obits o)))
     else o_failed o o').
Proof.
  intros Hcap [H1 [H2 [H3 [H4 H5]]]] Hc. apply o_bitsFlush_gen; auto. lia.
Qed.

(** ** outputBufferWrite *)
Lemma o_bufferWrite_ok cap o buf : (0 < cap)%N -> out_ok o -> counters_ok o -> bytes_ok buf ->
  exists o' ok, o_bufferWrite env cap o buf = Ok (o', ok) /\
    obLen o' = 0 /\ obBlock o' = 0%N /\
    (if ok then o_ext o o' (le_bytes ((obLen o + 7) / 8) (obBlock o) ++ buf) /\ counters_ok o' /\ out_ok o' /\
                obits o' = obits o ++ repeat false (pad8 (length (obits o))) ++ bits_of_bytes buf
     else o_failed o o').
Proof.
  intros Hcap Ho Hc Hbuf. unfold o_bufferWrite.
  destruct (o_bitsFlush_ok Hcap Ho Hc) as [o1 [ok1 [E [L1 [B1 E1]]]]]. rewrite E. cbn [rbind].
  destruct ok1.
  2:{ exists o1, false. auto. }
  destruct E1 as [X1 [C1 [O1 Bits1]]].
  destruct O1 as [P1 [P2 [P3 [P4 P5]]]].
  destruct (@outputBufferLoop_ok cap Hcap (out_fuel buf) o1 buf P1 C1 P5 Hbuf (out_fuel_ok buf))
    as [o2 [ok2 [E2 [B2 [L2 R2]]]]].
  exists o2, ok2. split; [exact E2|]. split; [congruence|]. split; [congruence|].
  destruct ok2.
  - destruct R2 as [X2 C2].
    assert (Hcrc : (outCRC o < two32)%N) by apply Ho.
    split; [eapply o_ext_trans; eauto; apply le_bytes_ok|]. split; auto.
    split.
    + unfold out_ok. rewrite (oe_sink X2), (oe_crc X2), (oe_buf X2), L2, B2, L1, B1. repeat split; auto.
      * pose proof bpb_cases; lia.
      * apply bytes_ok_app; auto.
      * apply crc_update_lt; auto.
    + rewrite app_assoc, <- Bits1. unfold obits. rewrite (oe_sink X2), (oe_buf X2), P1, L2, L1, !app_nil_r.
      cbn [bits_of_N]. rewrite ?app_nil_r. apply bits_of_bytes_app.
  - eapply o_failed_trans; eauto.
Qed.

(** ** outputBitsWrite *)
Lemma makeMask_ones n : 0 < n <= bpb -> makeMask bpb n = N.ones (N.of_nat n).
Proof.
  intros H. unfold makeMask. destruct (Nat.eqb_spec n 0); [lia|].
  destruct (Nat.leb_spec bpb n).
  - replace n with bpb by lia. auto.
  - rewrite N.shiftl_1_l, N.ones_equiv. lia.
Qed.

(** one merge step *)
Lemma merge_step blk0 len x sb : (blk0 < 2 ^ N.of_nat len)%N -> 0 < sb -> len + sb <= bpb ->
  N.lor blk0 (blk env (N.shiftl (N.land x (makeMask bpb sb)) (N.of_nat len)))
  = (blk0 + 2 ^ N.of_nat len * (x mod 2 ^ N.of_nat sb))%N.
Proof.
  intros H Hs Hl. rewrite makeMask_ones by lia. rewrite N.land_ones. unfold blk.
  rewrite N.mod_small; [now apply lor_disjoint|].
  rewrite N.shiftl_mul_pow2.
  assert (A : (x mod 2 ^ N.of_nat sb < 2 ^ N.of_nat sb)%N) by (apply N.mod_lt, N.pow_nonzero; lia).
  apply N.lt_le_trans with (2 ^ N.of_nat sb * 2 ^ N.of_nat len)%N.
  - apply N.mul_lt_mono_pos_r; auto. apply pow2_pos.
  - rewrite <- N.pow_add_r. apply N.pow_le_mono_r; lia.
Qed.

Lemma o_bitsLoop_ok cap : (0 < cap)%N -> forall fuel o n x,
  out_ok o -> counters_ok o -> n < fuel ->
  exists o' ok, o_bitsLoop env fuel cap o n x = Ok (o', ok) /\
    (if ok then (exists p, bytes_ok p /\ o_ext o o' p) /\ counters_ok o' /\ out_ok o' /\ obits o' = obits o ++ bits_of_N n x
     else o_failed o o' /\ obLen o' = 0 /\ obBlock o' = 0%N).
Proof.
  intros Hcap. induction fuel as [|fuel IH]; intros o n x Ho Hc Hf; [lia|].
  cbn [o_bitsLoop]. destruct n as [|n0].
  - exists o, true. split; [reflexivity|]. split; [exists []; split; [constructor|apply o_ext_refl; auto; apply Ho]|].
    split; auto. split; auto. cbn [bits_of_N]. now rewrite app_nil_r.
  - set (n := S n0) in *.
    pose proof Ho as [P1 [P2 [P3 [P4 P5]]]]. 
    set (sb0 := bpb - obLen o). set (sb := if n <? sb0 then n else sb0).
    assert (Hsb : 0 < sb /\ sb <= n /\ obLen o + sb <= bpb).
    { unfold sb, sb0. destruct (Nat.ltb_spec n (bpb - obLen o)); lia. }
    rewrite merge_step by lia.
    set (v := (obBlock o + 2 ^ N.of_nat (obLen o) * (x mod 2 ^ N.of_nat sb))%N).
    assert (Hv : (v < 2 ^ N.of_nat (obLen o + sb))%N) by (apply merge_lt; auto).
    set (o1 := set_ob o v (obLen o + sb)).
    assert (Q : obLen o1 = obLen o + sb /\ obBlock o1 = v /\ outBuf o1 = [] /\ sink o1 = sink o /\ outCRC o1 = outCRC o /\ counters_ok o1).
    { destruct o; cbn in *. repeat split; auto; apply Hc. }
    destruct Q as [Q1 [Q2 [Q3 [Q4 [Q5 Q6]]]]].
    assert (X1 : o_ext o o1 []).
    { destruct (@o_ext_refl o P1 Hc) as [xa xb xc xd xe xf xg xh]. destruct o; constructor; auto. }
    assert (Hbits : obits o1 = obits o ++ bits_of_N sb x).
    { unfold obits. rewrite Q1, Q2, Q3, Q4, P1, <- app_assoc. f_equal. unfold v.
      rewrite bits_concat by auto. f_equal. apply bits_of_N_mod. }
    assert (Hrest : bits_of_N n x = bits_of_N sb x ++ bits_of_N (n - sb) (N.shiftr x (N.of_nat sb))).
    { rewrite N.shiftr_div_pow2, <- bits_of_N_app. f_equal. lia. }
    fold o1. destruct (Nat.eqb_spec (obLen o1) bpb) as [Hfull|Hfull].
    + destruct (@o_bitsFlush_gen cap o1 Hcap) as [o2 [ok2 [E [L2 [B2 R2]]]]]; auto.
      * rewrite Q1, Q2. auto.
      * lia.
      * rewrite Q4. auto.
      * rewrite Q5. auto.
      * rewrite E. cbn [rbind]. destruct ok2.
        2:{ exists o2, false. split; [reflexivity|]. split; auto. eapply o_failed_trans; eauto. }
        destruct R2 as [X2 [C2 [O2 Bits2]]].
        destruct (IH o2 (n - sb) (N.shiftr x (N.of_nat sb)) O2 C2) as [o3 [ok3 [E3 R3]]]; [lia|].
        exists o3, ok3. split; [exact E3|]. destruct ok3.
        -- destruct R3 as [[p3 [Hp3 X3]] [C3 [O3 Bits3]]].
           split; [|split; [auto|split; [auto|]]].
           ++ exists ([] ++ le_bytes ((obLen o1 + 7) / 8) (obBlock o1) ++ p3). split.
              ** apply (proj2 (bytes_ok_app (le_bytes ((obLen o1 + 7) / 8) (obBlock o1)) p3)).
                 split; auto. apply le_bytes_ok.
              ** eapply o_ext_trans; eauto; [constructor| |].
                 { apply bytes_ok_app. split; auto. apply le_bytes_ok. }
                 eapply o_ext_trans; eauto; [rewrite Q5; auto|apply le_bytes_ok].
           ++ rewrite Bits3, Bits2, Hbits, Hrest, <- !app_assoc. f_equal.
              rewrite <- Hbits, obits_len by auto. rewrite pad8_add8.
              assert (pad8 (obLen o1) = 0) as ->; [|reflexivity].
              rewrite Hfull. destruct bpb_cases as [-> | ->]; reflexivity.
        -- destruct R3 as [R3 R4]. split; auto.
           eapply o_failed_trans; [exact X1|]. eapply o_failed_trans; eauto.
    + assert (O1 : out_ok o1).
      { unfold out_ok. rewrite Q1, Q2, Q3, Q4, Q5. repeat split; auto. lia. }
      destruct (IH o1 (n - sb) (N.shiftr x (N.of_nat sb)) O1 Q6) as [o3 [ok3 [E3 R3]]]; [lia|].
      exists o3, ok3. split; [exact E3|]. destruct ok3.
      * destruct R3 as [[p3 [Hp3 X3]] [C3 [O3 Bits3]]].
        split; [|split; [auto|split; [auto|]]].
        -- exists ([] ++ p3). split; auto. eapply o_ext_trans; eauto. constructor.
        -- rewrite Bits3, Hbits, Hrest, <- app_assoc. reflexivity.
      * destruct R3 as [R3 R4]. split; auto. eapply o_failed_trans; eauto.
Qed.

Lemma o_bitsWrite_ok cap o n x : (0 < cap)%N -> out_ok o -> counters_ok o -> n <= bpb ->
  exists o' ok, o_bitsWrite env cap o n x = Ok (o', ok) /\
    (if ok then (exists p, bytes_ok p /\ o_ext o o' p) /\ counters_ok o' /\ out_ok o' /\ obits o' = obits o ++ bits_of_N n x
     else o_failed o o' /\ obLen o' = 0 /\ obBlock o' = 0%N).
Proof.
  intros Hcap Ho Hc Hn. unfold o_bitsWrite, assertb.
  destruct (Nat.leb_spec (obLen o) bpb); [|destruct Ho as [_ [_ [? _]]]; lia].
  destruct (Nat.leb_spec n bpb); [|lia].
  apply o_bitsLoop_ok; auto.
Qed.
End Env.
