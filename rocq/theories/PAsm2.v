(** The arm64 kernel computes the CRC. *)
From Verif Require Import Base SpecChecksum MChecksum PChecksum MAsm PAsm.

Lemma T_lt r : (r < two32)%N -> (T r < two32)%N.
Proof.
  intros H. unfold T, crc_bit. assert (D : (N.div2 r < 2 ^ 32)%N). { rewrite N.div2_div. apply N.div_lt_upper_bound; [discriminate|]. unfold two32 in H. change (2 ^ 32)%N with 4294967296%N. lia. }
  destruct (xorb (N.odd r) false); [|exact D]. apply (@lxor_lt _ _ 32 D). reflexivity.
Qed.
Lemma crc_bit_lt r b : (r < two32)%N -> (crc_bit r b < two32)%N.
Proof.
  intros H. rewrite crc_bit_T. apply T_lt. apply (@lxor_lt _ _ 32); [exact H|]. now destruct b.
Qed.
Lemma feed_lt bits : forall r, (r < two32)%N -> (fold_left crc_bit bits r < two32)%N.
Proof. induction bits as [|b bits IH]; intros r H; cbn [fold_left]; auto. apply IH, crc_bit_lt, H. Qed.
Lemma crcp_lt s l : bytes_ok l -> (s < two32)%N -> (crcp s l < two32)%N.
Proof. intros H1 H2. rewrite <- crcp_spec by auto. now apply feed_lt. Qed.
Lemma land_small x n : (x < 2 ^ n)%N -> N.land x (N.ones n) = x.
Proof. intros H. rewrite N.land_ones. now apply N.mod_small. Qed.
Opaque crc32_insn.

Lemma sgn_low x : (x < 2 ^ 63)%N -> sgn64 x = Z.of_N x.
Proof. intros H. unfold sgn64. destruct (N.ltb_spec x (2 ^ 63)); auto. lia. Qed.
Lemma minus_low (a b : nat) : (b <= a)%nat -> (N.of_nat a < 2 ^ 63)%N -> ((N.of_nat a + (two64 - N.of_nat b)) mod two64)%N = N.of_nat (a - b).
Proof.
  intros H1 H2. replace (N.of_nat a + (two64 - N.of_nat b))%N with (N.of_nat (a - b) + 1 * two64)%N by (unfold two64; lia).
  rewrite N.mod_add by discriminate. apply N.mod_small. unfold two64. lia.
Qed.
Lemma chunk_length m k n : (k + n <= length (sl_bytes m))%nat -> length (chunk m k n) = n.
Proof. intros H. unfold chunk. rewrite firstn_length, skipn_length. lia. Qed.

Section Exec.
Variables (sum : N) (m : slice).
Definition areaches (c : list ainstr) (r : aregs) (v : N) : Prop :=
  exists f, forall g, (f <= g)%nat -> arun sum m arm_code g c r = Some v.
Lemma a_exec i t r r' v : aexec1 sum m i r = Some r' -> areaches t r' v -> areaches (i :: t) r v.
Proof.
  intros E [f F]. exists (S f). intros g G. destruct g as [|g]; [lia|]. cbn [arun]. specialize (F g ltac:(lia)). destruct i; try rewrite E; auto; discriminate E.
Qed.
Lemma a_RET t r : areaches (A_RET :: t) r (aret r).
Proof. exists 1%nat. intros g G. destruct g; [lia|]. auto. Qed.
Lemma a_BLT l t c' r v : afrom l arm_code = Some c' ->
  (if (sgn64 (fst (acmp r)) <? sgn64 (snd (acmp r)))%Z then areaches c' r v else areaches t r v) -> areaches (A_BLT l :: t) r v.
Proof.
  intros E R. destruct (sgn64 (fst (acmp r)) <? sgn64 (snd (acmp r)))%Z eqn:C; destruct R as [f F]; exists (S f); intros g G; (destruct g as [|g]; [lia|]); cbn [arun]; rewrite C, ?E; apply F; lia.
Qed.
Lemma a_JMP l t c' r v : afrom l arm_code = Some c' -> areaches c' r v -> areaches (A_JMP l :: t) r v.
Proof. intros E [f F]. exists (S f). intros g G. destruct g as [|g]; [lia|]. cbn [arun]. rewrite E. apply F; lia. Qed.
Lemma a_TBZ b a l t c' r v : afrom l arm_code = Some c' ->
  (if N.testbit (ag r a) b then areaches t r v else areaches c' r v) -> areaches (A_TBZ b a l :: t) r v.
Proof.
  intros E R. destruct (N.testbit (ag r a) b) eqn:C; destruct R as [f F]; exists (S f); intros g G; (destruct g as [|g]; [lia|]); cbn [arun]; rewrite C, ?E; apply F; lia.
Qed.

Hypothesis Hfit : (sl_base m + lenN (sl_bytes m) <= two64)%N.
Hypothesis Hlen : (lenN (sl_bytes m) < 2 ^ 63)%N.
Hypothesis Hbytes : bytes_ok (sl_bytes m).
Hypothesis Hsum : (sum < two32)%N.
Let p := sl_bytes m.

(** Position [k]; [w] is what R11 holds: the number of bytes left, or, in the
    tail, a number with the same low bits. *)
Definition aat (k : nat) (w : N) (r : aregs) : Prop :=
  (k <= length p)%nat /\ ag r R13 = ((sl_base m + N.of_nat k) mod two64)%N /\ ag r R11 = w /\ ag r R9 = crcp sum (firstn k p).
Lemma aload k n r w : aat k w r -> (k + n <= length p)%nat -> (0 < n)%nat -> load m (ag r R13) n = Some (le_num (chunk m k n)).
Proof.
  intros (_ & -> & _) H1 H2. pose proof (@load_ok m Hfit Hlen k 0 n) as L. rewrite !Nat.add_0_r, N.add_0_r, N.mod_mod in L by discriminate. apply L; auto.
Qed.
(** Load and feed [n] bytes. *)
Lemma feed_chunk n k w r t v : In n [1; 2; 4; 8]%nat -> (k + n <= length p)%nat -> aat k w r ->
  (forall r', aat (k + n) w r' -> areaches t r' v) ->
  areaches (A_LOAD_P n R13 R10 :: A_CRC32 (8 * n) R10 R9 :: t) r v.
Proof.
  intros Hn Hk A K. pose proof A as (A1 & A2 & A3 & A4).
  assert (N0 : (0 < n)%nat) by (clear - Hn; cbn in Hn; lia).
  eapply a_exec. { cbn [aexec1]. rewrite (aload A Hk N0). reflexivity. }
  eapply a_exec; [reflexivity|]. apply K.
  assert (Hv : (le_num (chunk m k n) < 2 ^ N.of_nat (8 * n))%N).
  { pose proof (le_num_lt (@chunk_ok m Hbytes k n)) as L. unfold lenN in L. rewrite chunk_length in L by exact Hk. now replace (8 * N.of_nat n)%N with (N.of_nat (8 * n)) in L by (clear; lia). }
  assert (Hc : (crcp sum (firstn k p) < two32)%N) by (apply crcp_lt; [apply (@first_ok m Hbytes)|exact Hsum]).
  split; [exact Hk|]. split; [|split].
  - cbn. rewrite A2, N.add_mod_idemp_l by discriminate. f_equal. clear; lia.
  - exact A3.
  - cbn -[N.of_nat Nat.mul N.ones le_num chunk]. rewrite A4, (@land_small _ 32 Hc), (land_small Hv).
    rewrite insn_ok; [|clear - Hn; cbn in *; intuition (subst; auto)|exact Hc|exact Hv].
    rewrite (@firstn_chunk m), (@crcp_app _ _ _ (@first_ok m Hbytes k) (@chunk_ok m Hbytes k n)). fold p. unfold crcp at 2. rewrite chunk_length by exact Hk. reflexivity.
Qed.

Definition a_done : list ainstr := [A_MOVWU_ret R9; A_RET].
Definition a_lt2 : list ainstr := A_TBZ 0 R11 done :: A_MOVBU R13 R10 :: A_CRC32 8 R10 R9 :: A_LABEL done :: a_done.
Definition a_lt4 : list ainstr := A_TBZ 1 R11 less_than_2 :: A_LOAD_P 2 R13 R10 :: A_CRC32 (8 * 2) R10 R9 :: A_LABEL less_than_2 :: a_lt2.
Definition a_lt8 : list ainstr := A_TBZ 2 R11 less_than_4 :: A_LOAD_P 4 R13 R10 :: A_CRC32 (8 * 4) R10 R9 :: A_LABEL less_than_4 :: a_lt4.
Definition a_update : list ainstr := A_LOAD_P 8 R13 R10 :: A_CRC32 (8 * 8) R10 R9 :: A_SUB 8 R11 :: A_CMP 8 R11 :: A_BLT less_than_8 :: A_JMP update :: A_LABEL less_than_8 :: a_lt8.
Lemma f_done : afrom done arm_code = Some a_done. Proof. reflexivity. Qed.
Lemma f_lt2 : afrom less_than_2 arm_code = Some a_lt2. Proof. reflexivity. Qed.
Lemma f_lt4 : afrom less_than_4 arm_code = Some a_lt4. Proof. reflexivity. Qed.
Lemma f_lt8 : afrom less_than_8 arm_code = Some a_lt8. Proof. reflexivity. Qed.
Lemma f_update : afrom update arm_code = Some a_update. Proof. reflexivity. Qed.
Lemma code_eq : arm_code = A_MOVWU_sum R9 :: A_MOVD_ptr R13 :: A_MOVD_len R11 :: A_CMP 8 R11 :: A_BLT less_than_8 :: A_LABEL update :: a_update.
Proof. reflexivity. Qed.
Lemma crc_low k : N.land (crcp sum (firstn k p)) (N.ones 32) = crcp sum (firstn k p).
Proof. apply land_small. apply (@crcp_lt sum (firstn k p)); [apply (@first_ok m Hbytes)|exact Hsum]. Qed.
Lemma done_reaches r : ag r R9 = crcp sum p -> areaches a_done r (crcp sum p).
Proof.
  intros E. eapply a_exec; [reflexivity|]. set (r' := ARegs _ _ _). replace (crcp sum p) with (aret r'); [apply a_RET|]. cbn -[N.ones]. rewrite E. rewrite <- (firstn_all p). apply crc_low.
Qed.
Lemma mod2_eqb x : (x mod 2 =? 1)%N = negb (x mod 2 =? 0)%N.
Proof. pose proof (N.mod_upper_bound x 2 ltac:(discriminate)) as H. destruct (N.eqb_spec (x mod 2) 1); destruct (N.eqb_spec (x mod 2) 0); auto; lia. Qed.
Lemma lt2_reaches k w r : aat k w r -> length p = (k + N.to_nat (w mod 2))%nat -> areaches a_lt2 r (crcp sum p).
Proof.
  intros A H. pose proof A as (A1 & A2 & A3 & A4). eapply a_TBZ; [apply f_done|]. rewrite A3.
  assert (B : N.testbit w 0 = negb (w mod 2 =? 0)%N) by (rewrite N.bit0_eqb; apply mod2_eqb).
  rewrite B. destruct (N.eqb_spec (w mod 2) 0) as [Z|Z]; cbn [negb].
  - apply done_reaches. rewrite A4. f_equal. apply firstn_all2. rewrite H, Z. clear; lia.
  - assert (W : (w mod 2 = 1)%N) by (pose proof (N.mod_upper_bound w 2 ltac:(discriminate)) as U; clear - U Z; lia).
    rewrite W in H. change (N.to_nat 1) with 1%nat in H.
    eapply a_exec. { cbn [aexec1]. rewrite (@aload k 1 r w A); [reflexivity|clear - H; lia|clear; lia]. }
    eapply a_exec; [reflexivity|]. eapply a_exec; [reflexivity|]. apply done_reaches.
    assert (Hv : (le_num (chunk m k 1) < 2 ^ N.of_nat 8)%N).
    { pose proof (le_num_lt (@chunk_ok m Hbytes k 1)) as L. unfold lenN in L. rewrite chunk_length in L by (fold p; clear - H; lia). exact L. }
    assert (Hc : (crcp sum (firstn k p) < two32)%N) by (apply crcp_lt; [apply (@first_ok m Hbytes)|exact Hsum]).
    cbn -[N.of_nat Nat.mul N.ones le_num chunk]. rewrite A4, (@land_small _ 32 Hc), (land_small Hv).
    rewrite insn_ok; [|now left|exact Hc|exact Hv].
    replace (crcp sum p) with (crcp sum (firstn (k + 1) p)) by (f_equal; apply firstn_all2; clear - H; lia).
    unfold p. rewrite (@firstn_chunk m), (@crcp_app _ _ _ (@first_ok m Hbytes k) (@chunk_ok m Hbytes k 1)). fold p. unfold crcp at 2. rewrite chunk_length by (fold p; clear - H; lia). reflexivity.
Qed.
Lemma testbit_half w b : N.testbit w (N.of_nat b) = negb (((w / 2 ^ N.of_nat b) mod 2) =? 0)%N.
Proof. rewrite N.testbit_eqb. apply mod2_eqb. Qed.
Lemma lt4_reaches k w r : aat k w r -> length p = (k + N.to_nat (w mod 4))%nat -> areaches a_lt4 r (crcp sum p).
Proof.
  intros A H. pose proof A as (A1 & A2 & A3 & A4). eapply a_TBZ; [apply f_lt2|]. rewrite A3. change 1%N with (N.of_nat 1). rewrite testbit_half. change (2 ^ N.of_nat 1)%N with 2%N.
  destruct (N.eqb_spec ((w / 2) mod 2) 0) as [Z|Z]; cbn [negb].
  - apply (@lt2_reaches k w r A). rewrite H. clear - Z. lia.
  - apply (@feed_chunk 2 k w r _ _ ltac:(cbn; auto) ltac:(clear - H Z; lia) A). intros r' A'. eapply a_exec; [reflexivity|]. apply (@lt2_reaches (k + 2) w r' A'). rewrite H. clear - Z. lia.
Qed.
Lemma lt8_reaches k w r : aat k w r -> length p = (k + N.to_nat (w mod 8))%nat -> areaches a_lt8 r (crcp sum p).
Proof.
  intros A H. pose proof A as (A1 & A2 & A3 & A4). eapply a_TBZ; [apply f_lt4|]. rewrite A3. change 2%N with (N.of_nat 2) at 1. rewrite testbit_half. change (2 ^ N.of_nat 2)%N with 4%N.
  destruct (N.eqb_spec ((w / 4) mod 2) 0) as [Z|Z]; cbn [negb].
  - apply (@lt4_reaches k w r A). rewrite H. clear - Z. lia.
  - apply (@feed_chunk 4 k w r _ _ ltac:(cbn; auto) ltac:(clear - H Z; lia) A). intros r' A'. eapply a_exec; [reflexivity|]. apply (@lt4_reaches (k + 4) w r' A'). rewrite H. clear - Z. lia.
Qed.
Lemma blt_pos (a : nat) : (a <= length p)%nat -> (sgn64 (N.of_nat a) <? sgn64 8)%Z = (a <? 8)%nat.
Proof.
  intros H. unfold lenN in Hlen. fold p in Hlen. rewrite sgn_low by (clear - H Hlen; lia). change (sgn64 8) with 8%Z. clear. destruct (Z.ltb_spec (Z.of_N (N.of_nat a)) 8); destruct (Nat.ltb_spec a 8); auto; lia.
Qed.
Lemma update_reaches j : forall q k r, (q < 8)%nat -> length p = (k + q + 8 * S j)%nat -> aat k (N.of_nat (length p - k)) r -> areaches a_update r (crcp sum p).
Proof.
  induction j as [|j IH]; intros q k r Hq Hk A.
  all: apply (@feed_chunk 8 k _ r _ _ ltac:(cbn; auto) ltac:(clear - Hk; lia) A); intros r' A'; pose proof A' as (A1 & A2 & A3 & A4).
  all: eapply a_exec; [reflexivity|]; eapply a_exec; [reflexivity|]; eapply a_BLT; [apply f_lt8|].
  all: set (w := N.of_nat (length p - (k + 8))).
  all: assert (E : ((ag r' R11 + (two64 - 8)) mod two64)%N = w)
    by (rewrite A3; unfold w; replace (length p - (k + 8))%nat with (length p - k - 8)%nat by (clear; lia); apply (@minus_low (length p - k) 8); [clear - Hk; lia|unfold lenN in Hlen; fold p in Hlen; clear - Hlen; lia]).
  all: match goal with |- context[areaches _ ?r2 _] => assert (A2' : aat (k + 8) w r2) by (split; [exact A1|split; [exact A2|split; [exact E|exact A4]]]); set (r2' := r2) in * end.
  all: replace (fst (acmp r2')) with w by (symmetry; exact E); change (snd (acmp r2')) with 8%N; clearbody r2'; unfold w; rewrite blt_pos by (clear; lia).
  - replace (length p - (k + 8) <? 8)%nat with true by (symmetry; apply Nat.ltb_lt; clear - Hk Hq; lia).
    apply (@lt8_reaches _ _ _ A2'). unfold w. clear - Hk Hq. lia.
  - replace (length p - (k + 8) <? 8)%nat with false by (symmetry; apply Nat.ltb_ge; clear - Hk Hq; lia).
    eapply a_JMP; [apply f_update|]. apply (@IH q (k + 8)%nat); auto. clear - Hk. lia.
Qed.
Hypothesis Hbase : (sl_base m < two64)%N.
Lemma arm_reaches r : areaches arm_code r (crcp sum p).
Proof.
  rewrite code_eq. eapply a_exec; [reflexivity|]. eapply a_exec; [reflexivity|]. eapply a_exec; [reflexivity|]. eapply a_exec; [reflexivity|]. eapply a_BLT; [apply f_lt8|].
  match goal with |- context[areaches _ ?r2 _] => assert (A2' : aat 0 (N.of_nat (length p - 0)) r2); [|set (r2' := r2) in *] end.
  { split; [clear; lia|split; [|split]].
    - cbn. rewrite N.add_0_r. symmetry. now apply N.mod_small.
    - rewrite Nat.sub_0_r. reflexivity.
    - cbn. unfold crcp. cbn. symmetry. apply N.lxor_0_r. }
  change (fst (acmp r2')) with (N.of_nat (length p)). change (snd (acmp r2')) with 8%N. clearbody r2'. rewrite blt_pos by (clear; lia).
  destruct (Nat.ltb_spec (length p) 8) as [H|H].
  - apply (@lt8_reaches _ _ _ A2'). rewrite Nat.sub_0_r. clear - H. lia.
  - eapply a_exec; [reflexivity|]. apply (@update_reaches (length p / 8 - 1) (length p mod 8) 0 r2'); auto; clear - H; lia.
Qed.
End Exec.
