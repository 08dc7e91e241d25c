From Verif Require Import Base SpecChecksum MChecksum.

(** ** Adler-32 *)
Lemma adler_chunk_tail p s1 s2 : adler_chunk p s1 s2 = adler_tail p s1 s2.
Proof.
  revert s1 s2.
  induction p as [p IH] using (well_founded_induction (Wf_nat.well_founded_ltof _ (@length N))).
  intros s1 s2. destruct p as [|p0 [|p1 [|p2 [|p3 t]]]]; try reflexivity.
  cbn [adler_chunk adler_tail]. apply IH. unfold Wf_nat.ltof; simpl; lia.
Qed.

Lemma adler_sums_app a b s1 s2 :
  adler_sums (a ++ b) s1 s2 = let '(t1, t2) := adler_sums a s1 s2 in adler_sums b t1 t2.
Proof. revert s1 s2; induction a as [|x a IH]; intros; simpl; auto. Qed.

Lemma adler_sums_bound l s1 s2 : bytes_ok l ->
  let '(t1, t2) := adler_sums l s1 s2 in
  (t1 <= s1 + 255 * lenN l /\ 2 * t2 <= 2 * s2 + 2 * lenN l * s1 + 255 * (lenN l * (lenN l + 1)))%N.
Proof.
  revert s1 s2; induction l as [|x l IH]; intros s1 s2 H; cbn [adler_sums].
  - unfold lenN; cbn [length]. lia.
  - inversion H as [|? ? Hx Hl]; subst. specialize (IH (s1 + x)%N (s2 + (s1 + x))%N Hl).
    destruct (adler_sums l _ _) as [t1 t2]. destruct IH as [I1 I2].
    unfold lenN, is_byte in *. cbn [length]. rewrite Nat2N.inj_succ.
    set (n := N.of_nat (length l)) in *. split; [lia|]. nia.
Qed.

Lemma adler_tail_exact l s1 s2 :
  bytes_ok l -> (length l <= adler_nmax) -> (s1 < 65521)%N -> (s2 < 65521)%N ->
  adler_tail l s1 s2 = adler_sums l s1 s2.
Proof.
  intros Hb Hn H1 H2.
  assert (Gen : forall l a b n, bytes_ok l -> (a <= 65520 + 255 * n)%N ->
            (2 * b <= 2 * 65520 + 2 * n * 65520 + 255 * (n * (n + 1)))%N ->
            (n + lenN l <= 5552)%N -> adler_tail l a b = adler_sums l a b).
  { clear. induction l as [|x l IH]; intros a b n Hb Ha Hbb Hn; cbn [adler_tail adler_sums]; auto.
    inversion Hb as [|? ? Hx Hl]; subst. unfold is_byte, lenN in *. cbn [length] in Hn.
    rewrite Nat2N.inj_succ in Hn.
    assert (B1 : (a + x < two32)%N) by (unfold two32; lia).
    assert (B2 : (b + (a + x) < two32)%N) by (unfold two32; nia).
    unfold add32. rewrite (N.mod_small _ _ B1), (N.mod_small _ _ B2).
    apply (IH _ _ (n + 1)%N); auto; try lia; nia. }
  apply (Gen l s1 s2 0%N); auto; try lia.
  unfold lenN, adler_nmax in *. lia.
Qed.

Lemma adler_sums_mod l s1 s2 t1 t2 :
  (s1 mod 65521 = t1 mod 65521 -> s2 mod 65521 = t2 mod 65521 ->
  fst (adler_sums l s1 s2) mod 65521 = fst (adler_sums l t1 t2) mod 65521 /\
  snd (adler_sums l s1 s2) mod 65521 = snd (adler_sums l t1 t2) mod 65521)%N.
Proof.
  revert s1 s2 t1 t2; induction l as [|x l IH]; intros s1 s2 t1 t2 H1 H2; cbn [adler_sums fst snd]; auto.
  assert (E : ((s1 + x) mod 65521 = (t1 + x) mod 65521)%N).
  { rewrite (N.add_mod s1), (N.add_mod t1), H1; auto; lia. }
  apply IH; auto.
  rewrite (N.add_mod s2), (N.add_mod t2), H2, E; auto; lia.
Qed.

Lemma adler_loop_spec fuel p s1 s2 :
  bytes_ok p -> length p <= fuel -> (s1 < 65521)%N -> (s2 < 65521)%N ->
  let '(a, b) := adler_sums p s1 s2 in
  adler_loop fuel p s1 s2 = (a mod 65521, b mod 65521)%N.
Proof.
  revert p s1 s2; induction fuel as [|fuel IH]; intros p s1 s2 Hb Hf H1 H2.
  - destruct p; simpl in Hf; [|lia]. cbn. rewrite !N.mod_small; auto.
  - destruct p as [|x p']; [cbn; rewrite !N.mod_small; auto|].
    cbn [adler_loop]. remember (x :: p') as p eqn:Ep.
    assert (Hsplit : p = firstn adler_nmax p ++ skipn adler_nmax p) by (symmetry; apply firstn_skipn).
    rewrite adler_chunk_tail.
    assert (Hbs : bytes_ok (firstn adler_nmax p) /\ bytes_ok (skipn adler_nmax p)).
    { apply bytes_ok_app. rewrite <- Hsplit; auto. }
    destruct Hbs as [Hb1 Hb2].
    rewrite adler_tail_exact; auto; [|rewrite firstn_length; lia].
    replace (adler_sums p s1 s2) with (adler_sums (firstn adler_nmax p ++ skipn adler_nmax p) s1 s2) by (now rewrite firstn_skipn). rewrite adler_sums_app.
    destruct (adler_sums (firstn adler_nmax p) s1 s2) as [a b] eqn:E.
    assert (Hlen : length (skipn adler_nmax p) <= fuel).
    { rewrite skipn_length. subst p; cbn [length] in *. unfold adler_nmax. lia. }
    unfold adler_modulus.
    specialize (IH (skipn adler_nmax p) (a mod 65521)%N (b mod 65521)%N Hb2 Hlen).
    destruct (adler_sums (skipn adler_nmax p) (a mod 65521) (b mod 65521)) as [c d] eqn:E2.
    rewrite IH; try (apply N.mod_lt; lia).
    destruct (@adler_sums_mod (skipn adler_nmax p) (a mod 65521)%N (b mod 65521)%N a b) as [M1 M2];
      try (apply N.mod_mod; lia).
    rewrite E2 in M1, M2. destruct (adler_sums (skipn adler_nmax p) a b). cbn in *. congruence.
Qed.

Definition adler_ok (sum : N) : Prop := (sum mod 65536 < 65521 /\ sum / 65536 < 65521)%N.

Lemma lor_shift16 a b : (a < 65536 -> N.lor (N.shiftl b 16) a = b * 65536 + a)%N.
Proof.
  intros Ha. rewrite N.shiftl_mul_pow2. change (2 ^ 16)%N with 65536%N.
  rewrite <- N.lxor_lor; [rewrite <- N.add_nocarry_lxor; auto|];
  apply N.bits_inj; intros i; rewrite N.land_spec, N.bits_0;
  (destruct (N.lt_ge_cases i 16) as [Hi|Hi];
   [ change 65536%N with (2^16)%N; rewrite N.mul_pow2_bits_low; auto
   | rewrite (N.bits_above_log2 a i), andb_false_r; auto;
     destruct (N.eq_dec a 0) as [->|Hz]; [cbn; lia|];
     apply N.log2_lt_pow2; [lia|]; apply N.lt_le_trans with (2^16)%N; [exact Ha | apply N.pow_le_mono_r; lia]]).
Qed.

Lemma adler_update_sums sum p : adler_ok sum -> bytes_ok p ->
  let '(a, b) := adler_sums p (sum mod 65536) (sum / 65536) in
  adler_update sum p = ((b mod 65521) * 65536 + a mod 65521)%N.
Proof.
  intros [H1 H2] Hb. unfold adler_update.
  replace (N.land sum 65535) with (sum mod 65536)%N
    by (change 65535%N with (N.ones 16); rewrite N.land_ones; reflexivity).
  replace (N.shiftr sum 16) with (sum / 65536)%N
    by (rewrite N.shiftr_div_pow2; reflexivity).
  pose proof (@adler_loop_spec (length p) p _ _ Hb (le_n _) H1 H2) as L.
  destruct (adler_sums p (sum mod 65536) (sum / 65536)) as [a b].
  rewrite L.
  rewrite N.mod_small.
  - apply lor_shift16. pose proof (N.mod_lt a 65521); lia.
  - rewrite N.shiftl_mul_pow2. change (2^16)%N with 65536%N. unfold two32.
    pose proof (N.mod_lt b 65521); lia.
Qed.

Lemma adler_update_ok sum p : adler_ok sum -> bytes_ok p -> adler_ok (adler_update sum p).
Proof.
  intros H Hb. pose proof (adler_update_sums H Hb) as E.
  destruct (adler_sums p _ _) as [a b]. rewrite E. unfold adler_ok.
  pose proof (N.mod_lt a 65521). pose proof (N.mod_lt b 65521). lia.
Qed.

Lemma adler_reset_ok : adler_ok adler_reset.
Proof. unfold adler_ok, adler_reset. vm_compute. auto. Qed.

Lemma adler_update_app sum a b : adler_ok sum -> bytes_ok a -> bytes_ok b ->
  adler_update (adler_update sum a) b = adler_update sum (a ++ b).
Proof.
  intros H Ha Hb.
  pose proof (adler_update_ok H Ha) as Hok.
  pose proof (adler_update_sums H Ha) as E1.
  pose proof (adler_update_sums Hok Hb) as E2.
  pose proof (adler_update_sums (p := a ++ b) H) as E3.
  specialize (E3 (proj2 (bytes_ok_app a b) (conj Ha Hb))).
  rewrite adler_sums_app in E3.
  destruct (adler_sums a (sum mod 65536) (sum / 65536)) as [s t].
  rewrite E1 in E2 |- *.
  set (s' := (s mod 65521)%N) in *. set (t' := (t mod 65521)%N) in *.
  assert (Hs : (s' < 65521)%N) by (apply N.mod_lt; lia).
  assert (Ht : (t' < 65521)%N) by (apply N.mod_lt; lia).
  replace ((t' * 65536 + s') mod 65536)%N with s' in E2 by lia.
  replace ((t' * 65536 + s') / 65536)%N with t' in E2 by lia.
  destruct (@adler_sums_mod b s' t' s t) as [M1 M2]; try (apply N.mod_mod; lia).
  destruct (adler_sums b s' t') as [c d]; destruct (adler_sums b s t) as [c' d']. cbn in *.
  rewrite E2, E3, M1, M2. reflexivity.
Qed.

Lemma adler_checksum_spec p : bytes_ok p -> adler_update adler_reset p = spec_adler32 p.
Proof.
  intros Hb. pose proof (adler_update_sums adler_reset_ok Hb) as E. unfold spec_adler32.
  change (adler_reset mod 65536)%N with 1%N in E. change (adler_reset / 65536)%N with 0%N in E.
  destruct (adler_sums p 1 0). exact E.
Qed.

(** ** CRC-32 *)
Definition S0 (v : N) : N := if N.odd v then N.lxor (N.div2 v) crc_poly else N.div2 v.

Lemma odd_lxor a b : N.odd (N.lxor a b) = xorb (N.odd a) (N.odd b).
Proof. rewrite <- !N.bit0_odd. apply N.lxor_spec. Qed.

Lemma div2_lxor a b : N.div2 (N.lxor a b) = N.lxor (N.div2 a) (N.div2 b).
Proof. rewrite !N.div2_spec, N.shiftr_lxor. reflexivity. Qed.

Lemma lxor_shuffle a b c d : N.lxor (N.lxor a b) (N.lxor c d) = N.lxor (N.lxor a c) (N.lxor b d).
Proof. rewrite !N.lxor_assoc. f_equal. rewrite <- !N.lxor_assoc. f_equal. apply N.lxor_comm. Qed.

Lemma S0_lxor a b : S0 (N.lxor a b) = N.lxor (S0 a) (S0 b).
Proof.
  unfold S0. rewrite odd_lxor, div2_lxor.
  destruct (N.odd a), (N.odd b); cbn [xorb]; auto.
  - rewrite lxor_shuffle, N.lxor_nilpotent, N.lxor_0_r. reflexivity.
  - rewrite !N.lxor_assoc. f_equal. apply N.lxor_comm.
  - rewrite !N.lxor_assoc. reflexivity.
Qed.

Lemma iterS_lxor n a b : Nat.iter n S0 (N.lxor a b) = N.lxor (Nat.iter n S0 a) (Nat.iter n S0 b).
Proof. induction n; simpl; auto. rewrite IHn. apply S0_lxor. Qed.

Lemma S0_double x : S0 (2 * x)%N = x.
Proof. unfold S0. rewrite N.odd_mul, N.odd_2. cbn. apply N.div2_double. Qed.

Lemma iter_succ_r {A} n (f : A -> A) x : Nat.iter (S n) f x = Nat.iter n f (f x).
Proof. induction n; simpl in *; congruence. Qed.

Lemma iterS_shift n (x : N) : Nat.iter n S0 (x * 2 ^ N.of_nat n)%N = x.
Proof.
  induction n as [|n IH].
  - simpl. change (2^0)%N with 1%N. lia.
  - rewrite iter_succ_r. rewrite Nat2N.inj_succ, N.pow_succ_r'.
    replace (x * (2 * 2 ^ N.of_nat n))%N with (2 * (x * 2 ^ N.of_nat n))%N by lia.
    rewrite S0_double. exact IH.
Qed.

Lemma iter_add {A} n m (f : A -> A) x : Nat.iter (n + m) f x = Nat.iter n f (Nat.iter m f x).
Proof. induction n; simpl; congruence. Qed.

Lemma crc_bit_S0 r b : crc_bit r b = S0 (N.lxor r (N.b2n b)).
Proof.
  unfold crc_bit, S0. rewrite odd_lxor, div2_lxor.
  destruct b; cbn [N.b2n N.odd N.div2]; rewrite N.lxor_0_r; reflexivity.
Qed.

Lemma b2n_double_lxor b x : (N.lxor (N.b2n b) (2 * x) = N.b2n b + 2 * x)%N.
Proof. destruct b, x; reflexivity. Qed.

Lemma crc_bits_S0 l r : fold_left crc_bit l r = Nat.iter (length l) S0 (N.lxor r (N_of_bits l)).
Proof.
  revert r; induction l as [|b l IH]; intros r; cbn [fold_left length N_of_bits].
  - simpl. now rewrite N.lxor_0_r.
  - rewrite IH, crc_bit_S0, iter_succ_r. f_equal.
    rewrite <- b2n_double_lxor, <- N.lxor_assoc. rewrite (S0_lxor (N.lxor _ _)), S0_double. reflexivity.
Qed.

(** bytes: 8 steps at a time *)
Lemma land_ones_mod a n : N.land a (N.ones n) = (a mod 2 ^ n)%N.
Proof. apply N.land_ones. Qed.

Lemma split_lxor v n : (v = N.lxor (v mod 2 ^ n) ((v / 2 ^ n) * 2 ^ n))%N.
Proof.
  apply N.bits_inj. intros i. rewrite N.lxor_spec.
  destruct (N.lt_ge_cases i n) as [H|H].
  - rewrite N.mod_pow2_bits_low, N.mul_pow2_bits_low; auto. now rewrite xorb_false_r.
  - rewrite N.mod_pow2_bits_high, N.mul_pow2_bits_high, N.div_pow2_bits; auto.
    rewrite N.sub_add; auto. now rewrite xorb_false_l.
Qed.

Lemma iterS_split n v :
  Nat.iter n S0 v = N.lxor (Nat.iter n S0 (v mod 2 ^ N.of_nat n)%N) (v / 2 ^ N.of_nat n)%N.
Proof.
  rewrite (split_lxor v (N.of_nat n)) at 1. rewrite iterS_lxor. f_equal. apply iterS_shift.
Qed.

Lemma crc_round_S0 v : crc_round v = S0 v.
Proof.
  unfold crc_round, S0, ieeePolynomial, crc_poly.
  rewrite <- N.div2_spec.
  replace (N.eqb (N.land v 1) 1) with (N.odd v); auto.
  change 1%N with (N.ones 1) at 1. rewrite N.land_ones. change (2^1)%N with 2%N.
  rewrite <- odd_mod2. destruct (N.odd v); reflexivity.
Qed.

Lemma iter_ext {A} n (f g : A -> A) x : (forall y, f y = g y) -> Nat.iter n f x = Nat.iter n g x.
Proof. intros H. induction n; simpl; congruence. Qed.

Lemma tbl_ieee0 i : (i < 256)%N -> tbl ieee0 i = Nat.iter 8 S0 i.
Proof.
  intros H. unfold tbl, ieee0.
  set (f := fun j => Nat.iter 8 crc_round (N.of_nat j)).
  rewrite (nth_indep _ 0%N (f 0)) by (rewrite map_length, seq_length; lia).
  rewrite map_nth, seq_nth by lia. unfold f. rewrite Nat.add_0_l, N2Nat.id.
  apply iter_ext, crc_round_S0.
Qed.

Lemma land255 v : N.land v 255 = (v mod 256)%N.
Proof. change 255%N with (N.ones 8). apply N.land_ones. Qed.

Lemma step8_table v :
  N.lxor (tbl ieee0 (N.land v 255)) (N.shiftr v 8) = Nat.iter 8 S0 v.
Proof.
  rewrite land255, tbl_ieee0 by (apply N.mod_lt; lia).
  rewrite (iterS_split 8 v). f_equal. apply N.shiftr_div_pow2.
Qed.

Definition is_table (t : list N) (k : nat) : Prop :=
  length t = 256 /\ forall i, (i < 256)%N -> tbl t i = Nat.iter k S0 i.

Lemma is_table0 : is_table ieee0 8.
Proof. split. - unfold ieee0. now rewrite map_length, seq_length. - apply tbl_ieee0. Qed.

Lemma is_table_next t k : is_table t k -> is_table (ieee_next t) (8 + k).
Proof.
  intros [HL HT]. split.
  - unfold ieee_next. now rewrite map_length.
  - intros i Hi. unfold tbl, ieee_next.
    set (f := fun sum => N.lxor (tbl ieee0 (N.land sum 255)) (N.shiftr sum 8)).
    rewrite (nth_indep _ 0%N (f 0%N)) by (rewrite map_length; lia).
    rewrite map_nth. unfold f. rewrite step8_table.
    change (nth (N.to_nat i) t 0%N) with (tbl t i). rewrite HT by auto.
    rewrite <- iter_add. reflexivity.
Qed.

Lemma is_table1 : is_table ieee1 16. Proof. exact (is_table_next is_table0). Qed.
Lemma is_table2 : is_table ieee2 24. Proof. exact (is_table_next is_table1). Qed.
Lemma is_table3 : is_table ieee3 32. Proof. exact (is_table_next is_table2). Qed.
Lemma is_table4 : is_table ieee4 40. Proof. exact (is_table_next is_table3). Qed.
Lemma is_table5 : is_table ieee5 48. Proof. exact (is_table_next is_table4). Qed.
Lemma is_table6 : is_table ieee6 56. Proof. exact (is_table_next is_table5). Qed.
Lemma is_table7 : is_table ieee7 64. Proof. exact (is_table_next is_table6). Qed.

Lemma lxor_lt_pow2 a b n : (a < 2 ^ n -> b < 2 ^ n -> N.lxor a b < 2 ^ n)%N.
Proof.
  intros Ha Hb.
  rewrite <- (N.mod_small a (2 ^ n)), <- (N.mod_small b (2 ^ n)); auto.
  rewrite <- !land_ones_mod. 
  replace (N.lxor (N.land a (N.ones n)) (N.land b (N.ones n))) with (N.land (N.lxor a b) (N.ones n)).
  - rewrite land_ones_mod. apply N.mod_lt. apply N.pow_nonzero; lia.
  - apply N.bits_inj; intros i. rewrite !N.land_spec, !N.lxor_spec, !N.land_spec.
    destruct (N.testbit a i), (N.testbit b i), (N.testbit (N.ones n) i); reflexivity.
Qed.

Lemma N_of_byte_bits x : is_byte x -> N_of_bits (bits_of_N 8 x) = x.
Proof. intros H. apply bits_of_N_small. exact H. Qed.

Lemma byte_lxor_land sum ch : is_byte ch ->
  N.lxor (N.land sum 255) ch = N.land (N.lxor sum ch) 255.
Proof.
  intros H. apply N.bits_inj; intros i. rewrite !N.land_spec, !N.lxor_spec, !N.land_spec.
  destruct (N.lt_ge_cases i 8) as [Hi|Hi].
  - change 255%N with (N.ones 8). rewrite N.ones_spec_low by lia.
    destruct (N.testbit sum i), (N.testbit ch i); reflexivity.
  - change 255%N with (N.ones 8). rewrite N.ones_spec_high by lia.
    rewrite !andb_false_r, xorb_false_l.
    destruct (N.eq_dec ch 0) as [->|Hz]; [apply N.bits_0|].
    apply N.bits_above_log2. apply N.lt_le_trans with 8%N; [|exact Hi]. apply N.log2_lt_pow2; [lia|]. exact H.
Qed.

Lemma shiftr8_byte sum ch : is_byte ch -> N.shiftr (N.lxor sum ch) 8 = N.shiftr sum 8.
Proof.
  intros H. rewrite N.shiftr_lxor. rewrite (N.shiftr_div_pow2 ch).
  rewrite (N.div_small ch (2^8)) by exact H. apply N.lxor_0_r.
Qed.

Lemma crc_byte_S0 sum ch : is_byte ch -> crc_byte sum ch = Nat.iter 8 S0 (N.lxor sum ch).
Proof.
  intros H. unfold crc_byte. rewrite byte_lxor_land by auto.
  rewrite <- (shiftr8_byte sum H). apply step8_table.
Qed.

Lemma crc_byte_bits sum ch : is_byte ch ->
  crc_byte sum ch = fold_left crc_bit (bits_of_N 8 ch) sum.
Proof.
  intros H. rewrite crc_byte_S0, crc_bits_S0, N_of_byte_bits; auto.
Qed.

Lemma crc_bytes_bits p sum : bytes_ok p ->
  fold_left crc_byte p sum = fold_left crc_bit (bits_of_bytes p) sum.
Proof.
  revert sum; induction p as [|x p IH]; intros sum H; auto.
  inversion H; subst. cbn [fold_left]. rewrite bits_of_bytes_cons, fold_left_app, <- crc_byte_bits; auto.
Qed.

Lemma crc_byte_step_lt sum ch : (sum < two32)%N -> is_byte ch -> (crc_byte sum ch < two32)%N.
Proof.
  intros Hs Hc. unfold crc_byte. change two32 with (2^32)%N.
  apply lxor_lt_pow2.
  - unfold tbl.
    assert (F : Forall (fun x => (x < 2^32)%N) ieee0).
    { apply Forall_forall. intros x Hx.
      assert (forallb (fun x => N.ltb x (2^32)) ieee0 = true) as A by (vm_compute; reflexivity).
      rewrite forallb_forall in A. specialize (A x Hx). lia. }
    destruct (nth_in_or_default (N.to_nat (N.lxor (N.land sum 255) ch)) ieee0 0%N) as [Hi|Hd].
    + rewrite Forall_forall in F. apply F, Hi.
    + rewrite Hd. reflexivity.
  - rewrite N.shiftr_div_pow2. unfold two32 in Hs. change (2^8)%N with 256%N. change (2^32)%N with 4294967296%N. lia.
Qed.

(** equations in the commutative group of xor *)
Ltac xor_ac :=
  let i := fresh "i" in
  apply N.bits_inj; intros i; rewrite !N.lxor_spec;
  repeat match goal with |- context [N.testbit ?a i] => generalize (N.testbit a i); intro end;
  repeat match goal with b : bool |- _ => destruct b end; reflexivity.

(** slicing by 8 *)
Lemma slice_part k m (b : N) : m <= k -> Nat.iter k S0 (b * 2 ^ N.of_nat m)%N = Nat.iter (k - m) S0 b.
Proof.
  intros H. transitivity (Nat.iter ((k - m) + m) S0 (b * 2 ^ N.of_nat m)%N).
  - f_equal. lia.
  - rewrite iter_add, iterS_shift. reflexivity.
Qed.

Lemma slicing_step sum p0 p1 p2 p3 p4 p5 p6 p7 :
  (sum < two32)%N -> bytes_ok [p0;p1;p2;p3;p4;p5;p6;p7] ->
  let s := N.lxor sum (unle32 [p0;p1;p2;p3]) in
  N.lxor (tbl ieee0 p7) (N.lxor (tbl ieee1 p6) (N.lxor (tbl ieee2 p5) (N.lxor (tbl ieee3 p4)
        (N.lxor (tbl ieee4 (N.shiftr s 24))
        (N.lxor (tbl ieee5 (N.land (N.shiftr s 16) 0xff))
        (N.lxor (tbl ieee6 (N.land (N.shiftr s 8) 0xff))
                (tbl ieee7 (N.land s 0xff)))))))) =
  fold_left crc_byte [p0;p1;p2;p3;p4;p5;p6;p7] sum.
Proof.
  intros Hs Hb s.
  rewrite (crc_bytes_bits sum Hb), crc_bits_S0.
  change (length (bits_of_bytes [p0;p1;p2;p3;p4;p5;p6;p7])) with 64.
  repeat match goal with H : bytes_ok (_ :: _) |- _ => inversion H; clear H; subst end.
  repeat match goal with H : Forall _ (_ :: _) |- _ => inversion H; clear H; subst end.
  assert (EN : N_of_bits (bits_of_bytes [p0;p1;p2;p3;p4;p5;p6;p7]) =
    N.lxor (unle32 [p0;p1;p2;p3]) (N.lxor (p4 * 2^32) (N.lxor (p5 * 2^40) (N.lxor (p6 * 2^48) (p7 * 2^56))))%N).
  { rewrite !bits_of_bytes_cons. rewrite !N_of_bits_app, !length_bits_of_N, !N_of_byte_bits; auto.
    change (N_of_bits (bits_of_bytes [])) with 0%N.
    change (2 ^ N.of_nat 8)%N with 256%N.
    assert (L : forall a b k, (a < 2 ^ k -> N.lxor a (b * 2 ^ k) = a + b * 2 ^ k)%N).
    { intros a b k Ha.
      pose proof (split_lxor (a + b * 2 ^ k) k) as E.
      rewrite N.mod_add in E by (apply N.pow_nonzero; lia).
      rewrite N.mod_small in E by auto.
      rewrite N.div_add in E by (apply N.pow_nonzero; lia).
      rewrite N.div_small in E by auto. rewrite N.add_0_l in E. symmetry; exact E. }
    unfold unle32, nthN; cbn [nth]. unfold is_byte in *.
    rewrite !N.lxor_assoc || idtac.
    rewrite <- !N.lxor_assoc.
    rewrite (L _ p4 32%N) by (change (2^32)%N with 4294967296%N; lia).
    rewrite (L _ p5 40%N) by (change (2^40)%N with 1099511627776%N; change (2^32)%N with 4294967296%N; lia).
    rewrite (L _ p6 48%N) by (change (2^48)%N with 281474976710656%N; change (2^40)%N with 1099511627776%N; change (2^32)%N with 4294967296%N; lia).
    rewrite (L _ p7 56%N) by (change (2^56)%N with 72057594037927936%N; change (2^48)%N with 281474976710656%N; change (2^40)%N with 1099511627776%N; change (2^32)%N with 4294967296%N; lia).
    change (2^56)%N with 72057594037927936%N; change (2^48)%N with 281474976710656%N; change (2^40)%N with 1099511627776%N; change (2^32)%N with 4294967296%N.
    lia. }
  rewrite EN. rewrite <- (N.lxor_assoc sum (unle32 _)). fold s.
  assert (Hslt : (s < 2^32)%N).
  { apply lxor_lt_pow2; [exact Hs|]. unfold unle32, nthN, is_byte in *; cbn [nth]. change (2^32)%N with 4294967296%N. lia. }
  clearbody s. rewrite !iterS_lxor.
  assert (ES : Nat.iter 64 S0 s = N.lxor (tbl ieee4 (N.shiftr s 24))
        (N.lxor (tbl ieee5 (N.land (N.shiftr s 16) 0xff))
        (N.lxor (tbl ieee6 (N.land (N.shiftr s 8) 0xff))
                (tbl ieee7 (N.land s 0xff))))).
  { rewrite !land255, !N.shiftr_div_pow2.
    change (2^24)%N with 16777216%N; change (2^16)%N with 65536%N; change (2^8)%N with 256%N.
    change (2^32)%N with 4294967296%N in Hslt.
    rewrite (proj2 is_table4) by lia.
    rewrite (proj2 is_table5) by (apply N.mod_lt; lia).
    rewrite (proj2 is_table6) by (apply N.mod_lt; lia).
    rewrite (proj2 is_table7) by (apply N.mod_lt; lia).
    assert (Es : s = N.lxor (s mod 256) (N.lxor (((s / 256) mod 256) * 2 ^ N.of_nat 8)
            (N.lxor (((s / 65536) mod 256) * 2 ^ N.of_nat 16) ((s / 16777216) * 2 ^ N.of_nat 24)))%N).
    { rewrite (split_lxor s 8) at 1. change (2^8)%N with 256%N. f_equal.
      rewrite (split_lxor (s/256) 8) at 1. change (2^8)%N with 256%N.
      rewrite <- N.shiftl_mul_pow2. change (N.shiftl (N.lxor ((s / 256) mod 256) (s / 256 / 256 * 256)) 8)%N with (N.shiftl (N.lxor ((s / 256) mod 256) (s / 256 / 256 * 256)) 8)%N.
      replace (N.lxor ((s / 256) mod 256) (s / 256 / 256 * 256) * 256)%N with
        (N.shiftl (N.lxor ((s / 256) mod 256) (s / 256 / 256 * 256)) 8)%N by (rewrite N.shiftl_mul_pow2; reflexivity).
      rewrite N.shiftl_lxor. f_equal.
      rewrite N.shiftl_mul_pow2. change (2^8)%N with 256%N.
      replace (s / 256 / 256 * 256 * 256)%N with (s / 65536 * 65536)%N by lia.
      rewrite (split_lxor (s/65536) 8) at 1. change (2^8)%N with 256%N.
      replace (N.lxor ((s / 65536) mod 256) (s / 65536 / 256 * 256) * 65536)%N with
        (N.shiftl (N.lxor ((s / 65536) mod 256) (s / 65536 / 256 * 256)) 16)%N by (rewrite N.shiftl_mul_pow2; reflexivity).
      rewrite N.shiftl_lxor, !N.shiftl_mul_pow2. change (N.of_nat 16) with 16%N. f_equal.
      change (2^16)%N with 65536%N. change (2 ^ N.of_nat 24)%N with 16777216%N. lia. }
    rewrite Es at 1. rewrite !iterS_lxor.
    rewrite !slice_part by lia. cbn [Nat.sub].
    xor_ac. }
  rewrite ES.
  change 32%N with (N.of_nat 32); change 40%N with (N.of_nat 40); change 48%N with (N.of_nat 48); change 56%N with (N.of_nat 56).
  rewrite !slice_part by lia. cbn [Nat.sub].
  unfold is_byte in *.
  rewrite (proj2 is_table0) by auto. rewrite (proj2 is_table1) by auto.
  rewrite (proj2 is_table2) by auto. rewrite (proj2 is_table3) by auto.
  set (X := N.lxor (tbl ieee4 _) _).
  set (a := Nat.iter 8 S0 p7). set (b := Nat.iter 16 S0 p6).
  set (c := Nat.iter 24 S0 p5). set (d := Nat.iter 32 S0 p4).
  clearbody X a b c d. xor_ac.
Qed.

Lemma crc_bytes_lt p sum : (sum < two32)%N -> bytes_ok p -> (fold_left crc_byte p sum < two32)%N.
Proof.
  revert sum; induction p as [|x p IH]; intros sum Hs H; auto.
  inversion H; subst. apply IH; auto. apply crc_byte_step_lt; auto.
Qed.

Lemma crc_slice8_bytes p sum : (sum < two32)%N -> bytes_ok p -> crc_slice8 p sum = fold_left crc_byte p sum.
Proof.
  revert sum.
  induction p as [p IH] using (well_founded_induction (Wf_nat.well_founded_ltof _ (@length N))).
  intros sum Hs Hb.
  destruct p as [|p0 [|p1 [|p2 [|p3 [|p4 [|p5 [|p6 [|p7 t]]]]]]]]; try reflexivity.
  cbn [crc_slice8].
  change (p0 :: p1 :: p2 :: p3 :: p4 :: p5 :: p6 :: p7 :: t) with ([p0;p1;p2;p3;p4;p5;p6;p7] ++ t) in *.
  apply bytes_ok_app in Hb. destruct Hb as [Hb1 Hb2].
  pose proof (slicing_step Hs Hb1) as E. cbv zeta in E. rewrite E.
  rewrite fold_left_app. apply IH; auto.
  - unfold Wf_nat.ltof. rewrite app_length. simpl. lia.
  - apply crc_bytes_lt; auto.
Qed.

Lemma not32_lt x : (x < two32)%N -> (not32 x < two32)%N.
Proof. intros H. unfold not32. change two32 with (2^32)%N in *. apply lxor_lt_pow2; auto. reflexivity. Qed.

Lemma not32_invol x : not32 (not32 x) = x.
Proof. unfold not32. rewrite N.lxor_assoc, N.lxor_nilpotent. apply N.lxor_0_r. Qed.

Lemma crc_update_bytes sum p : (sum < two32)%N -> bytes_ok p ->
  crc_update sum p = not32 (fold_left crc_byte p (not32 sum)).
Proof.
  intros Hs Hb. unfold crc_update. destruct p as [|x p].
  - cbn. now rewrite not32_invol.
  - destruct (Nat.leb 16 _); auto. rewrite crc_slice8_bytes; auto. now apply not32_lt.
Qed.

Lemma crc_update_lt sum p : (sum < two32)%N -> bytes_ok p -> (crc_update sum p < two32)%N.
Proof. intros. rewrite crc_update_bytes; auto. apply not32_lt, crc_bytes_lt; auto. now apply not32_lt. Qed.

Lemma crc_update_app sum a b : (sum < two32)%N -> bytes_ok a -> bytes_ok b ->
  crc_update (crc_update sum a) b = crc_update sum (a ++ b).
Proof.
  intros Hs Ha Hb.
  rewrite (crc_update_bytes (p := b)); auto; [|apply crc_update_lt; auto].
  rewrite !crc_update_bytes; auto; [|apply bytes_ok_app; auto].
  rewrite not32_invol, fold_left_app. reflexivity.
Qed.

Lemma crc_update_spec p : bytes_ok p -> crc_update crc_reset p = spec_crc32 p.
Proof.
  intros Hb. rewrite crc_update_bytes; auto; [|reflexivity].
  unfold spec_crc32. rewrite crc_bytes_bits; auto.
Qed.

(** architecture dispatch, given the contract of the assembly kernels *)
Definition kernel_contract (k : N -> list N -> N) (lenok : nat -> bool) : Prop :=
  forall sum p, (sum < two32)%N -> bytes_ok p -> lenok (length p) = true ->
    k sum p = fold_left crc_bit (bits_of_bytes p) sum.

Lemma arch_amd64_generic clmul sum p :
  kernel_contract clmul (fun n => (64 <=? n) && (n mod 16 =? 0)) ->
  (sum < two32)%N -> bytes_ok p ->
  arch_update_amd64 clmul sum p = crc_update sum p.
Proof.
  intros K Hs Hb. unfold arch_update_amd64.
  destruct (Nat.leb_spec 64 (length p)) as [H|H]; auto.
  set (n := length p - length p mod 16).
  assert (Hn : n <= length p /\ 64 <= n /\ n mod 16 = 0).
  { unfold n. lia. }
  destruct Hn as [Hn1 [Hn2 Hn3]].
  assert (Hb' : bytes_ok (firstn n p) /\ bytes_ok (skipn n p)).
  { apply bytes_ok_app. now rewrite firstn_skipn. }
  rewrite K.
  - rewrite <- crc_bytes_bits by tauto. rewrite <- crc_update_bytes by tauto.
    rewrite crc_update_app by tauto. now rewrite firstn_skipn.
  - now apply not32_lt.
  - tauto.
  - rewrite firstn_length, Nat.min_l by lia. rewrite Hn3.
    destruct (Nat.leb_spec 64 n); [reflexivity|lia].
Qed.

Lemma arch_arm64_generic k sum p :
  kernel_contract k (fun _ => true) ->
  (sum < two32)%N -> bytes_ok p ->
  arch_update_arm64 k sum p = crc_update sum p.
Proof.
  intros K Hs Hb. unfold arch_update_arm64. rewrite K; auto; [|now apply not32_lt].
  rewrite <- crc_bytes_bits by auto. now rewrite <- crc_update_bytes.
Qed.

(** ** Any chunking *)
Lemma crc_chunks chunks : Forall bytes_ok chunks ->
  fold_left crc_update chunks crc_reset = spec_crc32 (concat chunks).
Proof.
  intros H.
  assert (A : forall chunks sum, (sum < two32)%N -> Forall bytes_ok chunks ->
     fold_left crc_update chunks sum = crc_update sum (concat chunks)).
  { clear. induction chunks as [|c cs IH]; intros sum Hs HF; cbn [fold_left concat]; auto.
    inversion HF as [|? ? Hc Hcs]; subst.
    rewrite IH; auto; [|now apply crc_update_lt]. apply crc_update_app; auto.
    clear -Hcs. induction Hcs; cbn [concat]; [constructor|]. apply bytes_ok_app; auto. }
  rewrite A; auto; [|reflexivity]. apply crc_update_spec.
  clear -H. induction H; cbn [concat]; [constructor|]. apply bytes_ok_app; auto.
Qed.

Lemma adler_chunks chunks : Forall bytes_ok chunks ->
  fold_left adler_update chunks adler_reset = spec_adler32 (concat chunks).
Proof.
  intros H.
  assert (A : forall chunks p, bytes_ok p -> Forall bytes_ok chunks ->
     fold_left adler_update chunks (adler_update adler_reset p) = adler_update adler_reset (p ++ concat chunks)).
  { clear. induction chunks as [|c cs IH]; intros p Hp HF; cbn [fold_left concat].
    - now rewrite app_nil_r.
    - inversion HF as [|? ? Hc Hcs]; subst.
      rewrite adler_update_app; auto using adler_reset_ok. rewrite IH; auto.
      + now rewrite app_assoc.
      + apply bytes_ok_app; auto. }
  specialize (A chunks []). change (adler_update adler_reset []) with adler_reset in A.
  rewrite A; [|constructor|auto]. apply adler_checksum_spec.
  clear -H. induction H; cbn [concat app] in *; [constructor|]. apply bytes_ok_app; auto.
Qed.
