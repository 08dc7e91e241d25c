(** What the two checksums are sure to detect. *)
From Verif Require Import Base SpecChecksum.

(** ** CRC-32: the register as a linear map *)
Definition crc_step (r : N) : N := crc_bit r false.
Lemma bit_step r b : crc_bit r b = crc_step (N.lxor r (N.b2n b)).
Proof.
  unfold crc_step, crc_bit. rewrite <- !N.bit0_odd, N.lxor_spec, !N.div2_spec, N.shiftr_lxor, Bool.xorb_false_r.
  replace (N.testbit (N.b2n b) 0) with b by (destruct b; reflexivity). replace (N.shiftr (N.b2n b) 1) with 0%N by (destruct b; reflexivity). now rewrite N.lxor_0_r.
Qed.
Lemma step_xor a b : crc_step (N.lxor a b) = N.lxor (crc_step a) (crc_step b).
Proof.
  unfold crc_step, crc_bit. rewrite <- !N.bit0_odd, N.lxor_spec, !N.div2_spec, N.shiftr_lxor, !Bool.xorb_false_r.
  destruct (N.testbit a 0), (N.testbit b 0); cbn [xorb]; rewrite ?N.lxor_assoc; auto.
  - rewrite (N.lxor_comm crc_poly (N.lxor _ _)), N.lxor_assoc, N.lxor_nilpotent, N.lxor_0_r. auto.
  - f_equal. apply N.lxor_comm.
Qed.
Lemma step_double v : crc_step (2 * v) = v.
Proof. unfold crc_step, crc_bit. rewrite N.odd_mul. cbn [N.odd andb xorb]. now rewrite N.div2_double. Qed.
Fixpoint steps (n : nat) (r : N) : N := match n with O => r | S k => steps k (crc_step r) end.
Lemma feed_steps l : forall r, fold_left crc_bit l r = steps (length l) (N.lxor r (N_of_bits l)).
Proof.
  induction l as [|b l IH]; intros r; cbn [fold_left length steps N_of_bits]; [now rewrite N.lxor_0_r|]. rewrite IH. f_equal.
  assert (E : (N.b2n b + 2 * N_of_bits l)%N = N.lxor (N.b2n b) (2 * N_of_bits l)).
  { symmetry. rewrite <- N.add_nocarry_lxor; auto. apply N.bits_inj. intros k. rewrite N.land_spec, N.bits_0. destruct k; [|destruct b; reflexivity].
    rewrite N.bit0_odd, N.bit0_odd, N.odd_mul. cbn [N.odd andb]. now rewrite Bool.andb_false_r. }
  rewrite E, <- N.lxor_assoc, step_xor, step_double, <- bit_step. reflexivity.
Qed.
Lemma div2_lt r : (r < two32)%N -> (N.div2 r < 2147483648)%N.
Proof. intros H. rewrite N.div2_div. apply N.div_lt_upper_bound; [discriminate|exact H]. Qed.
Lemma lt_testbit r n : (r < 2 ^ n)%N <-> forall k, (n <= k)%N -> N.testbit r k = false.
Proof.
  split.
  - intros H k Hk. destruct (N.eq_dec r 0) as [->|Z]; [apply N.bits_0|]. apply N.bits_above_log2. assert (L : (N.log2 r < n)%N) by (apply N.log2_lt_pow2; lia). lia.
  - intros H. destruct (N.eq_dec r 0) as [->|Z]; [pose proof (N.pow_nonzero 2 n ltac:(discriminate)); lia|]. apply N.log2_lt_pow2; [lia|].
    destruct (N.lt_ge_cases (N.log2 r) n) as [L|L]; auto. specialize (H _ L). rewrite N.bit_log2 in H by auto. discriminate.
Qed.
Lemma lxor_lt a b n : (a < 2 ^ n)%N -> (b < 2 ^ n)%N -> (N.lxor a b < 2 ^ n)%N.
Proof. rewrite !lt_testbit. intros H1 H2 k Hk. rewrite N.lxor_spec, H1, H2; auto. Qed.
Lemma step_lt r : (r < two32)%N -> (crc_step r < two32)%N.
Proof.
  intros H. pose proof (div2_lt H) as D. unfold crc_step, crc_bit. change two32 with (2 ^ 32)%N in *. destruct (xorb (N.odd r) false); [apply lxor_lt; [|reflexivity]|]; eapply N.lt_trans; try exact D; reflexivity.
Qed.
Lemma step_top r : (r < two32)%N -> N.testbit (crc_step r) 31 = N.odd r.
Proof.
  intros H. pose proof (div2_lt H) as D. change 2147483648%N with (2 ^ 31)%N in D. rewrite lt_testbit in D. unfold crc_step, crc_bit. rewrite Bool.xorb_false_r.
  destruct (N.odd r); rewrite ?N.lxor_spec, D by apply N.le_refl; reflexivity.
Qed.
Lemma step_inj a b : (a < two32)%N -> (b < two32)%N -> crc_step a = crc_step b -> a = b.
Proof.
  intros Ha Hb E. pose proof (f_equal (fun x => N.testbit x 31) E) as T. cbn beta in T. rewrite !step_top in T by auto.
  assert (D : N.div2 a = N.div2 b). { unfold crc_step, crc_bit in E. rewrite T in E. destruct (xorb (N.odd b) false); auto. apply (f_equal (fun x => N.lxor x crc_poly)) in E. rewrite !N.lxor_assoc, !N.lxor_nilpotent, !N.lxor_0_r in E. exact E. }
  rewrite (N.div2_odd a), (N.div2_odd b), D, T. reflexivity.
Qed.
Lemma steps_inj n : forall a b, (a < two32)%N -> (b < two32)%N -> steps n a = steps n b -> a = b.
Proof. induction n as [|n IH]; intros a b Ha Hb E; auto. cbn [steps] in E. apply step_inj; auto. apply IH; auto using step_lt. Qed.
Lemma crc_bit_lt r b : (r < two32)%N -> (crc_bit r b < two32)%N.
Proof. intros H. rewrite bit_step. apply step_lt. change two32 with (2 ^ 32)%N in *. apply lxor_lt; auto. destruct b; reflexivity. Qed.
Lemma feed_lt l : forall r, (r < two32)%N -> (fold_left crc_bit l r < two32)%N.
Proof. induction l as [|b l IH]; intros r H; cbn [fold_left]; auto. apply IH. apply crc_bit_lt; auto. Qed.
Lemma feed_inj l : forall a b, (a < two32)%N -> (b < two32)%N -> fold_left crc_bit l a = fold_left crc_bit l b -> a = b.
Proof.
  induction l as [|x l IH]; intros a b Ha Hb E; auto. cbn [fold_left] in E. apply IH in E; auto using crc_bit_lt. rewrite !bit_step in E.
  assert (L : forall r, (r < two32)%N -> (N.lxor r (N.b2n x) < two32)%N) by (intros r H; change two32 with (2 ^ 32)%N in *; apply lxor_lt; auto; destruct x; reflexivity).
  apply step_inj in E; auto. apply (f_equal (fun y => N.lxor y (N.b2n x))) in E. rewrite !N.lxor_assoc, !N.lxor_nilpotent, !N.lxor_0_r in E. exact E.
Qed.
Lemma N_of_bits_lt l : (N_of_bits l < 2 ^ N.of_nat (length l))%N.
Proof. rewrite <- (bits_of_N_of_bits l) at 1. rewrite N_of_bits_of_N. apply N.mod_lt. apply N.pow_nonzero. discriminate. Qed.

(** Two messages that differ within four adjacent bytes only have different
    checksums. *)
Lemma crc_burst p x y s : length x = length y -> length x <= 4 -> bytes_ok x -> bytes_ok y ->
  spec_crc32 (p ++ x ++ s) = spec_crc32 (p ++ y ++ s) -> x = y.
Proof.
  intros L L4 Hx Hy E. unfold spec_crc32 in E. apply (f_equal (fun v => N.lxor v ones32)) in E. rewrite !N.lxor_assoc, !N.lxor_nilpotent, !N.lxor_0_r in E.
  rewrite !bits_of_bytes_app, !fold_left_app in E. assert (R : (fold_left crc_bit (bits_of_bytes p) ones32 < two32)%N) by (apply feed_lt; reflexivity).
  set (r := fold_left crc_bit (bits_of_bytes p) ones32) in *. clearbody r. apply feed_inj in E; try (apply feed_lt; auto).
  assert (LB : length (bits_of_bytes x) = length (bits_of_bytes y)) by (rewrite !length_bits_of_bytes; lia).
  rewrite !feed_steps, LB in E. assert (B : forall z, length z <= 4 -> (N.lxor r (N_of_bits (bits_of_bytes z)) < two32)%N).
  { intros z Hz. change two32 with (2 ^ 32)%N in *. apply lxor_lt; auto. eapply N.lt_le_trans; [apply N_of_bits_lt|]. apply N.pow_le_mono_r; [discriminate|]. rewrite length_bits_of_bytes. lia. }
  apply steps_inj in E; [|apply B; lia|apply B; lia]. apply (f_equal (fun v => N.lxor r v)) in E. rewrite <- !N.lxor_assoc, !N.lxor_nilpotent, !N.lxor_0_l in E.
  apply bits_of_bytes_inj; auto. rewrite <- (bits_of_N_of_bits (bits_of_bytes x)), <- (bits_of_N_of_bits (bits_of_bytes y)), LB, E. reflexivity.
Qed.

(** ** Adler-32 *)
Lemma sums_app a b s1 s2 : adler_sums (a ++ b) s1 s2 = let '(t1, t2) := adler_sums a s1 s2 in adler_sums b t1 t2.
Proof. revert s1 s2. induction a as [|x a IH]; intros; cbn [app adler_sums]; auto. Qed.
Lemma sums_shift l : forall s1 s2, exists u v, forall d1 d2, adler_sums l (s1 + d1) (s2 + d2) = (u + d1, v + d2 + lenN l * d1)%N.
Proof.
  induction l as [|x l IH]; intros s1 s2; cbn [adler_sums]; [exists s1, s2; intros; f_equal; unfold lenN; cbn; lia|].
  destruct (IH (s1 + x)%N (s2 + (s1 + x))%N) as [u [v H]]. exists u, v. intros d1 d2.
  replace (s1 + d1 + x)%N with (s1 + x + d1)%N by lia. replace (s2 + d2 + (s1 + x + d1))%N with (s2 + (s1 + x) + (d2 + d1))%N by lia. rewrite H. f_equal. unfold lenN. cbn [length]. lia.
Qed.

Lemma mod_cancel u x y : (x < 65521)%N -> (y < 65521)%N -> ((u + x) mod 65521 = (u + y) mod 65521)%N -> x = y.
Proof.
  intros Hx Hy E. pose proof (N.div_mod (u + x) 65521 ltac:(lia)) as A. pose proof (N.div_mod (u + y) 65521 ltac:(lia)) as B. rewrite E in A.
  set (r := ((u + y) mod 65521)%N) in *. set (q1 := ((u + x) / 65521)%N) in *. set (q2 := ((u + y) / 65521)%N) in *. clearbody r q1 q2. clear E. lia.
Qed.
Lemma adler_split l : exists s1 s2, adler_sums l 1 0 = (s1, s2) /\ spec_adler32 l = ((s2 mod 65521) * 65536 + s1 mod 65521)%N.
Proof. unfold spec_adler32. destruct (adler_sums l 1 0) as [s1 s2]. eauto. Qed.
Lemma adler_parts a b c d : (b < 65536)%N -> (d < 65536)%N -> (a * 65536 + b = c * 65536 + d)%N -> a = c /\ b = d.
Proof. lia. Qed.
Lemma adler_eq l l' : spec_adler32 l = spec_adler32 l' ->
  (fst (adler_sums l 1 0) mod 65521 = fst (adler_sums l' 1 0) mod 65521 /\ snd (adler_sums l 1 0) mod 65521 = snd (adler_sums l' 1 0) mod 65521)%N.
Proof.
  unfold spec_adler32. destruct (adler_sums l 1 0) as [a b], (adler_sums l' 1 0) as [c d]. cbn [fst snd]. intros E.
  pose proof (N.mod_lt a 65521 ltac:(lia)). pose proof (N.mod_lt c 65521 ltac:(lia)).
  apply adler_parts in E; [tauto| |]; eapply N.lt_trans; eauto; lia.
Qed.
(** Adler-32 tells apart two strings of the same length that differ in no
    place but one run of at most two bytes. *)
Lemma adler_pair p a b a' b' s : is_byte a -> is_byte b -> is_byte a' -> is_byte b' ->
  spec_adler32 (p ++ [a; b] ++ s) = spec_adler32 (p ++ [a'; b'] ++ s) -> a = a' /\ b = b'.
Proof.
  unfold is_byte. intros A B A' B' E. apply adler_eq in E. rewrite !sums_app in E. destruct (adler_sums p 1 0) as [t1 t2]. cbn [app adler_sums] in E.
  destruct (sums_shift s t1 (t2 + 2 * t1)) as [u [v H]].
  replace (t1 + a + b)%N with (t1 + (a + b))%N in E by lia. replace (t1 + a' + b')%N with (t1 + (a' + b'))%N in E by lia.
  replace (t2 + (t1 + a) + (t1 + (a + b)))%N with (t2 + 2 * t1 + (2 * a + b))%N in E by lia.
  replace (t2 + (t1 + a') + (t1 + (a' + b')))%N with (t2 + 2 * t1 + (2 * a' + b'))%N in E by lia.
  rewrite !H in E. cbn [fst snd] in E. destruct E as [E1 E2]. apply mod_cancel in E1; [|lia..]. rewrite E1 in E2.
  replace (v + (2 * a + b) + lenN s * (a' + b'))%N with (v + lenN s * (a' + b') + (2 * a + b))%N in E2 by lia.
  replace (v + (2 * a' + b') + lenN s * (a' + b'))%N with (v + lenN s * (a' + b') + (2 * a' + b'))%N in E2 by lia.
  apply mod_cancel in E2; lia.
Qed.
Lemma adler_one p a a' s : is_byte a -> is_byte a' -> spec_adler32 (p ++ a :: s) = spec_adler32 (p ++ a' :: s) -> a = a'.
Proof.
  unfold is_byte. intros A A' E. apply adler_eq in E. rewrite !sums_app in E. destruct (adler_sums p 1 0) as [t1 t2]. cbn [app adler_sums] in E.
  destruct (sums_shift s t1 (t2 + t1)) as [u [v H]].
  replace (t2 + (t1 + a))%N with (t2 + t1 + a)%N in E by lia. replace (t2 + (t1 + a'))%N with (t2 + t1 + a')%N in E by lia. rewrite !H in E. cbn [fst snd] in E. destruct E as [E1 _]. apply mod_cancel in E1; lia.
Qed.
Lemma adler_burst p x y s : length x = length y -> length x <= 2 -> bytes_ok x -> bytes_ok y ->
  spec_adler32 (p ++ x ++ s) = spec_adler32 (p ++ y ++ s) -> x = y.
Proof.
  intros L L2 X Y E. destruct x as [|a [|b [|c x]]]; cbn [length] in *; destruct y as [|a' [|b' [|c' y]]]; cbn [length] in *; try lia; auto.
  - inversion X; inversion Y; subst. cbn [app] in E. f_equal. eapply adler_one; eauto.
  - inversion X as [|? ? ? X2]; inversion Y as [|? ? ? Y2]; inversion X2; inversion Y2; subst. apply adler_pair in E; auto. destruct E; subst; auto.
Qed.
