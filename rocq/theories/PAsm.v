(** The assembly kernels compute the CRC. *)
From Verif Require Import Base SpecChecksum MChecksum PChecksum MAsm.

(** ** Linear functions over GF(2) *)
Definition lin (f : N -> N) : Prop := forall a b, f (N.lxor a b) = N.lxor (f a) (f b).
Lemma lin_comp f g : lin f -> lin g -> lin (fun x => f (g x)).
Proof. intros H1 H2 a b. cbn. rewrite H2, H1. auto. Qed.
Lemma lxor4 a b c d : N.lxor (N.lxor a b) (N.lxor c d) = N.lxor (N.lxor a c) (N.lxor b d).
Proof. rewrite !N.lxor_assoc. f_equal. rewrite <- !N.lxor_assoc. f_equal. apply N.lxor_comm. Qed.
Lemma lin_xor f g : lin f -> lin g -> lin (fun x => N.lxor (f x) (g x)).
Proof. intros H1 H2 a b. cbn. rewrite H2, H1. apply lxor4. Qed.
Lemma lin_id : lin (fun x => x). Proof. intros a b. auto. Qed.
Lemma lin_shiftr n : lin (fun x => N.shiftr x n). Proof. intros a b. apply N.shiftr_lxor. Qed.
Lemma lin_shiftl n : lin (fun x => N.shiftl x n). Proof. intros a b. apply N.shiftl_lxor. Qed.
Lemma lin_land k : lin (fun x => N.land x k).
Proof. intros a b. apply N.bits_inj. intros i. rewrite !N.land_spec, !N.lxor_spec, !N.land_spec. destruct (N.testbit a i), (N.testbit b i), (N.testbit k i); auto. Qed.
Lemma lin_half h : lin (fun x => half x h).
Proof. destruct h; [apply lin_shiftr|apply lin_land]. Qed.
Lemma lin_clmul_l b n : lin (fun a => clmul_n n a b).
Proof.
  induction n as [|n IH]; intros x y; cbn [clmul_n]; [reflexivity|]. rewrite IH. destruct (N.testbit b (N.of_nat n)); [rewrite N.shiftl_lxor; apply lxor4|].
  rewrite !N.lxor_0_r. auto.
Qed.
Lemma lin_clmul_r a n : lin (fun b => clmul_n n a b).
Proof.
  induction n as [|n IH]; intros x y; cbn [clmul_n]; [reflexivity|]. rewrite IH, N.lxor_spec, lxor4. f_equal.
  destruct (N.testbit x (N.of_nat n)), (N.testbit y (N.of_nat n)); cbn [xorb]; rewrite ?N.lxor_nilpotent, ?N.lxor_0_r, ?N.lxor_0_l; auto.
Qed.
Lemma lin_0 f : lin f -> f 0%N = 0%N.
Proof. intros H. pose proof (H 0%N 0%N) as E. rewrite N.lxor_nilpotent in E. rewrite E. apply N.lxor_nilpotent. Qed.
Lemma top_bit n x : (x < 2 ^ N.of_nat (S n))%N -> x = N.lxor (x mod 2 ^ N.of_nat n) (if N.testbit x (N.of_nat n) then 2 ^ N.of_nat n else 0).
Proof.
  intros H. apply N.bits_inj. intros i. rewrite N.lxor_spec. destruct (N.lt_ge_cases i (N.of_nat n)) as [L|L].
  - rewrite N.mod_pow2_bits_low by auto. destruct (N.testbit x (N.of_nat n)); [rewrite N.pow2_bits_false by lia|rewrite N.bits_0]; now destruct (N.testbit x i).
  - rewrite N.mod_pow2_bits_high by auto. destruct (N.eq_dec i (N.of_nat n)) as [->|NE].
    + destruct (N.testbit x (N.of_nat n)); [rewrite N.pow2_bits_true|rewrite N.bits_0]; auto.
    + assert (E : N.testbit x i = false).
      { destruct (N.eq_dec x 0) as [->|X0]; [apply N.bits_0|]. apply N.bits_above_log2. assert (N.log2 x < N.of_nat (S n))%N by (apply N.log2_lt_pow2; lia). lia. }
      rewrite E. destruct (N.testbit x (N.of_nat n)); [rewrite N.pow2_bits_false by lia|rewrite N.bits_0]; auto.
Qed.
Lemma basis f g n : lin f -> lin g -> forallb (fun i => (f (2 ^ N.of_nat i) =? g (2 ^ N.of_nat i))%N) (seq 0 n) = true ->
  forall x, (x < 2 ^ N.of_nat n)%N -> f x = g x.
Proof.
  intros Hf Hg. induction n as [|n IH]; intros C x L.
  - assert (x = 0%N) by (cbn in L; lia). subst. rewrite !lin_0; auto.
  - rewrite seq_S, forallb_app in C. apply andb_prop in C. destruct C as [C1 C2]. cbn [forallb Nat.add] in C2. rewrite Bool.andb_true_r in C2. apply N.eqb_eq in C2.
    rewrite (top_bit L), Hf, Hg. f_equal.
    + apply IH; auto. apply N.mod_lt. apply N.pow_nonzero. discriminate.
    + destruct (N.testbit x (N.of_nat n)); auto. rewrite !lin_0; auto.
Qed.

(** ** The shift register *)
Definition T (r : N) : N := crc_bit r false.
Definition Tn (n : nat) (x : N) : N := Nat.iter n T x.
Lemma div2_lxor a b : N.div2 (N.lxor a b) = N.lxor (N.div2 a) (N.div2 b).
Proof. rewrite !N.div2_spec. apply N.shiftr_lxor. Qed.
Lemma odd_lxor a b : N.odd (N.lxor a b) = xorb (N.odd a) (N.odd b).
Proof. rewrite <- !N.bit0_odd. apply N.lxor_spec. Qed.
Lemma lin_T : lin T.
Proof.
  intros a b. unfold T, crc_bit. rewrite !Bool.xorb_false_r, odd_lxor, div2_lxor. set (p := crc_poly). clearbody p.
  destruct (N.odd a), (N.odd b); cbn [xorb]; auto.
  - rewrite lxor4, N.lxor_nilpotent, N.lxor_0_r. auto.
  - rewrite !N.lxor_assoc. f_equal. apply N.lxor_comm.
  - now rewrite N.lxor_assoc.
Qed.
Lemma lin_Tn n : lin (Tn n).
Proof. induction n as [|n IH]; intros a b; [reflexivity|]. change (T (Tn n (N.lxor a b)) = N.lxor (T (Tn n a)) (T (Tn n b))). rewrite IH. apply lin_T. Qed.
Lemma Tn_add n m x : Tn (n + m) x = Tn n (Tn m x).
Proof. induction n as [|n IH]; [reflexivity|]. change (T (Tn (n + m) x) = T (Tn n (Tn m x))). now rewrite IH. Qed.
Lemma Tn_S n x : Tn (S n) x = Tn n (T x).
Proof. replace (S n) with (n + 1) by lia. apply Tn_add. Qed.
Lemma T_double x : T (2 * x) = x.
Proof. unfold T, crc_bit. rewrite N.odd_mul. cbn [N.odd andb xorb]. destruct x; auto. Qed.
Lemma crc_bit_T r b : crc_bit r b = T (N.lxor r (N.b2n b)).
Proof.
  unfold T, crc_bit. rewrite odd_lxor, div2_lxor, Bool.xorb_false_r. destruct b; cbn [N.b2n N.odd N.div2]; rewrite N.lxor_0_r; auto.
Qed.
Lemma feed : forall bits s, fold_left crc_bit bits s = Tn (length bits) (N.lxor s (N_of_bits bits)).
Proof.
  induction bits as [|b bits IH]; intros s; cbn [fold_left length N_of_bits].
  - cbn. now rewrite N.lxor_0_r.
  - rewrite IH, Tn_S. f_equal. rewrite crc_bit_T.
    assert (E : (N.b2n b + 2 * N_of_bits bits)%N = N.lxor (N.b2n b) (2 * N_of_bits bits)).
    { apply N.add_nocarry_lxor. apply N.bits_inj. intros i. rewrite N.land_spec, N.bits_0. destruct (N.eq_dec i 0) as [->|NE]; [rewrite N.testbit_even_0; apply Bool.andb_false_r|].
      replace i with (N.succ (N.pred i)) by lia. destruct b; cbn [N.b2n]; [|now rewrite N.bits_0]. change 1%N with (2 * 0 + 1)%N at 1. rewrite N.testbit_odd_succ by lia. now rewrite N.bits_0. }
    rewrite E, <- N.lxor_assoc, (lin_T (N.lxor s (N.b2n b))), T_double. auto.
Qed.
Lemma le_num_bits l : bytes_ok l -> N_of_bits (bits_of_bytes l) = le_num l.
Proof.
  induction 1 as [|b l H Hl IH]; auto. rewrite bits_of_bytes_cons, N_of_bits_app, length_bits_of_N, N_of_bits_of_N, IH. cbn [le_num].
  unfold is_byte in H. rewrite N.mod_small by (cbn; lia). cbn. lia.
Qed.
Definition crcp (s : N) (l : list N) : N := Tn (8 * length l) (N.lxor s (le_num l)).
Lemma crcp_spec s l : bytes_ok l -> fold_left crc_bit (bits_of_bytes l) s = crcp s l.
Proof. intros H. unfold crcp. rewrite feed, length_bits_of_bytes, le_num_bits; auto. Qed.

(** ** Numbers from bytes *)
Lemma le_num_lt l : bytes_ok l -> (le_num l < 2 ^ (8 * lenN l))%N.
Proof.
  induction 1 as [|b l H Hl IH]; cbn [le_num]; [reflexivity|]. unfold is_byte in H.
  replace (8 * lenN (b :: l))%N with (8 + 8 * lenN l)%N by (unfold lenN; cbn [length]; lia). rewrite N.pow_add_r. change (2 ^ 8)%N with 256%N.
  set (q := (2 ^ (8 * lenN l))%N) in *. clearbody q. lia.
Qed.
Lemma add_shift_lxor a b n : (a < 2 ^ n)%N -> (a + 2 ^ n * b)%N = N.lxor a (N.shiftl b n).
Proof.
  intros H. rewrite (N.mul_comm (2 ^ n)), <- N.shiftl_mul_pow2. apply N.add_nocarry_lxor. apply N.bits_inj. intros i. rewrite N.land_spec, N.bits_0.
  destruct (N.lt_ge_cases i n) as [L|L].
  - rewrite N.shiftl_spec_low by auto. apply Bool.andb_false_r.
  - destruct (N.eq_dec a 0) as [->|A0]; [now rewrite N.bits_0|]. rewrite N.bits_above_log2; auto. assert (N.log2 a < n)%N by (apply N.log2_lt_pow2; lia). lia.
Qed.
Lemma le_num_app a b : bytes_ok a -> le_num (a ++ b) = N.lxor (le_num a) (N.shiftl (le_num b) (8 * lenN a)).
Proof.
  intros H. rewrite <- add_shift_lxor by now apply le_num_lt. induction H as [|x a Hx Ha IH]; cbn [le_num app].
  - change (2 ^ (8 * lenN (@nil N)))%N with 1%N. lia.
  - rewrite IH. replace (8 * lenN (x :: a))%N with (8 + 8 * lenN a)%N by (unfold lenN; cbn [length]; lia). rewrite N.pow_add_r. change (2 ^ 8)%N with 256%N.
    set (q := (2 ^ (8 * lenN a))%N). clearbody q. nia.
Qed.
Lemma T_shift x n : Tn n (N.shiftl x (N.of_nat n)) = x.
Proof.
  induction n as [|n IH]; [apply N.shiftl_0_r|]. rewrite Tn_S. rewrite Nnat.Nat2N.inj_succ, N.shiftl_succ_r. 
  rewrite N.double_spec, T_double. auto.
Qed.
Lemma Tn_shift k n x : Tn (k + n) (N.shiftl x (N.of_nat n)) = Tn k x.
Proof. rewrite Tn_add, T_shift. auto. Qed.
Lemma crcp_app s a b : bytes_ok a -> bytes_ok b -> crcp s (a ++ b) = crcp (crcp s a) b.
Proof. intros H1 H2. rewrite <- !crcp_spec, bits_of_bytes_app, fold_left_app; auto. apply bytes_ok_app; auto. Qed.

(** ** Folding *)
(** Sixteen bytes' worth of shifts. *)
Definition Q (x : N) : N := Tn 128 x.
Lemma lin_Q : lin Q. Proof. unfold Q. exact (lin_Tn 128). Qed.
Lemma Tn_four a x : Tn (a + (a + (a + a))) x = Tn a (Tn a (Tn a (Tn a x))).
Proof. now rewrite !Tn_add. Qed.
Lemma Tn_8_64 x : Tn (8 * 64) x = Q (Q (Q (Q x))).
Proof. assert (E : (8 * 64 = 128 + (128 + (128 + 128)))%nat) by reflexivity. rewrite E. unfold Q. exact (Tn_four 128 x). Qed.
Lemma Tn_8_16 x : Tn (8 * 16) x = Q x.
Proof. assert (E : (8 * 16 = 128)%nat) by reflexivity. rewrite E. unfold Q. reflexivity. Qed.
Definition fold128 (k x : N) : N := N.lxor (clmul64 (half x false) (half k false)) (clmul64 (half x true) (half k true)).
Lemma lin_fold k : lin (fold128 k).
Proof.
  unfold fold128. apply lin_xor.
  - apply (@lin_comp (fun a => clmul64 a (half k false)) (fun x => half x false)); [apply lin_clmul_l|apply lin_half].
  - apply (@lin_comp (fun a => clmul64 a (half k true)) (fun x => half x true)); [apply lin_clmul_l|apply lin_half].
Qed.
Lemma fold_r2r1 x : (x < two128)%N -> Q (fold128 r2r1 x) = Q (Q (Q (Q (Q x)))).
Proof.
  apply (@basis (fun x => Q (fold128 r2r1 x)) (fun x => Q (Q (Q (Q (Q x))))) 128).
  - apply (@lin_comp Q (fold128 r2r1)); [apply lin_Q|apply lin_fold].
  - do 4 (apply (@lin_comp Q); [apply lin_Q|]). apply lin_Q.
  - vm_compute. reflexivity.
Qed.
Lemma fold_r4r3 x : (x < two128)%N -> Q (fold128 r4r3 x) = Q (Q x).
Proof.
  apply (@basis (fun x => Q (fold128 r4r3 x)) (fun x => Q (Q x)) 128).
  - apply (@lin_comp Q (fold128 r4r3)); [apply lin_Q|apply lin_fold].
  - apply (@lin_comp Q Q); apply lin_Q.
  - vm_compute. reflexivity.
Qed.

Lemma crcp_16 s l : length l = 16%nat -> crcp s l = Q (N.lxor s (le_num l)).
Proof. intros H. unfold crcp. rewrite H. exact (Tn_8_16 _). Qed.
Lemma crcp_64 s l : length l = 64%nat -> crcp s l = Q (Q (Q (Q (N.lxor s (le_num l))))).
Proof. intros H. unfold crcp. rewrite H. exact (Tn_8_64 _). Qed.
Lemma Q_shift x : Q (N.shiftl x 128) = x.
Proof. unfold Q. exact (T_shift x 128). Qed.
(** The last reduction, as the instructions compute it. *)
Definition mask3 : N := N.lor (N.shiftr (half (N.ones 128) false) 32) (N.shiftl (N.shiftr (half (N.ones 128) true) 32) 64).
Definition fin1 (x : N) : N := N.lxor (N.shiftr x (8 * 8)) (clmul64 (half r4r3 true) (half x false)).
Definition fin2 (x : N) : N := N.lxor (clmul64 (half (N.land x mask3) false) (half r5 false)) (N.shiftr x (8 * 4)).
Definition fin3 (x : N) : N :=
  N.lxor (clmul64 (half (N.land (clmul64 (half (N.land x mask3) false) (half rupoly true)) mask3) false) (half rupoly false)) x.
Definition fin4 (x : N) : N := N.land (N.land (N.shiftr x (32 * 1)) (N.ones 32)) (N.ones 32).
Lemma lin_fin1 : lin fin1.
Proof.
  unfold fin1. apply lin_xor; [apply lin_shiftr|].
  apply (@lin_comp (fun b => clmul64 (half r4r3 true) b) (fun x => half x false)); [apply lin_clmul_r|apply lin_half].
Qed.
Lemma lin_step k h : lin (fun x => clmul64 (half (N.land x mask3) false) (half k h)).
Proof.
  apply (@lin_comp (fun a => clmul64 a (half k h)) (fun x => half (N.land x mask3) false)); [apply lin_clmul_l|].
  apply (@lin_comp (fun x => half x false) (fun x => N.land x mask3)); [apply lin_half|apply lin_land].
Qed.
Lemma lin_fin2 : lin fin2.
Proof. unfold fin2. apply lin_xor; [apply lin_step|apply lin_shiftr]. Qed.
Lemma lin_fin3 : lin fin3.
Proof.
  unfold fin3. apply lin_xor; [|apply lin_id].
  apply (@lin_comp (fun y => clmul64 (half (N.land y mask3) false) (half rupoly false)) (fun x => clmul64 (half (N.land x mask3) false) (half rupoly true))); apply lin_step.
Qed.
Lemma lin_fin4 : lin fin4.
Proof.
  unfold fin4. apply (@lin_comp (fun y => N.land y (N.ones 32)) (fun x => N.land (N.shiftr x (32 * 1)) (N.ones 32))); [apply lin_land|].
  apply (@lin_comp (fun y => N.land y (N.ones 32)) (fun x => N.shiftr x (32 * 1))); [apply lin_land|apply lin_shiftr].
Qed.
Lemma reduction x : (x < two128)%N -> fin4 (fin3 (fin2 (fin1 x))) = Q x.
Proof.
  apply (@basis (fun x => fin4 (fin3 (fin2 (fin1 x)))) Q 128).
  - apply (@lin_comp fin4 (fun x => fin3 (fin2 (fin1 x)))); [apply lin_fin4|].
    apply (@lin_comp fin3 (fun x => fin2 (fin1 x))); [apply lin_fin3|].
    apply (@lin_comp fin2 fin1); [apply lin_fin2|apply lin_fin1].
  - apply lin_Tn.
  - vm_compute. reflexivity.
Qed.

(** ** Bounds *)
Lemma lxor_lt a b n : (a < 2 ^ n)%N -> (b < 2 ^ n)%N -> (N.lxor a b < 2 ^ n)%N.
Proof.
  intros H1 H2. destruct (N.eq_dec (N.lxor a b) 0) as [->|NZ]; [lia|]. apply N.log2_lt_pow2; [lia|].
  eapply N.le_lt_trans; [apply N.log2_lxor|].
  destruct (N.eq_dec a 0) as [->|A0]; destruct (N.eq_dec b 0) as [->|B0]; cbn [N.log2]; apply N.max_lub_lt;
    try (apply N.log2_lt_pow2; lia); try (destruct n; [cbn in *; lia|lia]).
Qed.
Lemma half_lt x h : (x < two128)%N -> (half x h < 2 ^ 64)%N.
Proof.
  intros H. destruct h; cbn [half].
  - rewrite N.shiftr_div_pow2. apply N.div_lt_upper_bound; [discriminate|]. exact H.
  - rewrite N.land_ones. apply N.mod_lt. discriminate.
Qed.
Lemma clmul_n_lt n a b : (a < 2 ^ 64)%N -> (n <= 64)%nat -> (clmul_n n a b < two128)%N.
Proof.
  intros H. induction n as [|n IH]; intros L; cbn [clmul_n]; [reflexivity|]. apply lxor_lt; [apply IH; lia|].
  destruct (N.testbit b (N.of_nat n)); [|reflexivity]. rewrite N.shiftl_mul_pow2. change (2 ^ 128)%N with (2 ^ 64 * 2 ^ 64)%N.
  apply N.lt_le_trans with (2 ^ 64 * 2 ^ N.of_nat n)%N.
  - apply N.mul_lt_mono_pos_r; auto. apply N.neq_0_lt_0, N.pow_nonzero. discriminate.
  - apply N.mul_le_mono_l. apply N.pow_le_mono_r; [discriminate|lia].
Qed.
Lemma clmul_lt a b : (a < 2 ^ 64)%N -> (clmul64 a b < two128)%N.
Proof. intros H. unfold clmul64. apply clmul_n_lt; auto. Qed.
Lemma fold_lt k x : (x < two128)%N -> (fold128 k x < two128)%N.
Proof. intros H. apply lxor_lt; apply clmul_lt, half_lt; auto. Qed.
Lemma xor_fold_lt k x y : (x < two128)%N -> (y < two128)%N -> (N.lxor (fold128 k x) y < two128)%N.
Proof. intros H1 H2. apply lxor_lt; [now apply fold_lt|exact H2]. Qed.
Lemma pcmpeqb_same n x : pcmpeqb_n n x x = N.ones (8 * N.of_nat n).
Proof.
  revert x. induction n as [|n IH]; intros x; cbn [pcmpeqb_n]; [reflexivity|]. rewrite N.eqb_refl, IH.
  rewrite !N.ones_equiv. replace (8 * N.of_nat (S n))%N with (8 + 8 * N.of_nat n)%N by lia. rewrite N.pow_add_r. change (2 ^ 8)%N with 256%N.
  assert (0 < 2 ^ (8 * N.of_nat n))%N by (apply N.neq_0_lt_0, N.pow_nonzero; discriminate).
  set (q := (2 ^ (8 * N.of_nat n))%N) in *. clearbody q. lia.
Qed.

(** ** Execution *)
Lemma skip_skip {A} (l : list A) a b : skipn a (skipn b l) = skipn (b + a) l.
Proof. revert l. induction b as [|b IH]; intros l; cbn [Nat.add skipn]; auto. destruct l; [now rewrite skipn_nil|apply IH]. Qed.
Section Exec.
Variables (sum : N) (m : slice).
Fixpoint exec_list (seg : list instr) (r : regs) : option regs :=
  match seg with [] => Some r | i :: t => match exec1 sum m i r with Some r' => exec_list t r' | None => None end end.
Definition reaches (code c : list instr) (r : regs) (v : N) : Prop :=
  exists f, forall g, (f <= g)%nat -> run sum m code g c r = Some v.
Lemma reach_straight code seg : forall t r r' v, exec_list seg r = Some r' -> reaches code t r' v -> reaches code (seg ++ t) r v.
Proof.
  induction seg as [|i seg IH]; intros t r r' v E R; cbn [exec_list app] in *.
  - now inversion E; subst.
  - destruct (exec1 sum m i r) as [r1|] eqn:E1; [|discriminate]. destruct (IH t _ _ _ E R) as [f F]. exists (S f). intros g G. destruct g as [|g]; [lia|].
    cbn [run]. specialize (F g ltac:(lia)). destruct i; try rewrite E1; auto; discriminate E1.
Qed.
Lemma reach_RET code t r : reaches code (RET :: t) r (ret r).
Proof. exists 1%nat. intros g G. destruct g; [lia|]. auto. Qed.
Lemma reach_JB code l t c' r v : from l code = Some c' ->
  (if (fst (cmp r) <? snd (cmp r))%N then reaches code c' r v else reaches code t r v) -> reaches code (JB l :: t) r v.
Proof.
  intros E R. destruct (fst (cmp r) <? snd (cmp r))%N eqn:C; destruct R as [f F]; exists (S f); intros g G; (destruct g as [|g]; [lia|]); cbn [run]; rewrite C, ?E; apply F; lia.
Qed.
Lemma reach_JGE code l t c' r v : from l code = Some c' ->
  (if (sgn64 (snd (cmp r)) <=? sgn64 (fst (cmp r)))%Z then reaches code c' r v else reaches code t r v) -> reaches code (JGE l :: t) r v.
Proof.
  intros E R. destruct (sgn64 (snd (cmp r)) <=? sgn64 (fst (cmp r)))%Z eqn:C; destruct R as [f F]; exists (S f); intros g G; (destruct g as [|g]; [lia|]); cbn [run]; rewrite C, ?E; apply F; lia.
Qed.
Lemma reach_LABEL code l t r v : reaches code t r v -> reaches code (LABEL l :: t) r v.
Proof. intros [f F]. exists (S f). intros g G. destruct g as [|g]; [lia|]. cbn [run exec1]. apply F. lia. Qed.

Ltac sym := cbv beta iota zeta delta [exec_list exec1 setx setg xmm gpr cmp ret Nat.eqb greg_eqb
   clmul_start clmul_pre clmul_loop64 clmul_remain64 clmul_remain16 clmul_finish];
  change (N.testbit 0 0) with false; change (N.testbit 0 4) with false;
  change (N.testbit 17 0) with true; change (N.testbit 17 4) with true;
  change (N.testbit 1 0) with true; change (N.testbit 1 4) with false;
  change (N.testbit 16 0) with false; change (N.testbit 16 4) with true.
Ltac loads := repeat match goal with H : load _ ?a _ = Some _ |- context[load _ ?a _] => rewrite H end.

Lemma start_spec r d1 d2 d3 d4 :
  load m ((sl_base m + 0) mod two64) 16 = Some d1 -> load m ((sl_base m + 16) mod two64) 16 = Some d2 ->
  load m ((sl_base m + 32) mod two64) 16 = Some d3 -> load m ((sl_base m + 48) mod two64) 16 = Some d4 ->
  exists r', exec_list clmul_start r = Some r' /\
    xmm r' 1 = N.lxor d1 sum /\ xmm r' 2 = d2 /\ xmm r' 3 = d3 /\ xmm r' 4 = d4 /\
    gpr r' SI = ((sl_base m + 64) mod two64)%N /\ gpr r' CX = ((lenN (sl_bytes m) + (two64 - 64)) mod two64)%N /\
    cmp r' = (gpr r' CX, 64%N).
Proof. intros. eexists. split; [sym; loads; reflexivity|]. sym. repeat split; auto. Qed.
Lemma loop64_spec r d1 d2 d3 d4 : xmm r 0 = r2r1 ->
  load m ((gpr r SI + 0) mod two64) 16 = Some d1 -> load m ((gpr r SI + 16) mod two64) 16 = Some d2 ->
  load m ((gpr r SI + 32) mod two64) 16 = Some d3 -> load m ((gpr r SI + 48) mod two64) 16 = Some d4 ->
  exists r', exec_list clmul_loop64 r = Some r' /\ xmm r' 0 = r2r1 /\
    xmm r' 1 = N.lxor (fold128 r2r1 (xmm r 1)) d1 /\ xmm r' 2 = N.lxor (fold128 r2r1 (xmm r 2)) d2 /\
    xmm r' 3 = N.lxor (fold128 r2r1 (xmm r 3)) d3 /\ xmm r' 4 = N.lxor (fold128 r2r1 (xmm r 4)) d4 /\
    gpr r' SI = ((gpr r SI + 64) mod two64)%N /\ gpr r' CX = ((gpr r CX + (two64 - 64)) mod two64)%N /\
    cmp r' = (gpr r' CX, 64%N).
Proof.
  destruct r as [x g c rt]. cbn [xmm gpr cmp]. intros E0 H1 H2 H3 H4. eexists. split; [sym; loads; reflexivity|]. sym. unfold fold128. rewrite E0. repeat split; auto.
Qed.

Lemma remain64_spec r : 
  exists r', exec_list clmul_remain64 r = Some r' /\ xmm r' 0 = r4r3 /\
    xmm r' 1 = N.lxor (fold128 r4r3 (N.lxor (fold128 r4r3 (N.lxor (fold128 r4r3 (xmm r 1)) (xmm r 2))) (xmm r 3))) (xmm r 4) /\
    gpr r' SI = gpr r SI /\ gpr r' CX = gpr r CX /\ cmp r' = (gpr r' CX, 16%N).
Proof.
  destruct r as [x g c rt]. cbn [xmm gpr cmp]. eexists. split; [sym; reflexivity|]. sym. unfold fold128. repeat split; auto.
Qed.
Lemma remain16_spec r d : xmm r 0 = r4r3 -> load m ((gpr r SI + 0) mod two64) 16 = Some d ->
  exists r', exec_list clmul_remain16 r = Some r' /\ xmm r' 0 = r4r3 /\ xmm r' 1 = N.lxor (fold128 r4r3 (xmm r 1)) d /\
    gpr r' SI = ((gpr r SI + 16) mod two64)%N /\ gpr r' CX = ((gpr r CX + (two64 - 16)) mod two64)%N /\ cmp r' = (gpr r' CX, 16%N).
Proof.
  destruct r as [x g c rt]. cbn [xmm gpr cmp]. intros E0 H. eexists. split; [sym; loads; reflexivity|]. sym. unfold fold128. rewrite E0. repeat split; auto.
Qed.
Lemma finish_spec r : xmm r 0 = r4r3 ->
  exists r', exec_list clmul_finish r = Some r' /\ ret r' = fin4 (fin3 (fin2 (fin1 (xmm r 1)))).
Proof.
  destruct r as [x g c rt]. cbn [xmm gpr cmp]. intros E0. eexists. split; [sym; reflexivity|]. sym. rewrite E0, pcmpeqb_same.
  change (8 * N.of_nat 16)%N with 128%N. unfold fin4, fin3, fin2, fin1, mask3. reflexivity.
Qed.

Hypothesis Hfit : (sl_base m + lenN (sl_bytes m) <= two64)%N.
Hypothesis Hlen : (lenN (sl_bytes m) < 2 ^ 63)%N.
Hypothesis Hbytes : bytes_ok (sl_bytes m).
Let p := sl_bytes m.
Definition chunk (k n : nat) : list N := firstn n (skipn k p).
Lemma load_ok k off n : (k + off + n <= length p)%nat -> (0 < n)%nat ->
  load m (((sl_base m + N.of_nat k) mod two64 + N.of_nat off) mod two64) n = Some (le_num (chunk (k + off) n)).
Proof.
  intros H Hn. unfold lenN in *. fold p in Hfit, Hlen. rewrite N.add_mod_idemp_l by discriminate. rewrite N.mod_small by (unfold two64 in *; lia).
  unfold load, lenN, chunk. fold p. destruct (N.leb_spec (sl_base m) (sl_base m + N.of_nat k + N.of_nat off)); [|lia].
  destruct (N.leb_spec (sl_base m + N.of_nat k + N.of_nat off + N.of_nat n) (sl_base m + N.of_nat (length p))); [|lia]. cbn [andb].
  do 3 f_equal. f_equal. lia.
Qed.
Lemma chunk_len k n : (k + n <= length p)%nat -> length (chunk k n) = n.
Proof. intros H. unfold chunk. rewrite firstn_length, skipn_length. lia. Qed.
Lemma chunk_ok k n : bytes_ok (chunk k n).
Proof.
  unfold chunk, bytes_ok. apply Forall_forall. intros x H. assert (I : In x p). { rewrite <- (firstn_skipn k p). apply in_or_app. right. rewrite <- (firstn_skipn n (skipn k p)). apply in_or_app. auto. }
  unfold bytes_ok in Hbytes. rewrite Forall_forall in Hbytes. auto.
Qed.
Lemma chunk_app k a b : chunk k (a + b) = chunk k a ++ chunk (k + a) b.
Proof.
  unfold chunk. replace (skipn (k + a) p) with (skipn a (skipn k p)) by (rewrite skip_skip; f_equal).
  set (q := skipn k p). clearbody q. clear. revert q. induction a as [|a IH]; intros q; cbn [Nat.add firstn skipn app]; auto. destruct q; cbn [firstn skipn app]; [now rewrite firstn_nil|]. now rewrite IH.
Qed.
Lemma firstn_chunk k n : firstn (k + n) p = firstn k p ++ chunk k n.
Proof. change (chunk 0 (k + n) = chunk 0 k ++ chunk (0 + k) n). apply chunk_app. Qed.
Lemma first_ok k : bytes_ok (firstn k p).
Proof. apply (chunk_ok 0 k). Qed.
Lemma chunk16_lt k : (k + 16 <= length p)%nat -> (le_num (chunk k 16) < two128)%N.
Proof. intros H. pose proof (le_num_lt (chunk_ok k 16)) as L. unfold lenN in L. now rewrite (chunk_len H) in L. Qed.

Opaque Q Tn fold128 fin1 fin2 fin3 fin4.
Let code := clmul_code.
Definition code_finish : list instr := clmul_finish ++ [RET].
Definition code_remain16 : list instr := clmul_remain16 ++ JGE remain16 :: LABEL finish :: code_finish.
Definition code_remain64 : list instr := clmul_remain64 ++ JB finish :: LABEL remain16 :: code_remain16.
Definition code_loop64 : list instr := clmul_loop64 ++ JGE loopback64 :: LABEL remain64 :: code_remain64.
Lemma from_finish : from finish code = Some code_finish. Proof. reflexivity. Qed.
Lemma from_remain16 : from remain16 code = Some code_remain16. Proof. reflexivity. Qed.
Lemma from_remain64 : from remain64 code = Some code_remain64. Proof. reflexivity. Qed.
Lemma from_loop64 : from loopback64 code = Some code_loop64. Proof. reflexivity. Qed.
Lemma code_split : code = clmul_start ++ JB remain64 :: (clmul_pre ++ LABEL loopback64 :: code_loop64). Proof. reflexivity. Qed.

Lemma finish_reaches r : xmm r 0 = r4r3 -> (xmm r 1 < two128)%N -> reaches code code_finish r (Q (xmm r 1)).
Proof.
  intros E L. destruct (finish_spec E) as (r' & X & R). eapply reach_straight; [exact X|]. 
  assert (E' : ret r' = Q (xmm r 1)) by (rewrite R; exact (reduction L)). rewrite <- E'. exact (reach_RET code [] r').
Qed.
Lemma sgn_small x : (x < 2 ^ 63)%N -> sgn64 x = Z.of_N x.
Proof. intros H. unfold sgn64. destruct (N.ltb_spec x (2 ^ 63)); auto. lia. Qed.
Lemma minus_mod (a b : nat) : (b <= a)%nat -> (N.of_nat a < 2 ^ 63)%N -> ((N.of_nat a + (two64 - N.of_nat b)) mod two64)%N = N.of_nat (a - b).
Proof.
  intros H1 H2. replace (N.of_nat a + (two64 - N.of_nat b))%N with (N.of_nat (a - b) + 1 * two64)%N by (unfold two64; lia).
  rewrite N.mod_add by discriminate. apply N.mod_small. unfold two64. lia.
Qed.
(** The position in the slice. *)
Definition at_pos (k : nat) (r : regs) : Prop :=
  (k <= length p)%nat /\ gpr r SI = ((sl_base m + N.of_nat k) mod two64)%N /\ gpr r CX = N.of_nat (length p - k).
Lemma at_step k n r r' : at_pos k r -> (k + n <= length p)%nat ->
  gpr r' SI = ((gpr r SI + N.of_nat n) mod two64)%N -> gpr r' CX = ((gpr r CX + (two64 - N.of_nat n)) mod two64)%N -> at_pos (k + n) r'.
Proof.
  intros (H1 & H2 & H3) H E1 E2. unfold lenN in *. fold p in Hfit, Hlen. split; [auto|]. split.
  - rewrite E1, H2, N.add_mod_idemp_l by discriminate. f_equal. clear. lia.
  - rewrite E2, H3. replace (length p - (k + n))%nat with (length p - k - n)%nat by (clear; lia). apply minus_mod; clear - H H1 Hlen; lia.
Qed.
Lemma pos_small a : (a <= length p)%nat -> (N.of_nat a < 2 ^ 63)%N.
Proof. unfold lenN in Hlen. fold p in Hlen. clear - Hlen. lia. Qed.
Lemma load_at k off n r : at_pos k r -> (k + off + n <= length p)%nat -> (0 < n)%nat ->
  load m ((gpr r SI + N.of_nat off) mod two64) n = Some (le_num (chunk (k + off) n)).
Proof. intros (_ & -> & _) H1 H2. apply load_ok; auto. Qed.
Lemma jge_pos (a b : nat) : (a <= length p)%nat -> (N.of_nat b < 2 ^ 63)%N ->
  (sgn64 (N.of_nat b) <=? sgn64 (N.of_nat a))%Z = (b <=? a)%nat.
Proof.
  intros H1 H2. rewrite !sgn_small by (auto; apply pos_small; auto). clear. destruct (Z.leb_spec (Z.of_N (N.of_nat b)) (Z.of_N (N.of_nat a))); destruct (Nat.leb_spec b a); auto; lia.
Qed.
Lemma leb_t a b : (a <= b)%nat -> (a <=? b)%nat = true. Proof. apply Nat.leb_le. Qed.
Lemma leb_f a b : (b < a)%nat -> (a <=? b)%nat = false. Proof. apply Nat.leb_gt. Qed.
Lemma step16 k y : (y < two128)%N -> (k + 16 <= length p)%nat -> Q y = crcp sum (firstn k p) ->
  Q (N.lxor (fold128 r4r3 y) (le_num (chunk k 16))) = crcp sum (firstn (k + 16) p).
Proof.
  intros L H I. rewrite lin_Q, (fold_r4r3 L), <- lin_Q, I, firstn_chunk, crcp_app by (apply first_ok || apply chunk_ok).
  symmetry. apply crcp_16. apply chunk_len; auto.
Qed.
Ltac ar Hk := clear - Hk; lia.
Lemma remain16_reaches n : forall k r, length p = (k + 16 * S n)%nat -> at_pos k r -> xmm r 0 = r4r3 -> (xmm r 1 < two128)%N ->
  Q (xmm r 1) = crcp sum (firstn k p) -> reaches code code_remain16 r (crcp sum p).
Proof.
  induction n as [|n IH]; intros k r Hk A E0 L I.
  all: pose proof (@load_at k 0 16 r A ltac:(ar Hk) ltac:(clear; lia)) as LD.
  all: rewrite Nat.add_0_r in LD.
  all: destruct (remain16_spec E0 LD) as (r' & X & E0' & E1 & ES & EC & EP).
  all: assert (A' : at_pos (k + 16) r') by (apply (@at_step k 16 r r' A); [ar Hk|exact ES|exact EC]).
  all: assert (L' : (xmm r' 1 < two128)%N) by (rewrite E1; apply lxor_lt; [now apply fold_lt|apply chunk16_lt; ar Hk]).
  all: assert (I' : Q (xmm r' 1) = crcp sum (firstn (k + 16) p)) by (rewrite E1; apply step16; auto; ar Hk).
  all: eapply reach_straight; [exact X|]; eapply reach_JGE; [apply from_remain16|]; rewrite EP; cbn [fst snd]; pose proof A' as (B1 & B2 & B3); rewrite B3.
  all: change (sgn64 16) with (sgn64 (N.of_nat 16)); rewrite jge_pos by (reflexivity || ar Hk).
  - rewrite leb_f by (ar Hk). apply reach_LABEL.
    replace (crcp sum p) with (Q (xmm r' 1)); [now apply finish_reaches|]. rewrite I'. f_equal. apply firstn_all2. ar Hk.
  - rewrite leb_t by (ar Hk). apply (@IH (k + 16)%nat); auto. ar Hk.
Qed.
Definition lanes (x1 x2 x3 x4 : N) : N := N.lxor (Q (Q (Q (Q x1)))) (N.lxor (Q (Q (Q x2))) (N.lxor (Q (Q x3)) (Q x4))).
Definition lanes_ok (r : regs) : Prop := (xmm r 1 < two128 /\ xmm r 2 < two128 /\ xmm r 3 < two128 /\ xmm r 4 < two128)%N.
Lemma remain64_reaches n k r : length p = (k + 16 * n)%nat -> at_pos k r -> lanes_ok r -> lanes (xmm r 1) (xmm r 2) (xmm r 3) (xmm r 4) = crcp sum (firstn k p) ->
  reaches code code_remain64 r (crcp sum p).
Proof.
  intros Hk A (L1 & L2 & L3 & L4) I. destruct (remain64_spec r) as (r' & X & E0 & E1 & ES & EC & EP).
  assert (A' : at_pos k r') by (destruct A as (B1 & B2 & B3); split; [exact B1|split; [rewrite ES; exact B2|rewrite EC; exact B3]]).
  set (y1 := N.lxor (fold128 r4r3 (xmm r 1)) (xmm r 2)) in E1. assert (M1 : (y1 < two128)%N) by exact (xor_fold_lt r4r3 L1 L2).
  set (y2 := N.lxor (fold128 r4r3 y1) (xmm r 3)) in E1. assert (M2 : (y2 < two128)%N) by exact (xor_fold_lt r4r3 M1 L3).
  assert (M3 : (xmm r' 1 < two128)%N) by (rewrite E1; exact (xor_fold_lt r4r3 M2 L4)).
  assert (I' : Q (xmm r' 1) = crcp sum (firstn k p)).
  { rewrite E1, lin_Q, (fold_r4r3 M2). unfold y2. rewrite (lin_Q (fold128 r4r3 y1)), (fold_r4r3 M1).
    unfold y1. rewrite (lin_Q (fold128 r4r3 (xmm r 1))), (fold_r4r3 L1). rewrite <- I. unfold lanes. rewrite !lin_Q, !N.lxor_assoc. reflexivity. }
  eapply reach_straight; [exact X|]. eapply reach_JB; [apply from_finish|]. rewrite EP. cbn [fst snd]. pose proof A' as (B1 & B2 & B3). rewrite B3.
  destruct n as [|n].
  - replace (N.of_nat (length p - k)) with 0%N by (ar Hk). cbn [N.ltb N.compare].
    replace (crcp sum p) with (Q (xmm r' 1)); [now apply finish_reaches|]. rewrite I'. f_equal. apply firstn_all2. ar Hk.
  - destruct (N.ltb_spec (N.of_nat (length p - k)) 16) as [H|_]; [exfalso; clear - Hk H; lia|]. apply reach_LABEL. apply (@remain16_reaches n k r'); auto.
Qed.

(** Four lanes hold what 64 bytes contribute. *)
Lemma lanes_data k : (k + 64 <= length p)%nat ->
  lanes (le_num (chunk k 16)) (le_num (chunk (k + 16) 16)) (le_num (chunk (k + 32) 16)) (le_num (chunk (k + 48) 16)) = Q (Q (Q (Q (le_num (chunk k 64))))).
Proof.
  intros H. assert (C : chunk k 64 = chunk k 16 ++ chunk (k + 16) 16 ++ chunk (k + 32) 16 ++ chunk (k + 48) 16).
  { change 64%nat with (16 + (16 + (16 + 16)))%nat. rewrite !chunk_app. repeat (f_equal; try lia). }
  rewrite C. repeat rewrite le_num_app by apply chunk_ok. unfold lenN. rewrite !chunk_len by (clear - H; lia).
  change (8 * N.of_nat 16)%N with 128%N. unfold lanes. rewrite !N.shiftl_lxor, !lin_Q, !Q_shift. reflexivity.
Qed.
Lemma lanes_fold x1 x2 x3 x4 d1 d2 d3 d4 : (x1 < two128)%N -> (x2 < two128)%N -> (x3 < two128)%N -> (x4 < two128)%N ->
  lanes (N.lxor (fold128 r2r1 x1) d1) (N.lxor (fold128 r2r1 x2) d2) (N.lxor (fold128 r2r1 x3) d3) (N.lxor (fold128 r2r1 x4) d4) =
  N.lxor (Q (Q (Q (Q (lanes x1 x2 x3 x4))))) (lanes d1 d2 d3 d4).
Proof.
  intros H1 H2 H3 H4. unfold lanes. rewrite !lin_Q. rewrite (fold_r2r1 H1), (fold_r2r1 H2), (fold_r2r1 H3), (fold_r2r1 H4).
  apply N.bits_inj. intros i. rewrite !N.lxor_spec.
  repeat match goal with |- context[N.testbit ?a ?b] => let q := fresh "q" in generalize (N.testbit a b); intros q end.
  intros. repeat match goal with q : bool |- _ => destruct q end; reflexivity.
Qed.
Lemma step64 k r : (k + 64 <= length p)%nat -> lanes_ok r -> lanes (xmm r 1) (xmm r 2) (xmm r 3) (xmm r 4) = crcp sum (firstn k p) ->
  lanes (N.lxor (fold128 r2r1 (xmm r 1)) (le_num (chunk k 16))) (N.lxor (fold128 r2r1 (xmm r 2)) (le_num (chunk (k + 16) 16)))
        (N.lxor (fold128 r2r1 (xmm r 3)) (le_num (chunk (k + 32) 16))) (N.lxor (fold128 r2r1 (xmm r 4)) (le_num (chunk (k + 48) 16))) = crcp sum (firstn (k + 64) p).
Proof.
  intros H (L1 & L2 & L3 & L4) I. rewrite lanes_fold, I, (lanes_data H), <- !lin_Q, firstn_chunk, crcp_app by (assumption || apply first_ok || apply chunk_ok).
  symmetry. apply crcp_64. apply chunk_len; auto.
Qed.
Lemma loop64_reaches j : forall n k r, length p = (k + 16 * n + 64 * S j)%nat -> (n < 4)%nat -> at_pos k r -> xmm r 0 = r2r1 -> lanes_ok r ->
  lanes (xmm r 1) (xmm r 2) (xmm r 3) (xmm r 4) = crcp sum (firstn k p) -> reaches code code_loop64 r (crcp sum p).
Proof.
  induction j as [|j IH]; intros n k r Hk Hn A E0 LO I; pose proof LO as (L1 & L2 & L3 & L4).
  all: assert (LD : forall off, (off <= 48)%nat -> load m ((gpr r SI + N.of_nat off) mod two64) 16 = Some (le_num (chunk (k + off) 16)))
         by (intros off Ho; apply (@load_at k off 16 r A); [clear - Hk Ho; lia|clear; lia]).
  all: pose proof (LD 0%nat ltac:(clear; lia)) as LD0; rewrite Nat.add_0_r in LD0; pose proof (LD 16%nat ltac:(clear; lia)) as LD1; pose proof (LD 32%nat ltac:(clear; lia)) as LD2; pose proof (LD 48%nat ltac:(clear; lia)) as LD3.
  all: destruct (@loop64_spec r _ _ _ _ E0 LD0 LD1 LD2 LD3) as (r' & X & E0' & E1 & E2 & E3 & E4 & ES & EC & EP); clear LD LD0 LD1 LD2 LD3.
  all: assert (A' : at_pos (k + 64) r') by (apply (@at_step k 64 r r' A); [ar Hk|exact ES|exact EC]).
  all: assert (L' : lanes_ok r') by (unfold lanes_ok; rewrite E1, E2, E3, E4;
         refine (conj (xor_fold_lt r2r1 L1 (chunk16_lt _)) (conj (xor_fold_lt r2r1 L2 (chunk16_lt _)) (conj (xor_fold_lt r2r1 L3 (chunk16_lt _)) (xor_fold_lt r2r1 L4 (chunk16_lt _))))); ar Hk).
  all: assert (I' : lanes (xmm r' 1) (xmm r' 2) (xmm r' 3) (xmm r' 4) = crcp sum (firstn (k + 64) p)) by (rewrite E1, E2, E3, E4; apply step64; auto; ar Hk).
  all: eapply reach_straight; [exact X|]; eapply reach_JGE; [apply from_loop64|]; rewrite EP; cbn [fst snd]; pose proof A' as (B1 & B2 & B3); rewrite B3.
  all: change (sgn64 64) with (sgn64 (N.of_nat 64)); rewrite jge_pos by (reflexivity || ar Hk).
  - rewrite leb_f by (clear - Hk Hn; lia). apply reach_LABEL. apply (@remain64_reaches n (k + 64) r'); auto. ar Hk.
  - rewrite leb_t by (ar Hk). apply (@IH n (k + 64)%nat); auto. ar Hk.
Qed.
Hypothesis Hsum : (sum < two32)%N.
Lemma clmul_reaches r q : length p = (64 + 16 * q)%nat -> reaches code code r (crcp sum p).
Proof.
  intros Hq. unfold lenN in *. fold p in Hfit, Hlen.
  assert (LD : forall off, (off <= 48)%nat -> load m ((sl_base m + N.of_nat off) mod two64) 16 = Some (le_num (chunk off 16))).
  { intros off Ho. pose proof (@load_ok 0 off 16 ltac:(clear - Hq Ho; lia) ltac:(clear; lia)) as H. rewrite N.add_0_r, N.add_mod_idemp_l in H by discriminate. exact H. }
  pose proof (LD 0%nat ltac:(clear; lia)) as LD0; pose proof (LD 16%nat ltac:(clear; lia)) as LD1; pose proof (LD 32%nat ltac:(clear; lia)) as LD2; pose proof (LD 48%nat ltac:(clear; lia)) as LD3.
  destruct (@start_spec r _ _ _ _ LD0 LD1 LD2 LD3) as (r' & X & E1 & E2 & E3 & E4 & ES & EC & EP). clear LD LD0 LD1 LD2 LD3.
  assert (A' : at_pos 64 r').
  { split; [ar Hq|split]; [exact ES|]. rewrite EC. unfold lenN. fold p. apply (@minus_mod (length p) 64); [ar Hq|exact Hlen]. }
  assert (L' : lanes_ok r').
  { unfold lanes_ok. rewrite E1, E2, E3, E4. repeat split; try (apply chunk16_lt; ar Hq). apply lxor_lt; [apply chunk16_lt; ar Hq|]. apply N.lt_trans with two32; auto. reflexivity. }
  assert (I' : lanes (xmm r' 1) (xmm r' 2) (xmm r' 3) (xmm r' 4) = crcp sum (firstn 64 p)).
  { rewrite E1, E2, E3, E4. change (firstn 64 p) with (chunk 0 64). rewrite crcp_64 by (apply chunk_len; ar Hq).
    pose proof (@lanes_data 0 ltac:(ar Hq)) as D. cbn [Nat.add] in D. rewrite N.lxor_comm. rewrite !(lin_Q sum) || idtac. unfold lanes in *. rewrite !lin_Q, <- D, !N.lxor_assoc. reflexivity. }
  rewrite code_split. fold code. 
  eapply reach_straight; [exact X|]. eapply reach_JB; [apply from_remain64|]. rewrite EP. cbn [fst snd]. pose proof A' as (B1 & B2 & B3). rewrite B3.
  destruct (N.ltb_spec (N.of_nat (length p - 64)) 64) as [H|H].
  - apply (@remain64_reaches q 64 r'); auto.
  - destruct (exec_list clmul_pre r') as [r2|] eqn:X2; [|discriminate X2]. eapply reach_straight; [exact X2|]. apply reach_LABEL.
    assert (F : xmm r2 0 = r2r1 /\ xmm r2 1 = xmm r' 1 /\ xmm r2 2 = xmm r' 2 /\ xmm r2 3 = xmm r' 3 /\ xmm r2 4 = xmm r' 4 /\ gpr r2 = gpr r') by (inversion X2; subst r2; cbn; auto 10).
    destruct F as (F0 & F1 & F2 & F3 & F4 & FG).
    apply (@loop64_reaches (q / 4 - 1) (q mod 4) 64 r2); auto.
    + clear - Hq H. lia.
    + clear. lia.
    + unfold at_pos. rewrite FG. exact A'.
    + unfold lanes_ok. rewrite F1, F2, F3, F4. exact L'.
    + rewrite F1, F2, F3, F4. exact I'.
Qed.
End Exec.

(** ** arm64 *)
Lemma testbit_N_of_bits l : forall i, N.testbit (N_of_bits l) (N.of_nat i) = nth i l false.
Proof.
  induction l as [|b l IH]; intros i; cbn [N_of_bits].
  - rewrite N.bits_0. now destruct i.
  - destruct i as [|i]; cbn [nth].
    + change (N.of_nat 0) with 0%N. rewrite N.add_comm. apply N.testbit_0_r.
    + rewrite Nnat.Nat2N.inj_succ, N.add_comm, N.testbit_succ_r. apply IH.
Qed.
Lemma nth_bits_of_N n : forall x i, (i < n)%nat -> nth i (bits_of_N n x) false = N.testbit x (N.of_nat i).
Proof.
  induction n as [|n IH]; intros x i H; [lia|]. cbn [bits_of_N]. destruct i as [|i]; cbn [nth].
  - now rewrite N.bit0_odd.
  - rewrite IH by lia. rewrite Nnat.Nat2N.inj_succ, N.div2_spec, N.shiftr_spec'. f_equal. lia.
Qed.
Lemma testbit_bitrev n x i : N.testbit (bitrev n x) (N.of_nat i) = if (i <? n)%nat then N.testbit x (N.of_nat (n - S i)) else false.
Proof.
  unfold bitrev. rewrite testbit_N_of_bits. destruct (Nat.ltb_spec i n) as [H|H].
  - rewrite rev_nth by now rewrite length_bits_of_N. rewrite length_bits_of_N. apply nth_bits_of_N. lia.
  - apply nth_overflow. now rewrite rev_length, length_bits_of_N.
Qed.
Lemma lin_bitrev n : lin (bitrev n).
Proof.
  intros a b. apply N.bits_inj. intros i. rewrite <- (Nnat.N2Nat.id i). rewrite N.lxor_spec, !testbit_bitrev. destruct (N.to_nat i <? n)%nat; auto. apply N.lxor_spec.
Qed.
Lemma lin_poly32 n : lin (poly32 n).
Proof.
  induction n as [|n IH]; intros a b; cbn [poly32]; [apply lin_land|].
  rewrite <- IH. f_equal. rewrite N.lxor_spec. set (c := N.shiftl _ _). clearbody c.
  destruct (N.testbit a (N.of_nat (n + 32))), (N.testbit b (N.of_nat (n + 32))); cbn [xorb]; auto.
  - rewrite lxor4, N.lxor_nilpotent, N.lxor_0_r. auto.
  - rewrite !N.lxor_assoc. f_equal. apply N.lxor_comm.
  - now rewrite N.lxor_assoc.
Qed.
Definition insn_a (size : nat) (a : N) : N := bitrev 32 (poly32 size (N.shiftl (bitrev 32 a) (N.of_nat size))).
Definition insn_v (size : nat) (v : N) : N := bitrev 32 (poly32 size (N.shiftl (bitrev size v) 32)).
Lemma insn_split size a v : crc32_insn size a v = N.lxor (insn_a size a) (insn_v size v).
Proof. unfold crc32_insn, insn_a, insn_v. now rewrite lin_poly32, lin_bitrev. Qed.
Lemma lin_insn_a size : lin (insn_a size).
Proof. intros a b. unfold insn_a. now rewrite lin_bitrev, N.shiftl_lxor, lin_poly32, lin_bitrev. Qed.
Lemma lin_insn_v size : lin (insn_v size).
Proof. intros a b. unfold insn_v. now rewrite lin_bitrev, N.shiftl_lxor, lin_poly32, lin_bitrev. Qed.
Lemma insn_ok size : In size [8; 16; 32; 64]%nat -> forall a v, (a < two32)%N -> (v < 2 ^ N.of_nat size)%N -> crc32_insn size a v = Tn size (N.lxor a v).
Proof.
  intros H a v Ha Hv. rewrite insn_split, lin_Tn. f_equal.
  - change two32 with (2 ^ N.of_nat 32)%N in Ha. revert a Ha. apply basis; [apply lin_insn_a|apply lin_Tn|].
    destruct H as [<-|[<-|[<-|[<-|[]]]]]; vm_compute; reflexivity.
  - revert v Hv. apply basis; [apply lin_insn_v|apply lin_Tn|].
    destruct H as [<-|[<-|[<-|[<-|[]]]]]; vm_compute; reflexivity.
Qed.
