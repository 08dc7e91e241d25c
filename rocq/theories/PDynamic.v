(** Decoding of the trees of a dynamic block by the Reader. *)
From Verif Require Import Base SpecChecksum SpecHuffman SpecDeflate SpecBlocks PAt MChecksum PChecksum MToken MCommon MWriter MReader SpecLib PToken PHuffman PBits PGram PInput POutput PDecode.

(** ** Determinism *)
Lemma HasCode_lt sizes s w : HasCode sizes s w -> (s < lenN sizes)%N.
Proof.
  intros [H _]. unfold code_size in H. destruct (N.ltb_spec s (lenN sizes)); auto.
  rewrite nth_overflow in H; [lia|]. unfold lenN in *. lia.
Qed.

Lemma length_set_nth l : forall i v, length (set_nth l i v) = length l.
Proof. induction l as [|x l IH]; intros [|i] v; cbn; auto. Qed.
Lemma nth_set_nth_same l : forall i v, i < length l -> nth i (set_nth l i v) 0 = v.
Proof. induction l as [|x l IH]; intros [|i] v H; cbn in *; try lia; auto. apply IH. lia. Qed.
Lemma nth_set_nth_other l : forall i j v, i <> j -> nth j (set_nth l i v) 0 = nth j l 0.
Proof. induction l as [|x l IH]; intros [|i] [|j] v H; cbn; auto; try lia. Qed.

Fixpoint set_all (order vs : list nat) (l : list nat) : list nat :=
  match order, vs with s :: r, v :: vs => set_all r vs (set_nth l s v) | _, _ => l end.
Lemma length_set_all order : forall vs l, length (set_all order vs l) = length l.
Proof. induction order as [|s r IH]; intros [|v vs] l; cbn; auto. rewrite IH. apply length_set_nth. Qed.
Lemma set_all_other order : forall vs l j, ~ In j order -> nth j (set_all order vs l) 0 = nth j l 0.
Proof.
  induction order as [|s r IH]; intros [|v vs] l j H; cbn in *; auto. rewrite IH by tauto. apply nth_set_nth_other. tauto.
Qed.
Lemma set_all_map order : forall vs l, NoDup order -> Forall (fun s => s < length l) order -> length vs = length order ->
  map (fun s => nth s (set_all order vs l) 0) order = vs.
Proof.
  induction order as [|s r IH]; intros [|v vs] l H1 H2 H3; cbn in *; try discriminate; auto.
  inversion H1; subst. inversion H2; subst. f_equal.
  - rewrite set_all_other by auto. apply nth_set_nth_same. auto.
  - apply IH; auto. rewrite length_set_nth. auto.
Qed.
Lemma set_all_le m order : forall vs l, sizes_le m l -> sizes_le m vs -> sizes_le m (set_all order vs l).
Proof.
  induction order as [|s r IH]; intros [|v vs] l H1 H2; cbn; auto. inversion H2; subst. apply IH; auto.
  clear -H1 H3. revert s. induction l as [|x l IHl]; intros [|s]; cbn; auto; inversion H1; subst; constructor; auto. apply IHl; auto.
Qed.

(** The runs of the code length alphabet. *)
Definition xrun (s : N) (done : list nat) : option (nat * nat * nat) :=
  if (s =? 16)%N then match rev done with [] => None | p :: _ => Some (2, 3, p) end
  else if (s =? 17)%N then Some (3, 3, 0) else if (s =? 18)%N then Some (7, 11, 0) else None.
Definition xstep (s : N) (done o1 : list nat) (ex : list bool) : Prop :=
  ((s < 16)%N /\ o1 = [N.to_nat s] /\ ex = []) \/
  (16 <= s)%N /\ exists bits base v e, xrun s done = Some (bits, base, v) /\ (e < 2 ^ N.of_nat bits)%N /\
    o1 = repeat v (base + N.to_nat e) /\ ex = bits_of_N bits e.
Lemma xrun_pos s done bits base v : xrun s done = Some (bits, base, v) -> 3 <= base /\ bits <= 7.
Proof.
  unfold xrun. destruct (s =? 16)%N; [destruct (rev done); [discriminate|]; intros E; inversion E; subst; lia|].
  destruct (s =? 17)%N; [intros E; inversion E; subst; lia|]. destruct (s =? 18)%N; intros E; inversion E; subst; lia.
Qed.
Lemma cl_inv x done out w : ClEnc x done out w -> (out = [] /\ w = []) \/
  exists s ws o1 ex out' w', HasCode x s ws /\ xstep s done o1 ex /\ ClEnc x (done ++ o1) out' w' /\ out = o1 ++ out' /\ w = ws ++ ex ++ w'.
Proof.
  intros H. destruct H as [done|done n w out ws H1 H2 H3|done p e w out ws H1 H2 H3|done e w out ws H1 H2 H3|done e w out ws H1 H2 H3]; [auto|right..].
  - exists (N.of_nat n), w, [n], [], out, ws. split; auto. split; [left; rewrite Nat2N.id; repeat split; auto; lia|]. auto.
  - exists 16%N, w, (repeat p (3 + N.to_nat e)), (bits_of_N 2 e), out, ws. split; auto. split; [right|auto].
    split; [lia|]. exists 2, 3, p, e. unfold xrun. rewrite rev_app_distr. cbn [rev app]. auto.
  - exists 17%N, w, (repeat 0 (3 + N.to_nat e)), (bits_of_N 3 e), out, ws. split; auto. split; [right|auto].
    split; [lia|]. exists 3, 3, 0, e. auto.
  - exists 18%N, w, (repeat 0 (11 + N.to_nat e)), (bits_of_N 7 e), out, ws. split; auto. split; [right|auto].
    split; [lia|]. exists 7, 11, 0, e. auto.
Qed.
Lemma cl_cons x done s ws o1 ex out w : HasCode x s ws -> xstep s done o1 ex -> ClEnc x (done ++ o1) out w ->
  ClEnc x done (o1 ++ out) (ws ++ ex ++ w).
Proof.
  intros H [[H1 [-> ->]]|[H1 [bits [base [v [e [H2 [H3 [-> ->]]]]]]]]] H4.
  - cbn [app]. apply cl_len; auto; [lia|]. now rewrite N2Nat.id.
  - unfold xrun in H2. destruct (N.eqb_spec s 16) as [->|].
    { destruct (rev done) as [|p r] eqn:ER; [discriminate|]. inversion H2; subst. apply (f_equal (@rev _)) in ER. rewrite rev_involutive in ER.
      cbn [rev] in ER. subst done. apply cl_rep; auto. }
    destruct (N.eqb_spec s 17) as [->|]. { inversion H2; subst. apply cl_zero3; auto. }
    destruct (N.eqb_spec s 18) as [->|]. { inversion H2; subst. apply cl_zero7; auto. } discriminate.
Qed.
Lemma xstep_inj s done o1 ex o2 ex2 r1 r2 : xstep s done o1 ex -> xstep s done o2 ex2 -> ex ++ r1 = ex2 ++ r2 -> o1 = o2 /\ ex = ex2 /\ r1 = r2.
Proof.
  intros [[H1 [-> ->]]|[H1 [bits [base [v [e [H2 [H3 [-> ->]]]]]]]]] [[G1 [-> ->]]|[G1 [bits' [base' [v' [e' [G2 [G3 [-> ->]]]]]]]]] E; try lia; auto.
  rewrite H2 in G2. inversion G2; subst. apply bits_app_inj in E; auto. destruct E as [-> ->]. auto.
Qed.
Lemma xstep_pos s done o1 ex : xstep s done o1 ex -> 0 < length o1.
Proof.
  intros [[_ [-> _]]|[_ [bits [base [v [e [H [_ [-> _]]]]]]]]]; cbn; [lia|]. rewrite repeat_length. apply xrun_pos in H. lia.
Qed.
Lemma cl_inj x : sizes_le 15 x -> not_oversubscribed x -> forall done out1 w1, ClEnc x done out1 w1 -> forall out2 w2 r1 r2,
  ClEnc x done out2 w2 -> length out1 = length out2 -> w1 ++ r1 = w2 ++ r2 -> out1 = out2 /\ w1 = w2 /\ r1 = r2.
Proof.
  intros X1 X2. assert (G : forall n done out1 w1, length out1 <= n -> ClEnc x done out1 w1 -> forall out2 w2 r1 r2,
  ClEnc x done out2 w2 -> length out1 = length out2 -> w1 ++ r1 = w2 ++ r2 -> out1 = out2 /\ w1 = w2 /\ r1 = r2).
  2:{ intros. eapply G; eauto. }
  induction n as [|n IH]; intros done out1 w1 HL H1 out2 w2 r1 r2 H2 EL E.
  - destruct (cl_inv H1) as [[-> ->]|[s [ws [o1 [ex [out' [w' [A1 [A2 [A3 [-> ->]]]]]]]]]]]; [|apply xstep_pos in A2; rewrite app_length in HL; lia].
    destruct (cl_inv H2) as [[-> ->]|[s [ws [o1 [ex [out' [w' [A1 [A2 [A3 [-> ->]]]]]]]]]]]; [auto|apply xstep_pos in A2; rewrite app_length in EL; cbn in EL; lia].
  - destruct (cl_inv H1) as [[-> ->]|[s [ws [o1 [ex [out' [w' [A1 [A2 [A3 [-> ->]]]]]]]]]]];
    destruct (cl_inv H2) as [[-> ->]|[s' [ws' [o2 [ex' [out'' [w'' [B1 [B2 [B3 [-> ->]]]]]]]]]]]; auto;
      try (apply xstep_pos in B2; rewrite app_length in EL; cbn in EL; lia); try (apply xstep_pos in A2; rewrite app_length in EL; cbn in EL; lia).
    rewrite <- !app_assoc in E. destruct (code_inj X1 X2 A1 B1 E) as [<- [<- E1]]. destruct (xstep_inj A2 B2 E1) as [<- [<- E2]].
    rewrite !app_length in EL. rewrite app_length in HL. apply xstep_pos in A2.
    destruct (IH (done ++ o1) out' w' ltac:(lia) A3 _ _ _ _ B3 ltac:(lia) E2) as [-> [-> ->]]. auto.
Qed.

(** ** The header of a dynamic block in a convenient form *)
Definition bits3 (vs : list nat) : list bool := flat_map (fun v => bits_of_N 3 (N.of_nat v)) vs.
Definition xcode (c : N) (vs : list nat) : list nat := set_all (firstn (4 + N.to_nat c) cl_order) vs (repeat 0 19).
Lemma length_bits3 vs : length (bits3 vs) = 3 * length vs.
Proof. induction vs as [|v vs IH]; auto. unfold bits3 in *. cbn [flat_map length]. rewrite app_length, length_bits_of_N, IH. lia. Qed.
Lemma bits3_inj vs1 : forall vs2 r1 r2, sizes_le 7 vs1 -> sizes_le 7 vs2 -> length vs1 = length vs2 -> bits3 vs1 ++ r1 = bits3 vs2 ++ r2 -> vs1 = vs2 /\ r1 = r2.
Proof.
  induction vs1 as [|v vs1 IH]; intros [|v2 vs2] r1 r2 H1 H2 HL E; cbn in HL; try discriminate; auto.
  inversion H1; subst. inversion H2; subst. unfold bits3 in E. cbn [flat_map] in E. rewrite <- !app_assoc in E.
  apply bits_app_inj in E; [|change (2 ^ N.of_nat 3)%N with 8%N; lia..]. destruct E as [E1 E2].
  destruct (IH _ _ _ H4 H6 ltac:(lia) E2) as [-> ->]. apply Nat2N.inj in E1. subst. auto.
Qed.
Lemma cl_order_perm j : j < 19 -> exists i, i < 19 /\ nth i cl_order 0 = j.
Proof.
  intros H. assert (In j cl_order).
  { do 19 (destruct j as [|j]; [cbn; tauto|]). lia. }
  apply In_nth with (d := 0) in H0. exact H0.
Qed.
Lemma cl_order_nodup n : NoDup (firstn n cl_order).
Proof.
  assert (N : NoDup cl_order) by (unfold cl_order; repeat (constructor; [cbn; lia|]); constructor).
  rewrite <- (firstn_skipn n cl_order) in N. revert N. generalize (firstn n cl_order) (skipn n cl_order). clear n.
  induction l as [|x l IH]; intros l0 N; [constructor|]. inversion N; subst. constructor; [|eauto]. intros I. apply H1. apply in_or_app. auto.
Qed.
Lemma cl_order_lt n : Forall (fun s => s < 19) (firstn n cl_order).
Proof.
  assert (N : Forall (fun s => s < 19) cl_order) by (unfold cl_order; repeat (constructor; [lia|]); constructor).
  rewrite <- (firstn_skipn n cl_order) in N. apply Forall_app in N. tauto.
Qed.
Lemma length_firstn_cl n : n <= 19 -> length (firstn n cl_order) = n.
Proof. intros H. rewrite firstn_length_le; auto. Qed.
Lemma nth_firstn_lt {A} (l : list A) d : forall n i, i < n -> nth i (firstn n l) d = nth i l d.
Proof. induction l as [|x l IH]; intros [|n] [|i] H; cbn; try lia; auto. apply IH. lia. Qed.
Lemma xcode_spec x n : 4 <= n <= 19 -> length x = 19 -> (forall i, n <= i < 19 -> nth (nth i cl_order 0) x 0 = 0) ->
  set_all (firstn n cl_order) (map (fun s => nth s x 0) (firstn n cl_order)) (repeat 0 19) = x.
Proof.
  intros Hn Hx Hz. apply nth_ext with (d := 0) (d' := 0).
  { rewrite length_set_all. auto. }
  intros j Hj. rewrite length_set_all, repeat_length in Hj. destruct (in_dec Nat.eq_dec j (firstn n cl_order)) as [I|I].
  - pose proof (@set_all_map (firstn n cl_order) (map (fun s => nth s x 0) (firstn n cl_order)) (repeat 0 19) (cl_order_nodup n)) as M.
    rewrite map_length, repeat_length in M. specialize (M (cl_order_lt n) eq_refl).
    apply (ext_in_map M _ I).
  - rewrite set_all_other by auto. rewrite nth_repeat. destruct (cl_order_perm Hj) as [i [Hi <-]]. symmetry. apply Hz. split; auto.
    destruct (Nat.le_gt_cases n i); auto. exfalso. apply I. rewrite <- (@nth_firstn_lt nat cl_order 0 n i) by auto. apply nth_In. rewrite length_firstn_cl; lia.
Qed.
Lemma cl_sizes_bits3 x n : cl_sizes_bits x n = bits3 (map (fun s => nth s x 0) (firstn n cl_order)).
Proof. unfold cl_sizes_bits, bits3. induction (firstn n cl_order) as [|s l IH]; auto. cbn [flat_map map]. f_equal. auto. Qed.

Definition TreesForm (acc : list nat -> Prop) (ll d : list nat) (w : list bool) (a b c : N) (vs lls ds : list nat) (wc : list bool) : Prop :=
  (a <= 29)%N /\ (b <= 29)%N /\ (c < 16)%N /\ length vs = 4 + N.to_nat c /\ sizes_le 7 vs /\ acc (xcode c vs) /\
  length lls = 257 + N.to_nat a /\ length ds = 1 + N.to_nat b /\ ClEnc (xcode c vs) [] (lls ++ ds) wc /\
  ll = lls ++ repeat 0 (288 - length lls) /\ d = ds ++ repeat 0 (32 - length ds) /\ acc ll /\ acc d /\
  w = bits_of_N 5 a ++ bits_of_N 5 b ++ bits_of_N 4 c ++ bits3 vs ++ wc.
Lemma trees_form acc ll d w : DynTrees acc ll d w <-> exists a b c vs lls ds wc, TreesForm acc ll d w a b c vs lls ds wc.
Proof.
  split.
  - intros [hlit [hdist [hclen [x [wc [H1 [H2 [H3 [H4 [H5 [H6 [H7 [[lls [ds [H8 [H9 [H10 [H11 H12]]]]]] [H13 [H14 H15]]]]]]]]]]]]]]].
    exists (N.of_nat (hlit - 257)), (N.of_nat (hdist - 1)), (N.of_nat (hclen - 4)), (map (fun s => nth s x 0) (firstn hclen cl_order)), lls, ds, wc.
    assert (EX : xcode (N.of_nat (hclen - 4)) (map (fun s => nth s x 0) (firstn hclen cl_order)) = x).
    { unfold xcode. rewrite Nat2N.id. replace (4 + (hclen - 4)) with hclen by lia. apply xcode_spec; auto. }
    unfold TreesForm. rewrite EX. rewrite map_length, length_firstn_cl by lia. rewrite !Nat2N.id, <- cl_sizes_bits3.
    repeat (split; [solve [lia|auto]|]). split.
    { apply Forall_forall. intros y Hy. apply in_map_iff in Hy. destruct Hy as [s [<- _]]. destruct (Nat.lt_ge_cases s (length x)).
      - unfold sizes_le in H5. rewrite Forall_forall in H5. apply H5. apply nth_In; auto.
      - rewrite nth_overflow by auto. lia. }
    repeat (split; [solve [lia|auto]|]). split; [congruence|]. split; [congruence|]. auto.
  - intros [a [b [c [vs [lls [ds [wc [H1 [H2 [H3 [H4 [H5 [H6 [H7 [H8 [H9 [H10 [H11 [H12 [H13 H14]]]]]]]]]]]]]]]]]]]].
    exists (257 + N.to_nat a), (1 + N.to_nat b), (4 + N.to_nat c), (xcode c vs), wc.
    assert (EM : map (fun s => nth s (xcode c vs) 0) (firstn (4 + N.to_nat c) cl_order) = vs).
    { apply set_all_map; auto; [apply cl_order_nodup|apply cl_order_lt|]. rewrite length_firstn_cl; lia. }
    split; [lia|]. split; [lia|]. split; [lia|]. split; [unfold xcode; rewrite length_set_all; auto|].
    split. { apply set_all_le; auto. apply Forall_forall. intros y Hy. apply repeat_spec in Hy. lia. }
    split. { intros i Hi. unfold xcode. rewrite set_all_other.
      - apply nth_repeat.
      - intros I. apply In_nth with (d := 0) in I. destruct I as [k [K1 K2]]. rewrite length_firstn_cl in K1 by lia.
        rewrite nth_firstn_lt in K2 by auto. pose proof (cl_order_nodup 19) as ND. cbn [firstn cl_order] in ND.
        rewrite NoDup_nth in ND. specialize (ND k i). cbn [length] in ND. specialize (ND ltac:(lia) ltac:(lia) K2). lia. }
    split; auto. split. { exists lls, ds. rewrite <- H7, <- H8. auto. }
    split; auto. split; auto. rewrite cl_sizes_bits3, EM.
    replace (257 + N.to_nat a - 257) with (N.to_nat a) by lia. replace (1 + N.to_nat b - 1) with (N.to_nat b) by lia. replace (4 + N.to_nat c - 4) with (N.to_nat c) by lia.
    rewrite !N2Nat.id. auto.
Qed.
Lemma xcode_ok c vs : sizes_le 7 vs -> sizes_le 7 (xcode c vs) /\ length (xcode c vs) = 19.
Proof.
  intros H. split.
  - apply set_all_le; auto. apply Forall_forall. intros y Hy. apply repeat_spec in Hy. lia.
  - unfold xcode. rewrite length_set_all. apply repeat_length.
Qed.
Lemma sizes_le_weak m n l : m <= n -> sizes_le m l -> sizes_le n l.
Proof. intros H. apply Forall_impl. intros. lia. Qed.
(** The head of the description of the trees, given the first 14 bits. *)
Lemma trees_head (acc : list nat -> Prop) ll d w (a b c : N) rest x r : (a < 32)%N -> (b < 32)%N -> (c < 16)%N -> DynTrees acc ll d w ->
  (bits_of_N 5 a ++ bits_of_N 5 b ++ bits_of_N 4 c ++ rest) ++ x = w ++ r ->
  exists vs lls ds wc, TreesForm acc ll d w a b c vs lls ds wc /\ rest ++ x = bits3 vs ++ wc ++ r.
Proof.
  intros Ha Hb Hc HT E. apply trees_form in HT. destruct HT as [a' [b' [c' [vs [lls [ds [wc HF]]]]]]]. pose proof HF as HF0.
  destruct HF as [H1 [H2 [H3 [H4 [H5 [H6 [H7 [H8 [H9 [H10 [H11 [H12 [H13 H14]]]]]]]]]]]]]. rewrite H14 in E. rewrite <- !app_assoc in E.
  apply bits_app_inj in E; [|change (2 ^ N.of_nat 5)%N with 32%N; lia..]. destruct E as [<- E].
  apply bits_app_inj in E; [|change (2 ^ N.of_nat 5)%N with 32%N; lia..]. destruct E as [<- E].
  apply bits_app_inj in E; [|change (2 ^ N.of_nat 4)%N with 16%N; lia..]. destruct E as [<- E].
  exists vs, lls, ds, wc. auto.
Qed.

(** The reported trees *)
Lemma trees_at acc ll d w a b c vs lls ds wc : TreesForm acc ll d w a b c vs lls ds wc ->
  TreesAt acc (Trees (N.of_nat (4 + N.to_nat c)) (N.of_nat (257 + N.to_nat a)) (N.of_nat (1 + N.to_nat b)) (xcode c vs) ll d) w.
Proof.
  intros [H1 [H2 [H3 [H4 [H5 [H6 [H7 [H8 [H9 [H10 [H11 [H12 [H13 H14]]]]]]]]]]]]].
  assert (EM : map (fun s => nth s (xcode c vs) 0) (firstn (4 + N.to_nat c) cl_order) = vs).
  { apply set_all_map; auto; [apply cl_order_nodup|apply cl_order_lt|]. rewrite length_firstn_cl; lia. }
  unfold TreesAt. cbn [t_x t_ll t_d t_xs t_lls t_ds]. rewrite Nat2N.id.
  split; [lia|]. split; [lia|]. split; [lia|]. split; [apply xcode_ok; auto|]. split; [apply xcode_ok; auto|].
  split. { intros i Hi. unfold xcode. rewrite set_all_other.
    - apply nth_repeat.
    - intros I. apply In_nth with (d := 0) in I. destruct I as [k [K1 K2]]. rewrite length_firstn_cl in K1 by lia.
      rewrite nth_firstn_lt in K2 by auto. pose proof (cl_order_nodup 19) as ND. cbn [firstn cl_order] in ND.
      rewrite NoDup_nth in ND. specialize (ND k i). cbn [length] in ND. specialize (ND ltac:(lia) ltac:(lia) K2). lia. }
  split; auto. split; auto. split; auto. exists lls, ds, wc. unfold lenN.
  split; [rewrite H7; auto|]. split; [rewrite H8; auto|]. split; [auto|]. split; [auto|]. split; [auto|]. rewrite cl_sizes_bits3, EM, H14.
  replace (N.of_nat (257 + N.to_nat a) - 257)%N with a by lia. replace (N.of_nat (1 + N.to_nat b) - 1)%N with b by lia. replace (N.of_nat (4 + N.to_nat c) - 4)%N with c by lia. reflexivity.
Qed.
Section Dyn.
Variable env : renv.
Hypothesis Hlib : rlib_ok env.
Variable cap : N.
Hypothesis Hcap : (0 < cap)%N.
Notation ook := (ook cap).
Notation oext := (oext cap).
Notation dfail := (dfail cap).
Notation racc := (racc env).
Let Hbpb := rl_bpb Hlib.

Lemma readXSizes_spec order : forall i sX, iok i -> bok i -> ibl i < 8 ->
  exists i' out, readXSizes env order i sX = Ok (i', out) /\ irel i i' /\
  match out with
  | Some l => bok i' /\ ibl i' < 8 /\ exists vs, length vs = length order /\ sizes_le 7 vs /\ l = set_all order vs sX /\
      av i = bits3 vs ++ av i'
  | None => length (av i) < 3 * length order /\ i_all i' = [] /\ i_err i' = Some (i_end i)
  end.
Proof.
  induction order as [|s r IH]; intros i sX H HB H8; cbn [readXSizes].
  - exists i, (Some sX). split; auto. split; [apply irel_refl; auto|]. split; auto. split; auto. exists []. repeat split; auto. constructor.
  - destruct (getBits_spec Hbpb H HB H8 (n := 3)) as [i1 [out [G1 [G2 [G3 G4]]]]]; [destruct (r_bits_cases Hbpb); lia|].
    rewrite G1. cbn [rbind]. pose proof (irel_iok H G2) as K. destruct out as [v|].
    + destruct G4 as [G4 [G5 G6]]. destruct (IH i1 (set_nth sX s (N.to_nat v)) K G3 G4) as [i' [out [E [X R]]]]. rewrite E. exists i', out. split; auto.
      split; [exact (irel_trans H G2 X)|]. destruct out as [l|].
      * destruct R as [R1 [R2 [vs [R3 [R4 [R5 R6]]]]]]. split; auto. split; auto. exists (N.to_nat v :: vs). split; [cbn; lia|].
        split; [constructor; auto; change (2 ^ N.of_nat 3)%N with 8%N in G5; lia|]. split; auto. unfold bits3 in *. cbn [flat_map]. rewrite N2Nat.id, <- app_assoc, <- R6. auto.
      * destruct R as [R1 [R2 R3]]. rewrite (irel_end G2) in R3. split; auto. rewrite G6, app_length, length_bits_of_N. cbn [length]. lia.
    + exists i1, None. split; auto. split; auto. destruct G4 as [G4 [G5 G6]]. split; auto. cbn [length]. lia.
Qed.

(** ** The code lengths *)
Section Lens.
Variable x : list nat.
Hypothesis Hx : sizes_le 15 x.
Hypothesis Hxk : not_oversubscribed x.
Hypothesis Hx19 : length x = 19.
Variable total : nat.
Definition Lens (done : list nat) (w : list bool) (out : list nat) : Prop := ClEnc x done out w /\ length done + length out = total.

Lemma lengthsLoop_spec : forall fuel d done, iok (d_in d) -> bok (d_in d) -> ibl (d_in d) < 8 -> ook (d_out d) ->
  length done <= total -> total < fuel + length done -> sizes_le 15 done ->
  exists d' out, lengthsLoop env fuel (mk_decoder x) d done total = Ok (d', out) /\
  match out with
  | Some comb => irel (d_in d) (d_in d') /\ bok (d_in d') /\ ibl (d_in d') < 8 /\ d_out d' = d_out d /\ sizes_le 15 comb /\
      exists w out, comb = done ++ out /\ Lens done w out /\ av (d_in d) = w ++ av (d_in d')
  | None => exists e, dfail d d' [] e /\ FailP (Lens done) (av (d_in d)) (d_in d') (i_end (d_in d)) e
  end.
Proof.
  induction fuel as [|f IH]; intros d done H HB H8 HO Hd Hf Hs; [lia|]. cbn [lengthsLoop].
  destruct (Nat.ltb_spec (length done) total) as [HL|HL].
  2:{ exists d, (Some done). split; auto. split; [apply irel_refl; auto|]. split; auto. split; auto. split; auto. split; auto. exists [], []. rewrite app_nil_r. split; auto.
      split; [split; [constructor|cbn; lia]|auto]. }
  destruct (readSymbol_spec Hbpb Hx Hxk H HB H8) as [i1 [sym [E1 [X1 [B1 R1]]]]]. rewrite E1. cbn [rbind].
  assert (HN : bytes_ok []) by constructor. pose proof (oext_refl_ Hcap HO) as O0.
  pose proof (irel_iok H X1) as K1.
  destruct sym as [s|].
  2:{ eexists; exists None; split; [reflexivity|]. eexists; split; [apply dfail_corrupt; auto|].
    intros x0 w r out [P1 P2] EA. destruct (cl_inv P1) as [[-> _]|[s [ws [o1 [ex [out' [w' [A1 [A2 [A3 [-> ->]]]]]]]]]]]; [cbn in P2; lia|].
    rewrite <- !app_assoc in EA. destruct R1 as [[R1 [R2 R3]]|R1]; [|exfalso; eapply R1; eauto].
    specialize (R3 _ _ _ _ A1 EA). rewrite !app_length. split; [lia|]. apply trunc_deg; auto. right; right; auto. }
  destruct R1 as [L1 [w0 [C0 A0]]]. pose proof (HasCode_lt C0) as S19. unfold lenN in S19. rewrite Hx19 in S19.
  assert (PI : forall x0 w r out, Lens done w out -> av (d_in d) ++ x0 = w ++ r -> exists o1 ex out' w',
      xstep s done o1 ex /\ ClEnc x (done ++ o1) out' w' /\ out = o1 ++ out' /\ w = w0 ++ ex ++ w' /\ av i1 ++ x0 = ex ++ w' ++ r).
  { intros x0 w r out [P1 P2] EA. destruct (cl_inv P1) as [[-> _]|[s' [ws [o1 [ex [out' [w' [A1 [A2 [A3 [-> ->]]]]]]]]]]]; [cbn in P2; lia|].
    rewrite A0, <- !app_assoc in EA. destruct (code_inj Hx Hxk C0 A1 EA) as [<- [<- EB]]. exists o1, ex, out', w'. auto. }
  (* one more item *)
  assert (STEP : forall d1 o1 ex, d_out d1 = d_out d -> irel i1 (d_in d1) -> bok (d_in d1) -> ibl (d_in d1) < 8 -> xstep s done o1 ex ->
     av i1 = ex ++ av (d_in d1) -> length done + length o1 <= total ->
     exists d' out, lengthsLoop env f (mk_decoder x) d1 (done ++ o1) total = Ok (d', out) /\
      match out with
      | Some comb => irel (d_in d) (d_in d') /\ bok (d_in d') /\ ibl (d_in d') < 8 /\ d_out d' = d_out d /\ sizes_le 15 comb /\
          exists w out, comb = done ++ out /\ Lens done w out /\ av (d_in d) = w ++ av (d_in d')
      | None => exists e, dfail d d' [] e /\ FailP (Lens done) (av (d_in d)) (d_in d') (i_end (d_in d)) e
      end).
  { intros d1 o1 ex EO XI HB1 H81 XS EA HL1. pose proof (xstep_pos XS) as PO.
    pose proof (irel_trans H X1 XI) as X1'. pose proof (irel_iok H X1') as K1'.
    destruct (IH d1 (done ++ o1)) as [d' [out [E R]]]; auto; rewrite ?app_length, ?EO; try lia; auto.
    { apply Forall_app; split; auto. destruct XS as [[S1 [-> _]]|[_ [bits [base [v [e [S1 [S2 [-> _]]]]]]]]].
      - constructor; [lia|constructor].
      - unfold xrun in S1. apply Forall_forall. intros y Hy. apply repeat_spec in Hy. subst y.
        destruct (s =? 16)%N.
        + destruct (rev done) as [|q rd] eqn:ER; [discriminate|]. inversion S1; subst. assert (In v (rev done)) by (rewrite ER; left; auto).
          rewrite <- in_rev in H0. unfold sizes_le in Hs. rewrite Forall_forall in Hs. auto.
        + destruct (s =? 17)%N; [inversion S1; lia|]. destruct (s =? 18)%N; inversion S1; lia. }
    exists d', out. split; auto. destruct out as [comb|].
    - destruct R as [R1 [R2 [R3 [R4 [R5 [w [out [R6 [[R7 R8] R9]]]]]]]]]. split; [exact (irel_trans H X1' R1)|]. split; auto. split; auto. split; [congruence|].
      split; auto. exists (w0 ++ ex ++ w), (o1 ++ out). split; [rewrite R6, app_assoc; auto|]. split.
      { split; [apply cl_cons with (s := s); auto|]. rewrite app_length in *. lia. }
      rewrite A0, EA, R9, <- !app_assoc. auto.
    - destruct R as [e [R1 R2]]. exists e. split.
      { change (@nil N) with ([] ++ @nil N). eapply dfail_trans; [..|exact R1]; auto. rewrite EO. auto. }
      intros x0 w r out PL EA2. destruct (PI _ _ _ _ PL EA2) as [o2 [ex2 [out' [w' [Q1 [Q2 [-> [-> Q3]]]]]]]].
      rewrite EA, <- app_assoc in Q3. destruct (xstep_inj XS Q1 Q3) as [<- [<- Q4]].
      destruct (R2 x0 w' r out') as [Z1 Z2]; auto. { split; auto. destruct PL as [_ PL]. rewrite app_length in *. lia. }
      rewrite (irel_end X1') in Z2. split; auto. rewrite A0, EA, !app_length. lia. }
  unfold decodeX. cbn [d_in d_out].
  assert (RUN : forall bits base v, (16 <= s)%N -> xrun s done = Some (bits, base, v) -> 
    exists d' out, (let* (d0, r) := (let* (i, out) := getBits env i1 bits in
       match out with
       | Some out => if total - length done <? base + N.to_nat out then Ok (corruptf (DST i (d_out d)) CRepeatCount, None)
                     else Ok (DST i (d_out d), Some (done ++ repeat v (base + N.to_nat out)))
       | None => Ok (propagateError (DST i (d_out d)) true, None)
       end) in
     match r with Some done => lengthsLoop env f (mk_decoder x) d0 done total | None => Ok (d0, None) end) = Ok (d', out) /\
      match out with
      | Some comb => irel (d_in d) (d_in d') /\ bok (d_in d') /\ ibl (d_in d') < 8 /\ d_out d' = d_out d /\ sizes_le 15 comb /\
          exists w out, comb = done ++ out /\ Lens done w out /\ av (d_in d) = w ++ av (d_in d')
      | None => exists e, dfail d d' [] e /\ FailP (Lens done) (av (d_in d)) (d_in d') (i_end (d_in d)) e
      end).
  { intros bits base v S16 XR. destruct (xrun_pos XR) as [XP1 XP2].
    destruct (getBits_spec Hbpb K1 B1 L1 (n := bits)) as [i2 [out [G1 [G2 [G3 G4]]]]]; [destruct (r_bits_cases Hbpb); lia|].
    rewrite G1. cbn [rbind]. pose proof (irel_trans H X1 G2) as X2.
    assert (PR : forall x0 w r out, Lens done w out -> av (d_in d) ++ x0 = w ++ r -> exists e out' w',
      (e < 2 ^ N.of_nat bits)%N /\ out = repeat v (base + N.to_nat e) ++ out' /\ w = w0 ++ bits_of_N bits e ++ w' /\
      av i1 ++ x0 = bits_of_N bits e ++ w' ++ r).
    { intros x0 w r out0 PL EA. destruct (PI _ _ _ _ PL EA) as [o1 [ex [out' [w' [Q1 [Q2 [-> [-> Q3]]]]]]]].
      destruct Q1 as [[Q1 _]|[_ [bits' [base' [v' [e' [Q4 [Q5 [-> ->]]]]]]]]]; [lia|]. rewrite XR in Q4. inversion Q4; subst.
      exists e', out', w'. auto. }
    destruct out as [e|].
    - destruct G4 as [G4 [G5 G6]]. destruct (Nat.ltb_spec (total - length done) (base + N.to_nat e)) as [HC|HC].
      + eexists; exists None; split; [reflexivity|]. eexists; split; [apply dfail_corrupt; auto|].
        intros x0 w r out PL EA. exfalso. destruct (PR _ _ _ _ PL EA) as [e' [out' [w' [Q1 [-> [-> Q2]]]]]].
        rewrite G6, <- app_assoc in Q2. apply bits_app_inj in Q2; auto. destruct Q2 as [<- Q2].
        destruct PL as [_ PL]. rewrite app_length, repeat_length in PL. lia.
      + cbn [rbind]. apply STEP with (ex := bits_of_N bits e); auto; [|rewrite repeat_length; lia].
        right. split; auto. exists bits, base, v, e. auto.
    - destruct G4 as [G4 [G5 G6]]. eexists; exists None; split; [reflexivity|]. rewrite (irel_end X1) in G6.
      eexists; split; [apply dfail_propagate; auto|].
      intros x0 w r out PL EA. destruct (PR _ _ _ _ PL EA) as [e' [out' [w' [Q1 [-> [-> Q2]]]]]].
      rewrite A0, !app_length, length_bits_of_N. split; [lia|]. unfold propagateError. cbn [d_in]. rewrite G6. cbn [d_in]. apply trunc_eof; auto. }
  destruct (N.ltb_spec s 16) as [S1|S1].
  { cbn [rbind]. apply STEP with (ex := []); auto; [apply irel_refl; auto|left; auto|cbn; lia]. }
  destruct (N.eqb_spec s 16) as [->|S2].
  { destruct (rev done) as [|p rd] eqn:ER.
    - cbn [rbind]. eexists; exists None; split; [reflexivity|]. eexists; split; [apply dfail_corrupt; auto|].
      intros x0 w r out PL EA. exfalso. destruct (PI _ _ _ _ PL EA) as [o1 [ex [out' [w' [Q1 _]]]]].
      destruct Q1 as [[Q1 _]|[_ [bits' [base' [v' [e' [Q4 _]]]]]]]; [lia|]. unfold xrun in Q4. rewrite ER in Q4. discriminate.
    - apply RUN; auto. unfold xrun. rewrite ER. auto. }
  destruct (N.eqb_spec s 17) as [->|S3]; [apply RUN; auto|].
  destruct (N.eqb_spec s 18) as [->|S4]; [apply RUN; auto|]. lia.
Qed.
End Lens.

(** ** Failures after which decoding goes on *)
Record ow (o o' : ost) : Prop := OW {
  ow_ook : ook o'; ow_log : exists s, o_log o' = o_log o ++ s /\ o_total o' = add64 (o_total o) (lenN (log_data s)); ow_err : forall e, o_err o = Some e -> o_err o' = Some e;
  ow_dat : exists t, log_data (o_log o') ++ o_dbuf o' = (log_data (o_log o) ++ o_dbuf o) ++ t }.
Lemma ow_refl o : ook o -> ow o o.
Proof. intros H. constructor; auto; [|exists []; now rewrite app_nil_r]. exists []. rewrite app_nil_r. split; auto. symmetry. apply add64_0. apply H. Qed.
Lemma ow_trans a b c : ow a b -> ow b c -> ow a c.
Proof.
  intros [A1 [s [A2 A4]] A3 [p A5]] [B1 [t [B2 B4]] B3 [q B5]]. constructor; auto; [|exists (p ++ q); now rewrite B5, A5, <- !app_assoc]. exists (s ++ t). rewrite B2, A2, app_assoc. split; auto.
  rewrite B4, A4, add64_assoc, log_data_app, lenN_app. auto.
Qed.
Lemma ow_oext o o' p : ook o -> bytes_ok p -> oext o o' p -> ow o o'.
Proof.
  intros H B X. pose proof (oext_ook H B X) as K. destruct X as [s X]. constructor; auto.
  - exists s. split; apply X.
  - intros e E. now rewrite (ox_err X).
  - exists p. rewrite (ox_log X), log_data_app, <- !app_assoc. f_equal. apply X.
Qed.
Lemma ook_close o e : ook o -> ook (closeWithError o e).
Proof. intros [H1 H2 H3 H4 H5 H6 H7]. destruct o as [db h log err t s a c]. cbn. destruct err; constructor; auto. Qed.
Lemma ow_close o e : ook o -> ow o (closeWithError o e).
Proof.
  intros H. pose proof (ok_total H) as T. constructor; [apply ook_close; auto|..].
  - destruct o as [db h log err t s a c]. cbn in *. destruct err; [exists []; rewrite app_nil_r|exists [OErr e]]; split; auto; cbn; symmetry; apply add64_0; auto.
  - intros e0 E. destruct o as [db h log err t s a c]. cbn in *. subst err. auto.
  - exists []. destruct o as [db h log err t s a c]. cbn. destruct err; cbn; rewrite ?log_data_app, ?app_nil_r; auto.
Qed.
Lemma ow_dfail d d' p e : ook (d_out d) -> dfail d d' p e -> ow (d_out d) (d_out d').
Proof.
  intros H [_ [B [_ [o1 [X E]]]]]. rewrite E. eapply ow_trans; [eapply ow_oext; eauto|]. apply ow_close. eapply oext_ook; eauto.
Qed.

(** [p] was produced, then the error [e] was reported; if [z], decoding went on. *)
Definition bad (d d' : dst) (p : list N) (e : goerr) (z : bool) : Prop :=
  irel (d_in d) (d_in d') /\ bytes_ok p /\ fail_err (i_end (d_in d)) e /\
  exists o1, oext (d_out d) o1 p /\ ow (closeWithError o1 e) (d_out d') /\
    if z then exists a b c, e = CorruptInputError a b c /\ (c = CHlit \/ c = CHdist) else d_out d' = closeWithError o1 e.
Lemma bad_dfail d d' p e : ook (d_out d) -> dfail d d' p e -> bad d d' p e false.
Proof.
  intros H [H1 [H2 [H3 [o1 [H4 H5]]]]]. split; auto. split; auto. split; auto. exists o1. split; auto. split; auto.
  rewrite H5. apply ow_refl. apply ook_close. eapply oext_ook; eauto.
Qed.
Lemma bad_more d d1 d' p e z : iok (d_in d) -> bad d d1 p e z -> z = true -> irel (d_in d1) (d_in d') -> ow (d_out d1) (d_out d') -> bad d d' p e z.
Proof.
  intros H [H1 [H2 [H3 [o1 [H4 [H5 H6]]]]]] -> X W. split; [exact (irel_trans H H1 X)|]. split; auto. split; auto. exists o1. split; auto.
  split; auto. eapply ow_trans; eauto.
Qed.
Lemma bad_trans d d1 d' p q e z : iok (d_in d) -> ook (d_out d) -> irel (d_in d) (d_in d1) -> oext (d_out d) (d_out d1) p -> bytes_ok p ->
  bad d1 d' q e z -> bad d d' (p ++ q) e z.
Proof.
  intros H HO X O B [F1 [F2 [F5 [o1 [F3 [F4 F6]]]]]]. split; [exact (irel_trans H X F1)|]. split; [apply bytes_ok_app; auto|].
  split; [now rewrite (irel_end X) in F5|]. exists o1. split; [exact (oext_trans HO B F2 O F3)|]. auto.
Qed.

(** ** The trees *)
Definition TreesP (w : list bool) (t : list nat * list nat) : Prop := DynTrees racc (fst t) (snd t) w.
Lemma out14 i out : (out < 2 ^ N.of_nat 14)%N ->
  let a := N.land out 0x1f in let b := N.land (N.shiftr out 5) 0x1f in let c := N.land (N.shiftr out 10) 0x0f in
  (a < 32)%N /\ (b < 32)%N /\ (c < 16)%N /\
  bits_of_N 14 out ++ av i = bits_of_N 5 a ++ bits_of_N 5 b ++ bits_of_N 4 c ++ av i.
Proof.
  intros H a b c. change 0x1f%N with (N.ones 5) in *. change 0x0f%N with (N.ones 4) in *.
  assert (Ea : a = (out mod 2 ^ N.of_nat 5)%N) by (unfold a; now rewrite N.land_ones).
  assert (Eb : b = (out / 2 ^ 5 mod 2 ^ N.of_nat 5)%N) by (unfold b; now rewrite N.land_ones, N.shiftr_div_pow2).
  assert (Ec : c = (out / 2 ^ 10 mod 2 ^ N.of_nat 4)%N) by (unfold c; now rewrite N.land_ones, N.shiftr_div_pow2).
  split; [rewrite Ea; apply N.mod_lt; discriminate|]. split; [rewrite Eb; apply N.mod_lt; discriminate|]. split; [rewrite Ec; apply N.mod_lt; discriminate|].
  rewrite Ea, Eb, Ec, !bits_of_N_mod. change 14 with (5 + (5 + 4)). rewrite !bits_of_N_app, <- !app_assoc. do 2 f_equal.
  change (N.of_nat 5) with 5%N. rewrite !N.shiftr_div_pow2 || idtac. rewrite ?N.div_div by discriminate. reflexivity.
Qed.
Lemma readDynamicTrees_spec d : iok (d_in d) -> bok (d_in d) -> ibl (d_in d) < 8 -> ook (d_out d) ->
  exists d' out, readDynamicTrees env d = Ok (d', out) /\
  match out with
  | Some t => irel (d_in d) (d_in d') /\ bok (d_in d') /\ ibl (d_in d') < 8 /\ length (av (d_in d')) <= length (av (d_in d)) /\
      sizes_le 15 (t_lls t) /\ sizes_le 15 (t_ds t) /\ racc (t_lls t) /\ racc (t_ds t) /\
      ((d_out d' = d_out d /\ exists w, TreesAt racc t w /\ av (d_in d) = w ++ av (d_in d')) \/
       exists e, bad d d' [] e true /\ forall x w r t, TreesP w t -> av (d_in d) ++ x <> w ++ r)
  | None => exists e z, bad d d' [] e z /\ FailP TreesP (av (d_in d)) (d_in d') (i_end (d_in d)) e
  end.
Proof.
  intros H HB H8 HO. unfold readDynamicTrees.
  assert (HN : bytes_ok []) by constructor. pose proof (oext_refl_ Hcap HO) as O0.
  destruct (getBits_spec Hbpb H HB H8 (n := 14)) as [i1 [out [G1 [G2 [G3 G4]]]]]; [destruct (r_bits_cases Hbpb); lia|].
  rewrite G1. cbn [rbind]. pose proof (irel_iok H G2) as K1. destruct out as [out|].
  2:{ destruct G4 as [G4 [G5 G6]]. eexists; exists None; split; [reflexivity|]. eexists; exists false; split; [apply bad_dfail; auto; apply dfail_propagate; auto|].
    intros x w r t P EA. apply trees_form in P. destruct P as [a [b [c [vs [lls [ds [wc P]]]]]]]. destruct P as [_ [_ [_ [_ [_ [_ [_ [_ [_ [_ [_ [_ [_ ->]]]]]]]]]]]]].
    rewrite !app_length, !length_bits_of_N. split; [lia|]. unfold propagateError. cbn [d_in]. rewrite G6. cbn [d_in]. apply trunc_eof; auto. }
  destruct G4 as [G4 [G5 G6]]. destruct (out14 i1 G5) as [Ha [Hb [Hc EO]]]. rewrite EO in G6. clear EO.
  set (a := N.land out 0x1f) in *. set (b := N.land (N.shiftr out 5) 0x1f) in *. set (c := N.land (N.shiftr out 10) 0x0f) in *. clearbody a b c.
  cbn zeta.
  (* zombie or not *)
  assert (Z : exists d0, (if logicalNumDCodes <? 1 + N.to_nat b then corruptf (if logicalNumLLCodes <? 257 + N.to_nat a then corruptf (DST i1 (d_out d)) CHlit else DST i1 (d_out d)) CHdist
      else if logicalNumLLCodes <? 257 + N.to_nat a then corruptf (DST i1 (d_out d)) CHlit else DST i1 (d_out d)) = d0 /\ d_in d0 = i1 /\ ook (d_out d0) /\
      ((a <= 29)%N /\ (b <= 29)%N /\ d_out d0 = d_out d \/
       exists e, bad d d0 [] e true /\ forall x w r t, TreesP w t -> av (d_in d) ++ x <> w ++ r)).
  { eexists; split; [reflexivity|]. unfold logicalNumLLCodes, logicalNumDCodes.
    assert (NT : (29 < a \/ 29 < b)%N -> forall x w r t, TreesP w t -> av (d_in d) ++ x <> w ++ r).
    { intros AB x w r t P EA. rewrite G6 in EA. destruct (trees_head Ha Hb Hc P EA) as [vs [lls [ds [wc [HF _]]]]].
      destruct HF as [F1 [F2 _]]. lia. }
    assert (BD : forall cc d0, (cc = CHlit \/ cc = CHdist) -> d_in d0 = i1 -> ow (closeWithError (d_out d) (corr i1 cc)) (d_out d0) -> bad d d0 [] (corr i1 cc) true).
    { intros cc d0 HC ED W. split; [rewrite ED; auto|]. split; auto. split; [left; red; unfold corr; eauto|]. exists (d_out d). split; auto. split; auto.
      unfold corr. eauto 8. }
    assert (OC : forall e, ook (closeWithError (d_out d) e)) by (intros; apply ook_close; auto).
    destruct (Nat.ltb_spec 286 (257 + N.to_nat a)), (Nat.ltb_spec 30 (1 + N.to_nat b)); cbn [corruptf d_in d_out]; (split; [reflexivity|]).
    - split; [apply ook_close, OC|]. right. exists (corr i1 CHlit). split; [|apply NT; lia]. apply BD; auto. cbn [d_out]. apply ow_close. apply OC.
    - split; [apply OC|]. right. exists (corr i1 CHlit). split; [|apply NT; lia]. apply BD; auto. cbn [d_out]. apply ow_refl. apply OC.
    - split; [apply OC|]. right. exists (corr i1 CHdist). split; [|apply NT; lia]. apply BD; auto. cbn [d_out]. apply ow_refl. apply OC.
    - split; auto. left. repeat split; auto; lia. }
  destruct Z as [d0 [-> [ED0 [HO0 Z]]]]. rewrite ED0.
  (* the common conclusions *)
  assert (DF : forall d' e, dfail d0 d' [] e -> FailP TreesP (av (d_in d)) (d_in d') (i_end (d_in d)) e ->
     exists e z, bad d d' [] e z /\ FailP TreesP (av (d_in d)) (d_in d') (i_end (d_in d)) e).
  { intros d' e F P. destruct Z as [[_ [_ EO]]|[e0 [Z1 Z2]]].
    - exists e, false. split; auto. apply bad_dfail; auto. change (@nil N) with ([] ++ @nil N). eapply dfail_trans; [..|exact F]; auto.
      + rewrite ED0. auto.
      + rewrite EO. auto.
    - exists e0, true. split; [|intros x w r t P0 EA; exfalso; eapply Z2; eauto]. eapply bad_more; eauto; [apply F|]. eapply ow_dfail; eauto. }
  assert (O00 : oext (d_out d0) (d_out d0) []) by (apply oext_refl_; auto).
  assert (X00 : irel (d_in d0) i1) by (rewrite ED0; apply irel_refl; auto).
  assert (LX : length (firstn (4 + N.to_nat c) scramble) = 4 + N.to_nat c) by (apply length_firstn_cl; lia).
  destruct (readXSizes_spec (firstn (4 + N.to_nat c) scramble) (repeat 0 19) K1 G3 G4) as [i2 [sX [E2 [X2 R2]]]]. rewrite E2. cbn [rbind].
  rewrite LX in R2. pose proof (irel_end G2) as EN1.
  pose proof (irel_iok K1 X2) as K2. assert (X2' : irel (d_in d0) i2) by (rewrite ED0; auto).
  destruct sX as [sX|].
  2:{ eexists; exists None; split; [reflexivity|]. destruct R2 as [R2 [R3 R4]].
    apply (DF _ (eof_is_error (i_end (d_in d0)))).
    - apply dfail_propagate; auto; rewrite ED0; auto.
    - rewrite ED0, EN1. rewrite EN1 in R4. intros x w r t P EA. rewrite G6 in EA. destruct (trees_head Ha Hb Hc P EA) as [vs [lls [ds [wc [HF EB]]]]].
      destruct HF as [F1 [F2 [_ [F4 [F5 [_ [_ [_ [_ [_ [_ [_ [_ F14]]]]]]]]]]]]]. rewrite G6, F14, !app_length, length_bits3. split; [lia|].
      unfold propagateError. cbn [d_in]. rewrite R4. cbn [d_in]. apply trunc_eof; auto. }
  destruct R2 as [B2 [L2 [vs [V1 [V2 [V3 A2]]]]]]. change (set_all (firstn (4 + N.to_nat c) scramble) vs (repeat 0 19)) with (xcode c vs) in V3. subst sX.
  destruct (@xcode_ok c vs V2) as [XO1 XO2]. pose proof (@sizes_le_weak 7 15 _ ltac:(lia) XO1) as XO3.
  assert (PX : forall x w r t, TreesP w t -> av (d_in d) ++ x = w ++ r -> exists lls ds wc,
     TreesForm racc (fst t) (snd t) w a b c vs lls ds wc /\ av i2 ++ x = wc ++ r).
  { intros x w r t P EA. rewrite G6 in EA. destruct (trees_head Ha Hb Hc P EA) as [vs' [lls [ds [wc [HF EB]]]]]. pose proof HF as HF0.
    destruct HF as [F1 [F2 [_ [F4 [F5 [_ [_ [_ [_ [_ [_ [_ [_ F14]]]]]]]]]]]]]. rewrite A2, <- app_assoc in EB. apply bits3_inj in EB; auto; [|lia].
    destruct EB as [<- EB]. exists lls, ds, wc. auto. }
  assert (LA2 : length (av i2) <= length (av (d_in d))) by (rewrite G6, A2, !app_length; lia).
  destruct (e_acc env (xcode c vs)) eqn:EAX; cbn [negb].
  2:{ eexists; exists None; split; [reflexivity|]. apply (DF _ (corr i2 CInitX)); [apply dfail_corrupt; auto; rewrite ED0; auto|].
    intros x w r t P EA. exfalso. destruct (PX _ _ _ _ P EA) as [lls [ds [wc [[_ [_ [_ [_ [_ [F6 _]]]]]] _]]]]. unfold PDecode.racc in F6. congruence. }
  pose proof (rl_acc_sound Hlib XO3 EAX) as XK.
  set (total := 257 + N.to_nat a + (1 + N.to_nat b)). change (S (257 + N.to_nat a + (1 + N.to_nat b))) with (S total).
  assert (HS0 : sizes_le 15 []) by constructor.
  destruct (@lengthsLoop_spec _ XO3 XK XO2 total (S total) (DST i2 (d_out d0)) []) as [d3 [comb [E3 R3]]]; auto; [cbn; lia|cbn; lia|].
  rewrite E3. cbn [rbind]. cbn [d_in d_out] in R3. pose proof (irel_end X2) as EN2. destruct comb as [comb|].
  2:{ eexists; exists None; split; [reflexivity|]. destruct R3 as [e [R3 R4]]. rewrite EN2, EN1 in R4. apply (DF _ e).
    - change (@nil N) with ([] ++ @nil N). eapply dfail_trans; [..|exact R3]; auto; rewrite ED0; auto.
    - intros x w r t P EA. destruct (PX _ _ _ _ P EA) as [lls [ds [wc [HF EB]]]]. destruct HF as [_ [_ [_ [F4 [_ [_ [F7 [F8 [F9 [_ [_ [_ [_ F14]]]]]]]]]]]]].
      destruct (R4 x wc r (lls ++ ds)) as [Z1 Z2]; auto. { split; auto. rewrite app_length. cbn. lia. }
      split; auto. rewrite G6, A2, F14, !app_length, !length_bits_of_N. lia. }
  destruct R3 as [X3 [B3 [L3 [O3 [S3 [w3 [out3 [-> [[C3 T3] A3]]]]]]]]]. cbn [app] in *. cbn [length Nat.add] in T3.
  assert (X3' : irel (d_in d0) (d_in d3)) by (rewrite ED0; exact (irel_trans K1 X2 X3)).
  assert (LA3 : length (av (d_in d3)) <= length (av (d_in d))) by (rewrite A3, app_length in LA2; lia).
  set (sLL := firstn (257 + N.to_nat a) out3 ++ repeat 0 (physicalNumLLCodes - (257 + N.to_nat a))).
  set (sD := skipn (257 + N.to_nat a) out3 ++ repeat 0 (physicalNumDCodes - (1 + N.to_nat b))).
  assert (LL1 : length (firstn (257 + N.to_nat a) out3) = 257 + N.to_nat a) by (rewrite firstn_length_le; auto; lia).
  assert (LD1 : length (skipn (257 + N.to_nat a) out3) = 1 + N.to_nat b) by (rewrite skipn_length; lia).
  assert (S00 : forall n, sizes_le 15 (repeat 0 n)) by (intros n; apply Forall_forall; intros y Hy; apply repeat_spec in Hy; lia).
  assert (SPL : sizes_le 15 (firstn (257 + N.to_nat a) out3) /\ sizes_le 15 (skipn (257 + N.to_nat a) out3)).
  { rewrite <- (firstn_skipn (257 + N.to_nat a) out3) in S3. apply Forall_app in S3. auto. }
  assert (SLL : sizes_le 15 sLL) by (apply Forall_app; split; [apply SPL|apply S00]).
  assert (SD : sizes_le 15 sD) by (apply Forall_app; split; [apply SPL|apply S00]).
  assert (PC : forall x w r t, TreesP w t -> av (d_in d) ++ x = w ++ r -> fst t = sLL /\ snd t = sD /\ racc sLL /\ racc sD).
  { intros x w r t P EA. destruct (PX _ _ _ _ P EA) as [lls [ds [wc [HF EB]]]]. destruct HF as [_ [_ [_ [F4 [_ [_ [F7 [F8 [F9 [F10 [F11 [F12 [F13 F14]]]]]]]]]]]]].
    rewrite A3, <- app_assoc in EB. destruct (@cl_inj _ XO3 XK _ _ _ C3 _ _ (av (d_in d3) ++ x) r F9) as [Q1 [Q2 Q3]]; auto; [rewrite app_length; lia|].
    assert (Q4 : lls = firstn (257 + N.to_nat a) out3 /\ ds = skipn (257 + N.to_nat a) out3).
    { rewrite Q1, <- F7. rewrite firstn_app, skipn_app, Nat.sub_diag, firstn_all, skipn_all. cbn. rewrite app_nil_r. auto. }
    destruct Q4 as [-> ->]. rewrite LL1 in F10. rewrite LD1 in F11. unfold sLL, sD, physicalNumLLCodes, physicalNumDCodes. rewrite <- F10, <- F11. auto. }
  assert (DC : forall cc, dfail d0 (corruptf d3 cc) [] (corr (d_in d3) cc)).
  { intros cc. destruct d3 as [i3 o3]. cbn [d_in d_out] in *. subst o3. apply dfail_corrupt; auto. rewrite ED0; auto. }
  destruct (e_acc env sLL) eqn:EL; cbn [negb].
  2:{ eexists; exists None; split; [reflexivity|]. eapply DF; [apply DC|]. intros x w r t P EA. exfalso. destruct (PC _ _ _ _ P EA) as [_ [_ [Q1 Q2]]]. unfold PDecode.racc in *. congruence. }
  destruct (e_acc env sD) eqn:EDD; cbn [negb].
  2:{ eexists; exists None; split; [reflexivity|]. eapply DF; [apply DC|]. intros x w r t P EA. exfalso. destruct (PC _ _ _ _ P EA) as [_ [_ [Q1 Q2]]]. unfold PDecode.racc in *. congruence. }
  eexists; eexists; split; [reflexivity|]. cbn [t_lls t_ds]. split; [rewrite ED0 in X3'; exact (irel_trans H G2 X3')|]. split; auto. split; auto. split; auto.
  split; auto. split; auto. split; auto. split; auto. destruct Z as [[Z1 [Z2 Z3]]|[e [Z1 Z2]]].
  - left. split; [congruence|]. exists (bits_of_N 5 a ++ bits_of_N 5 b ++ bits_of_N 4 c ++ bits3 vs ++ w3). split.
    + apply trees_at with (lls := firstn (257 + N.to_nat a) out3) (ds := skipn (257 + N.to_nat a) out3) (wc := w3).
      unfold TreesForm. rewrite firstn_skipn, LL1, LD1. unfold PDecode.racc. repeat (split; [solve [auto|lia]|]). auto.
    + rewrite G6, A2, A3, <- !app_assoc. auto.
  - right. exists e. split; auto. eapply bad_more; eauto. rewrite O3. apply ow_refl. auto.
Qed.
Lemma bad_ow d d' p e z : ook (d_out d) -> bad d d' p e z -> ow (d_out d) (d_out d').
Proof.
  intros H [_ [B [_ [o1 [X [W _]]]]]]. eapply ow_trans; [eapply ow_oext; eauto|]. eapply ow_trans; [apply ow_close|exact W].
  eapply oext_ook; eauto.
Qed.

(** ** Determinism of the trees *)
Lemma cl_sizes x done out w : ClEnc x done out w -> sizes_le 15 done -> sizes_le 15 out.
Proof.
  induction 1 as [done|done n w out ws H1 H2 H3 IH|done p e w out ws H1 H2 H3 IH|done e w out ws H1 H2 H3 IH|done e w out ws H1 H2 H3 IH]; intros HS.
  - constructor.
  - constructor; [lia|]. apply IH. apply Forall_app. split; auto. constructor; [lia|constructor].
  - assert (R : forall k, sizes_le 15 (repeat p k)).
    { intros k. apply Forall_forall. intros y Hy. apply repeat_spec in Hy. subst y. unfold sizes_le in HS. rewrite Forall_forall in HS. apply HS. apply in_or_app. right. left. auto. }
    apply Forall_app. split; [apply R|]. apply IH. apply Forall_app. split; auto. apply R.
  - assert (R : forall k, sizes_le 15 (repeat 0 k)) by (intros k; apply Forall_forall; intros y Hy; apply repeat_spec in Hy; lia).
    apply Forall_app. split; [apply R|]. apply IH. apply Forall_app. split; auto. apply R.
  - assert (R : forall k, sizes_le 15 (repeat 0 k)) by (intros k; apply Forall_forall; intros y Hy; apply repeat_spec in Hy; lia).
    apply Forall_app. split; [apply R|]. apply IH. apply Forall_app. split; auto. apply R.
Qed.
Lemma trees_sizes ll d w : DynTrees racc ll d w -> sizes_le 15 ll /\ sizes_le 15 d /\ not_oversubscribed ll /\ not_oversubscribed d.
Proof.
  intros H. apply trees_form in H. destruct H as [a [b [c [vs [lls [ds [wc [F1 [F2 [F3 [F4 [F5 [F6 [F7 [F8 [F9 [F10 [F11 [F12 [F13 F14]]]]]]]]]]]]]]]]]]]].
  apply cl_sizes in F9; [|constructor]. apply Forall_app in F9. destruct F9 as [G1 G2].
  assert (R : forall k, sizes_le 15 (repeat 0 k)) by (intros k; apply Forall_forall; intros y Hy; apply repeat_spec in Hy; lia).
  assert (S1 : sizes_le 15 ll) by (subst ll; apply Forall_app; split; [exact G1|apply R]).
  assert (S2 : sizes_le 15 d) by (subst d; apply Forall_app; split; [exact G2|apply R]).
  split; auto. split; auto. split; apply (rl_acc_sound Hlib); auto.
Qed.
Lemma trees_inj ll1 d1 w1 r1 ll2 d2 w2 r2 : DynTrees racc ll1 d1 w1 -> DynTrees racc ll2 d2 w2 -> w1 ++ r1 = w2 ++ r2 ->
  ll1 = ll2 /\ d1 = d2 /\ w1 = w2 /\ r1 = r2.
Proof.
  intros H1 H2 E. apply trees_form in H1.
  destruct H1 as [a [b [c [vs [lls [ds [wc [F1 [F2 [F3 [F4 [F5 [F6 [F7 [F8 [F9 [F10 [F11 [F12 [F13 F14]]]]]]]]]]]]]]]]]]]]. pose proof E as E0.
  rewrite F14 in E. assert (Ha : (a < 32)%N) by lia. assert (Hb : (b < 32)%N) by lia.
  destruct (trees_head Ha Hb F3 H2 E) as [vs' [lls' [ds' [wc' [[_ [_ [_ [G4 [G5 [_ [G7 [G8 [G9 [G10 [G11 [G12 [G13 G14]]]]]]]]]]]]] EB]]]]].
  rewrite <- app_assoc in EB. apply bits3_inj in EB; auto; [|lia]. destruct EB as [<- EB].
  destruct (@xcode_ok c vs F5) as [XO1 XO2]. pose proof (@sizes_le_weak 7 15 _ ltac:(lia) XO1) as XO3.
  pose proof (rl_acc_sound Hlib XO3 F6) as XK.
  destruct (@cl_inj _ XO3 XK _ _ _ F9 _ _ r1 r2 G9 ltac:(rewrite !app_length; lia) EB) as [Q1 [-> ->]].
  apply app_inj_length in Q1; [|lia]. destruct Q1 as [-> ->]. subst. auto.
Qed.
End Dyn.
