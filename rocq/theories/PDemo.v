(** The demo environment meets the contracts assumed of the libraries, so the
    hypotheses of the Writer theorems can be met. *)
From Verif Require Import Base SpecHuffman MToken MCommon MWriter MReader SpecLib Demo PBits PHuffman.

Definition nz (freqs : list N) : nat := length (filter (fun f => negb (f =? 0)%N) freqs).

Lemma flat_len freqs : forall s m, length (flat_assign freqs s m) = length freqs.
Proof. induction freqs as [|f r IH]; intros s m; cbn; auto. destruct (f =? 0)%N; [|destruct s]; cbn; auto. Qed.
Lemma flat_le freqs : forall s m, sizes_le (S m) (flat_assign freqs s m).
Proof.
  unfold sizes_le. induction freqs as [|f r IH]; intros s m; cbn [flat_assign]; [constructor|].
  destruct (f =? 0)%N; [|destruct s]; constructor; auto; lia.
Qed.
Lemma flat_zero freqs : forall s m i, 0 < m -> i < length freqs -> (nth i freqs 0%N = 0%N <-> nth i (flat_assign freqs s m) 0 = 0).
Proof.
  induction freqs as [|f r IH]; intros s m i Hm Hi; cbn [length] in Hi; [lia|]. cbn [flat_assign].
  destruct (N.eqb_spec f 0) as [->|Hf]; [destruct i; cbn [nth]; [tauto|apply IH; lia]|].
  destruct s; destruct i; cbn [nth]; try (apply IH; lia); split; intros; lia.
Qed.
Lemma flat_kraft freqs : forall s m, 0 < m -> m < 15 ->
  kraft (flat_assign freqs s m) = (2 ^ N.of_nat (14 - m) * N.of_nat (nz freqs + Nat.min s (nz freqs)))%N.
Proof.
  unfold nz. induction freqs as [|f r IH]; intros s m H1 H2; cbn [flat_assign filter length].
  - rewrite Nat.min_0_r. cbn. lia.
  - destruct (N.eqb_spec f 0) as [->|Hf]; cbn [negb length].
    + unfold kraft. cbn [fold_right]. fold (kraft (flat_assign r s m)). rewrite IH by auto. cbn [Nat.eqb]. lia.
    + set (k := length _) in *.
      assert (E : (2 ^ N.of_nat (15 - m) = 2 * 2 ^ N.of_nat (14 - m))%N).
      { replace (15 - m) with (S (14 - m)) by lia. rewrite Nat2N.inj_succ, N.pow_succ_r'. reflexivity. }
      destruct s as [|s]; unfold kraft; cbn [fold_right].
      * fold (kraft (flat_assign r 0 m)). rewrite IH by auto. fold k. cbn [Nat.eqb Nat.min].
        replace (15 - S m) with (14 - m) by lia. lia.
      * fold (kraft (flat_assign r s m)). rewrite IH by auto. fold k. destruct (Nat.eqb_spec m 0); [lia|].
        rewrite E. cbn [Nat.min]. lia.
Qed.

Lemma map_kraft freqs : used_symbols (map (fun f => if (f =? 0)%N then 0 else 1) freqs) = nz freqs.
Proof. unfold used_symbols, nz. induction freqs as [|f r IH]; cbn; auto. destruct (f =? 0)%N; cbn; auto. Qed.

Lemma filter_len_le {A} (f : A -> bool) l : length (filter f l) <= length l.
Proof. induction l as [|x l IH]; cbn; auto. destruct (f x); cbn; lia. Qed.

Lemma flat_huff_ok n freqs : n <= 288 -> length freqs = n -> huff_sizes_ok (if Nat.eqb n 19 then 7 else 15) freqs (flat_huff n freqs).
Proof.
  intros Hn Hl. unfold flat_huff. fold (nz freqs).
  assert (Hk : nz freqs <= n) by (unfold nz; rewrite filter_len_le; lia).
  assert (G : exists mx, (if Nat.eqb n 19 then 7 else 15) = mx /\ 7 <= mx <= 15 /\ (n = 19 \/ mx = 15)).
  { destruct (Nat.eqb_spec n 19); [exists 7|exists 15]; lia. }
  destruct G as [mx [-> [G1 G2]]].
  destruct (Nat.leb_spec (nz freqs) 1) as [H|H].
  - split; [apply map_length|].
    assert (S1 : sizes_le 1 (map (fun f => if (f =? 0)%N then 0 else 1) freqs)).
    { apply Forall_forall. intros x Hx. apply in_map_iff in Hx. destruct Hx as [f [<- _]]. destruct (f =? 0)%N; lia. }
    split; [eapply Forall_impl; [|exact S1]; cbn; intros; lia|]. split.
    + split; [eapply Forall_impl; [|exact S1]; cbn; intros; lia|]. rewrite map_kraft.
      destruct (nz freqs) as [|[|k]]; [auto|auto|lia].
    + intros i Hi. assert (E : nth i (map (fun f => if (f =? 0)%N then 0 else 1) freqs) 0 = if (nth i freqs 0 =? 0)%N then 0 else 1).
      { change 0 with ((fun f => if (f =? 0)%N then 0 else 1) 0%N) at 3. apply map_nth. }
      rewrite E. destruct (N.eqb_spec (nth i freqs 0%N) 0); split; intros; auto; lia.
  - set (k := nz freqs) in *. set (m := Nat.log2 k).
    assert (Lg : 2 ^ m <= k < 2 ^ S m) by (apply Nat.log2_spec; lia).
    assert (Hm0 : 0 < m) by (apply Nat.log2_pos; lia).
    assert (Hm : m <= 8).
    { destruct (Nat.le_gt_cases m 8); auto. exfalso. assert (2 ^ 9 <= 2 ^ m) by (apply Nat.pow_le_mono_r; lia).
      change (2 ^ 9) with 512 in H1. lia. }
    assert (Hm' : n = 19 -> m <= 4).
    { intros ->. destruct (Nat.le_gt_cases m 4); auto. exfalso. assert (2 ^ 5 <= 2 ^ m) by (apply Nat.pow_le_mono_r; lia).
      change (2 ^ 5) with 32 in H1. lia. }
    split; [apply flat_len|].
    assert (S1 : sizes_le (S m) (flat_assign freqs (2 ^ S m - k) m)) by apply flat_le.
    split; [eapply Forall_impl; [|exact S1]; cbn; intros; lia|]. split.
    + split; [eapply Forall_impl; [|exact S1]; cbn; intros; lia|]. left. unfold complete_code.
      rewrite flat_kraft by lia. fold k.
      assert (EP : k + Nat.min (2 ^ S m - k) k = 2 * 2 ^ m).
      { destruct Lg as [L1 L2]. rewrite Nat.pow_succ_r' in *. revert L1 L2. generalize (2 ^ m). clear. clearbody k. intros. lia. }
      rewrite EP. replace (N.of_nat (2 * 2 ^ m)) with (2 ^ N.of_nat (S m))%N.
      * rewrite <- N.pow_add_r. replace (N.of_nat (14 - m) + N.of_nat (S m))%N with 15%N by lia. reflexivity.
      * rewrite Nat2N.inj_mul, Nat2N.inj_pow, Nat2N.inj_succ, N.pow_succ_r'. reflexivity.
    + intros i Hi. apply flat_zero; auto.
Qed.

(** match finder *)
Lemma common_le : forall buf n hist d, common hist buf d n <= n /\ common hist buf d n <= length buf.
Proof.
  induction buf as [|c buf IH]; intros n hist d; destruct n as [|n]; cbn [common]; try (split; apply Nat.le_0_l).
  destruct (nth_error hist (d - 1)) as [x|]; [|split; apply Nat.le_0_l]. destruct (c =? x)%N; [|split; apply Nat.le_0_l]. cbn [length].
  destruct (IH n (c :: hist) d). lia.
Qed.
Lemma common_ok : forall buf n hist d i, i < common hist buf d n ->
  nth_error (rev (firstn i buf) ++ hist) (d - 1) = nth_error buf i.
Proof.
  induction buf as [|c buf IH]; intros n hist d i Hi; destruct n as [|n]; cbn [common] in Hi; try (cbn in Hi; lia).
  destruct (nth_error hist (d - 1)) as [x|] eqn:E; [|lia]. destruct (N.eqb_spec c x) as [->|]; [|lia].
  destruct i as [|i]; [exact E|]. cbn [firstn rev nth_error]. rewrite <- app_assoc. apply (IH n (x :: hist)). lia.
Qed.
Lemma search_ok hist buf o : forall ds d len, search hist buf o ds = Some (d, len) -> Forall (fun x => 1 <= x) ds ->
  exists dn, In dn ds /\ d = N.of_nat dn /\ len = N.of_nat (common hist buf dn (N.to_nat (lz_maxlen o))) /\
   ((3 <=? len) && (lz_minlen o <=? len) && (N.of_nat dn <=? 2 ^ lz_winbits o) &&
        (match lz_maxdist o with Some m => N.of_nat dn <=? m | None => true end))%N%bool = true.
Proof.
  induction ds as [|x r IH]; intros d len; cbn [search]; [discriminate|].
  set (n := N.of_nat (common _ _ _ _)).
  destruct ((3 <=? n) && (lz_minlen o <=? n) && (N.of_nat x <=? 2 ^ lz_winbits o) && _)%N%bool eqn:E.
  - intros [= <- <-] _. exists x. split; [left; auto|]. auto.
  - intros H HF. inversion HF; subst. destruct (IH _ _ H H3) as [dn [H4 H5]]. exists dn. split; [right; auto|]. auto.
Qed.

Lemma demo_lib_ok : lib_ok demo_wenv.
Proof.
  constructor.
  - right. reflexivity.
  - intros n freq Hn Hl. apply flat_huff_ok; auto.
  - intros calls o hist buf d len E. cbn in E. unfold demo_match in E.
    assert (HF : Forall (fun x => 1 <= x) (seq 1 (Nat.min 64 (length hist)))).
    { apply Forall_forall. intros x Hx. apply in_seq in Hx. lia. }
    destruct (search_ok E HF) as [dn [H1 [-> [-> H2]]]].
    apply in_seq in H1. destruct (common_le buf (N.to_nat (lz_maxlen o)) hist dn) as [C1 C2].
    unfold lenN. split; [lia|]. split; [lia|]. split; [lia|]. split; [destruct (lz_maxdist o); lia|].
    intros i Hi. replace (N.to_nat (N.of_nat dn - 1)) with (dn - 1) by lia. apply (@common_ok buf (N.to_nat (lz_maxlen o))). lia.
Qed.
