(** Canonical Huffman codes are prefix free; correctness of the table decoder. *)
From Verif Require Import Base SpecHuffman SpecDeflate MToken.

Lemma bl_count_cons x l b : 0 < b ->
  bl_count (x :: l) b = ((if Nat.eqb b x then 1 else 0) + bl_count l b)%N.
Proof.
  intros Hb. destruct b as [|b]; [lia|]. unfold bl_count, lenN. cbn [filter].
  destruct (Nat.eqb (S b) x); cbn [length]; lia.
Qed.

Definition contrib (x b : nat) : N :=
  if (0 <? x) && (x <? b) then (2 ^ N.of_nat (b - x))%N else 0%N.

Lemma next_code_cons x l b : next_code (x :: l) b = (contrib x b + next_code l b)%N.
Proof.
  induction b as [|b IH].
  - cbn [next_code]. unfold contrib. destruct x; reflexivity.
  - cbn [next_code]. rewrite IH.
    destruct b as [|b].
    + cbn [bl_count next_code]. unfold contrib.
      destruct (Nat.ltb_spec 0 x), (Nat.ltb_spec x 1), (Nat.ltb_spec x 0); cbn [andb]; lia.
    + rewrite bl_count_cons by lia. unfold contrib.
      destruct (Nat.ltb_spec 0 x), (Nat.ltb_spec x (S b)), (Nat.ltb_spec x (S (S b))),
        (Nat.eqb_spec (S b) x); cbn [andb]; try lia.
      * replace (N.of_nat (S (S b) - x)) with (N.succ (N.of_nat (S b - x))) by lia.
        rewrite N.pow_succ_r'. lia.
      * subst x. replace (S (S b) - S b) with 1 by lia. change (2 ^ N.of_nat 1)%N with 2%N. lia.
Qed.

Lemma next_code_nil b : next_code [] b = 0%N.
Proof. induction b as [|b IH]; auto. cbn [next_code]. rewrite IH. destruct b; reflexivity. Qed.

(** Kraft sum in terms of the first unused code value *)
Lemma kraft_next sizes : sizes_le 15 sizes -> kraft sizes = (next_code sizes 15 + bl_count sizes 15)%N.
Proof.
  induction sizes as [|x l IH]; intros H.
  - rewrite next_code_nil. reflexivity.
  - inversion H as [|? ? Hx Hl]; subst. cbn [kraft fold_right]. fold (kraft l).
    rewrite (IH Hl), next_code_cons, bl_count_cons by lia. unfold contrib.
    destruct (Nat.eqb_spec x 0) as [->|Hx0].
    + cbn [Nat.ltb Nat.leb andb]. change (15 =? 0) with false. cbn [negb]. lia.
    + destruct (Nat.ltb_spec 0 x); [|lia]. cbn [andb].
      destruct (Nat.ltb_spec x 15), (Nat.eqb_spec 15 x); try lia.
      subst x. change (2 ^ N.of_nat (15 - 15))%N with 1%N. lia.
Qed.

Lemma next_code_mono sizes a b : a < b ->
  (2 ^ N.of_nat (b - a) * (next_code sizes a + bl_count sizes a) <= next_code sizes b)%N.
Proof.
  induction b as [|b IH]; intros H; [lia|].
  cbn [next_code].
  destruct (Nat.eq_dec a b) as [->|Hne].
  - replace (S b - b) with 1 by lia. change (2 ^ N.of_nat 1)%N with 2%N. lia.
  - assert (Hab : a < b) by lia. specialize (IH Hab).
    replace (N.of_nat (S b - a)) with (N.succ (N.of_nat (b - a))) by lia.
    rewrite N.pow_succ_r'. lia.
Qed.

Lemma code_room sizes b : sizes_le 15 sizes -> not_oversubscribed sizes -> b <= 15 ->
  (next_code sizes b + bl_count sizes b <= 2 ^ N.of_nat b)%N.
Proof.
  intros Hs Hk Hb. unfold not_oversubscribed in Hk. rewrite kraft_next in Hk by auto.
  destruct (Nat.eq_dec b 15) as [->|Hne].
  - change (2 ^ N.of_nat 15)%N with 32768%N. lia.
  - assert (Hb' : b < 15) by lia. pose proof (@next_code_mono sizes b 15 Hb') as Hm.
    assert (E : (2 ^ N.of_nat 15 = 2 ^ N.of_nat (15 - b) * 2 ^ N.of_nat b)%N).
    { rewrite <- N.pow_add_r. f_equal. lia. }
    change (2 ^ N.of_nat 15)%N with 32768%N in E.
    assert (Hp : (0 < 2 ^ N.of_nat (15 - b))%N) by (apply N.neq_0_lt_0, N.pow_nonzero; lia).
    apply (N.mul_le_mono_pos_l _ _ (2 ^ N.of_nat (15 - b))); lia.
Qed.

(** ** Ranks *)
Definition rank (sizes : list nat) (s : N) : N :=
  lenN (filter (Nat.eqb (code_size sizes s)) (firstn (N.to_nat s) sizes)).

Lemma code_value_rank sizes s : code_value sizes s = (next_code sizes (code_size sizes s) + rank sizes s)%N.
Proof. reflexivity. Qed.

Lemma filter_firstn_lt (l : list nat) b n m :
  n < m -> n < length l -> nth n l 0 = b ->
  length (filter (Nat.eqb b) (firstn n l)) < length (filter (Nat.eqb b) (firstn m l)).
Proof.
  revert n m; induction l as [|x l IH]; intros n m Hnm Hl Hn; simpl in Hl; [lia|].
  destruct m as [|m]; [lia|]. destruct n as [|n]; cbn [firstn filter nth] in *.
  - subst x. rewrite Nat.eqb_refl. cbn [length]. lia.
  - specialize (IH n m). destruct (Nat.eqb b x); cbn [length]; lia.
Qed.

Lemma code_size_lt sizes s : 0 < code_size sizes s -> N.to_nat s < length sizes.
Proof.
  unfold code_size. intros H.
  destruct (le_lt_dec (length sizes) (N.to_nat s)); auto.
  rewrite nth_overflow in H; lia.
Qed.

Lemma code_size_le m sizes s : sizes_le m sizes -> code_size sizes s <= m.
Proof.
  unfold code_size, sizes_le. intros H.
  destruct (le_lt_dec (length sizes) (N.to_nat s)).
  - rewrite nth_overflow; lia.
  - rewrite Forall_forall in H. apply H. apply nth_In. auto.
Qed.

Lemma rank_lt sizes s : 0 < code_size sizes s -> (rank sizes s < bl_count sizes (code_size sizes s))%N.
Proof.
  intros H. pose proof (code_size_lt H) as Hl.
  unfold rank, bl_count, lenN. destruct (code_size sizes s) as [|b] eqn:E; [lia|].
  pose proof (@filter_firstn_lt sizes (S b) (N.to_nat s) (length sizes) Hl Hl E) as P.
  rewrite firstn_all in P. lia.
Qed.

Lemma rank_inj sizes s t : 0 < code_size sizes s -> code_size sizes s = code_size sizes t ->
  rank sizes s = rank sizes t -> s = t.
Proof.
  intros Hs He Hr. unfold rank, lenN in Hr. rewrite <- He in Hr.
  assert (Ht : 0 < code_size sizes t) by lia.
  pose proof (code_size_lt Hs) as Ls. pose proof (code_size_lt Ht) as Lt.
  destruct (N.lt_trichotomy s t) as [H|[H|H]]; auto; exfalso.
  - assert (Hn : N.to_nat s < N.to_nat t) by lia.
    pose proof (@filter_firstn_lt sizes (code_size sizes s) _ _ Hn Ls eq_refl). lia.
  - assert (Hn : N.to_nat t < N.to_nat s) by lia.
    assert (E : nth (N.to_nat t) sizes 0 = code_size sizes s) by (symmetry; exact He).
    pose proof (@filter_firstn_lt sizes (code_size sizes s) _ _ Hn Lt E). lia.
Qed.

Lemma code_value_lt sizes s : sizes_le 15 sizes -> not_oversubscribed sizes -> 0 < code_size sizes s ->
  (code_value sizes s < 2 ^ N.of_nat (code_size sizes s))%N.
Proof.
  intros Hs Hk H. rewrite code_value_rank.
  pose proof (rank_lt H). pose proof (@code_room sizes (code_size sizes s) Hs Hk (code_size_le _ Hs)). lia.
Qed.

Lemma length_codeword sizes s : length (codeword sizes s) = code_size sizes s.
Proof. unfold codeword. rewrite rev_length. apply length_bits_of_N. Qed.

(** ** Prefix freeness *)
Lemma prefix_rev_bits a c v p : length p = a ->
  rev (bits_of_N (c + a) v) = p ++ rev (bits_of_N c v) <-> p = rev (bits_of_N a (v / 2 ^ N.of_nat c)).
Proof.
  intros Hp. rewrite bits_of_N_app, rev_app_distr. split; intros H.
  - apply app_inj_length in H; [destruct H; auto|]. rewrite rev_length, length_bits_of_N. auto.
  - subst p. reflexivity.
Qed.

Lemma codeword_prefix_free sizes s t w :
  sizes_le 15 sizes -> not_oversubscribed sizes ->
  0 < code_size sizes s -> 0 < code_size sizes t ->
  codeword sizes t = codeword sizes s ++ w -> s = t.
Proof.
  intros Hs Hk H1 H2 HE.
  set (a := code_size sizes s) in *. set (b := code_size sizes t) in *.
  assert (HL : b = a + length w).
  { apply (f_equal (@length bool)) in HE. rewrite app_length, !length_codeword in HE. exact HE. }
  set (c := length w) in *.
  assert (Hval : code_value sizes s = (code_value sizes t / 2 ^ N.of_nat c)%N).
  { unfold codeword in HE. fold a b in HE. rewrite HL, (Nat.add_comm a c), bits_of_N_app, rev_app_distr in HE.
    apply app_inj_length in HE; [|rewrite !rev_length, !length_bits_of_N; reflexivity].
    destruct HE as [HE _]. apply (f_equal (@rev bool)) in HE. rewrite !rev_involutive in HE.
    apply (f_equal N_of_bits) in HE. rewrite !N_of_bits_of_N in HE.
    pose proof (code_value_lt Hs Hk H1) as L1. pose proof (code_value_lt Hs Hk H2) as L2.
    fold a in L1. fold b in L2.
    rewrite (N.mod_small (code_value sizes s)) in HE by auto.
    rewrite N.mod_small in HE; auto.
    apply N.div_lt_upper_bound; [apply N.pow_nonzero; lia|].
    rewrite <- N.pow_add_r. replace (N.of_nat c + N.of_nat a)%N with (N.of_nat b) by lia. auto. }
  destruct (Nat.eq_dec c 0) as [Hc|Hc].
  - assert (Hab : code_size sizes s = code_size sizes t) by (fold a b; lia).
    apply (@rank_inj sizes); auto.
    rewrite Hc in Hval. change (2 ^ N.of_nat 0)%N with 1%N in Hval. rewrite N.div_1_r in Hval.
    rewrite !code_value_rank in Hval. rewrite Hab in Hval. lia.
  - exfalso. assert (Hab : a < b) by lia.
    pose proof (@next_code_mono sizes a b Hab) as Hm. replace (b - a) with c in Hm by lia.
    pose proof (rank_lt H1) as Hr. fold a in Hr.
    assert (Hge : (next_code sizes a + bl_count sizes a <= code_value sizes t / 2 ^ N.of_nat c)%N).
    { apply N.div_le_lower_bound; [apply N.pow_nonzero; lia|].
      rewrite code_value_rank. fold b. lia. }
    rewrite <- Hval, code_value_rank in Hge. fold a in Hge. lia.
Qed.

Lemma codeword_unique sizes s t w1 w2 :
  sizes_le 15 sizes -> not_oversubscribed sizes ->
  0 < code_size sizes s -> 0 < code_size sizes t ->
  codeword sizes s ++ w1 = codeword sizes t ++ w2 -> s = t.
Proof.
  intros Hs Hk H1 H2 HE.
  destruct (le_lt_dec (length (codeword sizes s)) (length (codeword sizes t))) as [L|L].
  - apply (@codeword_prefix_free sizes s t (skipn (length (codeword sizes s)) (codeword sizes t))); auto.
    assert (E : firstn (length (codeword sizes s)) (codeword sizes t) = codeword sizes s).
    { apply (f_equal (firstn (length (codeword sizes s)))) in HE.
      rewrite !firstn_app, firstn_all, Nat.sub_diag in HE. cbn [firstn] in HE. rewrite app_nil_r in HE.
      replace (length (codeword sizes s) - length (codeword sizes t)) with 0 in HE by lia.
      cbn [firstn] in HE. rewrite app_nil_r in HE. auto. }
    rewrite <- E at 1. rewrite firstn_skipn. reflexivity.
  - symmetry. apply (@codeword_prefix_free sizes t s (skipn (length (codeword sizes t)) (codeword sizes s))); auto.
    assert (E : firstn (length (codeword sizes t)) (codeword sizes s) = codeword sizes t).
    { apply (f_equal (firstn (length (codeword sizes t)))) in HE.
      rewrite !firstn_app, firstn_all, Nat.sub_diag in HE. cbn [firstn] in HE. rewrite app_nil_r in HE.
      replace (length (codeword sizes t) - length (codeword sizes s)) with 0 in HE by lia.
      cbn [firstn] in HE. rewrite app_nil_r in HE. auto. }
    rewrite <- E at 1. rewrite firstn_skipn. reflexivity.
Qed.

(** ** The decoder *)
Lemma is_prefix_spec p l : is_prefix p l = true <-> exists t, l = p ++ t.
Proof.
  revert l; induction p as [|a p IH]; intros l; simpl.
  - split; eauto.
  - destruct l as [|b l].
    + split; [discriminate|]. intros [t Ht]. discriminate.
    + rewrite andb_true_iff, IH. split.
      * intros [H [t ->]]. apply eqb_prop in H. subst. eauto.
      * intros [t H]. inversion H; subst. split; [apply eqb_reflx|eauto].
Qed.

Lemma in_dec_table sizes s w : In (s, w) (dec_table (mk_decoder sizes)) <-> HasCode sizes s w.
Proof.
  unfold mk_decoder, HasCode; cbn [dec_table]. rewrite in_map_iff. split.
  - intros [i [Hi Hin]]. inversion Hi; subst. apply filter_In in Hin. destruct Hin as [Hin Hn].
    unfold code_size. rewrite Nat2N.id. split; auto. destruct (Nat.eqb_spec (nth i sizes 0) 0); [discriminate|lia].
  - intros [Hc Hw]. exists (N.to_nat s). rewrite N2Nat.id. split; [subst; auto|].
    apply filter_In. split.
    + apply in_seq. pose proof (code_size_lt Hc). lia.
    + unfold code_size in Hc. destruct (Nat.eqb_spec (nth (N.to_nat s) sizes 0) 0); auto; lia.
Qed.

Lemma list_min_le l x : In x l -> list_min l <= x.
Proof.
  destruct l as [|y l]; simpl; [tauto|]. intros H.
  assert (A : forall z, In z l -> fold_right Nat.min y l <= z).
  { clear. induction l as [|a l IH]; simpl; [tauto|]. intros z [->|H]; [lia|]. specialize (IH z H). lia. }
  assert (B : fold_right Nat.min y l <= y).
  { clear. induction l as [|a l IH]; simpl; lia. }
  destruct H as [->|H]; auto.
Qed.
Lemma list_min_in l : l <> [] -> In (list_min l) l.
Proof.
  destruct l as [|y l]; [congruence|]. intros _. simpl.
  induction l as [|a l IH]; simpl; auto.
  destruct (Nat.min_dec a (fold_right Nat.min y l)) as [E|E]; rewrite E; auto.
  destruct IH as [IH|IH]; auto.
Qed.
Lemma list_max_ge l x : In x l -> x <= list_max' l.
Proof. induction l as [|a l IH]; simpl; [tauto|]. intros [->|H]; [lia|]. specialize (IH H). lia. Qed.
Lemma list_max_in l : list_max' l <> 0 -> In (list_max' l) l.
Proof.
  induction l as [|a l IH]; simpl; [lia|]. intros H.
  destruct (Nat.max_dec a (list_max' l)) as [E|E]; rewrite E in *; auto.
Qed.

Lemma dec_decode_spec sizes p :
  match dec_decode (mk_decoder sizes) (length p) (N_of_bits p) with
  | (Some s, _, _) => HasCode sizes s p
  | (None, mn, mx) =>
      (forall s, ~ HasCode sizes s p) /\
      (forall s w t, HasCode sizes s w -> w = p ++ t -> mn <= length w <= mx) /\
      (mx <> 0 -> length p < mn /\ exists s w t, HasCode sizes s w /\ w = p ++ t /\ mn = length w)
  end.
Proof.
  unfold dec_decode. rewrite bits_of_N_of_bits.
  set (cands := filter (fun e => is_prefix p (snd e)) (dec_table (mk_decoder sizes))).
  assert (Hc : forall s w, In (s, w) cands <-> HasCode sizes s w /\ exists t, w = p ++ t).
  { intros s w. unfold cands. rewrite filter_In, in_dec_table. cbn [snd]. rewrite is_prefix_spec. tauto. }
  destruct (find (fun e => length (snd e) =? length p) cands) as [[s w]|] eqn:Hf.
  - apply find_some in Hf. destruct Hf as [Hin Hl]. cbn [snd] in Hl. apply Nat.eqb_eq in Hl.
    apply Hc in Hin. destruct Hin as [Hh [t Ht]]. cbn [fst].
    assert (t = []) by (subst w; rewrite app_length in Hl; destruct t; simpl in Hl; auto; lia).
    subst. rewrite app_nil_r in Hh. auto.
  - assert (Hn : forall s w t, HasCode sizes s w -> w = p ++ t -> length w <> length p).
    { intros s w t Hh Ht HL. pose proof (find_none _ _ Hf (s, w)) as Q. cbn [snd] in Q.
      rewrite (proj2 (Nat.eqb_eq _ _) HL) in Q. discriminate Q. apply Hc. eauto. }
    repeat split.
    + intros s Hs. apply (Hn s p []); auto. now rewrite app_nil_r.
    + apply list_min_le. apply in_map_iff. exists (s, w). split; auto. apply Hc. eauto.
    + apply list_max_ge. apply in_map_iff. exists (s, w). split; auto. apply Hc. eauto.
    + assert (Hne : map (fun e => length (snd e)) cands <> []).
      { intros E. rewrite E in H. apply H. reflexivity. }
      pose proof (list_min_in Hne) as Hi. apply in_map_iff in Hi. destruct Hi as [[s w] [Hl Hin]].
      cbn [snd] in Hl. apply Hc in Hin. destruct Hin as [Hh [t Ht]].
      specialize (Hn s w t Hh Ht). rewrite <- Hl. subst w. rewrite app_length in *. lia.
    + assert (Hne : map (fun e => length (snd e)) cands <> []).
      { intros E. rewrite E in H. apply H. reflexivity. }
      pose proof (list_min_in Hne) as Hi. apply in_map_iff in Hi. destruct Hi as [[s w] [Hl Hin]].
      cbn [snd] in Hl. apply Hc in Hin. destruct Hin as [Hh [t Ht]]. exists s, w, t. auto.
Qed.

Lemma HasCode_length m sizes s w : sizes_le m sizes -> HasCode sizes s w -> 0 < length w <= m.
Proof.
  intros Hs [H ->]. rewrite length_codeword. split; auto. now apply code_size_le.
Qed.

Lemma dec_max_le m sizes : sizes_le m sizes -> dec_max (mk_decoder sizes) <= m.
Proof.
  intros Hs. unfold dec_max.
  destruct (Nat.eq_dec (list_max' (map (fun e => length (snd e)) (dec_table (mk_decoder sizes)))) 0) as [->|Hne]; [lia|].
  apply list_max_in in Hne. apply in_map_iff in Hne. destruct Hne as [[s w] [<- Hin]].
  cbn [snd]. apply in_dec_table in Hin. apply (HasCode_length Hs) in Hin. lia.
Qed.

Lemma dec_range sizes s w : HasCode sizes s w ->
  dec_min (mk_decoder sizes) <= length w <= dec_max (mk_decoder sizes).
Proof.
  intros H. apply in_dec_table in H. split.
  - apply list_min_le. apply in_map_iff. exists (s, w). auto.
  - apply list_max_ge. apply in_map_iff. exists (s, w). auto.
Qed.

Lemma HasCode_unique sizes s t w1 w2 r1 r2 : sizes_le 15 sizes -> not_oversubscribed sizes ->
  HasCode sizes s w1 -> HasCode sizes t w2 -> w1 ++ r1 = w2 ++ r2 -> s = t /\ w1 = w2.
Proof.
  intros Hs Hk [H1 ->] [H2 ->] HE.
  assert (E : s = t) by (eapply codeword_unique; eauto). subst. auto.
Qed.

Lemma fixedLL_eq : fixedSizesLL = fixed_ll.
Proof. vm_compute. reflexivity. Qed.
Lemma fixedD_eq : fixedSizesD = fixed_d.
Proof. vm_compute. reflexivity. Qed.

Lemma forallb_sizes m l : forallb (fun b => b <=? m) l = true -> sizes_le m l.
Proof. unfold sizes_le. rewrite forallb_forall, Forall_forall. intros H x Hx. specialize (H x Hx). lia. Qed.

Lemma fixed_ll_le : sizes_le 15 fixed_ll.
Proof. apply forallb_sizes. vm_compute. reflexivity. Qed.
Lemma fixed_d_le : sizes_le 15 fixed_d.
Proof. apply forallb_sizes. vm_compute. reflexivity. Qed.
Lemma fixed_ll_kraft : kraft fixed_ll = 32768%N.
Proof. vm_compute. reflexivity. Qed.
Lemma fixed_d_kraft : kraft fixed_d = 32768%N.
Proof. vm_compute. reflexivity. Qed.
