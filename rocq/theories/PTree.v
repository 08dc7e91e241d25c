(** The run-length coding of code sizes (analysis.go:63-126) is lossless. *)
From Verif Require Import Base SpecHuffman SpecDeflate MToken.

(** [XTok done ts out]: after the sizes [done], the tokens [ts] stand for the sizes [out]. *)
Inductive XTok : list nat -> list token -> list nat -> Prop :=
| xt_nil done : XTok done [] []
| xt_len done n ts out : n < 16 -> XTok (done ++ [n]) ts out ->
    XTok done (Token (512 + N.of_nat n) 0 :: ts) (n :: out)
| xt_rep done p k ts out : 3 <= k <= 6 -> XTok ((done ++ [p]) ++ repeat p k) ts out ->
    XTok (done ++ [p]) (Token (1024 + N.of_nat (k - 3)) 0 :: ts) (repeat p k ++ out)
| xt_z3 done k ts out : 3 <= k <= 10 -> XTok (done ++ repeat 0 k) ts out ->
    XTok done (Token (2048 + N.of_nat (k - 3)) 0 :: ts) (repeat 0 k ++ out)
| xt_z7 done k ts out : 11 <= k <= 138 -> XTok (done ++ repeat 0 k) ts out ->
    XTok done (Token (4096 + N.of_nat (k - 11)) 0 :: ts) (repeat 0 k ++ out).

Lemma XTok_app done ts1 out1 ts2 out2 :
  XTok done ts1 out1 -> XTok (done ++ out1) ts2 out2 -> XTok done (ts1 ++ ts2) (out1 ++ out2).
Proof.
  induction 1 as [done|done n ts out Hn H IH|done p k ts out Hk H IH|done k ts out Hk H IH|done k ts out Hk H IH];
    intros H2; cbn [app]; rewrite <- ?app_assoc; try (constructor; auto; apply IH).
  - rewrite app_nil_r in H2. auto.
  - rewrite <- app_assoc. exact H2.
  - rewrite <- app_assoc. exact H2.
  - rewrite <- app_assoc. exact H2.
  - rewrite <- app_assoc. exact H2.
Qed.

Lemma repeat_app' {A} (x : A) a b : repeat x (a + b) = repeat x a ++ repeat x b.
Proof. apply repeat_app. Qed.

Lemma rep_tok_len done size k acc : size < 16 ->
  exists ts, rep_tok k (makeTreeLenToken size) acc = Ok (acc ++ ts) /\ XTok done ts (repeat size k).
Proof.
  intros Hs. revert done acc. induction k as [|k IH]; intros done acc.
  - exists []. rewrite app_nil_r. split; [reflexivity|constructor].
  - cbn [rep_tok]. unfold makeTreeLenToken at 1. unfold assertb. destruct (Nat.ltb_spec size 16); [|lia].
    cbn [rbind]. destruct (IH (done ++ [size]) (acc ++ [Token (512 + N.of_nat size) 0])) as [ts [-> Ht]].
    exists (Token (512 + N.of_nat size) 0 :: ts). rewrite <- app_assoc. split; auto.
    cbn [repeat]. constructor; auto.
Qed.

Lemma makeTreeDup_ok k : 3 <= k <= 6 -> makeTreeDupToken k = Ok (Token (1024 + N.of_nat (k - 3)) 0).
Proof.
  intros H. unfold makeTreeDupToken, assertb.
  destruct (Nat.leb_spec 3 k), (Nat.leb_spec k 6); try lia. reflexivity.
Qed.
Lemma makeTreeZero_ok k : 3 <= k <= 138 -> makeTreeZeroRunToken k =
  Ok (if k <? 11 then Token (2048 + N.of_nat (k - 3)) 0 else Token (4096 + N.of_nat (k - 11)) 0).
Proof.
  intros H. unfold makeTreeZeroRunToken, assertb.
  destruct (Nat.leb_spec 3 k), (Nat.leb_spec k 138); try lia. destruct (k <? 11); reflexivity.
Qed.

Lemma XTok_zero_one done k : 3 <= k <= 138 ->
  XTok done [if k <? 11 then Token (2048 + N.of_nat (k - 3)) 0 else Token (4096 + N.of_nat (k - 11)) 0] (repeat 0 k).
Proof.
  intros H. rewrite <- (app_nil_r (repeat 0 k)).
  destruct (Nat.ltb_spec k 11); constructor; try lia; constructor.
Qed.
Lemma XTok_dup_one done p k : 3 <= k <= 6 ->
  XTok (done ++ [p]) [Token (1024 + N.of_nat (k - 3)) 0] (repeat p k).
Proof. intros H. rewrite <- (app_nil_r (repeat p k)). constructor; auto; constructor. Qed.

Lemma snoc_repeat {A} (done : list A) p k : exists d, (done ++ [p]) ++ repeat p k = d ++ [p].
Proof.
  exists (done ++ repeat p k). rewrite <- !app_assoc. f_equal. cbn [app].
  change (p :: repeat p k) with (repeat p (S k)). rewrite <- repeat_cons. reflexivity.
Qed.

Lemma dup_tokens_ok size : size < 16 -> forall fuel run done acc, run < fuel ->
  exists ts, dup_tokens fuel size run acc = Ok (acc ++ ts) /\ XTok (done ++ [size]) ts (repeat size run).
Proof.
  intros Hs. induction fuel as [|fuel IH]; intros run done acc Hr; [lia|].
  cbn [dup_tokens]. destruct (Nat.leb_spec 9 run).
  - rewrite makeTreeDup_ok by lia. cbn [rbind].
    destruct (@snoc_repeat _ done size 6) as [d Hd].
    destruct (IH (run - 6) d (acc ++ [Token (1024 + N.of_nat (6 - 3)) 0])) as [ts [-> Ht]]; [lia|].
    eexists. rewrite <- app_assoc. split; [reflexivity|].
    replace (repeat size run) with (repeat size 6 ++ repeat size (run - 6))
      by (rewrite <- repeat_app; f_equal; lia).
    apply XTok_app; [apply XTok_dup_one; lia|]. rewrite Hd. auto.
  - destruct (Nat.ltb_spec 6 run).
    + rewrite makeTreeDup_ok by lia. cbn [rbind].
      destruct (Nat.ltb_spec 2 (run - 4)); [|lia].
      rewrite makeTreeDup_ok by lia. cbn [rbind rep_tok].
      eexists. rewrite <- app_assoc. split; [reflexivity|].
      replace (repeat size run) with (repeat size 4 ++ repeat size (run - 4))
        by (rewrite <- repeat_app; f_equal; lia).
      apply XTok_app; [apply XTok_dup_one; lia|].
      destruct (@snoc_repeat _ done size 4) as [d ->]. apply XTok_dup_one; lia.
    + cbn [rbind]. destruct (Nat.ltb_spec 2 run).
      * rewrite makeTreeDup_ok by lia. cbn [rbind rep_tok].
        eexists. split; [reflexivity|]. apply XTok_dup_one; lia.
      * cbn [rbind]. apply rep_tok_len. auto.
Qed.

Lemma zero_tokens_ok : forall fuel run done acc, run < fuel ->
  exists ts, zero_tokens fuel run acc = Ok (acc ++ ts) /\ XTok done ts (repeat 0 run).
Proof.
  induction fuel as [|fuel IH]; intros run done acc Hr; [lia|].
  cbn [zero_tokens]. destruct (Nat.leb_spec 141 run).
  - rewrite makeTreeZero_ok by lia. cbn [rbind].
    destruct (IH (run - 138) (done ++ repeat 0 138) (acc ++ [if 138 <? 11 then Token (2048 + N.of_nat (138 - 3)) 0 else Token (4096 + N.of_nat (138 - 11)) 0]))
      as [ts [-> Ht]]; [lia|].
    eexists. rewrite <- app_assoc. split; [reflexivity|].
    replace (repeat 0 run) with (repeat 0 138 ++ repeat 0 (run - 138))
      by (rewrite <- repeat_app; f_equal; lia).
    apply XTok_app; [apply XTok_zero_one; lia|]. auto.
  - destruct (Nat.ltb_spec 138 run).
    + rewrite makeTreeZero_ok by lia. cbn [rbind].
      destruct (Nat.ltb_spec 3 (run - 136)).
      * rewrite makeTreeZero_ok by lia. cbn [rbind rep_tok].
        eexists. rewrite <- app_assoc. split; [reflexivity|].
        replace (repeat 0 run) with (repeat 0 136 ++ repeat 0 (run - 136))
          by (rewrite <- repeat_app; f_equal; lia).
        apply XTok_app; [apply XTok_zero_one; lia|]. apply XTok_zero_one; lia.
      * cbn [rbind].
        destruct (@rep_tok_len (done ++ repeat 0 136) 0 (run - 136)
           (acc ++ [if 136 <? 11 then Token (2048 + N.of_nat (136 - 3)) 0 else Token (4096 + N.of_nat (136 - 11)) 0]))
          as [ts [-> Ht]]; [lia|].
        eexists. rewrite <- app_assoc. split; [reflexivity|].
        replace (repeat 0 run) with (repeat 0 136 ++ repeat 0 (run - 136))
          by (rewrite <- repeat_app; f_equal; lia).
        apply XTok_app; [apply XTok_zero_one; lia|]. auto.
    + cbn [rbind]. destruct (Nat.ltb_spec 3 run).
      * rewrite makeTreeZero_ok by lia. cbn [rbind rep_tok].
        eexists. split; [reflexivity|]. apply XTok_zero_one; lia.
      * cbn [rbind]. apply rep_tok_len. lia.
Qed.

Lemma sizeRunLength_spec sizes size :
  exists r, sizes = repeat size (sizeRunLength sizes size) ++ r /\ hd_error r <> Some size.
Proof.
  induction sizes as [|x t IH]; simpl.
  - exists []. split; auto. discriminate.
  - destruct (Nat.eqb_spec x size) as [->|Hne].
    + destruct IH as [r [Hr Hh]]. exists r. cbn [repeat app]. split; auto. congruence.
    + exists (x :: t). split; auto. simpl. congruence.
Qed.

Lemma zeroes_repeat l : sizesAllZeroes l = true -> l = repeat 0 (length l).
Proof.
  unfold sizesAllZeroes. induction l as [|x l IH]; simpl; auto. intros H.
  apply andb_prop in H. destruct H as [H1 H2]. destruct x; [|discriminate]. f_equal. auto.
Qed.
Lemma repeat_zeroes n : sizesAllZeroes (repeat 0 n) = true.
Proof. unfold sizesAllZeroes. induction n; simpl; auto. Qed.
Lemma zeroes_app a b : sizesAllZeroes (a ++ b) = sizesAllZeroes a && sizesAllZeroes b.
Proof. apply forallb_app. Qed.

Lemma skipn_repeat_app {A} (x : A) n r : skipn n (repeat x n ++ r) = r.
Proof. induction n; simpl; auto. Qed.

(** What encode_tree_loop returns; [sizes] = [pre ++ rem]. *)
Definition tree_result (sizes : list nat) (min n : nat) : Prop :=
  min <= n <= length sizes /\ sizesAllZeroes (skipn n sizes) = true /\
  (n = min \/ (0 < n /\ nth (n - 1) sizes 0 <> 0)).

Lemma encode_tree_loop_ok sizes min done0 :
  sizes_le 15 sizes -> 1 <= min <= length sizes ->
  (forall i, 0 < i < min -> sizesAllZeroes (skipn i sizes) = false) ->
  forall fuel pre rem acc0 acc,
    sizes = pre ++ rem -> length rem < fuel -> XTok done0 acc pre ->
    (length pre <= min \/ nth (length pre - 1) sizes 0 <> 0 \/ sizesAllZeroes rem = false) ->
    exists ts n, encode_tree_loop fuel (acc0 ++ acc) rem (length pre) min = Ok (acc0 ++ ts, n) /\
      XTok done0 ts (firstn n sizes) /\ tree_result sizes min n.
Proof.
  intros Hle Hmin Hnz. induction fuel as [|fuel IH]; intros pre rem acc0 acc HS Hf HX HL; [lia|].
  destruct rem as [|size rem'].
  - cbn [encode_tree_loop]. exists acc, (length pre). rewrite app_nil_r in HS. subst sizes.
    split; [reflexivity|]. rewrite firstn_all. split; auto.
    unfold tree_result. rewrite skipn_all. split; [lia|split; auto].
    destruct HL as [HL|[HL|HL]]; [left; lia| |discriminate].
    right. split; auto; lia.
  - cbn [encode_tree_loop].
    assert (Hskip : skipn (length pre) sizes = size :: rem').
    { rewrite HS, skipn_app, skipn_all, Nat.sub_diag. reflexivity. }
    assert (Hfirst : firstn (length pre) sizes = pre).
    { rewrite HS, firstn_app, firstn_all, Nat.sub_diag. cbn [firstn]. apply app_nil_r. }
    assert (Hlen : length sizes = length pre + S (length rem')).
    { rewrite HS, app_length. reflexivity. }
    assert (Hsz : size < 16).
    { unfold sizes_le in Hle. rewrite HS in Hle. apply Forall_app in Hle. destruct Hle as [_ Hle].
      inversion Hle; subst; lia. }
    destruct ((min <=? length pre) && sizesAllZeroes (size :: rem')) eqn:Hstop.
    + apply andb_prop in Hstop. destruct Hstop as [Hm Hz]. apply Nat.leb_le in Hm.
      exists acc, (length pre). split; [reflexivity|]. rewrite Hfirst. split; auto.
      unfold tree_result. rewrite Hskip. split; [lia|split; auto].
      destruct HL as [HL|[HL|HL]]; [left; lia| |congruence]. right. split; auto; lia.
    + destruct (Nat.eqb_spec size 0) as [->|Hs0]; cbn [negb].
      * destruct (sizeRunLength_spec (0 :: rem') 0) as [r [Hr Hh]].
        set (run := sizeRunLength (0 :: rem') 0) in *.
        assert (Hrun : 1 <= run).
        { unfold run. cbn [sizeRunLength]. change (0 =? 0) with true. cbn iota. lia. }
        assert (Hlr : S (length rem') = run + length r).
        { change (S (length rem')) with (length (0 :: rem')). rewrite Hr, app_length, repeat_length; auto. }
        (* the number of zeros really emitted *)
        assert (Hrun' : exists run', (if (min <? length pre + run) && sizesAllZeroes (0 :: rem') then min else run) = run'
                  /\ 1 <= run' <= run /\ (length pre + run' <= min \/ sizesAllZeroes (skipn run' (0 :: rem')) = false)).
        { destruct (sizesAllZeroes (0 :: rem')) eqn:Hz.
          - rewrite andb_true_r in *. apply Nat.leb_gt in Hstop.
            assert (Hp0 : length pre = 0).
            { destruct (Nat.eq_dec (length pre) 0); auto. exfalso.
              assert (A : sizesAllZeroes (skipn (length pre) sizes) = false) by (apply Hnz; lia).
              rewrite Hskip in A. congruence. }
            destruct (Nat.ltb_spec min (length pre + run)); eexists; (split; [reflexivity|]).
            + split; [lia|]. left. lia.
            + split; [lia|]. left. lia.
          - rewrite andb_false_r. eexists. split; [reflexivity|]. split; [lia|]. right.
            rewrite Hr, skipn_repeat_app. rewrite Hr, zeroes_app, repeat_zeroes in Hz. exact Hz. }
        destruct Hrun' as [run' [-> [Hr1 Hr2]]].
        destruct (@zero_tokens_ok (S run') run' (done0 ++ pre) (acc0 ++ acc)) as [ts [-> Ht]]; [lia|].
        cbn [rbind].
        assert (Hsplit : 0 :: rem' = repeat 0 run' ++ skipn run' (0 :: rem')).
        { rewrite Hr at 1. rewrite Hr. replace run with (run' + (run - run')) by lia.
          rewrite repeat_app, <- app_assoc, skipn_repeat_app. reflexivity. }
        replace (length pre + run') with (length (pre ++ repeat 0 run')) by (rewrite app_length, repeat_length; auto).
        rewrite <- app_assoc. apply IH.
        -- rewrite <- app_assoc, <- Hsplit. auto.
        -- rewrite skipn_length. cbn [length] in *. lia.
        -- apply XTok_app; auto.
        -- rewrite app_length, repeat_length. destruct Hr2; auto.
      * unfold makeTreeLenToken at 1. unfold assertb at 1. destruct (Nat.ltb_spec size 16); [|lia]. cbn [rbind].
        destruct (sizeRunLength_spec rem' size) as [r2 [Hr2 Hh2]].
        set (run2 := sizeRunLength rem' size) in *. clearbody run2.
        destruct (@dup_tokens_ok size Hsz (S run2) run2 (done0 ++ pre)
            ((acc0 ++ acc) ++ [Token (512 + N.of_nat size) 0])) as [ts2 [-> Ht2]]; [lia|].
        cbn [rbind]. rewrite Hr2, skipn_repeat_app.
        replace (length pre + 1 + run2) with (length (pre ++ size :: repeat size run2))
          by (rewrite app_length; cbn [length]; rewrite repeat_length; lia).
        replace (((acc0 ++ acc) ++ [Token (512 + N.of_nat size) 0]) ++ ts2)
          with (acc0 ++ (acc ++ Token (512 + N.of_nat size) 0 :: ts2)) by (rewrite <- !app_assoc; reflexivity).
        assert (E : sizes = (pre ++ size :: repeat size run2) ++ r2).
        { rewrite HS at 1. rewrite Hr2 at 1. rewrite <- !app_assoc. reflexivity. }
        assert (El : length rem' = run2 + length r2) by (rewrite Hr2 at 1; rewrite app_length, repeat_length; auto).
        apply IH; auto.
        -- cbn [length] in *. lia.
        -- apply XTok_app; auto. apply xt_len; auto.
        -- right. left. rewrite E, app_nth1.
           ++ rewrite app_length. cbn [length]. rewrite repeat_length.
              replace (length pre + S run2 - 1) with (length pre + run2) by lia.
              rewrite app_nth2 by lia. replace (length pre + run2 - length pre) with run2 by lia.
              rewrite repeat_cons, app_nth2; rewrite repeat_length; [|lia]. rewrite Nat.sub_diag. auto.
           ++ rewrite app_length. cbn [length]. lia.
Qed.

Lemma encodeTreeTokens_ok xtokens sizes min done0 :
  sizes_le 15 sizes -> 1 <= min <= length sizes ->
  (forall i, 0 < i < min -> sizesAllZeroes (skipn i sizes) = false) ->
  exists ts n, encodeTreeTokens xtokens sizes min = Ok (xtokens ++ ts, n) /\
    XTok done0 ts (firstn n sizes) /\ tree_result sizes min n.
Proof.
  intros H1 H2 H3. unfold encodeTreeTokens.
  destruct (@encode_tree_loop_ok sizes min done0 H1 H2 H3 (S (length sizes)) [] sizes xtokens []) as [ts [n H]]; auto.
  - constructor.
  - left. cbn [length]. lia.
  - rewrite app_nil_r in H. eauto.
Qed.

Lemma tree_result_le sizes min n m : tree_result sizes min n -> min <= m -> sizesAllZeroes (skipn m sizes) = true -> n <= m.
Proof.
  intros [_ [_ [->|[Hn Hnz]]]] Hm Hz; auto.
  destruct (le_lt_dec n m); auto. exfalso. apply Hnz.
  replace (n - 1) with (m + (n - 1 - m)) by lia. rewrite <- (firstn_skipn m sizes).
  destruct (le_lt_dec m (length sizes)).
  - rewrite app_nth2; rewrite firstn_length, Nat.min_l by lia; [|lia].
    rewrite (zeroes_repeat Hz). apply nth_repeat.
  - apply nth_overflow. rewrite app_length, firstn_length, skipn_length. lia.
Qed.

Lemma tree_result_pad sizes min n : tree_result sizes min n ->
  sizes = firstn n sizes ++ repeat 0 (length sizes - n).
Proof.
  intros [H1 [H2 _]]. rewrite <- (firstn_skipn n sizes) at 1. f_equal.
  rewrite (zeroes_repeat H2). f_equal. apply skipn_length.
Qed.

Lemma XTok_outs done ts out : XTok done ts out -> sizes_le 15 done -> sizes_le 15 out.
Proof.
  unfold sizes_le.
  induction 1 as [done|done n ts out Hn H IH|done p k ts out Hk H IH|done k ts out Hk H IH|done k ts out Hk H IH];
    intros HD.
  - constructor.
  - constructor; [lia|]. apply IH. apply Forall_app. split; auto. constructor; auto; lia.
  - assert (Hp : p <= 15) by (apply Forall_app in HD; destruct HD as [_ HD]; inversion HD; auto).
    assert (R : Forall (fun b => b <= 15) (repeat p k)).
    { apply Forall_forall. intros x Hx. apply repeat_spec in Hx. lia. }
    apply Forall_app; split; auto. apply IH. apply Forall_app; auto.
  - assert (R : Forall (fun b => b <= 15) (repeat 0 k)).
    { apply Forall_forall. intros x Hx. apply repeat_spec in Hx. lia. }
    apply Forall_app; split; auto. apply IH. apply Forall_app; auto.
  - assert (R : Forall (fun b => b <= 15) (repeat 0 k)).
    { apply Forall_forall. intros x Hx. apply repeat_spec in Hx. lia. }
    apply Forall_app; split; auto. apply IH. apply Forall_app; auto.
Qed.
