(** The output side of the Reader: decode buffer, window, log. *)
From Verif Require Import Base SpecChecksum SpecHuffman SpecDeflate MChecksum PChecksum MToken MCommon MWriter MReader PToken PHuffman PBits.

Definition is_data (a : outact) : Prop := match a with OData _ => True | OErr _ => False end.
Lemma log_data_app a b : log_data (a ++ b) = log_data a ++ log_data b.
Proof. apply flat_map_app. Qed.

Section Out.
Variable cap : N.
Hypothesis Hcap : (0 < cap)%N.

Record ook (o : ost) : Prop := OOk {
  ok_dbuf : bytes_ok (o_dbuf o); ok_cap : (lenN (o_dbuf o) <= cap)%N; ok_hist : bytes_ok (o_hist o);
  ok_total : (o_total o < two64)%N; ok_stream : (o_stream o < two64)%N;
  ok_adler : adler_ok (o_adler o); ok_crc : (o_crc o < two32)%N }.

(** [o'] is [o] after the bytes [p] have been produced; [s] went to the log. *)
Record oext' (o o' : ost) (p : list N) (s : list outact) : Prop := OExt' {
  ox_log : o_log o' = o_log o ++ s;
  ox_isdata : Forall is_data s;
  ox_data : log_data s ++ o_dbuf o' = o_dbuf o ++ p;
  ox_hist : o_hist o' = rev p ++ o_hist o;
  ox_err : o_err o' = o_err o;
  ox_cap : (lenN (o_dbuf o') <= cap)%N;
  ox_total : o_total o' = add64 (o_total o) (lenN (log_data s));
  ox_stream : o_stream o' = add64 (o_stream o) (lenN (log_data s));
  ox_adler : o_adler o' = adler_update (o_adler o) (log_data s);
  ox_crc : o_crc o' = crc_update (o_crc o) (log_data s) }.
Definition oext (o o' : ost) (p : list N) : Prop := exists s, oext' o o' p s.

Lemma adler_nil a : adler_ok a -> adler_update a [] = a.
Proof.
  intros H. unfold adler_update. cbn [adler_loop length]. unfold adler_ok in H.
  change 0xffff%N with (N.ones 16). rewrite N.land_ones, N.shiftr_div_pow2. change (2 ^ 16)%N with 65536%N.
  rewrite N.mod_small.
  - rewrite lor_shift16; lia.
  - rewrite N.shiftl_mul_pow2. change (2 ^ 16)%N with 65536%N. unfold two32. lia.
Qed.

Lemma oext_refl o : ook o -> oext' o o [] [].
Proof.
  intros H. destruct H. constructor; cbn; rewrite ?app_nil_r; auto; try (symmetry; apply add64_0; auto).
  symmetry. apply adler_nil. auto.
Qed.

Lemma oext_ook o o' p : ook o -> bytes_ok p -> oext o o' p -> ook o'.
Proof.
  intros [H1 H2 H3 H4 H5 H6 H7] Hp [s [X1 X2 X3 X4 X5 X6 X7 X8 X9 X10]].
  assert (B : bytes_ok (log_data s ++ o_dbuf o')) by (rewrite X3; apply bytes_ok_app; auto).
  apply bytes_ok_app in B. destruct B as [B1 B2].
  constructor; auto; rewrite ?X7, ?X8, ?X9, ?X10; try apply add64_lt.
  - rewrite X4. apply bytes_ok_app. split; auto. apply Forall_rev. auto.
  - apply adler_update_ok; auto.
  - apply crc_update_lt; auto.
Qed.
Lemma oext_trans' o o1 o2 p q s t : ook o -> bytes_ok p -> bytes_ok q -> oext' o o1 p s -> oext' o1 o2 q t -> oext' o o2 (p ++ q) (s ++ t).
Proof.
  intros H Hp Hq A B.
  assert (K : ook o1) by (apply (@oext_ook o o1 p H Hp); exists s; exact A).
  assert (Bs : bytes_ok (log_data s)).
  { pose proof (ox_data A) as D. assert (Z : bytes_ok (log_data s ++ o_dbuf o1)) by (rewrite D; apply bytes_ok_app; split; auto; apply H).
    apply bytes_ok_app in Z. tauto. }
  assert (Bt : bytes_ok (log_data t)).
  { pose proof (ox_data B) as D. assert (Z : bytes_ok (log_data t ++ o_dbuf o2)) by (rewrite D; apply bytes_ok_app; split; auto; apply K).
    apply bytes_ok_app in Z. tauto. }
  destruct A as [A1 A2 A3 A4 A5 A6 A7 A8 A9 A10], B as [B1 B2 B3 B4 B5 B6 B7 B8 B9 B10]. destruct H. constructor; auto.
  - now rewrite B1, A1, app_assoc.
  - apply Forall_app; auto.
  - rewrite log_data_app, <- app_assoc, B3, app_assoc, A3, app_assoc. auto.
  - rewrite B4, A4, rev_app_distr, app_assoc. auto.
  - congruence.
  - rewrite B7, A7, add64_assoc, log_data_app, lenN_app. auto.
  - rewrite B8, A8, add64_assoc, log_data_app, lenN_app. auto.
  - rewrite B9, A9, log_data_app, adler_update_app; auto.
  - rewrite B10, A10, log_data_app, crc_update_app; auto.
Qed.
Lemma oext_trans o o1 o2 p q : ook o -> bytes_ok p -> bytes_ok q -> oext o o1 p -> oext o1 o2 q -> oext o o2 (p ++ q).
Proof. intros H Hp Hq [s A] [t B]. exists (s ++ t). eapply oext_trans'; eauto. Qed.

Lemma mustFlush_spec o : ook o -> oext o (mustFlush o) [] /\ o_dbuf (mustFlush o) = [].
Proof.
  intros H. destruct o as [db h log err t s a c]. destruct db as [|x db].
  - cbn [mustFlush]. split; [|reflexivity]. exists []. apply oext_refl; auto.
  - cbn [mustFlush]. split; [|reflexivity]. exists [OData (x :: db)]. constructor; cbn -[add64 adler_update crc_update lenN]; rewrite ?app_nil_r; auto.
    + constructor; [exact I|constructor].
    + unfold lenN; cbn; lia.
Qed.
Lemma tryFlush_spec o : ook o -> oext o (tryFlush cap o) [] /\ (lenN (o_dbuf (tryFlush cap o)) < cap)%N.
Proof.
  intros H. unfold tryFlush. destruct (N.leb_spec cap (lenN (o_dbuf o))).
  - destruct (mustFlush_spec H) as [A B]. split; auto. rewrite B. exact Hcap.
  - split; auto. exists []. apply oext_refl; auto.
Qed.
Lemma o_append_spec o p : ook o -> (lenN (o_dbuf o) + lenN p <= cap)%N -> oext o (o_append o p) p.
Proof.
  intros H Hc. exists []. destruct o as [db h log err t s a c]. destruct H. cbn in *. constructor; cbn; rewrite ?app_nil_r; auto;
    try (symmetry; apply add64_0; auto).
  - rewrite lenN_app. auto.
  - symmetry. apply adler_nil. auto.
Qed.
Lemma bytes_nil : bytes_ok []. Proof. constructor. Qed.
Hint Resolve bytes_nil : core.

Lemma writeByte_spec o ch : ook o -> is_byte ch -> oext o (decodeBufferWriteByte cap o ch) [ch].
Proof.
  intros H Hc. unfold decodeBufferWriteByte. destruct (tryFlush_spec H) as [A B].
  set (o1 := tryFlush cap o) in *. clearbody o1.
  assert (K : ook o1) by exact (oext_ook H bytes_nil A).
  destruct (N.ltb_spec (lenN (o_dbuf o1)) cap); [|lia].
  change [ch] with ([] ++ [ch]). assert (Hb : bytes_ok [ch]) by (repeat constructor; auto).
  eapply oext_trans; eauto. apply o_append_spec; auto. change (lenN [ch]) with 1%N. lia.
Qed.
Lemma dbWriteLoop_spec : forall fuel o p, ook o -> bytes_ok p -> length p < fuel ->
  exists o', dbWriteLoop cap fuel o p = Ok o' /\ oext o o' p.
Proof.
  induction fuel as [|f IH]; intros o p H Hp Hf; [lia|]. cbn [dbWriteLoop]. destruct p as [|x p'] eqn:EP.
  { exists o. split; auto. exists []. apply oext_refl; auto. }
  rewrite <- EP in *. destruct (tryFlush_spec H) as [A B]. set (o1 := tryFlush cap o) in *. clearbody o1.
  assert (K : ook o1) by exact (oext_ook H bytes_nil A).
  set (nn := N.to_nat (N.min (lenN p) (cap - lenN (o_dbuf o1)))).
  assert (Hn : 0 < nn <= length p).
  { unfold nn, lenN in *. assert (0 < length p) by (rewrite EP; cbn; lia). lia. }
  assert (Hn2 : (N.of_nat nn <= cap - lenN (o_dbuf o1))%N) by (unfold nn; lia). clearbody nn.
  assert (Bp : bytes_ok (firstn nn p) /\ bytes_ok (skipn nn p)) by (apply bytes_ok_app; now rewrite firstn_skipn).
  assert (X : oext o1 (o_append o1 (firstn nn p)) (firstn nn p)).
  { apply o_append_spec; auto. unfold lenN at 2. rewrite firstn_length. unfold lenN in *. lia. }
  destruct Bp as [Bp1 Bp2].
  assert (K2 : ook (o_append o1 (firstn nn p))) by exact (oext_ook K Bp1 X).
  destruct (IH _ (skipn nn p) K2 Bp2) as [o2 [E2 X2]]; [rewrite skipn_length; lia|].
  exists o2. split.
  { rewrite EP in E2 |- *. exact E2. }
  rewrite <- (firstn_skipn nn p). change (firstn nn p ++ skipn nn p) with (([] ++ firstn nn p) ++ skipn nn p).
  exact (oext_trans H Bp1 Bp2 (oext_trans H bytes_nil Bp1 A X) X2).
Qed.
Lemma decodeBufferWrite_spec o p : ook o -> bytes_ok p -> exists o', decodeBufferWrite cap o p = Ok o' /\ oext o o' p.
Proof. intros H Hp. apply dbWriteLoop_spec; auto. Qed.
End Out.
