(** Determinism of the DEFLATE grammar. *)
From Verif Require Import Base SpecHuffman SpecDeflate MToken MCommon MWriter MReader PToken PHuffman PBits.

Lemma app_split {A} (a x w r : list A) : a ++ x = w ++ r -> length w <= length a ->
  exists t, a = w ++ t /\ r = t ++ x.
Proof.
  revert a; induction w as [|y w IH]; intros a E L; cbn in *.
  - exists a. auto.
  - destruct a as [|z a]; cbn in L; [lia|]. cbn in E. inversion E; subst. destruct (IH a) as [t [T1 T2]]; auto; [lia|].
    exists t. subst. auto.
Qed.
Lemma bits_of_N_inj n a b : (a < 2 ^ N.of_nat n)%N -> (b < 2 ^ N.of_nat n)%N -> bits_of_N n a = bits_of_N n b -> a = b.
Proof. intros H1 H2 E. apply (f_equal N_of_bits) in E. rewrite !N_of_bits_of_N, !N.mod_small in E; auto. Qed.
Lemma bits_app_inj n a b r1 r2 : (a < 2 ^ N.of_nat n)%N -> (b < 2 ^ N.of_nat n)%N ->
  bits_of_N n a ++ r1 = bits_of_N n b ++ r2 -> a = b /\ r1 = r2.
Proof.
  intros H1 H2 E. apply app_inj_length in E; [|now rewrite !length_bits_of_N]. destruct E as [E1 E2].
  split; auto. eapply bits_of_N_inj; eauto.
Qed.

Section Codes.
Variables ll d : list nat.
Hypothesis Hll : sizes_le 15 ll.
Hypothesis Hllk : not_oversubscribed ll.
Hypothesis Hd : sizes_le 15 d.
Hypothesis Hdk : not_oversubscribed d.

Lemma code_inj sizes s t w1 w2 r1 r2 : sizes_le 15 sizes -> not_oversubscribed sizes ->
  HasCode sizes s w1 -> HasCode sizes t w2 -> w1 ++ r1 = w2 ++ r2 -> s = t /\ w1 = w2 /\ r1 = r2.
Proof.
  intros H1 H2 H3 H4 E. destruct (HasCode_unique H1 H2 H3 H4 E) as [-> ->]. apply app_inv_head in E. auto.
Qed.

(** The first symbol of a token. *)
Lemma token_first t w : TokenEnc ll d t w -> exists s wl wr, HasCode ll s wl /\ w = wl ++ wr /\ s <> 256%N /\
  match t with
  | TLit c => (s < 256)%N /\ s = c /\ wr = []
  | TCopy l ds => exists lb ln e t' db dn f wd, len_entry s = Some (lb, ln) /\ (e < 2 ^ N.of_nat ln)%N /\ l = (lb + e)%N /\
      dist_entry t' = Some (db, dn) /\ HasCode d t' wd /\ (f < 2 ^ N.of_nat dn)%N /\ ds = (db + f)%N /\
      wr = bits_of_N ln e ++ wd ++ bits_of_N dn f
  end.
Proof.
  intros H. destruct H as [ch w H1 H2|s lb ln e wl t' db dn f wd H1 H2 H3 H4 H5 H6].
  - exists ch, w, []. rewrite app_nil_r. repeat split; auto; try apply H2. lia.
  - exists s, wl, (bits_of_N ln e ++ wd ++ bits_of_N dn f). apply len_entry_range in H1 as R. split; auto. split; auto. split; [lia|].
    exists lb, ln, e, t', db, dn, f, wd. repeat split; auto; apply H5.
Qed.

Lemma TokenEnc_inj t1 w1 t2 w2 r1 r2 : TokenEnc ll d t1 w1 -> TokenEnc ll d t2 w2 -> w1 ++ r1 = w2 ++ r2 ->
  t1 = t2 /\ w1 = w2 /\ r1 = r2.
Proof.
  intros A B E. destruct (token_first A) as [s [wl [wr [A1 [A2 [A3 A4]]]]]]. destruct (token_first B) as [s' [wl' [wr' [B1 [B2 [B3 B4]]]]]].
  subst w1 w2. rewrite <- !app_assoc in E. destruct (code_inj Hll Hllk A1 B1 E) as [<- [<- E1]].
  destruct t1 as [c1|l1 d1], t2 as [c2|l2 d2].
  - destruct A4 as [_ [-> ->]], B4 as [_ [-> ->]]. cbn in E1. subst; auto.
  - destruct A4 as [A4 _], B4 as [lb [ln [e [t' [db [dn [f [wd [B4 _]]]]]]]]]. apply len_entry_range in B4. lia.
  - destruct B4 as [B4 _], A4 as [lb [ln [e [t' [db [dn [f [wd [A4 _]]]]]]]]]. apply len_entry_range in A4. lia.
  - destruct A4 as [lb [ln [e [t' [db [dn [f [wd [P1 [P2 [P3 [P4 [P5 [P6 [P7 P8]]]]]]]]]]]]]]].
    destruct B4 as [lb' [ln' [e' [t'' [db' [dn' [f' [wd' [Q1 [Q2 [Q3 [Q4 [Q5 [Q6 [Q7 Q8]]]]]]]]]]]]]]].
    rewrite P1 in Q1. inversion Q1; subst lb' ln'. subst wr wr'. rewrite <- !app_assoc in E1.
    apply bits_app_inj in E1; auto. destruct E1 as [-> E1].
    destruct (code_inj Hd Hdk P5 Q5 E1) as [<- [<- E2]]. rewrite P4 in Q4. inversion Q4; subst db' dn'.
    apply bits_app_inj in E2; auto. destruct E2 as [-> ->]. subst. auto.
Qed.
Lemma TokensEnc_inj ts1 w1 : TokensEnc ll d ts1 w1 -> forall ts2 w2 r1 r2, TokensEnc ll d ts2 w2 -> w1 ++ r1 = w2 ++ r2 ->
  ts1 = ts2 /\ w1 = w2 /\ r1 = r2.
Proof.
  induction 1 as [w H|t ts w ws H Hs IH]; intros ts2 w2 r1 r2 H2 E.
  - destruct H2 as [w2 H2|t2 ts2 w2 ws2 H2 _].
    + destruct (code_inj Hll Hllk H H2 E) as [_ [-> ->]]. auto.
    + destruct (token_first H2) as [s' [wl' [wr' [B1 [B2 [B3 B4]]]]]]. subst w2. rewrite <- !app_assoc in E.
      destruct (code_inj Hll Hllk H B1 E) as [<- _]. congruence.
  - destruct H2 as [w2 H2|t2 ts2 w2 ws2 H2 H2s].
    + destruct (token_first H) as [s' [wl' [wr' [B1 [B2 [B3 B4]]]]]]. subst w. rewrite <- !app_assoc in E.
      destruct (code_inj Hll Hllk B1 H2 E) as [-> _]. congruence.
    + rewrite <- !app_assoc in E. destruct (TokenEnc_inj H H2 E) as [-> [-> E1]].
      destruct (IH _ _ _ _ H2s E1) as [-> [-> ->]]. auto.
Qed.

(** What follows a given first symbol. *)
Lemma parse_lit s w0 b1 x ts w r : HasCode ll s w0 -> (s < 256)%N -> TokensEnc ll d ts w -> (w0 ++ b1) ++ x = w ++ r ->
  exists ts' ws, ts = TLit s :: ts' /\ w = w0 ++ ws /\ TokensEnc ll d ts' ws /\ b1 ++ x = ws ++ r.
Proof.
  intros H Hs HT E. rewrite <- app_assoc in E. destruct HT as [w H2|t ts' w ws H2 H3].
  - destruct (code_inj Hll Hllk H H2 E) as [-> _]. lia.
  - destruct (token_first H2) as [s' [wl [wr [A1 [A2 [A3 A4]]]]]]. subst w. rewrite <- !app_assoc in E.
    destruct (code_inj Hll Hllk H A1 E) as [<- [<- E1]]. destruct t as [c|l' d'].
    + destruct A4 as [_ [<- ->]]. exists ts', ws. cbn [app] in *. rewrite app_nil_r. auto.
    + destruct A4 as [lb [ln [e [t' [db [dn [f [wd [B4 _]]]]]]]]]. apply len_entry_range in B4. lia.
Qed.
Lemma parse_copy s w0 b1 x ts w r : HasCode ll s w0 -> (257 <= s)%N -> TokensEnc ll d ts w -> (w0 ++ b1) ++ x = w ++ r ->
  exists lb ln e t db dn f wd ts' ws, ts = TCopy (lb + e) (db + f) :: ts' /\
    len_entry s = Some (lb, ln) /\ (e < 2 ^ N.of_nat ln)%N /\ dist_entry t = Some (db, dn) /\ HasCode d t wd /\ (f < 2 ^ N.of_nat dn)%N /\
    w = w0 ++ bits_of_N ln e ++ wd ++ bits_of_N dn f ++ ws /\ TokensEnc ll d ts' ws /\
    b1 ++ x = bits_of_N ln e ++ wd ++ bits_of_N dn f ++ ws ++ r.
Proof.
  intros H Hs HT E. rewrite <- app_assoc in E. destruct HT as [w H2|t ts' w ws H2 H3].
  - destruct (code_inj Hll Hllk H H2 E) as [-> _]. lia.
  - destruct (token_first H2) as [s' [wl [wr [A1 [A2 [A3 A4]]]]]]. subst w. rewrite <- !app_assoc in E.
    destruct (code_inj Hll Hllk H A1 E) as [<- [<- E1]]. destruct t as [c|l' d'].
    + destruct A4 as [A4 _]. lia.
    + destruct A4 as [lb [ln [e [t' [db [dn [f [wd [P1 [P2 [P3 [P4 [P5 [P6 [P7 P8]]]]]]]]]]]]]]]. subst.
      exists lb, ln, e, t', db, dn, f, wd, ts', ws. rewrite <- ?app_assoc in *. repeat split; auto; apply P5.
Qed.
Lemma parse_any ts w : TokensEnc ll d ts w -> exists s wl wr, HasCode ll s wl /\ w = wl ++ wr.
Proof.
  intros HT. destruct HT as [w H2|t ts' w ws H2 H3].
  - exists 256%N, w, []. rewrite app_nil_r. auto.
  - destruct (token_first H2) as [s' [wl [wr [A1 [A2 _]]]]]. subst. exists s', wl, (wr ++ ws). rewrite app_assoc. auto.
Qed.
End Codes.

Lemma copy_ext lk d n : forall h h', copy_bytes lk h d n = Some h' -> exists q, h' = rev q ++ h.
Proof.
  induction n as [|n IH]; cbn [copy_bytes]; intros h h' E.
  - exists []. inversion E. auto.
  - destruct (lk h d) as [c|]; [|discriminate]. destruct (IH _ _ E) as [q ->]. exists (c :: q). cbn. rewrite <- app_assoc. auto.
Qed.
Lemma expand_ext lk ts : forall h h', expand lk h ts = Some h' -> exists q, h' = rev q ++ h.
Proof.
  induction ts as [|[c|l d] ts IH]; cbn [expand]; intros h h' E.
  - exists []. inversion E. auto.
  - destruct (IH _ _ E) as [q ->]. exists (c :: q). cbn. rewrite <- app_assoc. auto.
  - destruct (copy_bytes lk h d (N.to_nat l)) as [h1|] eqn:EC; [|discriminate]. destruct (IH _ _ E) as [q ->].
    destruct (copy_ext EC) as [q1 ->]. exists (q1 ++ q). rewrite rev_app_distr, app_assoc. auto.
Qed.
