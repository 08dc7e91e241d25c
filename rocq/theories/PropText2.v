(** C47, the other direction: exactly which texts a Checksum32 is read from. *)
From Coq Require Import String.
From Verif Require Import Base MText SpecText PropText.
Local Open Scope N_scope.

(** The value of a hexadecimal digit, of either case. *)
Definition hex_value (c d : N) : Prop :=
  (48 <= c <= 57 /\ d = c - 48) \/ (97 <= c <= 102 /\ d = c - 97 + 10) \/ (65 <= c <= 70 /\ d = c - 65 + 10).
(** The number written by a string of hexadecimal digits (most significant first). *)
Inductive hexadecimal : list N -> N -> Prop :=
| hx_one c d : hex_value c d -> hexadecimal [c] d
| hx_more s n c d : hexadecimal s n -> hex_value c d -> hexadecimal (s ++ [c]) (16 * n + d).

Lemma digit_hex c d : is_byte c -> digit_val c = Some d /\ d < 16 <-> hex_value c d.
Proof.
  intros HB. unfold is_byte in HB. assert (X : In (N.to_nat c) (seq 0 256)) by (apply in_seq; lia). rewrite <- (N2Nat.id c). generalize dependent (N.to_nat c). intros n X. clear HB.
  assert (G : forallb (fun n => let c := N.of_nat n in
     match digit_val c with
     | Some d => if d <? 16 then ((48 <=? c) && (c <=? 57) && (d =? c - 48)) || ((97 <=? c) && (c <=? 102) && (d =? c - 97 + 10)) || ((65 <=? c) && (c <=? 70) && (d =? c - 65 + 10))
                 else negb (((48 <=? c) && (c <=? 57)) || ((97 <=? c) && (c <=? 102)) || ((65 <=? c) && (c <=? 70)))
     | None => negb (((48 <=? c) && (c <=? 57)) || ((97 <=? c) && (c <=? 102)) || ((65 <=? c) && (c <=? 70)))
     end) (seq 0 256) = true) by (vm_compute; reflexivity).
  rewrite forallb_forall in G. specialize (G n X). cbv zeta in G. set (c' := N.of_nat n) in *. clearbody c'. clear X n. unfold hex_value.
  destruct (digit_val c') as [e|].
  - destruct (e <? 16) eqn:L; split.
    + intros [[= <-] _]. lia.
    + intros H. assert (e = d) by lia. subst e. split; auto. lia.
    + intros [[= <-] H]. lia.
    + intros H. lia.
  - split; [intros [H _]; discriminate|]. intros H. lia.
Qed.

Definition hval (s : list N) (a : N) : N := fold_left (fun a c => 16 * a + match digit_val c with Some d => d | None => 0 end) s a.
Definition hdigit (c : N) : Prop := exists d, hex_value c d.
Lemma hval_ge s : forall a, a <= hval s a.
Proof. induction s as [|c t IH]; cbn; intros a; [lia|]. etransitivity; [|apply IH]. lia. Qed.
Lemma parse_hex mx s : Forall is_byte s -> forall a v, a <= mx -> parse_digits 16 mx s a = Some v <-> Forall hdigit s /\ v = hval s a /\ v <= mx.
Proof.
  induction 1 as [|c t HB _ IH]; cbn [parse_digits hval fold_left]; intros a v Ha.
  - split; [intros [= <-]; auto|intros (_ & -> & _); auto].
  - split.
    + destruct (digit_val c) as [d|] eqn:D; [|discriminate]. destruct (16 <=? d) eqn:L; [discriminate|]. destruct (mx <? a * 16 + d) eqn:M; [discriminate|].
      intros H. apply IH in H; [|lia]. destruct H as (H1 & H2 & H3). split; [constructor; auto; exists d; apply digit_hex; auto; split; auto; lia|]. split; auto.
      rewrite H2. unfold hval. f_equal. lia.
    + intros (H1 & H2 & H3). inversion H1 as [|? ? [d HD] HT]; subst. apply digit_hex in HD; auto. destruct HD as [D L]. rewrite D in *. fold (hval t (16 * a + d)) in *.
      replace (16 <=? d) with false by lia. pose proof (@hval_ge t (16 * a + d)) as G; change (a <= mx) in Ha; assert (G2 : 16 * a + d <= hval t (16 * a + d)) by exact G. replace (a * 16 + d) with (16 * a + d) by lia.
      replace (mx <? 16 * a + d) with false by lia. apply IH; [lia|auto].
Qed.
Lemma hexadecimal_iff s v : Forall is_byte s -> hexadecimal s v <-> s <> [] /\ Forall hdigit s /\ v = hval s 0.
Proof.
  intros HB. split.
  - induction 1 as [c d H|s n c d H IH HC].
    + split; [discriminate|]. split; [constructor; [exists d; auto|constructor]|]. inversion HB; subst. apply digit_hex in H; auto. destruct H as [E _]. cbn. rewrite E. reflexivity.
    + apply Forall_app in HB as [B1 B2]. destruct (IH B1) as (I1 & I2 & I3). split; [destruct s; discriminate|]. split; [apply Forall_app; split; auto; constructor; [exists d; auto|constructor]|].
      inversion B2; subst. apply digit_hex in HC; auto. destruct HC as [E _]. unfold hval. rewrite fold_left_app. cbn. rewrite E. reflexivity.
  - intros (H1 & H2 & ->). revert H1 H2 HB. induction s as [|c s IH] using rev_ind; [congruence|]. intros _ H2 HB.
    apply Forall_app in H2 as [H2 H3]. apply Forall_app in HB as [B1 B2]. inversion H3 as [|? ? [d HD] _]; subst. inversion B2; subst.
    assert (E : digit_val c = Some d) by (apply digit_hex; auto). unfold hval. rewrite fold_left_app. cbn [fold_left]. rewrite E.
    destruct s as [|c0 s]; [cbn; rewrite N.add_0_l || idtac; constructor; exact HD|]. constructor; auto. apply IH; auto. discriminate.
Qed.

Lemma plain_bytes s : forallb plain s = true -> Forall is_byte s.
Proof. intros H. apply Forall_forall. intros c Hc. rewrite forallb_forall in H. specialize (H c Hc). unfold plain in H. unfold is_byte. lia. Qed.
Definition untrim (s : list N) : list N := match s with a :: b :: t => if (a =? 48) && (b =? 120) then t else s | _ => s end.
Lemma trim_0x s : trim_prefix (lit "0x"%string) s s = untrim s.
Proof.
  change (lit "0x"%string) with [48; 120]. destruct s as [|a [|b t]]; cbn [trim_prefix untrim]; [reflexivity| |].
  - destruct (48 =? a); reflexivity.
  - rewrite (N.eqb_sym 48 a), (N.eqb_sym 120 b). destruct (a =? 48), (b =? 120); reflexivity.
Qed.
Lemma match34 {A} (q : N) (x y : A) : match q with 34 => x | _ => y end = if q =? 34 then x else y.
Proof. destruct q as [|p]; [reflexivity|]. repeat (destruct p as [p|p|]; try reflexivity). Qed.
Lemma unquote_some raw s : json_unquote raw = Some s -> raw = [34] ++ s ++ [34] /\ forallb plain s = true.
Proof.
  unfold json_unquote. destruct raw as [|q t]; [discriminate|]. rewrite match34. destruct (q =? 34) eqn:Q; [|discriminate]. apply N.eqb_eq in Q. subst q.
  destruct (rev t) as [|q u] eqn:ET; [discriminate|]. rewrite match34. destruct (q =? 34) eqn:Q; [|discriminate]. apply N.eqb_eq in Q. subst q.
  destruct (forallb plain u) eqn:PU; [|discriminate]. intros [= <-]. split.
  - cbn [app]. f_equal. rewrite <- (rev_involutive t), ET. reflexivity.
  - apply forallb_forall. intros c Hc. rewrite forallb_forall in PU. apply PU. apply in_rev. auto.
Qed.

(** A Checksum32 is read from a JSON string of hexadecimal digits, of either
    case, with or without "0x" before them, provided the number fits 32 bits; from
    nothing else.  (The JSON string is one without escapes, see MText.v.) *)
Theorem C47_accepted_texts raw v :
  csum_UnmarshalJSON raw = Some v <->
  exists digits, (raw = [34] ++ digits ++ [34] \/ raw = [34] ++ lit "0x"%string ++ digits ++ [34]) /\ hexadecimal digits v /\ v < 2 ^ 32.
Proof.
  assert (X120 : forall d, ~ hex_value 120 d) by (unfold hex_value; intros; lia).
  assert (HP : forall s, Forall hdigit s -> forallb plain s = true).
  { intros s H. apply forallb_forall. intros c Hc. rewrite Forall_forall in H. destruct (H c Hc) as [d HD]. unfold plain, hex_value in *. lia. }
  assert (PU : forall s, forallb plain s = true -> parse_uint s 16 32 = Some v <-> hexadecimal s v /\ v < 2 ^ 32).
  { intros s PS. pose proof (plain_bytes PS) as B. unfold parse_uint. destruct s as [|c t]; [split; [discriminate|intros [H _]; apply hexadecimal_iff in H; auto; destruct H; congruence]|].
    rewrite parse_hex by (auto; lia). rewrite hexadecimal_iff by auto. change (2 ^ 32) with 4294967296. split; [intros (A & B1 & C); split; [split; [discriminate|auto]|lia]|intros ((_ & A & B1) & C); split; auto; split; auto; lia]. }
  assert (HX : forall s n, hexadecimal s n -> s <> [] /\ Forall hdigit s).
  { induction 1 as [c d H|s n c d H [IH1 IH2] HC]; [split; [discriminate|constructor; [exists d; auto|constructor]]|]. split; [destruct s; discriminate|]. apply Forall_app. split; auto. constructor; [exists d; auto|constructor]. }
  unfold csum_UnmarshalJSON. split.
  - destruct (json_unquote raw) as [s|] eqn:J; [|discriminate]. intros H.
    destruct (unquote_some J) as [-> PS]. rewrite trim_0x in H.
    assert (D : (exists t, s = 48 :: 120 :: t /\ parse_uint t 16 32 = Some v) \/ parse_uint s 16 32 = Some v).
    { destruct s as [|a [|b t]]; auto. cbn [untrim] in H. destruct (a =? 48) eqn:A, (b =? 120) eqn:B; cbn [andb] in H; auto. left. exists t. split; auto. f_equal; [lia|f_equal; lia]. }
    destruct D as [(t & -> & D)|D].
    + exists t. split; [right; reflexivity|]. cbn in PS. apply PU in D; auto.
    + exists s. split; [left; reflexivity|]. apply PU; auto.
  - intros (t & HR & HD & HV). destruct (HX _ _ HD) as [NE HF]. pose proof (HP _ HF) as PS.
    assert (UQ : forall s, forallb plain s = true -> json_unquote ([34] ++ s ++ [34]) = Some s).
    { intros s P. unfold json_unquote. cbn [app]. rewrite rev_app_distr. cbn [rev app]. 
      assert (Q : forallb plain (rev s) = true) by (apply forallb_forall; intros c Hc; rewrite forallb_forall in P; apply P; apply in_rev; auto). rewrite Q, rev_involutive. reflexivity. }
    destruct HR as [-> | ->].
    + rewrite UQ by auto. rewrite trim_0x. assert (E : untrim t = t).
      { destruct t as [|a [|b u]]; auto. inversion HF as [|? ? _ HF2]; inversion HF2 as [|? ? [d K] _]; subst. cbn [untrim]. destruct (a =? 48) eqn:A, (b =? 120) eqn:B; auto.
        exfalso. apply N.eqb_eq in B. subst b. exact (X120 _ K). }
      rewrite E. apply PU; auto.
    + change ([34] ++ lit "0x"%string ++ t ++ [34]) with ([34] ++ (48 :: 120 :: t) ++ [34]). rewrite UQ by (cbn; rewrite PS; reflexivity). rewrite trim_0x. apply PU; auto.
Qed.
Example C47_accepted_ex : csum_UnmarshalJSON ([34] ++ lit "0xDEADbeef"%string ++ [34]) = Some 0xdeadbeef /\ csum_UnmarshalJSON ([34] ++ lit "7"%string ++ [34]) = Some 7 /\
  csum_UnmarshalJSON ([34] ++ lit "0x100000000"%string ++ [34]) = None /\ csum_UnmarshalJSON ([34] ++ lit "0x"%string ++ [34]) = None /\ csum_UnmarshalJSON (lit "7"%string) = None.
Proof. repeat split; vm_compute; reflexivity. Qed.
Print Assumptions C47_accepted_texts.
