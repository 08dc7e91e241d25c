(** C46, C47, C48: text detection, checksum text form, parsing of levels. *)
From Coq Require Import String.
From Verif Require Import Base MToken MText SpecText.
Local Open Scope N_scope.

(** ** C46 *)
Theorem C46_is_text buf : isText buf = true <-> ~ (exists b, In b buf /\ control b).
Proof.
  induction buf as [|c t IH]; cbn [isText].
  - split; [intros _ (b & [] & _)|reflexivity].
  - assert (X : isTextByte c = true <-> ~ control c).
    { unfold isTextByte, control. destruct (c <? 9) eqn:A; [split; [discriminate|intros H; exfalso; apply H; lia]|].
      destruct ((0x0d <? c) && (c <? 0x20))%bool eqn:B; [split; [discriminate|intros H; exfalso; apply H; lia]|].
      destruct (c =? 0x7f) eqn:C; [split; [discriminate|intros H; exfalso; apply H; lia]|]. split; [intros _ H; lia|reflexivity]. }
    destruct (isTextByte c).
    + rewrite IH. split; intros H (b & Hb & Hc).
      * destruct Hb as [->|Hb]; [apply X in Hc; auto|]. apply H. exists b. auto.
      * apply H. exists b. split; [right; auto|auto].
    + split; [discriminate|]. intros H. exfalso. apply H. exists c. split; [left; auto|].
      destruct X as [_ X]. unfold control in *. destruct (N.le_gt_cases c 8); [lia|]. destruct (N.le_gt_cases c 0x0d).
      * exfalso. assert (false = true) by (apply X; lia). discriminate.
      * destruct (N.le_gt_cases c 0x1f); [lia|]. destruct (N.eq_dec c 0x7f); [lia|]. exfalso. assert (false = true) by (apply X; lia). discriminate.
Qed.
Example C46_ex : isText (lit "Hello, world"%string ++ [9; 10; 13; 200]) = true /\ isText (lit "Hello"%string ++ [27]) = false.
Proof. split; reflexivity. Qed.

(** ** C47 *)
Fixpoint hexn (n : nat) (u : N) : list N :=
  match n with O => [] | S k => hexn k (u / 16) ++ [digit_char (u mod 16)] end.
Lemma hexn_0 n : hexn n 0 = repeat 48 n.
Proof.
  induction n as [|n IH]; cbn [hexn]; auto. change (0 / 16) with 0. rewrite IH. change (digit_char (0 mod 16)) with 48.
  symmetry. apply repeat_cons.
Qed.
Lemma hexn_len n : forall u, length (hexn n u) = n.
Proof. induction n as [|n IH]; intros u; cbn [hexn]; auto. rewrite app_length, IH. cbn. lia. Qed.
Lemma digits_pad n : forall f u acc, u < 16 ^ N.of_nat (S n) -> (n < f)%nat ->
  repeat 48 (S n + length acc - length (digits_loop f 16 u acc)) ++ digits_loop f 16 u acc = hexn (S n) u ++ acc.
Proof.
  induction n as [|n IH]; intros f u acc Hu Hf; (destruct f as [|f]; [lia|]); cbn [digits_loop].
  - change (16 ^ N.of_nat 1) with 16 in Hu. destruct (u <? 16) eqn:A; [|lia]. cbn [hexn length app]. replace (1 + length acc - S (length acc))%nat with 0%nat by lia.
    cbn. rewrite N.mod_small by lia. reflexivity.
  - destruct (u <? 16) eqn:A.
    + cbn [hexn length]. replace (S (S n) + length acc - S (length acc))%nat with (S n) by lia. rewrite (@N.div_small u 16), (@N.mod_small u 16) by lia.
      change (0 / 16) with 0. rewrite hexn_0. change (digit_char (0 mod 16)) with 48. rewrite <- !app_assoc. cbn [app].
      change (repeat 48 (S n)) with (48 :: repeat 48 n). rewrite repeat_cons, <- app_assoc. reflexivity.
    + set (x := digit_char (u mod 16)). assert (Hq : u / 16 < 16 ^ N.of_nat (S n)).
      { apply N.div_lt_upper_bound; [lia|]. replace (N.of_nat (S (S n))) with (N.succ (N.of_nat (S n))) in Hu by lia. rewrite N.pow_succ_r' in Hu. exact Hu. }
      specialize (IH f (u / 16) (x :: acc) Hq ltac:(lia)). cbn [length] in IH. replace (S n + S (length acc))%nat with (S (S n) + length acc)%nat in IH by lia.
      rewrite IH. change (hexn (S (S n)) u) with (hexn (S n) (u / 16) ++ [x]). rewrite <- app_assoc. reflexivity.
Qed.
Lemma csum_hexn v : v < 2 ^ 32 -> csum_String v = lit "0x"%string ++ hexn 8 v.
Proof.
  intros H. unfold csum_String, fmt_08x, zero_pad. f_equal. pose proof (@digits_pad 7 64 v [] H ltac:(lia)) as X. cbn [length] in X. rewrite app_nil_r in X.
  exact X.
Qed.
Lemma digit_char_hex d : d < 16 -> digit_char d = hex_digit d.
Proof.
  intros H. assert (X : In (N.to_nat d) (seq 0 16)) by (apply in_seq; lia). rewrite <- (N2Nat.id d). generalize dependent (N.to_nat d). intros n X. cbn in X.
  repeat (destruct X as [<-|X]; [reflexivity|]). destruct X.
Qed.
Lemma hexn_hex8 v : hexn 8 v = hex8 v.
Proof.
  cbn [hexn app]. unfold hex8. cbn [map]. rewrite <- !digit_char_hex by (apply N.mod_lt; lia).
  repeat rewrite N.div_div by lia. change (16 ^ 0) with 1. rewrite N.div_1_r. reflexivity.
Qed.

Lemma digit_val_char d : d < 16 -> digit_val (digit_char d) = Some d.
Proof.
  intros H. assert (X : In (N.to_nat d) (seq 0 16)) by (apply in_seq; lia). rewrite <- (N2Nat.id d). generalize dependent (N.to_nat d). intros n X. cbn in X.
  repeat (destruct X as [<-|X]; [reflexivity|]). destruct X.
Qed.
Lemma parse_hexn n : forall u a t, u < 16 ^ N.of_nat n -> a * 16 ^ N.of_nat n + u < 2 ^ 32 ->
  parse_digits 16 (2 ^ 32 - 1) (hexn n u ++ t) a = parse_digits 16 (2 ^ 32 - 1) t (a * 16 ^ N.of_nat n + u).
Proof.
  induction n as [|n IH]; intros u a t Hu Ha.
  - change (16 ^ N.of_nat 0) with 1 in *. cbn [hexn app]. f_equal. lia.
  - replace (N.of_nat (S n)) with (N.succ (N.of_nat n)) in * by lia. rewrite N.pow_succ_r' in *. set (P := 16 ^ N.of_nat n) in *.
    assert (Q : u = 16 * (u / 16) + u mod 16) by (apply N.div_mod'). assert (R : u mod 16 < 16) by (apply N.mod_lt; lia).
    cbn [hexn]. rewrite <- app_assoc. rewrite IH; [|apply N.div_lt_upper_bound; [lia|]; exact Hu|].
    + cbn [app parse_digits]. rewrite (digit_val_char R). destruct (16 <=? u mod 16) eqn:A; [lia|].
      replace ((a * P + u / 16) * 16 + u mod 16) with (a * (16 * P) + u) by nia. fold P.
      destruct (2 ^ 32 - 1 <? a * (16 * P) + u) eqn:B; [change (2 ^ 32) with 4294967296 in *; lia|reflexivity].
    + fold P. nia.
Qed.

Theorem C47_checksum_text v : v < 2 ^ 32 ->
  csum_String v = lit "0x"%string ++ hex8 v /\
  csum_MarshalJSON v = [34] ++ csum_String v ++ [34] /\
  csum_UnmarshalJSON (csum_MarshalJSON v) = Some v.
Proof.
  intros H. split; [rewrite csum_hexn, hexn_hex8 by auto; reflexivity|]. split; [reflexivity|].
  unfold csum_UnmarshalJSON, csum_MarshalJSON, json_quote, json_unquote. rewrite rev_app_distr. cbn [rev app].
  assert (P : forallb plain (rev (csum_String v)) = true).
  { apply forallb_forall. intros x Hx. apply in_rev in Hx. rewrite csum_hexn in Hx by auto.
    assert (A : forall n u y, In y (hexn n u) -> plain y = true).
    { induction n as [|n IH]; intros u y Hy; cbn [hexn] in Hy; [destruct Hy|]. apply in_app_or in Hy. destruct Hy as [Hy|[<-|[]]]; [eauto|].
      assert (R : u mod 16 < 16) by (apply N.mod_lt; lia). generalize dependent (u mod 16). intros d R.
      assert (X : In (N.to_nat d) (seq 0 16)) by (apply in_seq; lia). rewrite <- (N2Nat.id d). generalize dependent (N.to_nat d). intros k X. cbn in X.
      repeat (destruct X as [<-|X]; [reflexivity|]). destruct X. }
    apply in_app_or in Hx. destruct Hx as [Hx|Hx]; [|eauto]. cbn in Hx. destruct Hx as [<-|[<-|[]]]; reflexivity. }
  rewrite P, rev_involutive. rewrite csum_hexn by auto. change (lit "0x"%string) with [48; 120]. cbn [app].
  replace (trim_prefix [48; 120] (48 :: 120 :: hexn 8 v) (48 :: 120 :: hexn 8 v)) with (hexn 8 v) by reflexivity.
  unfold parse_uint. pose proof (@parse_hexn 8 v 0 [] H) as X. rewrite app_nil_r in X. destruct (hexn 8 v) as [|c t] eqn:E.
  - pose proof (hexn_len 8 v) as L. rewrite E in L. discriminate.
  - rewrite X; [reflexivity|]. change (16 ^ N.of_nat 8) with (2 ^ 32). lia.
Qed.
Example C47_ex : csum_MarshalJSON 0xabc = [34] ++ lit "0x00000abc"%string ++ [34] /\ csum_UnmarshalJSON ([34] ++ lit "0x00000abc"%string ++ [34]) = Some 0xabc.
Proof. split; reflexivity. Qed.

(** ** C48 *)
Lemma digit_dec c d : digit_val c = Some d -> (d < 10 <-> 48 <= c <= 57) /\ (d < 10 -> d = c - 48).
Proof.
  unfold digit_val. destruct ((48 <=? c) && (c <=? 57))%bool eqn:A; [intros [= <-]; split; [split|]; lia|].
  destruct ((97 <=? N.lor c 32) && (N.lor c 32 <=? 122))%bool eqn:B; [|discriminate]. intros [= <-]. split; [split|]; lia.
Qed.
Lemma fold_dec_ge s : forall a, Forall (fun c => 48 <= c <= 57) s -> a <= fold_left (fun a c => 10 * a + (c - 48)) s a.
Proof. induction s as [|c t IH]; cbn; intros a H; [lia|]. inversion H; subst. specialize (IH (10 * a + (c - 48)) H3). lia. Qed.
Lemma parse_dec mx s : forall a v, parse_digits 10 mx s a = Some v -> a <= mx ->
  Forall (fun c => 48 <= c <= 57) s /\ v = fold_left (fun a c => 10 * a + (c - 48)) s a /\ v <= mx.
Proof.
  induction s as [|c t IH]; cbn; intros a v H Ha.
  - injection H as <-. auto.
  - destruct (digit_val c) as [d|] eqn:D; [|discriminate]. destruct (digit_dec D) as [D1 D2]. destruct (10 <=? d) eqn:A; [discriminate|].
    destruct (mx <? a * 10 + d) eqn:B; [discriminate|]. apply IH in H; [|lia]. destruct H as (H1 & H2 & H3).
    assert (d = c - 48) by (apply D2; lia). subst d. split; [constructor; [apply D1; lia|auto]|]. split; auto. rewrite H2. f_equal. lia.
Qed.
Lemma parse_dec_ok mx s : forall a, Forall (fun c => 48 <= c <= 57) s -> fold_left (fun a c => 10 * a + (c - 48)) s a <= mx ->
  parse_digits 10 mx s a = Some (fold_left (fun a c => 10 * a + (c - 48)) s a).
Proof.
  induction s as [|c t IH]; cbn; intros a H Hm; [reflexivity|]. inversion H; subst. unfold digit_val. destruct ((48 <=? c) && (c <=? 57))%bool eqn:A; [|lia].
  destruct (10 <=? c - 48) eqn:B; [lia|]. pose proof (@fold_dec_ge t (10 * a + (c - 48)) H3) as X. replace (a * 10 + (c - 48)) with (10 * a + (c - 48)) by lia.
  destruct (mx <? 10 * a + (c - 48)) eqn:C; [lia|]. apply IH; auto.
Qed.
Lemma parse_uint_dec s v : parse_uint s 10 8 = Some v <-> decimal s v /\ v <= 255.
Proof.
  unfold parse_uint, decimal. destruct s as [|c t].
  - split; [discriminate|]. intros ((H & _) & _). congruence.
  - change (2 ^ 8 - 1) with 255. split.
    + intros H. apply parse_dec in H; [|lia]. destruct H as (H1 & H2 & H3). split; auto. split; [discriminate|auto].
    + intros ((_ & H1 & ->) & H3). apply parse_dec_ok; auto.
Qed.
Lemma fold_spells w : Forall (fun d => 97 <= d <= 122) w -> forall s, equal_fold s w = true <-> spells s w.
Proof.
  unfold spells. induction w as [|d w IH]; intros Hw [|c s]; cbn [equal_fold].
  - split; [constructor|reflexivity].
  - split; [discriminate|]. intros H. inversion H.
  - split; [discriminate|]. intros H. inversion H.
  - inversion Hw; subst. assert (X : (lower c =? lower d) = true <-> (c = d \/ (c + 32 = d /\ 97 <= d <= 122))).
    { unfold lower. destruct ((65 <=? d) && (d <=? 90))%bool eqn:A; [lia|]. destruct ((65 <=? c) && (c <=? 90))%bool eqn:B; lia. }
    rewrite andb_true_iff, X, IH by auto. split; [intros [Y Z]; constructor; auto|]. intros H. inversion H; subst. auto.
Qed.
Lemma low_default : Forall (fun d => 97 <= d <= 122) (lit "default"%string). Proof. apply Forall_forall. intros x H. cbn in H. lia. Qed.
Lemma low_none : Forall (fun d => 97 <= d <= 122) (lit "none"%string). Proof. apply Forall_forall. intros x H. cbn in H. lia. Qed.
Lemma spells_not_decimal s w v : Forall (fun d => 97 <= d <= 122) w -> spells s w -> decimal s v -> False.
Proof.
  intros Hw Hs (Hn & Hd & _). destruct Hs as [|c d s w Hc Hs]; [congruence|]. inversion Hw; subst. inversion Hd; subst. lia.
Qed.
Lemma spells_first c s d w : spells (c :: s) (d :: w) -> c = d \/ c + 32 = d.
Proof. intros H. inversion H; subst. tauto. Qed.

(** What each parser accepts, value for value; anything else leaves the default
    value and an error. *)
Theorem C48_clevel s :
  (forall v, clevel_Parse s = (v, true) <->
     (spells s (lit "default"%string) /\ v = (-1)%Z) \/ (spells s (lit "none"%string) /\ v = 0%Z) \/
     (exists n, decimal s n /\ n <= 9 /\ v = Z.of_N n)) /\
  (forall v, clevel_Parse s = (v, false) -> v = (-1)%Z) /\
  (forall v ok, clevel_Parse s = (v, ok) -> (-1 <= v <= 9)%Z).
Proof.
  unfold clevel_Parse. pose proof (@fold_spells _ low_default s) as FD. pose proof (@fold_spells _ low_none s) as FN.
  destruct (equal_fold s (lit "default"%string)).
  - split; [|split; intros; congruence || (injection H; lia)]. intros v. split; [intros [= <-]; left; split; [apply FD; auto|auto]|].
    intros [[_ ->]|[[H _]|(n & H & _)]]; auto.
    + exfalso. assert (HD : spells s (lit "default"%string)) by (apply FD; auto). destruct s as [|c s]; [inversion H|].
      apply spells_first in H. apply spells_first in HD. cbn in H, HD. lia.
    + exfalso. eapply spells_not_decimal; [exact low_default| |exact H]. apply FD; auto.
  - destruct (equal_fold s (lit "none"%string)).
    + split; [|split; intros; congruence || (injection H; lia)]. intros v. split; [intros [= <-]; right; left; split; [apply FN; auto|auto]|].
      intros [[H _]|[[_ ->]|(n & H & _)]]; auto.
      * apply FD in H. discriminate.
      * exfalso. eapply spells_not_decimal; [exact low_none| |exact H]. apply FN; auto.
    + destruct (parse_uint s 10 8) as [u|] eqn:P.
      * pose proof P as P'. apply parse_uint_dec in P'. destruct P' as [P1 P2]. destruct (9 <? u) eqn:A.
        -- split; [|split; intros; congruence || (injection H; lia)]. intros v. split; [discriminate|].
           intros [[H _]|[[H _]|(n & H & Hn & _)]]; [apply FD in H; discriminate|apply FN in H; discriminate|].
           destruct H as (_ & _ & ->). destruct P1 as (_ & _ & ->). lia.
        -- split; [|split; intros; congruence || (injection H; lia)]. intros v. split; [intros [= <-]; right; right; exists u; split; [auto|lia]|].
           intros [[H _]|[[H _]|(n & H & Hn & ->)]]; [apply FD in H; discriminate|apply FN in H; discriminate|].
           destruct H as (_ & _ & ->). destruct P1 as (_ & _ & ->). reflexivity.
      * split; [|split; intros; congruence || (injection H; lia)]. intros v. split; [discriminate|].
        intros [[H _]|[[H _]|(n & H & Hn & _)]]; [apply FD in H; discriminate|apply FN in H; discriminate|].
        assert (X : parse_uint s 10 8 = Some n) by (apply parse_uint_dec; split; [auto|lia]). congruence.
Qed.

Theorem C48_mlevel s :
  (forall v, mlevel_Parse s = (v, true) <->
     (spells s (lit "default"%string) /\ v = 0) \/ (decimal s v /\ v <= 9)) /\
  (forall v, mlevel_Parse s = (v, false) -> v = 0) /\
  (forall v ok, mlevel_Parse s = (v, ok) -> v <= 9).
Proof.
  unfold mlevel_Parse. pose proof (@fold_spells _ low_default s) as FD.
  destruct (equal_fold s (lit "default"%string)).
  - split; [|split; intros; congruence || (injection H; lia)]. intros v. split; [intros [= <-]; left; split; [apply FD; auto|auto]|].
    intros [[_ ->]|[H _]]; auto. exfalso. eapply spells_not_decimal; [exact low_default| |exact H]. apply FD; auto.
  - destruct (parse_uint s 10 8) as [u|] eqn:P.
    + pose proof P as P'. apply parse_uint_dec in P'. destruct P' as [P1 P2]. destruct (9 <? u) eqn:A.
      * split; [|split; intros; congruence || (injection H; lia)]. intros v. split; [discriminate|].
        intros [[H _]|[H Hn]]; [apply FD in H; discriminate|]. destruct H as (_ & _ & ->). destruct P1 as (_ & _ & ->). lia.
      * split; [|split; intros; congruence || (injection H; lia)]. intros v. split; [intros [= <-]; right; split; [auto|lia]|].
        intros [[H _]|[H Hn]]; [apply FD in H; discriminate|]. destruct H as (_ & _ & ->). destruct P1 as (_ & _ & ->). reflexivity.
    + split; [|split; intros; congruence || (injection H; lia)]. intros v. split; [discriminate|].
      intros [[H _]|[H Hn]]; [apply FD in H; discriminate|].
      assert (X : parse_uint s 10 8 = Some v) by (apply parse_uint_dec; split; [auto|lia]). congruence.
Qed.

Theorem C48_wbits s :
  (forall v, wbits_Parse s = (v, true) <->
     (spells s (lit "default"%string) /\ v = 0) \/ (decimal s v /\ 8 <= v <= 15)) /\
  (forall v, wbits_Parse s = (v, false) -> v = 0) /\
  (forall v ok, wbits_Parse s = (v, ok) -> v = 0 \/ 8 <= v <= 15).
Proof.
  unfold wbits_Parse. pose proof (@fold_spells _ low_default s) as FD.
  destruct (equal_fold s (lit "default"%string)).
  - split; [|split; intros; congruence || (injection H; lia)]. intros v. split; [intros [= <-]; left; split; [apply FD; auto|auto]|].
    intros [[_ ->]|[H _]]; auto. exfalso. eapply spells_not_decimal; [exact low_default| |exact H]. apply FD; auto.
  - destruct (parse_uint s 10 8) as [u|] eqn:P.
    + pose proof P as P'. apply parse_uint_dec in P'. destruct P' as [P1 P2]. destruct (u <? 8) eqn:A; [|destruct (15 <? u) eqn:B].
      * split; [|split; intros; congruence || (injection H; lia)]. intros v. split; [discriminate|].
        intros [[H _]|[H Hn]]; [apply FD in H; discriminate|]. destruct H as (_ & _ & ->). destruct P1 as (_ & _ & ->). lia.
      * split; [|split; intros; congruence || (injection H; lia)]. intros v. split; [discriminate|].
        intros [[H _]|[H Hn]]; [apply FD in H; discriminate|]. destruct H as (_ & _ & ->). destruct P1 as (_ & _ & ->). lia.
      * split; [|split; intros; congruence || (injection H; lia)]. intros v. split; [intros [= <-]; right; split; [auto|lia]|].
        intros [[H _]|[H Hn]]; [apply FD in H; discriminate|]. destruct H as (_ & _ & ->). destruct P1 as (_ & _ & ->). reflexivity.
    + split; [|split; intros; congruence || (injection H; lia)]. intros v. split; [discriminate|].
      intros [[H _]|[H Hn]]; [apply FD in H; discriminate|].
      assert (X : parse_uint s 10 8 = Some v) by (apply parse_uint_dec; split; [auto|lia]). congruence.
Qed.

Lemma in_range lo hi n : lo <= n <= hi -> In (N.to_nat n) (seq (N.to_nat lo) (S (N.to_nat hi - N.to_nat lo))).
Proof. intros H. apply in_seq. lia. Qed.
(** Parse inverts String on the valid values, and IsValid holds of exactly the
    values Parse can store without an error. *)
Theorem C48_inverse :
  (forall c : Z, (-1 <= c <= 9)%Z -> clevel_Parse (clevel_String c) = (c, true)) /\
  (forall m, m <= 9 -> mlevel_Parse (mlevel_String m) = (m, true)) /\
  (forall w, w = 0 \/ 8 <= w <= 15 -> wbits_Parse (wbits_String w) = (w, true)) /\
  (forall c : Z, clevel_IsValid c = true <-> exists s, clevel_Parse s = (c, true)) /\
  (forall m, mlevel_IsValid m = true <-> exists s, mlevel_Parse s = (m, true)) /\
  (forall w, wbits_IsValid w = true <-> exists s, wbits_Parse s = (w, true)).
Proof.
  assert (A : forall c : Z, (-1 <= c <= 9)%Z -> clevel_Parse (clevel_String c) = (c, true)).
  { intros c H. destruct (Z.eq_dec c (-1)) as [->|Hc]; [reflexivity|]. replace c with (Z.of_N (N.of_nat (Z.to_nat c))) by lia.
    assert (X : In (Z.to_nat c) (seq 0 10)) by (apply in_seq; lia). generalize dependent (Z.to_nat c). intros n X. cbn in X.
    repeat (destruct X as [<-|X]; [reflexivity|]). destruct X. }
  assert (B : forall m, m <= 9 -> mlevel_Parse (mlevel_String m) = (m, true)).
  { intros m H. rewrite <- (N2Nat.id m). assert (X : In (N.to_nat m) (seq 0 10)) by (apply in_seq; lia). generalize dependent (N.to_nat m). intros n X. cbn in X.
    repeat (destruct X as [<-|X]; [reflexivity|]). destruct X. }
  assert (C : forall w, w = 0 \/ 8 <= w <= 15 -> wbits_Parse (wbits_String w) = (w, true)).
  { intros w [->|H]; [reflexivity|]. rewrite <- (N2Nat.id w). assert (X : In (N.to_nat w) (seq 8 8)) by (apply in_seq; lia). generalize dependent (N.to_nat w). intros n X. cbn in X.
    repeat (destruct X as [<-|X]; [reflexivity|]). destruct X. }
  split; [exact A|]. split; [exact B|]. split; [exact C|]. split; [|split].
  - intros c. unfold clevel_IsValid. split; [intros H; exists (clevel_String c); apply A; lia|]. intros [s H]. apply (C48_clevel s) in H. lia.
  - intros c. unfold mlevel_IsValid. split; [intros H; exists (mlevel_String c); apply B; lia|]. intros [s H]. apply (C48_mlevel s) in H. lia.
  - intros c. unfold wbits_IsValid. split; [intros H; exists (wbits_String c); apply C; lia|]. intros [s H]. apply (C48_wbits s) in H. lia.
Qed.
Example C48_ex : clevel_Parse (lit "DeFault"%string) = ((-1)%Z, true) /\ clevel_Parse (lit "007"%string) = (7%Z, true) /\
  clevel_Parse (lit "10"%string) = ((-1)%Z, false) /\ mlevel_Parse (lit "+3"%string) = (0, false) /\ wbits_Parse (lit "8"%string) = (8, true) /\ wbits_Parse (lit "7"%string) = (0, false).
Proof. repeat split. Qed.
