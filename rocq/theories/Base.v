(** Base definitions: outcomes of Go code, bits, bytes, machine words.
    Nothing here models a particular function of /repo except where cited. *)
From Coq Require Export List Arith NArith ZArith Lia Bool.
From Coq Require Export ZifyBool ZifyNat ZifyN.
Export ListNotations.
Ltac Zify.zify_post_hook ::= Z.div_mod_to_equations.
#[global] Open Scope nat_scope.
#[global] Set Implicit Arguments.
#[global] Unset Strict Implicit.
#[global] Unset Printing Implicit Defensive.
Arguments N.add : simpl never.
Arguments N.sub : simpl never.
Arguments N.mul : simpl never.
Arguments N.div : simpl never.
Arguments N.modulo : simpl never.
Arguments N.pow : simpl never.
Arguments N.eqb : simpl never.
Arguments N.leb : simpl never.
Arguments N.ltb : simpl never.

(** ** Outcomes.  [Panic] is a Go panic (failed assertion, slice bounds);
    [NoFuel] only occurs when a fuelled loop of the model runs out of fuel. *)
Inductive panic :=
| PAssert   (* chronos-tachyon/assert Assert/Assertf/Raisef *)
| PBounds.  (* Go runtime: index or slice bounds out of range *)

Inductive res (A : Type) :=
| Ok (a : A)
| Panic (p : panic)
| NoFuel.
Arguments Ok {A} a.
Arguments Panic {A} p.
Arguments NoFuel {A}.

Definition rbind {A B} (x : res A) (f : A -> res B) : res B :=
  match x with Ok a => f a | Panic p => Panic p | NoFuel => NoFuel end.

Declare Scope res_scope.
Delimit Scope res_scope with res.
Notation "'let*' p ':=' x 'in' f" := (rbind x (fun p => f))
  (at level 200, p pattern, x at level 100, f at level 200, right associativity) : res_scope.
#[global] Open Scope res_scope.

(** A Go assertion followed by the rest of the function. *)
Definition assertb {A} (b : bool) (k : res A) : res A := if b then k else Panic PAssert.

(** ** Bits, least significant first. *)
Fixpoint bits_of_N (n : nat) (x : N) : list bool :=
  match n with
  | O => []
  | S k => N.odd x :: bits_of_N k (N.div2 x)
  end.

Fixpoint N_of_bits (l : list bool) : N :=
  match l with
  | [] => 0%N
  | b :: t => (N.b2n b + 2 * N_of_bits t)%N
  end.

Definition is_byte (x : N) : Prop := (x < 256)%N.
Definition bytes_ok (l : list N) : Prop := Forall is_byte l.

Definition bits_of_bytes (l : list N) : list bool := flat_map (bits_of_N 8) l.

(** ** Byte orders (encoding/binary). *)
Definition le16 (x : N) : list N := [x mod 256; (x / 256) mod 256]%N.
Definition le32 (x : N) : list N :=
  [x mod 256; (x / 256) mod 256; (x / 65536) mod 256; (x / 16777216) mod 256]%N.
Definition be16 (x : N) : list N := rev (le16 x).
Definition be32 (x : N) : list N := rev (le32 x).
Definition nthN (l : list N) (i : nat) : N := nth i l 0%N.
Definition unle16 (p : list N) : N := (nthN p 0 + 256 * nthN p 1)%N.
Definition unle32 (p : list N) : N :=
  (nthN p 0 + 256 * nthN p 1 + 65536 * nthN p 2 + 16777216 * nthN p 3)%N.
Definition unbe16 (p : list N) : N := (256 * nthN p 0 + nthN p 1)%N.
Definition unbe32 (p : list N) : N :=
  (16777216 * nthN p 0 + 65536 * nthN p 1 + 256 * nthN p 2 + nthN p 3)%N.

Definition two16 : N := 65536%N.
Definition two32 : N := 4294967296%N.
Definition two64 : N := 18446744073709551616%N.
Definition add64 (a b : N) : N := ((a + b) mod two64)%N.
Definition lenN {A} (l : list A) : N := N.of_nat (length l).

(** ** Lemmas on bits *)
Lemma length_bits_of_N n x : length (bits_of_N n x) = n.
Proof. revert x; induction n; simpl; intros; auto. Qed.

Lemma bits_of_N_0 n : bits_of_N n 0 = repeat false n.
Proof. induction n; simpl; auto. f_equal; auto. Qed.

Lemma div2_div x : N.div2 x = (x / 2)%N.
Proof. apply N.div2_div. Qed.

Lemma odd_mod2 x : N.b2n (N.odd x) = (x mod 2)%N.
Proof. rewrite <- N.bit0_mod, N.bit0_odd. reflexivity. Qed.

Lemma N_of_bits_of_N n x : N_of_bits (bits_of_N n x) = (x mod 2 ^ N.of_nat n)%N.
Proof.
  revert x; induction n as [|n IH]; intros x; cbn [bits_of_N N_of_bits].
  - change (2 ^ N.of_nat 0)%N with 1%N. rewrite N.mod_1_r. reflexivity.
  - rewrite IH, odd_mod2, div2_div.
    rewrite Nat2N.inj_succ, N.pow_succ_r'.
    rewrite (N.mod_mul_r x 2 (2 ^ N.of_nat n)); try lia; try (apply N.pow_nonzero; lia).
Qed.

Lemma N_of_bits_lt l : (N_of_bits l < 2 ^ N.of_nat (length l))%N.
Proof.
  induction l as [|b l IH]; cbn [N_of_bits length].
  - reflexivity.
  - rewrite Nat2N.inj_succ, N.pow_succ_r'. destruct b; cbn [N.b2n]; lia.
Qed.

Lemma bits_of_N_of_bits l : bits_of_N (length l) (N_of_bits l) = l.
Proof.
  induction l as [|b l IH]; cbn [N_of_bits length bits_of_N]; auto.
  f_equal.
  - rewrite N.odd_add_mul_2. destruct b; reflexivity.
  - rewrite div2_div.
    replace ((N.b2n b + 2 * N_of_bits l) / 2)%N with (N_of_bits l); auto.
    destruct b; cbn [N.b2n]; lia.
Qed.

Lemma bits_of_N_mod n x : bits_of_N n (x mod 2 ^ N.of_nat n) = bits_of_N n x.
Proof.
  rewrite <- N_of_bits_of_N.
  rewrite <- (length_bits_of_N n x) at 1. apply bits_of_N_of_bits.
Qed.

Lemma bits_of_N_app a b x :
  bits_of_N (a + b) x = bits_of_N a x ++ bits_of_N b (x / 2 ^ N.of_nat a).
Proof.
  revert x; induction a as [|a IH]; intros x.
  - cbn. change (2 ^ 0)%N with 1%N. rewrite N.div_1_r. reflexivity.
  - cbn [Nat.add bits_of_N app]. rewrite IH, div2_div.
    rewrite Nat2N.inj_succ, N.pow_succ_r', N.div_div; try lia; auto;
    try (apply N.pow_nonzero; lia).
Qed.

Lemma N_of_bits_app l1 l2 :
  N_of_bits (l1 ++ l2) = (N_of_bits l1 + 2 ^ N.of_nat (length l1) * N_of_bits l2)%N.
Proof.
  induction l1 as [|b l1 IH]; cbn [app N_of_bits length].
  - change (2 ^ N.of_nat 0)%N with 1%N. lia.
  - rewrite IH, Nat2N.inj_succ, N.pow_succ_r'. lia.
Qed.

Lemma N_of_bits_inj l1 l2 : length l1 = length l2 -> N_of_bits l1 = N_of_bits l2 -> l1 = l2.
Proof.
  intros HL HN. rewrite <- (bits_of_N_of_bits l1), <- (bits_of_N_of_bits l2), HL, HN. reflexivity.
Qed.

Lemma firstn_bits_of_N a b x : a <= b -> firstn a (bits_of_N b x) = bits_of_N a x.
Proof.
  intros H. replace b with (a + (b - a)) by lia. rewrite bits_of_N_app, firstn_app.
  rewrite length_bits_of_N. replace (a - a) with 0 by lia. simpl.
  rewrite app_nil_r, firstn_all2; auto. rewrite length_bits_of_N; lia.
Qed.

Lemma skipn_bits_of_N a b x : a <= b ->
  skipn a (bits_of_N b x) = bits_of_N (b - a) (x / 2 ^ N.of_nat a).
Proof.
  intros H. replace b with (a + (b - a)) at 1 by lia. rewrite bits_of_N_app, skipn_app.
  rewrite length_bits_of_N. replace (a - a) with 0 by lia. simpl.
  rewrite skipn_all2; auto. rewrite length_bits_of_N; lia.
Qed.

Lemma length_bits_of_bytes l : length (bits_of_bytes l) = 8 * length l.
Proof.
  induction l as [|x l IH]; auto.
  unfold bits_of_bytes in *. cbn [flat_map]. rewrite app_length, length_bits_of_N, IH. cbn [length]. lia.
Qed.

Lemma bits_of_bytes_app a b : bits_of_bytes (a ++ b) = bits_of_bytes a ++ bits_of_bytes b.
Proof. apply flat_map_app. Qed.

Lemma bits_of_bytes_cons a b : bits_of_bytes (a :: b) = bits_of_N 8 a ++ bits_of_bytes b.
Proof. reflexivity. Qed.

Lemma app_inj_length {A} (a b c d : list A) : length a = length c -> a ++ b = c ++ d -> a = c /\ b = d.
Proof.
  revert c; induction a as [|x a IH]; destruct c as [|y c]; simpl; intros HL HE; try discriminate; auto.
  inversion HE; subst. destruct (IH c) as [-> ->]; auto.
Qed.

Lemma bits_of_bytes_inj a b : bytes_ok a -> bytes_ok b -> bits_of_bytes a = bits_of_bytes b -> a = b.
Proof.
  revert b; induction a as [|x a IH]; intros [|y b] Ha Hb H; auto.
  - apply (f_equal (@length bool)) in H. rewrite !length_bits_of_bytes in H. simpl in H; lia.
  - apply (f_equal (@length bool)) in H. rewrite !length_bits_of_bytes in H. simpl in H; lia.
  - rewrite !bits_of_bytes_cons in H. apply app_inj_length in H; [|now rewrite !length_bits_of_N].
    destruct H as [H1 H2]. inversion Ha; inversion Hb; subst. f_equal; auto.
    apply (f_equal N_of_bits) in H1. rewrite !N_of_bits_of_N in H1.
    change (2 ^ N.of_nat 8)%N with 256%N in H1. unfold is_byte in *.
    rewrite !N.mod_small in H1; auto.
Qed.

Lemma bytes_ok_app a b : bytes_ok (a ++ b) <-> bytes_ok a /\ bytes_ok b.
Proof. apply Forall_app. Qed.

Lemma bits_of_N_small n x : (x < 2 ^ N.of_nat n)%N -> N_of_bits (bits_of_N n x) = x.
Proof. intros H. rewrite N_of_bits_of_N. now apply N.mod_small. Qed.

Lemma unle16_le16 x : (x < two16)%N -> unle16 (le16 x) = x.
Proof. unfold unle16, le16, two16, nthN; cbn [nth]. lia. Qed.
Lemma unbe16_be16 x : (x < two16)%N -> unbe16 (be16 x) = x.
Proof. unfold unbe16, be16, le16, two16, nthN; cbn [nth rev app]. lia. Qed.
Lemma unle32_le32 x : (x < two32)%N -> unle32 (le32 x) = x.
Proof. unfold unle32, le32, two32, nthN; cbn [nth]. lia. Qed.
Lemma unbe32_be32 x : (x < two32)%N -> unbe32 (be32 x) = x.
Proof. unfold unbe32, be32, le32, two32, nthN; cbn [nth rev app]. lia. Qed.
Lemma le16_bytes x : bytes_ok (le16 x).
Proof. unfold le16; repeat constructor; unfold is_byte; lia. Qed.
Lemma le32_bytes x : bytes_ok (le32 x).
Proof. unfold le32; repeat constructor; unfold is_byte; lia. Qed.
Lemma be16_bytes x : bytes_ok (be16 x).
Proof. unfold be16, le16; repeat constructor; unfold is_byte; lia. Qed.
Lemma be32_bytes x : bytes_ok (be32 x).
Proof. unfold be32, le32; repeat constructor; unfold is_byte; lia. Qed.
