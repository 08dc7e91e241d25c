(** Lemmas about token.go and the symbol decoders of reader.go. *)
From Verif Require Import Base SpecHuffman SpecDeflate MToken MCommon MWriter MReader.

Fixpoint Nseq (start : N) (len : nat) : list N :=
  match len with O => [] | S k => start :: Nseq (N.succ start) k end.
Lemma in_Nseq len : forall start n, (start <= n < start + N.of_nat len)%N -> In n (Nseq start len).
Proof.
  induction len as [|len IH]; intros start n H; [lia|].
  cbn [Nseq]. destruct (N.eq_dec start n) as [->|Hne]; [left; auto|right]. apply IH. lia.
Qed.
Lemma all_below (k : N) (P : N -> bool) :
  forallb P (Nseq 0 (N.to_nat k)) = true -> forall n, (n < k)%N -> P n = true.
Proof.
  intros H n Hn. rewrite forallb_forall in H. apply H. apply in_Nseq. lia.
Qed.

Definition entry_eqb (a b : option (N * nat)) : bool :=
  match a, b with
  | Some (x, n), Some (y, m) => (x =? y)%N && (n =? m)
  | None, None => true
  | _, _ => false
  end.
Lemma entry_eqb_eq a b : entry_eqb a b = true -> a = b.
Proof.
  destruct a as [[x n]|], b as [[y m]|]; simpl; intros H; try discriminate; auto.
  apply andb_prop in H. destruct H as [H1 H2]. apply N.eqb_eq in H1. apply Nat.eqb_eq in H2. subst; auto.
Qed.

Lemma nth_error_None_ge {A} (l : list A) n : length l <= n -> nth_error l n = None.
Proof. apply nth_error_None. Qed.

(** ** The Reader's tables are those of RFC 1951 *)
Lemma decodeLL_entry_spec s : (257 <= s)%N -> decodeLL_entry s = len_entry s.
Proof.
  intros Hs. destruct (N.lt_ge_cases s 300) as [H|H].
  - apply entry_eqb_eq.
    assert (A: (if (s <? 257)%N then true else entry_eqb (decodeLL_entry s) (len_entry s)) = true).
    { apply (all_below (k := 300) (P := fun s => if (s <? 257)%N then true else entry_eqb (decodeLL_entry s) (len_entry s))); [vm_compute; reflexivity | exact H]. }
    destruct (N.ltb_spec s 257); auto; lia.
  - unfold decodeLL_entry, len_entry.
    repeat match goal with |- context [(?a <? ?b)%N] => destruct (N.ltb_spec a b); try lia end.
    destruct (N.eqb_spec s 285); try lia.
    symmetry. apply nth_error_None_ge. change (length len_table) with 29. lia.
Qed.

Lemma decodeD_entry_spec s : decodeD_entry s = dist_entry s.
Proof.
  destruct (N.lt_ge_cases s 40) as [H|H].
  - apply entry_eqb_eq.
    apply (all_below (k := 40) (P := fun s => entry_eqb (decodeD_entry s) (dist_entry s))); [vm_compute; reflexivity | exact H].
  - unfold decodeD_entry, dist_entry, logicalNumDCodes.
    repeat match goal with |- context [(?a <? ?b)%N] => destruct (N.ltb_spec a b); try lia end.
    symmetry. apply nth_error_None_ge. change (length dist_table) with 30. lia.
Qed.

Lemma len_entry_range s b n : len_entry s = Some (b, n) ->
  (257 <= s <= 285)%N /\ n <= 5 /\ (3 <= b)%N /\ (b + 2 ^ N.of_nat n - 1 <= 258)%N.
Proof.
  unfold len_entry. intros H.
  destruct (N.ltb_spec s 257) as [Hs|Hs]; [discriminate|].
  assert (H2 : (s <= 285)%N).
  { assert (A : N.to_nat (s - 257) < length len_table) by (apply nth_error_Some; congruence).
    change (length len_table) with 29 in A. lia. }
  pose (P := fun k => match nth_error len_table (N.to_nat k) with
     | Some (b, n) => (n <=? 5) && (3 <=? b)%N && (b + 2 ^ N.of_nat n - 1 <=? 258)%N | None => true end).
  assert (A : P (s - 257)%N = true).
  { apply (all_below (k := 40)); [vm_compute; reflexivity | lia]. }
  unfold P in A. rewrite H in A. lia.
Qed.

Lemma dist_entry_range s b n : dist_entry s = Some (b, n) ->
  (s <= 29)%N /\ n <= 13 /\ (1 <= b)%N /\ (b + 2 ^ N.of_nat n - 1 <= 32768)%N.
Proof.
  unfold dist_entry. intros H.
  assert (H2 : (s <= 29)%N).
  { assert (A : N.to_nat s < length dist_table) by (apply nth_error_Some; congruence).
    change (length dist_table) with 30 in A. lia. }
  pose (P := fun k => match nth_error dist_table (N.to_nat k) with
     | Some (b, n) => (n <=? 13) && (1 <=? b)%N && (b + 2 ^ N.of_nat n - 1 <=? 32768)%N | None => true end).
  assert (A : P s = true).
  { apply (all_below (k := 40)); [vm_compute; reflexivity | lia]. }
  unfold P in A. rewrite H in A. lia.
Qed.

(** ** The Writer emits the RFC 1951 symbol and extra bits *)
Definition sym_ok (entry : N -> option (N * nat)) (v : N) (r : res (option N * nat * N)) : bool :=
  match r with
  | Ok (Some s, n, e) =>
      match entry s with
      | Some (b, m) => (n =? m) && (e <? 2 ^ N.of_nat m)%N && (b + e =? v)%N
      | None => false end
  | _ => false
  end.
Lemma sym_ok_spec entry v r : sym_ok entry v r = true ->
  exists s b n e, r = Ok (Some s, n, e) /\ entry s = Some (b, n) /\ (e < 2 ^ N.of_nat n)%N /\ (b + e)%N = v.
Proof.
  destruct r as [[[[s|] n] e]|p|]; simpl; try discriminate.
  destruct (entry s) as [[b m]|] eqn:E; try discriminate. intros H.
  apply andb_prop in H. destruct H as [H1 H3]. apply andb_prop in H1. destruct H1 as [H1 H2].
  apply Nat.eqb_eq in H1. subst m. exists s, b, n, e. repeat split; auto; lia.
Qed.

Lemma symbolLL_copy l d : (3 <= l <= 258)%N -> d <> 0%N ->
  exists s b n e, symbolLL (Token l d) = Ok (Some s, n, e) /\
    len_entry s = Some (b, n) /\ (e < 2 ^ N.of_nat n)%N /\ (b + e)%N = l.
Proof.
  intros Hl Hd. apply sym_ok_spec.
  replace (symbolLL (Token l d)) with (symbolLL (Token l 1)).
  2:{ unfold symbolLL; cbn [tdist lol]. destruct (N.eqb_spec d 0); try lia. reflexivity. }
  pose (P := fun l => if (l <? 3)%N then true else sym_ok len_entry l (symbolLL (Token l 1))).
  assert (A : P l = true).
  { apply (all_below (k := 259)); [vm_compute; reflexivity | lia]. }
  unfold P in A. destruct (N.ltb_spec l 3); try lia. exact A.
Qed.

Lemma symbolD_copy l d : (1 <= d <= 32768)%N ->
  exists s b n e, symbolD (Token l d) = Ok (Some s, n, e) /\
    dist_entry s = Some (b, n) /\ (e < 2 ^ N.of_nat n)%N /\ (b + e)%N = d.
Proof.
  intros Hd. apply sym_ok_spec.
  replace (symbolD (Token l d)) with (symbolD (Token 0 d)) by reflexivity.
  pose (P := fun d => if (d <? 1)%N then true else sym_ok dist_entry d (symbolD (Token 0 d))).
  assert (A : P d = true).
  { apply (all_below (k := 32769)); [vm_compute; reflexivity | lia]. }
  unfold P in A. destruct (N.ltb_spec d 1); try lia. exact A.
Qed.

Lemma symbolLL_lit c : (c < 256)%N -> symbolLL (makeLiteralToken c) = Ok (Some c, 0, 0%N).
Proof.
  intros H. unfold symbolLL, makeLiteralToken; cbn [lol tdist].
  change (0 =? 0)%N with true. cbn [andb].
  destruct (N.ltb_spec 256 c); try lia. destruct (N.eqb_spec c 256); try lia. reflexivity.
Qed.
Lemma symbolLL_stop : symbolLL makeStopToken = Ok (Some 256%N, 0, 0%N).
Proof. reflexivity. Qed.
Lemma symbolD_0 l : symbolD (Token l 0) = Ok (None, 0, 0%N).
Proof. reflexivity. Qed.
