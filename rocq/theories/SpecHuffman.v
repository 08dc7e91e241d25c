(** Independent specification of the canonical Huffman code of RFC 1951,
    section 3.2.2.  A code is given by the list of its code lengths, indexed by
    symbol; length 0 means that the symbol has no code. *)
From Verif Require Import Base.

Definition code_size (sizes : list nat) (s : N) : nat := nth (N.to_nat s) sizes 0.

(** "1) Count the number of codes for each code length." *)
Definition bl_count (sizes : list nat) (b : nat) : N :=
  match b with O => 0%N | _ => lenN (filter (Nat.eqb b) sizes) end.

(** "2) Find the numerical value of the smallest code for each code length." *)
Fixpoint next_code (sizes : list nat) (b : nat) : N :=
  match b with
  | O => 0%N
  | S a => (2 * (next_code sizes a + bl_count sizes a))%N
  end.

(** "3) Assign numerical values to all codes, using consecutive values for all
    codes of the same length." *)
Definition code_value (sizes : list nat) (s : N) : N :=
  let b := code_size sizes s in
  (next_code sizes b + lenN (filter (Nat.eqb b) (firstn (N.to_nat s) sizes)))%N.

(** "Huffman codes are packed starting with the most-significant bit of the
    code" (section 3.1.1): the code word in stream order. *)
Definition codeword (sizes : list nat) (s : N) : list bool :=
  rev (bits_of_N (code_size sizes s) (code_value sizes s)).

(** Kraft sum, scaled by 2^15 (code lengths are at most 15). *)
Definition kraft (sizes : list nat) : N :=
  fold_right (fun b acc => ((if Nat.eqb b 0 then 0 else 2 ^ N.of_nat (15 - b)) + acc)%N) 0%N sizes.

Definition sizes_le (m : nat) (sizes : list nat) : Prop := Forall (fun b => b <= m) sizes.
Definition not_oversubscribed (sizes : list nat) : Prop := (kraft sizes <= 32768)%N.
Definition complete_code (sizes : list nat) : Prop := (kraft sizes = 32768)%N.
Definition used_symbols (sizes : list nat) : nat := length (filter (fun b => negb (Nat.eqb b 0)) sizes).

(** A length list which every DEFLATE decoder has to accept: complete, or a
    single symbol of one bit, or no symbol at all (RFC 1951, section 3.2.7). *)
Definition proper_code (sizes : list nat) : Prop :=
  sizes_le 15 sizes /\
  (complete_code sizes \/ used_symbols sizes = 0 \/ (used_symbols sizes = 1 /\ sizes_le 1 sizes)).

(** Section 3.2.2's worked example: lengths (3,3,3,3,3,2,4,4) give codes
    010 011 100 101 110 00 1110 1111. *)
Example rfc_example :
  map (codeword [3;3;3;3;3;2;4;4]) [0;1;2;3;4;5;6;7]%N =
  [[false;true;false]; [false;true;true]; [true;false;false]; [true;false;true]; [true;true;false];
   [false;false]; [true;true;true;false]; [true;true;true;true]].
Proof. vm_compute. reflexivity. Qed.
