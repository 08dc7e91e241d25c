(** What the text forms mean, without reference to the code. *)
From Coq Require Import String.
From Verif Require Import Base MText.

(** The number written by a string of decimal digits (most significant first). *)
Definition decimal (s : list N) (n : N) : Prop :=
  s <> [] /\ Forall (fun c => 48 <= c <= 57)%N s /\
  n = fold_left (fun a c => 10 * a + (c - 48))%N s 0%N.

(** [s] is the lower-case word [w], in any mixture of cases. *)
Definition spells (s w : list N) : Prop :=
  Forall2 (fun c d => c = d \/ (c + 32 = d /\ 97 <= d <= 122))%N s w.

(** Bytes that do not occur in text: 0x00-0x08, 0x0e-0x1f and 0x7f. *)
Definition control (b : N) : Prop := (b <= 0x08 \/ 0x0e <= b <= 0x1f \/ b = 0x7f)%N.

(** The eight lower-case hexadecimal digits of a 32-bit number. *)
Definition hex_digit (d : N) : N := nth (N.to_nat d) (lit "0123456789abcdef"%string) 0%N.
Definition hex8 (v : N) : list N :=
  map (fun k => hex_digit (v / 16 ^ k mod 16))%N [7; 6; 5; 4; 3; 2; 1; 0]%N.
