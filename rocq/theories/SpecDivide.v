(** Which sequences of calls differ only in how the data is divided among
    Write calls. *)
From Verif Require Import Base MCommon SpecSession.

(** Neighbouring Write calls joined into one. *)
Fixpoint joined (acc : list N) (ops : list wop) : list wop :=
  match ops with
  | [] => [OWrite acc]
  | OWrite p :: r => joined (acc ++ p) r
  | op :: r => OWrite acc :: op :: joined [] r
  end.
Definition same_calls (ops1 ops2 : list wop) : Prop := joined [] ops1 = joined [] ops2.

(** Less than [n] bytes are written between one Flush and the next ([a] bytes
    already have been). *)
Fixpoint fits (n a : N) (ops : list wop) : Prop :=
  match ops with
  | [] => True
  | OWrite p :: r => (a + lenN p < n)%N /\ fits n (a + lenN p)%N r
  | OFlush _ :: r => fits n 0%N r
  | OSetHeader _ :: r => fits n a r
  end.

(** Every SetHeader says whether the data is text. *)
Definition says_type (op : wop) : Prop := match op with OSetHeader h => h_datatype h <> UnknownData | _ => True end.
(** The Writer's input buffer, and how much data makes it emit a block early. *)
Definition input_buffer (o : options) : N := (2 ^ (o_mlevel o + 8))%N.
Definition early_block (o : options) : N := if (o_clevel o =? 0)%Z then 61440%N else 4096%N.
