(** A concrete environment for the Writer and the Reader, used for tests and to
    show that the hypotheses made about the libraries can be met. *)
From Verif Require Import Base SpecHuffman MToken MCommon MWriter MReader.

(** A complete code which gives nearly the same length to every used symbol. *)
Fixpoint flat_assign (freqs : list N) (short m : nat) : list nat :=
  match freqs with
  | [] => []
  | f :: r => if (f =? 0)%N then 0 :: flat_assign r short m
              else match short with
                   | O => S m :: flat_assign r O m
                   | S k => m :: flat_assign r k m
                   end
  end.
Definition flat_huff (_ : nat) (freqs : list N) : list nat :=
  let k := length (filter (fun f => negb (f =? 0)%N) freqs) in
  if k <=? 1 then map (fun f => if (f =? 0)%N then 0 else 1) freqs
  else let m := Nat.log2 k in flat_assign freqs (2 ^ S m - k) m.

(** A match finder which looks at distances up to 64. *)
Fixpoint common (hist buf : list N) (d n : nat) : nat :=   (* bytes matching at distance d *)
  match n, buf with
  | S n', c :: buf' =>
      match nth_error hist (d - 1) with
      | Some c' => if (c =? c')%N then S (common (c :: hist) buf' d n') else 0
      | None => 0 end
  | _, _ => 0
  end.
Fixpoint search (hist buf : list N) (o : lzopts) (ds : list nat) : option (N * N) :=
  match ds with
  | [] => None
  | d :: r =>
    let n := N.of_nat (common hist buf d (N.to_nat (lz_maxlen o))) in
    if ((3 <=? n) && (lz_minlen o <=? n) && (N.of_nat d <=? 2 ^ lz_winbits o) &&
        (match lz_maxdist o with Some m => N.of_nat d <=? m | None => true end))%N%bool
    then Some (N.of_nat d, n) else search hist buf o r
  end.
Definition demo_match (_ : nat) (o : lzopts) (hist buf : list N) : option (N * N) :=
  search hist buf o (seq 1 (Nat.min 64 (length hist))).

Definition demo_wenv : wenv :=
  WEnv 8 demo_match (fun _ => N.to_nat 4096) flat_huff (fun _ _ => None) (fun _ => None) (fun _ => None).
Definition demo_renv : renv := REnv 8 (fun s => (kraft s <=? 32768)%N) (Some (fun _ => 0%N)) (fun _ d l => N.min d l)
  (fun w => forallb (N.eqb 0) w) (fun _ => 2).
