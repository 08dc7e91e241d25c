(** Model of token.go, analysis.go and huffman.go.
    uint16 fields and huffman.Symbol are [N]; huffman.InvalidSymbol is [None];
    a symbol list index is bounded by its use.  byte sizes are [nat]. *)
From Verif Require Import Base SpecHuffman.

(** ** huffman.go:10-19 *)
Definition logicalNumLLCodes : nat := 286.
Definition logicalNumDCodes : nat := 30.
Definition physicalNumLLCodes : nat := 288.
Definition physicalNumDCodes : nat := 32.
Definition physicalNumXCodes : nat := 19.
Definition scramble : list nat := [16;17;18;0;8;7;9;6;10;5;11;4;12;3;13;2;14;1;15].

(** huffman.go:28-60: the sizes of the fixed codes.  Simplified: the same
    backing array is reused for the distance sizes after the literal/length
    codes were initialised from it; the library is assumed to have copied it. *)
Definition fixedSizesLL : list nat :=
  map (fun i => if i <? 144 then 8 else if i <? 256 then 9 else if i <? 280 then 7 else 8)
      (seq 0 physicalNumLLCodes).
Definition fixedSizesD : list nat := map (fun _ => 5) (seq 0 physicalNumDCodes).

(** The library github.com/chronos-tachyon/huffman (not part of /repo).
    [enc_code] models Encoder.Encode: the size of the code of a symbol and its
    bits, first bit in the least significant position (the order in which
    writer.go emits them). *)
Definition enc_code (sizes : list nat) (s : N) : nat * N :=
  (code_size sizes s, N_of_bits (codeword sizes s)).

(** Decoder: table of (symbol, code word) for the symbols that have a code. *)
Record decoder := Decoder { dec_sizes : list nat; dec_table : list (N * list bool) }.

Definition mk_decoder (sizes : list nat) : decoder :=
  Decoder sizes
    (map (fun i => (N.of_nat i, codeword sizes (N.of_nat i)))
      (filter (fun i => negb (Nat.eqb (nth i sizes 0) 0)) (seq 0 (length sizes)))).

Fixpoint is_prefix (p l : list bool) : bool :=
  match p, l with
  | [], _ => true
  | a :: p', b :: l' => Bool.eqb a b && is_prefix p' l'
  | _ :: _, [] => false
  end.

Definition list_min (l : list nat) : nat :=
  match l with [] => 0 | x :: t => fold_right Nat.min x t end.
Definition list_max' (l : list nat) : nat := fold_right Nat.max 0 l.

(** Decoder.MinSize / MaxSize *)
Definition dec_min (d : decoder) : nat := list_min (map (fun e => length (snd e)) (dec_table d)).
Definition dec_max (d : decoder) : nat := list_max' (map (fun e => length (snd e)) (dec_table d)).

(** Decoder.Decode: the symbol with exactly this code, or no symbol and the
    minimum and maximum size of the codes that start with it (0, 0 if none). *)
Definition dec_decode (d : decoder) (n : nat) (bits : N) : option N * nat * nat :=
  let p := bits_of_N n bits in
  let cands := filter (fun e => is_prefix p (snd e)) (dec_table d) in
  match find (fun e => Nat.eqb (length (snd e)) n) cands with
  | Some e => (Some (fst e), n, n)
  | None => (None, list_min (map (fun e => length (snd e)) cands),
                   list_max' (map (fun e => length (snd e)) cands))
  end.

(** ** token.go *)
Record token := Token { lol : N; tdist : N }.            (* token.go:25-28 *)

(** token.go:30-36 *)
Definition makeCopyToken (length distance : N) : res token :=
  assertb (3 <=? length)%N (assertb (length <=? 258)%N
  (assertb (1 <=? distance)%N (assertb (distance <=? 32768)%N
  (Ok (Token length distance))))).

Definition makeLiteralToken (ch : N) : token := Token ch 0.   (* token.go:38-40 *)
Definition makeStopToken : token := Token 256 0.              (* token.go:42-44 *)

(** token.go:46-49 *)
Definition makeTreeLenToken (size : nat) : res token :=
  assertb (size <? 16) (Ok (Token (512 + N.of_nat size) 0)).
(** token.go:51-55 *)
Definition makeTreeDupToken (count : nat) : res token :=
  assertb (3 <=? count) (assertb (count <=? 6) (Ok (Token (1024 + N.of_nat (count - 3)) 0))).
(** token.go:57-64 *)
Definition makeTreeZeroRunToken (count : nat) : res token :=
  assertb (3 <=? count) (assertb (count <=? 138)
  (if count <? 11 then Ok (Token (2048 + N.of_nat (count - 3)) 0)
   else Ok (Token (4096 + N.of_nat (count - 11)) 0))).
Definition makeInvalidToken : token := Token 65535 0.         (* token.go:66-68 *)

(** token.go:70-90, only the question asked by its callers: is it a stop token? *)
Definition isStopToken (t : token) : bool := ((tdist t =? 0) && (lol t =? 256))%N.

(** token.go:92-143: (symbol, number of extra bits, extra bits) *)
Definition symbolLL (t : token) : res (option N * nat * N) :=
  let l := lol t in
  (if (tdist t =? 0) && (256 <? l) then Ok (None, 0%nat, 0)
  else if (tdist t =? 0) && (l =? 256) then Ok (Some 256, 0%nat, 0)
  else if (tdist t =? 0) then Ok (Some l, 0%nat, 0)
  else if (l <=? 2) then Panic PAssert
  else if (l <=? 10) then Ok (Some (254 + l), 0%nat, 0)
  else if (l <=? 18) then Ok (Some (265 + (l - 11) / 2), 1%nat, (l - 11) mod 2)
  else if (l <=? 34) then Ok (Some (269 + (l - 19) / 4), 2%nat, (l - 19) mod 4)
  else if (l <=? 66) then Ok (Some (273 + (l - 35) / 8), 3%nat, (l - 35) mod 8)
  else if (l <=? 130) then Ok (Some (277 + (l - 67) / 16), 4%nat, (l - 67) mod 16)
  else if (l <=? 257) then Ok (Some (281 + (l - 131) / 32), 5%nat, (l - 131) mod 32)
  else if (l =? 258) then Ok (Some 285, 0%nat, 0)
  else Panic PAssert)%N.

(** token.go:145-169; bits.LeadingZeros16(d) is 16 - N.size d. *)
Definition symbolD (t : token) : res (option N * nat * N) :=
  (if tdist t =? 0 then Ok (None, 0%nat, 0)
  else if tdist t <=? 4 then Ok (Some (tdist t - 1), 0%nat, 0)
  else if tdist t <=? 32768 then
    let d := tdist t - 1 in
    let k := N.size d in
    let code := k * 2 - 1 in
    let bit := N.shiftl 1 (k - 2) mod 65536 in
    let code := if N.land d bit =? 0 then code - 1 else code in
    let size := code / 2 - 1 in
    let mask := N.shiftl 1 size mod 65536 - 1 in
    Ok (Some code, N.to_nat size, N.land d mask)
  else Panic PAssert)%N.

(** token.go:171-195 *)
Definition symbolX (t : token) : option N * nat * N :=
  let l := lol t in
  (if negb (tdist t =? 0) then (None, 0%nat, 0)
  else if l <? 512 then (None, 0%nat, 0)
  else if (512 <=? l) && (l <? 528) then (Some (l - 512), 0%nat, 0)
  else if (1024 <=? l) && (l <? 1028) then (Some 16, 2%nat, l - 1024)
  else if (2048 <=? l) && (l <? 2056) then (Some 17, 3%nat, l - 2048)
  else if (4096 <=? l) && (l <? 4224) then (Some 18, 7%nat, l - 4096)
  else (None, 0%nat, 0))%N.

(** ** analysis.go *)
(** analysis.go:3-16 *)
Definition isTextByte (ch : N) : bool :=
  if (ch <? 0x09)%N then false
  else if ((0x0d <? ch) && (ch <? 0x20))%N then false
  else if (ch =? 0x7f)%N then false
  else true.
Fixpoint isText (buf : list N) : bool :=
  match buf with
  | [] => true
  | ch :: t => if isTextByte ch then isText t else false
  end.

Fixpoint bump (l : list N) (i : nat) : list N :=            (* l[i]++ *)
  match l, i with
  | [], _ => []
  | x :: t, O => (x + 1)%N :: t
  | x :: t, S j => x :: bump t j
  end.

(** freq[sym]++ with Go's bounds check; counters are uint32 in Go and at most
    2^17+1 tokens are ever counted, so they do not wrap. *)
Definition bumpsym (l : list N) (s : option N) : res (list N) :=
  match s with
  | None => Ok l
  | Some s => if (N.to_nat s <? length l) then Ok (bump l (N.to_nat s)) else Panic PBounds
  end.

(** analysis.go:18-31 *)
Fixpoint study_lld (tokens : list token) (fLL fD : list N) : res (list N * list N) :=
  match tokens with
  | [] => Ok (fLL, fD)
  | t :: r =>
      let* (sl, _, _) := symbolLL t in
      let* fLL := bumpsym fLL sl in
      let* (sd, _, _) := symbolD t in
      let* fD := bumpsym fD sd in
      study_lld r fLL fD
  end.
Definition studyFrequenciesLLD (tokens : list token) : res (list N * list N) :=
  study_lld tokens (repeat 0%N physicalNumLLCodes) (repeat 0%N physicalNumDCodes).

(** analysis.go:33-41 *)
Fixpoint study_x (tokens : list token) (fX : list N) : res (list N) :=
  match tokens with
  | [] => Ok fX
  | t :: r => let '(sx, _, _) := symbolX t in let* fX := bumpsym fX sx in study_x r fX
  end.
Definition studyFrequenciesX (tokens : list token) : res (list N) :=
  study_x tokens (repeat 0%N physicalNumXCodes).

(** analysis.go:43-50 *)
Definition sizesAllZeroes (sizes : list nat) : bool := forallb (Nat.eqb 0) sizes.

(** analysis.go:52-61 *)
Fixpoint sizeRunLength (sizes : list nat) (size : nat) : nat :=
  match sizes with
  | [] => 0
  | x :: t => if Nat.eqb x size then S (sizeRunLength t size) else 0
  end.

Fixpoint rep_tok (k : nat) (t : res token) (acc : list token) : res (list token) :=
  match k with
  | O => Ok acc
  | S k' => let* x := t in rep_tok k' t (acc ++ [x])
  end.

(** analysis.go:75-95: tokens for a run of [run] more copies of [size];
    [fuel] bounds the loop of lines 76-80. *)
Fixpoint dup_tokens (fuel : nat) (size run : nat) (acc : list token) : res (list token) :=
  match fuel with
  | O => NoFuel
  | S f =>
    if 9 <=? run then
      let* x := makeTreeDupToken 6 in dup_tokens f size (run - 6) (acc ++ [x])
    else
      let* (acc, run) :=
        (if 6 <? run then let* x := makeTreeDupToken 4 in Ok (acc ++ [x], run - 4)
         else Ok (acc, run)) in
      let* (acc, run) :=
        (if 2 <? run then let* x := makeTreeDupToken run in Ok (acc ++ [x], 0)
         else Ok (acc, run)) in
      rep_tok run (makeTreeLenToken size) acc
  end.

(** analysis.go:103-122: tokens for a run of zeros *)
Fixpoint zero_tokens (fuel : nat) (run : nat) (acc : list token) : res (list token) :=
  match fuel with
  | O => NoFuel
  | S f =>
    if 141 <=? run then
      let* x := makeTreeZeroRunToken 138 in zero_tokens f (run - 138) (acc ++ [x])
    else
      let* (acc, run) :=
        (if 138 <? run then let* x := makeTreeZeroRunToken 136 in Ok (acc ++ [x], run - 136)
         else Ok (acc, run)) in
      let* (acc, run) :=
        (if 3 <? run then let* x := makeTreeZeroRunToken run in Ok (acc ++ [x], 0)
         else Ok (acc, run)) in
      rep_tok run (makeTreeLenToken 0) acc
  end.

(** analysis.go:63-126; [rem] is sizes[i:], fuel bounds the outer loop. *)
Fixpoint encode_tree_loop (fuel : nat) (acc : list token) (rem : list nat) (i min : nat)
  : res (list token * nat) :=
  match rem with
  | [] => Ok (acc, i)
  | size :: rem' =>
    match fuel with
    | O => NoFuel
    | S f =>
      if (min <=? i) && sizesAllZeroes rem then Ok (acc, i)
      else if negb (Nat.eqb size 0) then
        let* x := makeTreeLenToken size in
        let run := sizeRunLength rem' size in
        let* acc := dup_tokens (S run) size run (acc ++ [x]) in
        encode_tree_loop f acc (skipn run rem') (i + 1 + run) min
      else
        let run := sizeRunLength rem 0 in
        let run := if (min <? i + run) && sizesAllZeroes rem then min else run in
        let* acc := zero_tokens (S run) run acc in
        encode_tree_loop f acc (skipn run rem) (i + run) min
    end
  end.

Definition encodeTreeTokens (xtokens : list token) (sizes : list nat) (min : nat) : res (list token * nat) :=
  encode_tree_loop (S (length sizes)) xtokens sizes 0 min.
