(** What the theorems assume of the libraries the Writer calls.  The libraries
    (chronos-tachyon/huffman, chronos-tachyon/buffer) are not part of /repo;
    they are oracles of the model, and these are their contracts. *)
From Verif Require Import Base SpecHuffman MWriter MReader.

(** ** Contract of huffman.Encoder.Init: the code is proper, gives a code
    exactly to the symbols that occur, and the 19-symbol code length code has
    codes of at most 7 bits. *)
Definition huff_sizes_ok (mx : nat) (freq : list N) (sizes : list nat) : Prop :=
  length sizes = length freq /\ sizes_le mx sizes /\ proper_code sizes /\
  forall i, i < length freq -> (nth i freq 0%N = 0%N <-> nth i sizes 0 = 0).
Definition huff_ok (env : wenv) : Prop :=
  forall n freq, n <= 288 -> length freq = n -> huff_sizes_ok (if Nat.eqb n 19 then 7 else 15) freq (e_huff env n freq).

(** ** Contract of buffer.LZ77.Advance: a match it reports is a real match in
    what it has seen since the window was cleared or set, within the options. *)
Definition lz_contract (env : wenv) : Prop :=
  forall calls o hist buf d len, e_match env calls o hist buf = Some (d, len) ->
    (lz_minlen o <= len <= lz_maxlen o)%N /\ (len <= lenN buf)%N /\
    (1 <= d <= 2 ^ lz_winbits o)%N /\
    match lz_maxdist o with Some m => (d <= m)%N | None => True end /\
    forall i, (N.of_nat i < len)%N ->
      nth_error (rev (firstn i buf) ++ hist) (N.to_nat (d - 1)) = nth_error buf i.

Record lib_ok (env : wenv) : Prop := LibOk {
  lib_bpb : bytesPerBlock env = 4 \/ bytesPerBlock env = 8;   (* block32.go / block64.go *)
  lib_huff : huff_ok env;
  lib_lz : lz_contract env }.

(** ** Contracts of the libraries used by the Reader *)
Record rlib_ok (env : renv) : Prop := RLibOk {
  rl_bpb : r_bpb env = 4 \/ r_bpb env = 8;                    (* block32.go / block64.go *)
  (** huffman.Decoder.Init rejects over-subscribed codes, and accepts every proper one. *)
  rl_acc_sound : forall sizes, sizes_le 15 sizes -> e_acc env sizes = true -> not_oversubscribed sizes;
  rl_acc_complete : forall sizes, length sizes <= 288 -> proper_code sizes -> e_acc env sizes = true;
  (** buffer.Window: look-ups beyond what was written fail or yield bytes *)
  rl_far : match e_far env with Some f => forall p, is_byte (f p) | None => True end;
  (** Window.IsZero: true of an empty window, false if there is a non-zero byte *)
  rl_zero_nil : e_iszero env [] = true;
  rl_zero_not : forall l, (exists x, In x l /\ x <> 0%N) -> e_iszero env l = false }.
