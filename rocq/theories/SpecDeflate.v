(** Independent specification of the DEFLATE format (RFC 1951) as a grammar:
    which bit strings encode which byte strings.  Bits are listed in stream
    order, i.e. least significant bit of each byte first (section 3.1.1). *)
From Verif Require Import Base SpecHuffman.

(** ** Section 3.2.5: length and distance symbols.
    [len_entry s] = (base length, number of extra bits). *)
Definition len_table : list (N * nat) :=   (* symbols 257.. 285 *)
  [(3%N,0);(4%N,0);(5%N,0);(6%N,0);(7%N,0);(8%N,0);(9%N,0);(10%N,0);
   (11%N,1);(13%N,1);(15%N,1);(17%N,1); (19%N,2);(23%N,2);(27%N,2);(31%N,2);
   (35%N,3);(43%N,3);(51%N,3);(59%N,3); (67%N,4);(83%N,4);(99%N,4);(115%N,4);
   (131%N,5);(163%N,5);(195%N,5);(227%N,5); (258%N,0)].

Definition dist_table : list (N * nat) :=  (* symbols 0..29 *)
  [(1%N,0);(2%N,0);(3%N,0);(4%N,0); (5%N,1);(7%N,1); (9%N,2);(13%N,2); (17%N,3);(25%N,3); (33%N,4);(49%N,4);
   (65%N,5);(97%N,5); (129%N,6);(193%N,6); (257%N,7);(385%N,7); (513%N,8);(769%N,8); (1025%N,9);(1537%N,9);
   (2049%N,10);(3073%N,10); (4097%N,11);(6145%N,11); (8193%N,12);(12289%N,12); (16385%N,13);(24577%N,13)].

Definition len_entry (s : N) : option (N * nat) :=
  if (s <? 257)%N then None else nth_error len_table (N.to_nat (s - 257)).
Definition dist_entry (s : N) : option (N * nat) := nth_error dist_table (N.to_nat s).

(** ** What a compressed block contains *)
Inductive ltoken :=
| TLit (ch : N)                 (* a literal byte *)
| TCopy (len dist : N).       (* "move backwards dist bytes and copy len bytes" *)

(** [HasCode sizes s w]: symbol [s] has a code in the code [sizes], and it is [w]. *)
Definition HasCode (sizes : list nat) (s : N) (w : list bool) : Prop :=
  0 < code_size sizes s /\ w = codeword sizes s.

Inductive TokenEnc (ll d : list nat) : ltoken -> list bool -> Prop :=
| enc_lit ch w : (ch < 256)%N -> HasCode ll ch w -> TokenEnc ll d (TLit ch) w
| enc_copy s lb ln e wl t db dn f wd :
    len_entry s = Some (lb, ln) -> HasCode ll s wl -> (e < 2 ^ N.of_nat ln)%N ->
    dist_entry t = Some (db, dn) -> HasCode d t wd -> (f < 2 ^ N.of_nat dn)%N ->
    TokenEnc ll d (TCopy (lb + e) (db + f))
      (wl ++ bits_of_N ln e ++ wd ++ bits_of_N dn f).

(** Literals and copies, then the end-of-block symbol 256. *)
Inductive TokensEnc (ll d : list nat) : list ltoken -> list bool -> Prop :=
| encs_stop w : HasCode ll 256 w -> TokensEnc ll d [] w
| encs_cons t ts w ws : TokenEnc ll d t w -> TokensEnc ll d ts ws -> TokensEnc ll d (t :: ts) (w ++ ws).

(** ** Sections 3.2.6 and 3.2.7: the codes *)
Definition fixed_ll : list nat := repeat 8 144 ++ repeat 9 112 ++ repeat 7 24 ++ repeat 8 8.
Definition fixed_d : list nat := repeat 5 32.

(** Code length symbols: 0..15 literal, 16 = copy previous 3..6 times (2 bits),
    17 = 3..10 zeros (3 bits), 18 = 11..138 zeros (7 bits).  [ClEnc x done out w]:
    after the lengths [done], the bits [w] describe the lengths [out]. *)
Inductive ClEnc (x : list nat) : list nat -> list nat -> list bool -> Prop :=
| cl_done done : ClEnc x done [] []
| cl_len done n w out ws :
    n < 16 -> HasCode x (N.of_nat n) w -> ClEnc x (done ++ [n]) out ws ->
    ClEnc x done (n :: out) (w ++ ws)
| cl_rep done p e w out ws :
    HasCode x 16 w -> (e < 4)%N ->
    ClEnc x ((done ++ [p]) ++ repeat p (3 + N.to_nat e)) out ws ->
    ClEnc x (done ++ [p]) (repeat p (3 + N.to_nat e) ++ out) (w ++ bits_of_N 2 e ++ ws)
| cl_zero3 done e w out ws :
    HasCode x 17 w -> (e < 8)%N -> ClEnc x (done ++ repeat 0 (3 + N.to_nat e)) out ws ->
    ClEnc x done (repeat 0 (3 + N.to_nat e) ++ out) (w ++ bits_of_N 3 e ++ ws)
| cl_zero7 done e w out ws :
    HasCode x 18 w -> (e < 128)%N -> ClEnc x (done ++ repeat 0 (11 + N.to_nat e)) out ws ->
    ClEnc x done (repeat 0 (11 + N.to_nat e) ++ out) (w ++ bits_of_N 7 e ++ ws).

(** Order in which the code lengths of the code length code are stored. *)
Definition cl_order : list nat := [16;17;18;0;8;7;9;6;10;5;11;4;12;3;13;2;14;1;15].

Definition cl_sizes_bits (x : list nat) (n : nat) : list bool :=
  flat_map (fun s => bits_of_N 3 (N.of_nat (nth s x 0))) (firstn n cl_order).

(** ** Section 3.2.3: blocks.
    The grammar is parametrised by [acc], the codes a decoder accepts, and by
    [lk], what a back reference of a given distance denotes given the output so
    far (most recent byte first).  [strict_lk] is the RFC reading: "the
    distance must not refer past the beginning of the output (or dictionary)". *)
Definition strict_lk (win : N) (hist : list N) (d : N) : option N :=
  if ((1 <=? d) && (d <=? win) && (d <=? lenN hist))%N then nth_error hist (N.to_nat (d - 1)) else None.

Section Grammar.
Variable acc : list nat -> Prop.
Variable lk : list N -> N -> option N.

(** Copying [len] bytes one at a time (source and destination may overlap). *)
Fixpoint copy_bytes (hist : list N) (d : N) (len : nat) : option (list N) :=
  match len with
  | O => Some hist
  | S k => match lk hist d with Some c => copy_bytes (c :: hist) d k | None => None end
  end.

Fixpoint expand (hist : list N) (ts : list ltoken) : option (list N) :=
  match ts with
  | [] => Some hist
  | TLit c :: r => expand (c :: hist) r
  | TCopy l d :: r => match copy_bytes hist d (N.to_nat l) with Some h => expand h r | None => None end
  end.

(** The trees of a dynamic block. *)
Definition DynTrees (ll d : list nat) (w : list bool) : Prop :=
  exists hlit hdist hclen x wc,
    257 <= hlit <= 286 /\ 1 <= hdist <= 30 /\ 4 <= hclen <= 19 /\
    length x = 19 /\ sizes_le 7 x /\ (forall i, hclen <= i < 19 -> nth (nth i cl_order 0) x 0 = 0) /\
    acc x /\
    (exists lls ds, length lls = hlit /\ length ds = hdist /\
       ClEnc x [] (lls ++ ds) wc /\
       ll = lls ++ repeat 0 (288 - hlit) /\ d = ds ++ repeat 0 (32 - hdist)) /\
    acc ll /\ acc d /\
    w = bits_of_N 5 (N.of_nat (hlit - 257)) ++ bits_of_N 5 (N.of_nat (hdist - 1))
        ++ bits_of_N 4 (N.of_nat (hclen - 4)) ++ cl_sizes_bits x hclen ++ wc.

(** [Block pos hist final w hist']: at bit offset [pos] of the stream, with
    output [hist] so far (newest first), the bits [w] form one block; the
    output is [hist'] afterwards. *)
Inductive Block (pos : nat) (hist : list N) (final : bool) : list bool -> list N -> Prop :=
| block_stored pad data :
    length pad < 8 -> (pos + 3 + length pad) mod 8 = 0 ->
    (lenN data <= 65535)%N -> bytes_ok data ->
    Block pos hist final
      ([final; false; false] ++ pad ++ bits_of_N 16 (lenN data)
        ++ bits_of_N 16 (65535 - lenN data)%N ++ bits_of_bytes data)
      (rev data ++ hist)
| block_static ts w hist' :
    TokensEnc fixed_ll fixed_d ts w -> expand hist ts = Some hist' ->
    Block pos hist final ([final; true; false] ++ w) hist'
| block_dynamic ll d ts wt w hist' :
    DynTrees ll d wt -> TokensEnc ll d ts w -> expand hist ts = Some hist' ->
    Block pos hist final ([final; false; true] ++ wt ++ w) hist'.

End Grammar.

(** ** Streams of blocks, for any notion [B] of block. *)
Definition blockpred := nat -> list N -> bool -> list bool -> list N -> Prop.

Section Streams.
Variable B : blockpred.

(** Non-final blocks, then (in [Deflate]) one final block. *)
Inductive Blocks (pos : nat) (hist : list N) : list bool -> list N -> Prop :=
| blocks_nil : Blocks pos hist [] hist
| blocks_snoc w h w' h' :
    Blocks pos hist w h -> B (pos + length w) h false w' h' -> Blocks pos hist (w ++ w') h'.

Definition Deflate (hist : list N) (w : list bool) (hist' : list N) : Prop :=
  exists w1 h w2, Blocks 0 hist w1 h /\ B (length w1) h true w2 hist' /\ w = w1 ++ w2.

(** Raw streams: a DEFLATE bit stream padded to whole bytes.  [dict] is the
    preset dictionary (empty if none), [data] the decompressed bytes. *)
Definition RawStream (dict bytes data : list N) : Prop :=
  bytes_ok bytes /\
  exists w pad, length pad < 8 /\ bits_of_bytes bytes = w ++ pad /\
    Deflate (rev dict) w (rev data ++ rev dict).
End Streams.

(** ** Notions of block *)
(** The strict grammar: codes every decoder must accept, references inside the
    output so far and inside a window of [win] bytes. *)
Definition StrictBlock (win : N) : blockpred := Block proper_code (strict_lk win).
(** Blocks without any back reference (a copy of at least 3 bytes needs [lk]). *)
Definition NoCopyBlock : blockpred := Block proper_code (fun _ _ => None).
(** Blocks whose back references all have distance 1 (runs of a byte). *)
Definition RleBlock : blockpred :=
  Block proper_code (fun hist d => if (d =? 1)%N then hd_error hist else None).
(** Padding of a stored block: if [w] is a stored block starting at bit [pos],
    the bits up to the next byte boundary are zero. *)
Definition zero_padded (pos : nat) (w : list bool) : Prop :=
  match w with
  | _ :: false :: false :: r =>
    let p := (8 - (pos + 3) mod 8) mod 8 in firstn p r = repeat false p
  | _ => True
  end.
(** Strict blocks, stored ones padded with zero bits. *)
Definition CleanBlock (win : N) : blockpred := fun pos hist final w hist' =>
  StrictBlock win pos hist final w hist' /\ zero_padded pos w.
(** Stored blocks. *)
Definition StoredBlockOnly : blockpred := fun pos hist final w hist' =>
  exists pad data, length pad < 8 /\ (pos + 3 + length pad) mod 8 = 0 /\
    (lenN data <= 65535)%N /\ bytes_ok data /\
    w = [final; false; false] ++ pad ++ bits_of_N 16 (lenN data)
        ++ bits_of_N 16 (65535 - lenN data)%N ++ bits_of_bytes data /\
    hist' = rev data ++ hist.
(** Stored blocks, and static blocks that contain nothing but the end marker. *)
Definition StoredOnlyBlock : blockpred := fun pos hist final w hist' =>
  (exists pad data, length pad < 8 /\ (pos + 3 + length pad) mod 8 = 0 /\
     (lenN data <= 65535)%N /\ bytes_ok data /\
     w = [final; false; false] ++ pad ++ bits_of_N 16 (lenN data)
         ++ bits_of_N 16 (65535 - lenN data)%N ++ bits_of_bytes data /\
     hist' = rev data ++ hist)
  \/ (w = [final; true; false] ++ codeword fixed_ll 256 /\ hist' = hist).

Definition StrictRaw (win : N) := RawStream (StrictBlock win).
