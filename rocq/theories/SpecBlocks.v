(** Independent specification (C83): DEFLATE streams together with the events that describe their blocks.
    It is the grammar of SpecDeflate.v, each block carrying its events: what kind of block it is, whether it is the
    last one, and - for Huffman-coded blocks - the codes and the sizes of their descriptions. *)
From Verif Require Import Base SpecHuffman SpecDeflate MCommon.

Section Grammar.
Variable acc : list nat -> Prop.
Variable lk : list N -> N -> option N.

(** [TreesAt t w]: the bits [w] (RFC 1951, 3.2.7: HLIT, HDIST, HCLEN and the run-length coded code lengths) describe
    the codes reported as [t]. *)
Definition TreesAt (t : trees) (w : list bool) : Prop :=
  (257 <= t_ll t <= 286)%N /\ (1 <= t_d t <= 30)%N /\ (4 <= t_x t <= 19)%N /\
  length (t_xs t) = 19 /\ sizes_le 7 (t_xs t) /\ (forall i, N.to_nat (t_x t) <= i < 19 -> nth (nth i cl_order 0) (t_xs t) 0 = 0) /\
  acc (t_xs t) /\ acc (t_lls t) /\ acc (t_ds t) /\
  exists lls ds wc, lenN lls = t_ll t /\ lenN ds = t_d t /\ ClEnc (t_xs t) [] (lls ++ ds) wc /\
    t_lls t = lls ++ repeat 0 (288 - length lls) /\ t_ds t = ds ++ repeat 0 (32 - length ds) /\
    w = bits_of_N 5 (t_ll t - 257) ++ bits_of_N 5 (t_d t - 1) ++ bits_of_N 4 (t_x t - 4)
        ++ cl_sizes_bits (t_xs t) (N.to_nat (t_x t)) ++ wc.

(** [BlockE pos hist final w hist' es]: as [Block], described by the events [es]. *)
Inductive BlockE (pos : nat) (hist : list N) (final : bool) : list bool -> list N -> list pre_event -> Prop :=
| blockE_stored pad data :
    length pad < 8 -> (pos + 3 + length pad) mod 8 = 0 ->
    (lenN data <= 65535)%N -> bytes_ok data ->
    BlockE pos hist final
      ([final; false; false] ++ pad ++ bits_of_N 16 (lenN data)
        ++ bits_of_N 16 (65535 - lenN data)%N ++ bits_of_bytes data)
      (rev data ++ hist)
      [ev_block BlockBeginEvent StoredBlock final; ev_block BlockEndEvent StoredBlock final]
| blockE_static ts w hist' :
    TokensEnc fixed_ll fixed_d ts w -> expand lk hist ts = Some hist' ->
    BlockE pos hist final ([final; true; false] ++ w) hist'
      [ev_block BlockBeginEvent StaticBlock final; ev_trees StaticBlock final (Trees 0 0 0 [] fixed_ll fixed_d);
       ev_block BlockEndEvent StaticBlock final]
| blockE_dynamic t ts wt w hist' :
    TreesAt t wt -> TokensEnc (t_lls t) (t_ds t) ts w -> expand lk hist ts = Some hist' ->
    BlockE pos hist final ([final; false; true] ++ wt ++ w) hist'
      [ev_block BlockBeginEvent DynamicBlock final; ev_trees DynamicBlock final t;
       ev_block BlockEndEvent DynamicBlock final].

(** The same without the contents: what kind of block the bits [w] are. *)
Inductive BlockS (pos : nat) (final : bool) : list bool -> list pre_event -> Prop :=
| blockS_stored pad data :
    length pad < 8 -> (pos + 3 + length pad) mod 8 = 0 ->
    (lenN data <= 65535)%N -> bytes_ok data ->
    BlockS pos final
      ([final; false; false] ++ pad ++ bits_of_N 16 (lenN data)
        ++ bits_of_N 16 (65535 - lenN data)%N ++ bits_of_bytes data)
      [ev_block BlockBeginEvent StoredBlock final; ev_block BlockEndEvent StoredBlock final]
| blockS_static ts w :
    TokensEnc fixed_ll fixed_d ts w ->
    BlockS pos final ([final; true; false] ++ w)
      [ev_block BlockBeginEvent StaticBlock final; ev_trees StaticBlock final (Trees 0 0 0 [] fixed_ll fixed_d);
       ev_block BlockEndEvent StaticBlock final]
| blockS_dynamic t ts wt w :
    TreesAt t wt -> TokensEnc (t_lls t) (t_ds t) ts w ->
    BlockS pos final ([final; false; true] ++ wt ++ w)
      [ev_block BlockBeginEvent DynamicBlock final; ev_trees DynamicBlock final t;
       ev_block BlockEndEvent DynamicBlock final].

(** A whole DEFLATE stream and its block events. *)
Inductive DeflateE (pos : nat) (hist : list N) : list bool -> list N -> list pre_event -> Prop :=
| de_last w h es : BlockE pos hist true w h es -> DeflateE pos hist w h es
| de_more w h es w' h' es' : BlockE pos hist false w h es -> DeflateE (pos + length w) h w' h' es' ->
    DeflateE pos hist (w ++ w') h' (es ++ es').
(** ... as bytes; compare [RawStream]. *)
Definition RawStreamE (dict bytes data : list N) (es : list pre_event) : Prop :=
  bytes_ok bytes /\
  exists w pad, length pad < 8 /\ bits_of_bytes bytes = w ++ pad /\
    DeflateE 0 (rev dict) w (rev data ++ rev dict) es.
End Grammar.
