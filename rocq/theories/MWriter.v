(** Model of bitwriter.go and writer.go. *)
From Verif Require Import Base SpecHuffman MChecksum MToken MCommon.

(** [let? s := m in k] is Go's  [if !m { return false }; k]. *)
Notation "'let?' s ':=' x 'in' f" :=
  (rbind x (fun r => match r with (s, true) => f | (s', false) => Ok (s', false) end))
  (at level 200, s name, x at level 100, f at level 200, right associativity) : res_scope.

(** ** The environment: libraries and underlying io.Writer, as oracles. *)

(** buffer.LZ77Options as filled in by hybridOptions (writer.go:100-124). *)
Record lzopts := LzOpts { lz_bufbits : N; lz_winbits : N; lz_hashbits : N;
  lz_minlen : N; lz_maxlen : N; lz_maxdist : option N }.

Record wenv := WEnv {
  bytesPerBlock : nat;                           (* block32.go:10 / block64.go:10: 4 or 8 *)
  (** match finder of buffer.LZ77.Advance: call number, options, history
      (newest first), pending bytes -> (distance, length) of the match it reports *)
  e_match : nat -> lzopts -> list N -> list N -> option (N * N);
  (** how many of the pending bytes PrepareBulkRead returns (ring buffer wrap) *)
  e_peek : nat -> nat;
  (** huffman.Encoder.Init(numSymbols, frequencies): the chosen code sizes *)
  e_huff : nat -> list N -> list nat;
  (** underlying io.Writer: for the n-th write, success or (bytes taken, error) *)
  e_sink : nat -> list N -> option (nat * goerr);
  (** Flush() and Sync() of the underlying writer, n-th call; always [None] if absent *)
  e_flushw : nat -> option goerr;
  e_syncw : nat -> option goerr }.

(** ** bitwriter.go:10-18, the interface *)
Record bitwriter (S : Type) := BitWriter {
  bw_bufferWrite : S -> list N -> res (S * bool);
  bw_writeU16le : S -> N -> res (S * bool);
  bw_bitsWrite : S -> nat -> N -> res (S * bool);
  bw_bitsFlush : S -> res (S * bool);
  bw_event : S -> pre_event -> S }.

(** outputBitsWriteHC: both implementations are outputBitsWrite(hc.Size, hc.Bits)
    (bitwriter.go:52-54, writer.go:898-900). *)
Definition bw_writeHC {S} (bw : bitwriter S) (s : S) (hc : nat * N) : res (S * bool) :=
  bw_bitsWrite bw s (fst hc) (snd hc).

Section Env.
Variable env : wenv.
Definition bitsPerBlock : nat := bytesPerBlock env * 8.                 (* util.go:10-12 *)

(** ** bitcounter, bitwriter.go:20-67; the state is numBits (uint64). *)
Definition bc_flush (n : N) : N :=                                       (* bitwriter.go:56-62 *)
  let remainder := N.land n 7 in
  if (remainder =? 0)%N then n else add64 n (8 - remainder).
Definition bitcounter : bitwriter N := {|
  bw_bufferWrite := fun n p => Ok (add64 (bc_flush n) (lenN p * 8), true);      (* bitwriter.go:28-32 *)
  bw_writeU16le := fun n _ => Ok (add64 (bc_flush n) 16, true);                 (* bitwriter.go:34-38 *)
  bw_bitsWrite := fun n size _ =>                                               (* bitwriter.go:46-50 *)
    assertb (size <=? bitsPerBlock) (Ok (add64 n (N.of_nat size), true));
  bw_bitsFlush := fun n => Ok (bc_flush n, true);
  bw_event := fun n _ => n |}.                                                  (* bitwriter.go:64-65 *)

(** ** token.go:197-249 *)
Definition encodeLLD {S} (bw : bitwriter S) (hLL hD : list nat) (t : token) (s : S) : res (S * bool) :=
  let* (symLL, sizeLL, bitsLL) := symbolLL t in
  let* (symD, sizeD, bitsD) := symbolD t in
  match symLL with
  | None => Ok (s, true)
  | Some sl =>
    let? s := bw_writeHC bw s (enc_code hLL sl) in
    let? s := (if Nat.eqb sizeLL 0 then Ok (s, true) else bw_bitsWrite bw s sizeLL bitsLL) in
    match symD with
    | None => Ok (s, true)
    | Some sd =>
      let? s := bw_writeHC bw s (enc_code hD sd) in
      let? s := (if Nat.eqb sizeD 0 then Ok (s, true) else bw_bitsWrite bw s sizeD bitsD) in
      Ok (s, true)
    end
  end.

Definition encodeX {S} (bw : bitwriter S) (hX : list nat) (t : token) (s : S) : res (S * bool) :=
  let '(symX, sizeX, bitsX) := symbolX t in
  match symX with
  | None => Ok (s, true)
  | Some sx =>
    let? s := bw_writeHC bw s (enc_code hX sx) in
    let? s := (if Nat.eqb sizeX 0 then Ok (s, true) else bw_bitsWrite bw s sizeX bitsX) in
    Ok (s, true)
  end.

(** a Go [for _, t := range l { if !f(t) { return false } }] *)
Fixpoint for_each {S A} (f : A -> S -> res (S * bool)) (l : list A) (s : S) : res (S * bool) :=
  match l with
  | [] => Ok (s, true)
  | x :: t => let? s := f x s in for_each f t s
  end.

(** ** writer.go:1021-1065 *)
Definition writeStoredBlock {S} (bw : bitwriter S) (s : S) (data : list N) (isFinal : bool) : res (S * bool) :=
  assertb (lenN data <=? 65535)%N (
  let s := bw_event bw s (ev_block BlockBeginEvent StoredBlock isFinal) in
  let bits := (if isFinal then 1 else 0)%N in
  let u16 := (lenN data mod two16)%N in
  let? s := bw_bitsWrite bw s 3 bits in
  let? s := bw_bitsFlush bw s in
  let? s := bw_writeU16le bw s u16 in
  let? s := bw_writeU16le bw s (65535 - u16)%N in                  (* ^u16 *)
  let? s := bw_bufferWrite bw s data in
  Ok (bw_event bw s (ev_block BlockEndEvent StoredBlock isFinal), true)).

Definition lastIsStop (tokens : list token) : bool :=
  match rev tokens with t :: _ => isStopToken t | [] => false end.

(** ** writer.go:1067-1121 *)
Definition writeStaticBlock {S} (bw : bitwriter S) (s : S) (tokens : list token) (isFinal : bool) : res (S * bool) :=
  assertb (lastIsStop tokens) (
  let s := bw_event bw s (ev_block BlockBeginEvent StaticBlock isFinal) in
  let bits := (if isFinal then 3 else 2)%N in
  let? s := bw_bitsWrite bw s 3 bits in
  let s := bw_event bw s (ev_trees StaticBlock isFinal (Trees 0 0 0 [] fixedSizesLL fixedSizesD)) in
  let? s := for_each (encodeLLD bw fixedSizesLL fixedSizesD) tokens s in
  Ok (bw_event bw s (ev_block BlockEndEvent StaticBlock isFinal), true)).

(** writer.go:1162-1165 *)
Fixpoint trim_numX (n : nat) (sX : list nat) : nat :=
  match n with
  | O => O
  | S k => if (4 <? n) && Nat.eqb (nth (nth k scramble 0) sX 0) 0 then trim_numX k sX else n
  end.

(** ** writer.go:1123-1218; the encoders hLL, hD are their size lists. *)
Definition writeDynamicBlock {S} (bw : bitwriter S) (s : S) (sLL sD : list nat) (tokens : list token)
    (isFinal : bool) : res (S * bool) :=
  assertb (lastIsStop tokens) (
  let s := bw_event bw s (ev_block BlockBeginEvent DynamicBlock isFinal) in
  let bits := (if isFinal then 5 else 4)%N in
  let? s := bw_bitsWrite bw s 3 bits in
  let* (xtokens, numLL) := encodeTreeTokens [] sLL 257 in
  let* (xtokens, numD) := encodeTreeTokens xtokens sD 1 in
  let* freqX := studyFrequenciesX xtokens in
  let sX := e_huff env physicalNumXCodes freqX in
  let numX := trim_numX physicalNumXCodes sX in
  let? s := bw_bitsWrite bw s 5 (N.of_nat (numLL - 257)) in
  let? s := bw_bitsWrite bw s 5 (N.of_nat (numD - 1)) in
  let? s := bw_bitsWrite bw s 4 (N.of_nat (numX - 4)) in
  let? s := for_each (fun i s => bw_bitsWrite bw s 3 (N.of_nat (nth (nth i scramble 0) sX 0))) (seq 0 numX) s in
  let? s := for_each (encodeX bw sX) xtokens s in
  let s := bw_event bw s (ev_trees DynamicBlock isFinal
             (Trees (N.of_nat numX) (N.of_nat numLL) (N.of_nat numD) sX sLL sD)) in
  let? s := for_each (encodeLLD bw sLL sD) tokens s in
  Ok (bw_event bw s (ev_block BlockEndEvent DynamicBlock isFinal), true)).

(** ** writer.go:996-1019 *)
Definition compressTokens {S} (bw : bitwriter S) (s : S) (data : list N) (tokens : list token)
    (isFinal : bool) : res (S * bool) :=
  let* (freqLL, freqD) := studyFrequenciesLLD tokens in
  let hLL := e_huff env physicalNumLLCodes freqLL in
  let hD := e_huff env physicalNumDCodes freqD in
  let* (dynamicCounter, _) := writeDynamicBlock bitcounter 0%N hLL hD tokens isFinal in
  let* (staticCounter, _) := writeStaticBlock bitcounter 0%N tokens isFinal in
  let storedLength := (lenN data * 8 + 35)%N in
  if (storedLength <? dynamicCounter)%N then writeStoredBlock bw s data isFinal
  else if (staticCounter <=? dynamicCounter)%N then writeStaticBlock bw s tokens isFinal
  else writeDynamicBlock bw s hLL hD tokens isFinal.

(** ** The Writer, writer.go:35-66, split into the parts its methods touch.
    The mutex is not modelled: every method holds it from start to end. *)
Record wout := WOut {        (* output side *)
  obBlock : N; obLen : nat;
  outBuf : list N;           (* fw.output, bytes not yet handed to fw.w *)
  sink : list N;             (* ghost: all bytes fw.w has accepted *)
  sinkCalls : nat;           (* ghost: number of writes to fw.w *)
  outCRC : N; outTotal : N; outStream : N;
  wstate : writerstate; werr : option goerr }.

Record lz77 := LZ { lz_o : lzopts; lz_hist : list N; lz_buf : list N; lz_calls : nat }.

Record wsum := WSum { inAdler : N; inCRC : N; inTotal : N; inStream : N }.   (* input side counters *)

Record writer := Writer {
  w_opt : options;           (* format, strategy, clevel, mlevel, wbits, dict, tracers *)
  w_cfg : nat;               (* index into compressConfigs *)
  w_lz : lz77; w_in : wsum; w_out : wout;
  w_num : N; w_hdr : header;
  w_flushes : nat; w_syncs : nat;   (* ghost: calls of Flush/Sync on fw.w *)
  w_events : list event }.          (* ghost: events sent to the tracers *)

Definition set_out (w : writer) (o : wout) : writer :=
  match w with Writer a b c d _ f g h i j => Writer a b c d o f g h i j end.
Definition set_lz (w : writer) (l : lz77) : writer :=
  match w with Writer a b _ d e f g h i j => Writer a b l d e f g h i j end.
Definition set_in (w : writer) (s : wsum) : writer :=
  match w with Writer a b c _ e f g h i j => Writer a b c s e f g h i j end.
Definition set_hdr (w : writer) (x : header) : writer :=
  match w with Writer a b c d e f _ h i j => Writer a b c d e f x h i j end.
Definition set_num (w : writer) (x : N) : writer :=
  match w with Writer a b c d e _ g h i j => Writer a b c d e x g h i j end.
Definition add_event (w : writer) (ev : event) : writer :=
  match w with Writer a b c d e f g h i j => Writer a b c d e f g h i (j ++ [ev]) end.
Definition set_calls (w : writer) (fl sy : nat) : writer :=
  match w with Writer a b c d e f g _ _ j => Writer a b c d e f g fl sy j end.

Definition set_state (o : wout) (s : writerstate) (e : option goerr) : wout :=
  match o with WOut a b c d f g h i _ _ => WOut a b c d f g h i s e end.
Definition set_ob (o : wout) (b : N) (l : nat) : wout :=
  match o with WOut _ _ c d e f g h i j => WOut b l c d e f g h i j end.

Definition w_setstate (w : writer) (s : writerstate) : writer := set_out w (set_state (w_out w) s (werr (w_out w))).
Definition w_fail (w : writer) (e : goerr) : writer := set_out w (set_state (w_out w) errorState (Some e)).
Definition w_state (w : writer) : writerstate := wstate (w_out w).

(** capacity of fw.output, writer.go:96-98 *)
Definition out_cap (o : options) : N := (2 ^ (o_mlevel o + 7))%N.

(** writer.go:863-871 outputBufferFlush: WriteTo hands the whole buffer to fw.w. *)
Definition outputBufferFlush (o : wout) : wout * bool :=
  match o with
  | WOut a b buf snk n c t st s e =>
    match e_sink env n buf with
    | None => (WOut a b [] (snk ++ buf) (S n) c t st s e, true)
    | Some (k, err) =>
        let k := Nat.min k (length buf) in
        (WOut a b (skipn k buf) (snk ++ firstn k buf) (S n) c t st errorState (Some err), false)
    end
  end.

(** writer.go:816-829, the loop of outputBufferWrite *)
Fixpoint outputBufferLoop (fuel : nat) (cap : N) (o : wout) (buf : list N) : res (wout * bool) :=
  match buf with
  | [] => Ok (o, true)
  | _ =>
    match fuel with
    | O => NoFuel
    | S f =>
      let nn := N.to_nat (N.min (lenN buf) (cap - lenN (outBuf o))) in   (* Buffer.Write *)
      let o1 := match o with
        | WOut a b ob snk n c t st s e =>
            WOut a b (ob ++ firstn nn buf) snk n (crc_update c (firstn nn buf))
                 (add64 t (N.of_nat nn)) (add64 st (N.of_nat nn)) s e end in
      let '(o2, ok) := outputBufferFlush o1 in
      if ok then outputBufferLoop f cap o2 (skipn nn buf) else Ok (o2, false)
    end
  end.
Definition out_fuel (buf : list N) : nat := 2 * length buf + 2.

(** little-endian bytes of a block, block32.go:14-16 / block64.go:14-16 *)
Fixpoint le_bytes (n : nat) (x : N) : list N :=
  match n with O => [] | S k => (x mod 256)%N :: le_bytes k (x / 256)%N end.

(** writer.go:902-913 outputBitsFlush.  The nested outputBufferWrite first calls
    outputBitsFlush again, which does nothing as obLen is 0 by then; the model
    therefore calls the loop directly. *)
Definition o_bitsFlush (cap : N) (o : wout) : res (wout * bool) :=
  if Nat.eqb (obLen o) 0 then Ok (o, true)
  else
    let n := (obLen o + 7) / 8 in
    let tmp := le_bytes (bytesPerBlock env) (obBlock o) in
    let p := firstn n tmp in
    outputBufferLoop (out_fuel p) cap (set_ob o 0 0) p.

(** writer.go:811-830 outputBufferWrite *)
Definition o_bufferWrite (cap : N) (o : wout) (buf : list N) : res (wout * bool) :=
  let? o := o_bitsFlush cap o in outputBufferLoop (out_fuel buf) cap o buf.

(** writer.go:873-896 outputBitsWrite *)
Definition blk (x : N) : N := (x mod 2 ^ N.of_nat bitsPerBlock)%N.
Fixpoint o_bitsLoop (fuel : nat) (cap : N) (o : wout) (inLen : nat) (inBlock : N) : res (wout * bool) :=
  match inLen with
  | O => Ok (o, true)
  | _ =>
    match fuel with
    | O => NoFuel
    | S f =>
      let shiftA := obLen o in
      let shiftB := bitsPerBlock - shiftA in
      let shiftB := if inLen <? shiftB then inLen else shiftB in
      let maskB := makeMask bitsPerBlock shiftB in
      let o1 := set_ob o (N.lor (obBlock o) (blk (N.shiftl (N.land inBlock maskB) (N.of_nat shiftA))))
                       (obLen o + shiftB) in
      let inBlock := N.shiftr inBlock (N.of_nat shiftB) in
      let inLen := inLen - shiftB in
      if Nat.eqb (obLen o1) bitsPerBlock then
        let? o2 := o_bitsFlush cap o1 in o_bitsLoop f cap o2 inLen inBlock
      else o_bitsLoop f cap o1 inLen inBlock
    end
  end.
Definition o_bitsWrite (cap : N) (o : wout) (inLen : nat) (inBlock : N) : res (wout * bool) :=
  assertb (obLen o <=? bitsPerBlock) (assertb (inLen <=? bitsPerBlock)
  (o_bitsLoop (S inLen) cap o inLen inBlock)).

(** lifting to the Writer *)
Definition on_out (f : wout -> res (wout * bool)) (w : writer) : res (writer * bool) :=
  let* (o, ok) := f (w_out w) in Ok (set_out w o, ok).
Definition w_bufferWrite (w : writer) (p : list N) := on_out (fun o => o_bufferWrite (out_cap (w_opt w)) o p) w.
Definition w_bitsWrite (w : writer) (n : nat) (x : N) := on_out (fun o => o_bitsWrite (out_cap (w_opt w)) o n x) w.
Definition w_bitsFlush (w : writer) := on_out (o_bitsFlush (out_cap (w_opt w))) w.

(** writer.go:915-925 sendEvent *)
Definition sendEvent (w : writer) (p : pre_event) : writer :=
  add_event w (Event (p_type p) (inTotal (w_in w)) (inStream (w_in w)) (outTotal (w_out w)) (outStream (w_out w))
    (w_num w) (o_format (w_opt w)) (p_header p) (p_block p) (p_trees p) (p_footer p)).

(** *Writer as a bitwriter; outputBufferWriteU16 is writer.go:832-836. *)
Definition bw_writer : bitwriter writer := {|
  bw_bufferWrite := w_bufferWrite;
  bw_writeU16le := fun w x => w_bufferWrite w (le16 x);
  bw_bitsWrite := w_bitsWrite;
  bw_bitsFlush := w_bitsFlush;
  bw_event := sendEvent |}.

(** writer.go:844-861 outputBufferWriteStringZ *)
Fixpoint indexByte (l : list N) (c : N) : option nat :=
  match l with
  | [] => None
  | x :: t => if (x =? c)%N then Some 0 else match indexByte t c with Some i => Some (S i) | None => None end
  end.
Definition writeStringZ (w : writer) (str : list N) : res (writer * bool) :=
  match indexByte str 0%N with
  | None => w_bufferWrite w (str ++ [0%N])
  | Some i => if Nat.eqb (S i) (length str) then w_bufferWrite w str else Panic PAssert
  end.

(** ** Input side *)
(** buffer.LZ77 (library).  Write: as much as fits; ErrFull iff something did not fit. *)
Definition lz_cap (l : lz77) : N := (2 ^ lz_bufbits (lz_o l))%N.
Definition lz_write (l : lz77) (p : list N) : lz77 * nat * bool :=
  let nn := N.to_nat (N.min (lenN p) (lz_cap l - lenN (lz_buf l))) in
  (LZ (lz_o l) (lz_hist l) (lz_buf l ++ firstn nn p) (lz_calls l), nn, nn <? length p).
Definition lz_take (l : lz77) (n : nat) : lz77 * list N :=
  let p := firstn n (lz_buf l) in
  (LZ (lz_o l) (rev p ++ lz_hist l) (skipn n (lz_buf l)) (S (lz_calls l)), p).
Definition lz_windowClear (l : lz77) : lz77 := LZ (lz_o l) [] (lz_buf l) (lz_calls l).
Definition lz_setWindow (l : lz77) (d : list N) : lz77 := LZ (lz_o l) (rev d) (lz_buf l) (lz_calls l).
Definition lz_clear (l : lz77) : lz77 := LZ (lz_o l) [] [] (lz_calls l).
Definition lz_isFull (l : lz77) : bool := (lz_cap l <=? lenN (lz_buf l))%N.
Definition lz_init (o : lzopts) (calls : nat) : lz77 := LZ o [] [] calls.

Definition sum_bytes (s : wsum) (p : list N) : wsum :=
  WSum (adler_update (inAdler s) p) (crc_update (inCRC s) p)
       (add64 (inTotal s) (lenN p)) (add64 (inStream s) (lenN p)).

(** writer.go:792-800 inputBufferRead *)
Definition inputBufferRead (w : writer) (n : nat) : writer * list N :=
  let '(l, p) := lz_take (w_lz w) n in
  (set_in (set_lz w l) (sum_bytes (w_in w) p), p).

(** writer.go:802-809 inputBufferAdvance; Advance consumes the match, or one byte. *)
Definition inputBufferAdvance (w : writer) : writer * list N * option (N * N) :=
  let l := w_lz w in
  let m := e_match env (lz_calls l) (lz_o l) (lz_hist l) (lz_buf l) in
  let n := match m with Some (_, len) => N.to_nat len | None => 1 end in
  let '(l, p) := lz_take l n in
  (set_in (set_lz w l) (sum_bytes (w_in w) p), p, m).

(** writer.go:927-947 compressStore *)
Definition storedBlockSize : N := 61440.
Fixpoint compressStoreLoop (fuel : nat) (w : writer) : res (writer * bool) :=
  match lz_buf (w_lz w) with
  | [] => Ok (w, true)
  | _ =>
    match fuel with
    | O => NoFuel
    | S f =>
      let '(w, buf) := inputBufferRead w (N.to_nat storedBlockSize) in
      let? w := writeStoredBlock bw_writer w buf false in
      compressStoreLoop f w
    end
  end.
Definition compressStore (w : writer) (consumeAll : bool) : res (writer * bool) :=
  let available := lenN (lz_buf (w_lz w)) in
  if ((available <? storedBlockSize)%N && negb consumeAll && negb (lz_isFull (w_lz w)))%bool then Ok (w, true)
  else compressStoreLoop (length (lz_buf (w_lz w))) w.

(** writer.go:976-989, the loop of compressSlow; [available] counts down to 0
    exactly when the pending buffer is empty, so the model tests the buffer.
    Returns the consumed data and the tokens. *)
Fixpoint compressSlowLoop (fuel : nat) (w : writer) : res (writer * list N * list token) :=
  match lz_buf (w_lz w) with
  | [] => Ok (w, [], [])
  | _ =>
    match fuel with
    | O => NoFuel
    | S f =>
      let '(w, p, m) := inputBufferAdvance w in
      match m with
      | Some (distance, length) =>
          assertb (3 <=? length)%N (assertb (1 <=? distance)%N (
          let* t := makeCopyToken (length mod two16) (distance mod two16) in
          let* (w, data, ts) := compressSlowLoop f w in
          Ok (w, p ++ data, t :: ts)))
      | None =>
          match p with
          | ch :: _ =>
              let* (w, data, ts) := compressSlowLoop f w in
              Ok (w, ch :: data, makeLiteralToken ch :: ts)
          | [] => Panic PBounds
          end
      end
    end
  end.

(** writer.go:949-994 compressHuff/compressRLE/compressFast/compressSlow *)
Definition compressedBlockSize : N := 4096.
Definition compressSlow (w : writer) (consumeAll : bool) : res (writer * bool) :=
  let available := lenN (lz_buf (w_lz w)) in
  if ((available <? compressedBlockSize)%N && negb consumeAll && negb (lz_isFull (w_lz w)))%bool then Ok (w, true)
  else
    let* (w, data, tokens) := compressSlowLoop (length (lz_buf (w_lz w))) w in
    compressTokens bw_writer w data (tokens ++ [makeStopToken]) false.

(** ** Headers and footers *)
Definition lowLevel (o : options) : bool :=   (* the condition of writer.go:654 and 719 *)
  strategy_eqb (o_strategy o) HuffmanOnlyStrategy || strategy_eqb (o_strategy o) HuffmanRLEStrategy
  || (o_clevel o <? 2)%Z.

(** writer.go:649-682 *)
Definition zlibHeaderBytes (o : options) : list N :=
  let fLevel := (if lowLevel o then 0 else if (o_clevel o <? 6)%Z then 1
                 else if (o_clevel o =? 6)%Z then 2 else 3)%N in
  let s0 := N.lor (N.shiftl (o_wbits o - 8) 4 mod 256) 8 in
  let s1 := (N.shiftl fLevel 6 mod 256)%N in
  let s1 := match o_dict o with Some _ => N.lor s1 0x20 | None => s1 end in
  let u16 := unbe16 [s0; s1] in
  let remainder := (u16 mod 31)%N in
  let remainder := if (remainder =? 0)%N then 31%N else remainder in
  let s1 := N.lor s1 (31 - remainder) in
  [s0; s1] ++ match o_dict o with Some d => be32 (adler_checksum d) | None => [] end.
Definition writeHeaderZlib (w : writer) : res (writer * bool) := w_bufferWrite w (zlibHeaderBytes (w_opt w)).

(** writer.go:684-688 *)
Definition writeFooterZlib (w : writer) (a32 : N) : res (writer * bool) := w_bufferWrite w (be32 a32).

(** writer.go:693-727 with 741-784: the 10 fixed header bytes *)
Definition gzipFlagBits (h : header) : N :=
  N.lor (match h_datatype h with TextData => 1 | _ => 0 end)
  (N.lor (match h_extra h with [] => 0 | _ => 4 end)
  (N.lor (match h_name h with [] => 0 | _ => 8 end)
         (match h_comment h with [] => 0 | _ => 16 end))).
Definition gzipHeader10 (o : options) (h : header) : list N :=
  [0x1f; 0x8b; 8; N.lor 2 (gzipFlagBits h)]%N
  ++ match h_mtime h with
     | None => [0; 0; 0; 0]%N
     | Some s => le32 (Z.to_N (s mod 4294967296))               (* uint32(uint64(s64)) *)
     end
  ++ [(if lowLevel o then 4 else if (o_clevel o =? 9)%Z then 2 else 0)%N;
      match ostype_encode (h_os h) with Some b => b | None => 255%N end].

Definition set_outcrc (o : wout) (c : N) : wout :=
  match o with WOut a b d e f _ h i j k => WOut a b d e f c h i j k end.

(** writer.go:690-739 *)
Definition writeHeaderGZIP (w : writer) : res (writer * bool) :=
  let w := set_out w (set_outcrc (w_out w) crc_reset) in
  let h := w_hdr w in
  let? w := w_bufferWrite w (gzipHeader10 (w_opt w) h) in
  let? w := (match h_extra h with
             | [] => Ok (w, true)
             | _ => let xdata := extra_bytes (h_extra h) in
                    let? w := w_bufferWrite w (le16 (lenN xdata mod two16)) in
                    w_bufferWrite w xdata
             end) in
  let? w := (match h_name h with [] => Ok (w, true) | _ => writeStringZ w (h_name h) end) in
  let? w := (match h_comment h with [] => Ok (w, true) | _ => writeStringZ w (h_comment h) end) in
  w_bufferWrite w (le16 (outCRC (w_out w) mod two16)).

(** writer.go:786-790 *)
Definition writeFooterGZIP (w : writer) (c32 : N) : res (writer * bool) :=
  let* (w, ok1) := w_bufferWrite w (le32 c32) in
  let* (w, ok2) := w_bufferWrite w (le32 (inStream (w_in w) mod two32)) in
  Ok (w, ok1 && ok2).

Definition set_datatype (h : header) (d : datatype) : header :=
  match h with Header a b c _ e f g i => Header a b c d e f g i end.
Definition set_os (h : header) (o : N) : header :=
  match h with Header a b c d _ f g i => Header a b c d o f g i end.
Definition set_levels (h : header) (wb : N) (cl : Z) : header :=
  match h with Header a b c d e f _ _ => Header a b c d e f wb cl end.

Definition set_outstream (o : wout) (x : N) : wout :=
  match o with WOut a b c d e f g _ i j => WOut a b c d e f g x i j end.

(** writer.go:554-608 *)
Definition writeHeader (w : writer) : res (writer * bool) :=
  let w := set_in w (match w_in w with WSum a c t _ => WSum a c t 0 end) in
  let w := set_out w (set_outstream (w_out w) 0) in
  let w := set_num w (w_num w + 1)%N in
  let w := set_lz w (lz_windowClear (w_lz w)) in
  let w := match o_dict (w_opt w) with Some d => set_lz w (lz_setWindow (w_lz w) d) | None => w end in
  let w := sendEvent w (ev_simple StreamBeginEvent) in
  let h := w_hdr w in
  let h := match h_datatype h with
           | UnknownData =>
               let buf := firstn (Nat.min (e_peek env (lz_calls (w_lz w))) (N.to_nat 4096)) (lz_buf (w_lz w)) in
               set_datatype h (if isText buf then TextData else BinaryData)
           | _ => h end in
  let h := if (h_os h =? OSTypeUnknown)%N then set_os h OSTypeUnix else h in
  let h := set_levels h (o_wbits (w_opt w)) (o_clevel (w_opt w)) in
  let w := set_hdr w h in
  let? w := (match o_format (w_opt w) with
             | RawFormat => Ok (w, true)
             | ZlibFormat => writeHeaderZlib w
             | GZIPFormat => writeHeaderGZIP w
             | DefaultFormat => Panic PAssert
             end) in
  let w := sendEvent w (ev_header (w_hdr w)) in
  Ok (set_in w (match w_in w with WSum _ _ t s => WSum adler_reset crc_reset t s end), true).

(** writer.go:610-647 *)
Definition writeFooter (w : writer) : res (writer * bool) :=
  let? w := w_bitsFlush w in
  let a32 := inAdler (w_in w) in
  let c32 := inCRC (w_in w) in
  let w := sendEvent w (ev_footer a32 c32) in
  let? w := (match o_format (w_opt w) with
             | RawFormat => Ok (w, true)
             | ZlibFormat => writeFooterZlib w a32
             | GZIPFormat => writeFooterGZIP w c32
             | DefaultFormat => Panic PAssert
             end) in
  Ok (sendEvent w (ev_simple StreamCloseEvent), true).

(** ** Configuration *)
(** writer.go:100-124 *)
Definition hybridOptions (o : options) : lzopts :=
  match o_strategy o with
  | HuffmanOnlyStrategy => LzOpts (o_mlevel o + 8) 8 (o_mlevel o + 11) 0 0 (Some 0%N)
  | HuffmanRLEStrategy => LzOpts (o_mlevel o + 8) 8 (o_mlevel o + 11) 3 258 (Some 1%N)
  | _ => LzOpts (o_mlevel o + 8) (o_wbits o) (o_mlevel o + 11) 4 258 None
  end.

(** writer.go:126-139: index into compressConfigs; only entry 2 is compressStore
    (writer.go:1230-1243), all others run the code of compressSlow. *)
Definition compressConfig (o : options) : nat :=
  if (o_clevel o =? 0)%Z then 2
  else match o_strategy o with
       | HuffmanOnlyStrategy => 1
       | HuffmanRLEStrategy => 0
       | _ => if (0 <? o_clevel o)%Z then 2 + Z.to_nat (o_clevel o) else 2 + 6
       end.
Definition isStoreConfig (c : nat) : bool := Nat.eqb c 2.

(** writer.go:70-94 NewWriter *)
Definition newWriter (opts : list opt) : writer :=
  let o := populateWriterDefaults (opt_apply options_reset opts) in
  Writer o (compressConfig o) (lz_init (hybridOptions o) 0) (WSum 0 0 0 0)
    (WOut 0 0 [] [] 0 0 0 0 noStream None) 0 header0 0 0 [].

(** ** writer.go:451-475 compressImpl *)
Definition compressImpl (w : writer) (consumeAll : bool) : res (writer * bool) :=
  match lz_buf (w_lz w) with
  | [] => Ok (w, true)
  | _ =>
    let? w := (match w_state w with
               | closingStream => let? w := writeFooter w in Ok (w_setstate w closedStream, true)
               | _ => Ok (w, true) end) in
    let? w := (match w_state w with
               | noStream | closedStream => let? w := writeHeader w in Ok (w_setstate w openStream, true)
               | _ => Ok (w, true) end) in
    if isStoreConfig (w_cfg w) then compressStore w consumeAll else compressSlow w consumeAll
  end.

(** writer.go:522-552 flushGuts *)
Definition flushGuts (w : writer) (ft : flushtype) : res (writer * bool) :=
  match ft with
  | BlockFlush => Ok (w, true)
  | PartialFlush => writeStaticBlock bw_writer w [makeStopToken] false
  | SyncFlush => writeStoredBlock bw_writer w [] false
  | FullFlush =>
      let? w := writeStoredBlock bw_writer w [] false in
      Ok (set_lz w (lz_windowClear (w_lz w)), true)
  | FinishFlush =>
      let? w := writeStoredBlock bw_writer w [] true in
      Ok (w_setstate (set_lz w (lz_windowClear (w_lz w))) closingStream, true)
  end.

(** writer.go:477-520 flushImpl; isIgnoredSyncError is writer.go:1245-1247 *)
Definition is_finish (ft : flushtype) : bool := match ft with FinishFlush => true | _ => false end.
Definition flushImpl (w : writer) (ft : flushtype) : res (writer * bool) :=
  let? w := compressImpl w true in
  let? w := (if is_finish ft then
               match w_state w with
               | noStream => let? w := writeHeader w in Ok (w_setstate w openStream, true)
               | _ => Ok (w, true) end
             else Ok (w, true)) in
  let? w := (match w_state w with openStream => flushGuts w ft | _ => Ok (w, true) end) in
  let? w := (match w_state w with
             | closingStream => let? w := writeFooter w in Ok (w_setstate w closedStream, true)
             | _ => Ok (w, true) end) in
  let fl := e_flushw env (w_flushes w) in
  let w := set_calls w (S (w_flushes w)) (w_syncs w) in
  match fl with
  | Some e => Ok (w_fail w e, false)
  | None =>
    let sy := e_syncw env (w_syncs w) in
    let w := set_calls w (w_flushes w) (S (w_syncs w)) in
    match sy with
    | None => Ok (w, true)
    | Some EINVAL => Ok (w, true)
    | Some e => Ok (w_fail w e, false)
    end
  end.

(** writer.go:366-393 Write *)
Fixpoint writeLoop (fuel : nat) (w : writer) (buf : list N) : res (writer * bool) :=
  match buf with
  | [] => Ok (w, true)
  | _ =>
    match fuel with
    | O => NoFuel
    | S f =>
      let '(l, nn, full) := lz_write (w_lz w) buf in
      let w := set_lz w l in
      let consumeAll := Nat.eqb nn 0 || full in
      let? w := compressImpl w consumeAll in
      writeLoop f w (skipn nn buf)
    end
  end.
Definition w_Write (w : writer) (buf : list N) : res (writer * (N * option goerr)) :=
  match w_state w with
  | closedState => Ok (w, (0%N, Some ErrClosed))
  | errorState => Ok (w, (0%N, werr (w_out w)))
  | _ =>
    let* (w, ok) := writeLoop (2 * length buf + 2) w buf in
    if ok then Ok (w, (lenN buf, None)) else Ok (w, (0%N, werr (w_out w)))
  end.

(** writer.go:396-415 Flush; the FlushType type excludes the invalid values
    that the assertion of line 397 rejects. *)
Definition w_Flush (w : writer) (ft : flushtype) : res (writer * option goerr) :=
  match w_state w with
  | closedState => Ok (w, Some ErrClosed)
  | errorState => Ok (w, werr (w_out w))
  | _ =>
    let* (w, ok) := flushImpl w ft in
    if ok then Ok (w, None) else Ok (w, werr (w_out w))
  end.

(** writer.go:424-449 Close *)
Definition close_helper (w : writer) : writer * option goerr :=
  (set_out w (set_state (w_out w) closedState None), werr (w_out w)).
Definition w_Close (w : writer) : res (writer * option goerr) :=
  match w_state w with
  | closedState => Ok (w, Some ErrClosed)
  | errorState => Ok (close_helper w)
  | _ =>
    let* (w, ok) := flushImpl w FinishFlush in
    if ok then Ok (w_setstate w closedState, None) else Ok (close_helper w)
  end.

(** writer.go:224-283 Reset.  The new underlying writer has accepted nothing yet. *)
Definition w_Reset (w : writer) (opts : list opt) : res writer :=
  match w_state w with
  | openStream | closingStream => Panic PAssert
  | _ =>
    let w := set_out w (match w_out w with
               | WOut a b _ _ n c t st _ _ => WOut a b [] [] n c t st noStream None end) in
    let w := set_lz w (lz_clear (w_lz w)) in
    match opts with
    | [] => Ok w
    | _ =>
      let o := populateWriterDefaults (opt_apply (w_opt w) opts) in
      match w with
      | Writer _ _ l i out num h fl sy ev =>
          Ok (Writer o (compressConfig o) (lz_init (hybridOptions o) (lz_calls l)) i out num h fl sy ev)
      end
    end
  end.

(** ** SetHeader, writer.go:286-362.  Returns the number of problems found. *)
Definition b2nat (b : bool) : nat := if b then 1 else 0.
Definition has_byte (l : list N) (c : N) : bool :=
  match indexByte l c with Some _ => true | None => false end.
(** writer.go:309-323 *)
Definition checkHeaderFileName (h : header) : nat :=
  b2nat (256 <=? lenN (h_name h))%N + b2nat (has_byte (h_name h) 0)
  + b2nat (has_byte (h_name h) 0x2f) + b2nat (has_byte (h_name h) 0x5c).
(** writer.go:325-333 *)
Definition checkHeaderComment (h : header) : nat :=
  b2nat (256 <=? lenN (h_comment h))%N + b2nat (has_byte (h_comment h) 0).
(** writer.go:335-343; math.MaxUint32 = 2^32-1 *)
Definition checkHeaderLastModified (h : header) : nat :=
  match h_mtime h with
  | None => 0
  | Some s => b2nat ((s <? 0) || ((0 <=? s) && (4294967295 <=? s)))%Z
  end.
(** writer.go:345-350 *)
Definition checkHeaderOSType (h : header) : nat := b2nat (negb (ostype_valid (h_os h))).
(** writer.go:352-362 *)
Definition checkHeaderExtraData (h : header) : nat :=
  length (filter (fun r => 65535 <? 4 + lenN (x_bytes r))%N (h_extra h))
  + b2nat (65535 <? lenN (extra_bytes (h_extra h)))%N.
(** writer.go:286-307: true = nil error *)
Definition w_SetHeader (w : writer) (h : header) : writer * bool :=
  let n := checkHeaderFileName h + checkHeaderComment h + checkHeaderLastModified h
           + checkHeaderOSType h + checkHeaderExtraData h in
  if Nat.eqb n 0 then (set_hdr w h, true) else (w, false).
End Env.
