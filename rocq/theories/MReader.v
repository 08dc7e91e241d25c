(** Model of reader.go: the decompression thread, run to completion.

    The two mutexes, condition variables and the bounded output buffer that
    connect the thread to the callers of Read are modelled separately
    (MConc.v); here the thread runs alone with [stopIsForced = false], and what
    it does to the output buffer and to outputError is recorded, in order, in a
    log. *)
From Verif Require Import Base SpecHuffman MChecksum MToken MCommon MWriter.

(** ** Environment *)
Record renv := REnv {
  r_bpb : nat;                               (* bytesPerBlock, block32.go:10 / block64.go:10: 4 or 8 *)
  e_acc : list nat -> bool;                  (* huffman.Decoder.Init: is this list of code sizes accepted? *)
  (** buffer.Window: what a look-up before the first byte written since Clear
      yields; [None]: an error; [Some f]: the byte [f p], p counted back from
      the first written byte *)
  e_far : option (N -> N);
  (** number of bytes LookupSlice returns, given the window contents *)
  e_slice : list N -> N -> N -> N;
  e_iszero : list N -> bool;                 (* Window.IsZero, given the window contents *)
  e_peek2 : N -> nat }.                      (* bytes that PrepareBulkRead(2) may return *)

(** ** Input side.  [i_src]: the results of the successive calls of
    inputBuffer.ReadFrom(fr.r), as (bytes read, error); exhausted = EOF. *)
Record ist := IST {
  i_src : list (list N * option goerr); i_buf : list N; i_err : option goerr;
  ib : N; ibl : nat;                         (* ibBlock, ibLen *)
  i_total : N; i_stream : N; i_crc : N }.

(** ** Output side *)
Inductive outact :=
| OData (p : list N)       (* bytes appended to outputBuffer *)
| OErr (e : goerr).        (* outputError set *)

Record ost := OST {
  o_dbuf : list N;                           (* decodeBuffer *)
  o_hist : list N;                           (* everything written to window since Clear, newest first *)
  o_log : list outact; o_err : option goerr; (* outputErrorWasSet = (o_err <> None) *)
  o_total : N; o_stream : N; o_adler : N; o_crc : N }.

Record dst := DST { d_in : ist; d_out : ost }.

Section Env.
Variable env : renv.
Variable cap : N.                            (* capacity of decodeBuffer, reader.go:121-123 *)
Variable win : N.                            (* size of window, reader.go:129-131 *)
Definition r_bits : nat := r_bpb env * 8.    (* bitsPerBlock *)

(** ** reader.go:1148-1160 inputBufferFill (stopIsForced = false) *)
Definition inputBufferFill (i : ist) : ist :=
  match i with
  | IST src buf err b l t s c =>
    match err with
    | Some _ => i
    | None =>
      match src with
      | [] => IST [] buf (Some EOF) b l t s c
      | (p, e) :: r => IST r (buf ++ p) e b l t s c
      end
    end
  end.

(** The pattern "if inputBuffer.IsEmpty() { inputBufferFill() }". *)
Definition fillIfEmpty (i : ist) : ist :=
  match i_buf i with [] => inputBufferFill i | _ => i end.

Definition i_count (i : ist) (p : list N) : ist :=
  match i with
  | IST src buf err b l t s c => IST src buf err b l (add64 t (lenN p)) (add64 s (lenN p)) (crc_update c p)
  end.
Definition set_buf (i : ist) (p : list N) : ist :=
  match i with IST src _ err b l t s c => IST src p err b l t s c end.
Definition set_ib (i : ist) (b : N) (l : nat) : ist :=
  match i with IST src buf err _ _ t s c => IST src buf err b l t s c end.

(** Fetch one byte: reader.go:1211-1221 and 1240-1250. *)
Definition inputByte (i : ist) : ist * option N :=
  let i := fillIfEmpty i in
  match i_buf i with
  | [] => (i, None)
  | ch :: r => (i_count (set_buf i r) [ch], Some ch)
  end.

(** ** reader.go:1277-1280 inputBitsDiscard *)
Definition inputBitsDiscard (i : ist) : ist := set_ib i 0 0.

(** ** reader.go:1162-1186 inputBufferRead of [n] bytes *)
Fixpoint bufReadLoop (fuel : nat) (i : ist) (want : nat) (acc : list N) : ist * list N :=
  match want with
  | O => (i, acc)
  | _ =>
    match fuel with
    | O => (i, acc)        (* unreachable: fuel = want, each round reads a byte *)
    | S f =>
      let i := fillIfEmpty i in
      match i_buf i with
      | [] => (i, acc)
      | _ =>
        let p := firstn want (i_buf i) in
        bufReadLoop f (set_buf i (skipn want (i_buf i))) (want - length p) (acc ++ p)
      end
    end
  end.
Definition inputBufferReadN (i : ist) (n : nat) : ist * option (list N) :=
  let i := inputBitsDiscard i in
  match n with
  | O => (i, Some [])
  | _ =>
    let '(i, p) := bufReadLoop n i n [] in
    (i_count i p, if Nat.eqb (length p) n then Some p else None)
  end.

(** reader.go:1188-1204, little and big endian *)
Definition readU (un : list N -> N) (n : nat) (i : ist) : ist * option N :=
  match inputBufferReadN i n with
  | (i, Some p) => (i, Some (un p))
  | (i, None) => (i, None)
  end.
Definition readU16le := readU unle16 2.
Definition readU32le := readU unle32 4.
Definition readU32be := readU unbe32 4.

(** all bytes the source may still deliver; bounds every loop below *)
Definition src_left (i : ist) : nat :=
  length (i_buf i) + list_sum (map (fun c => length (fst c)) (i_src i)).
Definition bits_left (i : ist) : nat := ibl i + 8 * src_left i.

(** ** reader.go:1206-1233 inputBufferReadStringZ *)
Fixpoint stringZLoop (fuel : nat) (i : ist) (acc : list N) : res (ist * option (list N)) :=
  match fuel with
  | O => NoFuel
  | S f =>
    match inputByte i with
    | (i, None) => Ok (i, None)
    | (i, Some ch) => if (ch =? 0)%N then Ok (i, Some acc) else stringZLoop f i (acc ++ [ch])
    end
  end.
Definition inputBufferReadStringZ (i : ist) : res (ist * option (list N)) :=
  stringZLoop (S (src_left i)) i [].

(** ** reader.go:1235-1257 inputBitsFill *)
Definition r_blk (x : N) : N := (x mod 2 ^ N.of_nat r_bits)%N.
Fixpoint bitsFillLoop (fuel : nat) (i : ist) (atLeast : nat) : ist * bool :=
  if ibl i <? atLeast then
    match fuel with
    | O => (i, false)      (* unreachable: fuel = atLeast, each round adds 8 bits *)
    | S f =>
      match inputByte i with
      | (i, None) => (i, false)
      | (i, Some ch) =>
          bitsFillLoop f (set_ib i (N.lor (ib i) (r_blk (N.shiftl ch (N.of_nat (ibl i))))) (ibl i + 8)) atLeast
      end
    end
  else (i, true).
Definition inputBitsFill (i : ist) (atLeast : nat) : res (ist * bool) :=
  assertb (atLeast <=? r_bits - 8) (Ok (bitsFillLoop atLeast i atLeast)).

(** ** reader.go:1265-1275 inputBitsPeek, inputBitsCommit *)
Definition inputBitsPeek (i : ist) (n : nat) : res N :=
  assertb (n <=? ibl i) (Ok (N.land (ib i) (makeMask r_bits n))).
Definition inputBitsCommit (i : ist) (n : nat) : res ist :=
  assertb (n <=? ibl i) (Ok (set_ib i (N.shiftr (ib i) (N.of_nat n)) (ibl i - n))).

(** inputBitsFill(n) followed, on success, by inputBitsRead(n) (reader.go:1259-1263):
    the pattern of reader.go:713-718, 915-921, 951-957, 967-972, 988-993. *)
Definition getBits (i : ist) (n : nat) : res (ist * option N) :=
  let* (i, ok) := inputBitsFill i n in
  if ok then
    let* out := inputBitsPeek i n in
    let* i := inputBitsCommit i n in
    Ok (i, Some out)
  else Ok (i, None).

(** ** reader.go:1123-1146 readSymbol *)
Fixpoint readSymbolLoop (fuel : nat) (i : ist) (h : decoder) (max numBits : nat) : res (ist * option N) :=
  if numBits <=? max then
    match fuel with
    | O => NoFuel
    | S f =>
      let* (i, ok) := inputBitsFill i numBits in
      if ok then
        let* out := inputBitsPeek i numBits in
        let '(symbol, newMin, newMax) := dec_decode h numBits out in
        match symbol with
        | Some s => let* i := inputBitsCommit i numBits in Ok (i, Some s)
        | None => if Nat.eqb newMax 0 then Ok (i, None) else readSymbolLoop f i h max newMin
        end
      else Ok (i, None)
    end
  else Ok (i, None).
Definition readSymbol (i : ist) (h : decoder) : res (ist * option N) :=
  readSymbolLoop (S (dec_max h)) i h (dec_max h) (dec_min h).

(** ** Errors *)
(** reader.go:1372-1383 closeWithError *)
Definition closeWithError (o : ost) (e : goerr) : ost :=
  match o with
  | OST db h log err t s a c =>
    match err with
    | Some _ => o
    | None => OST db h (log ++ [OErr e]) (Some e) t s a c
    end
  end.
(** reader.go:1350-1360 propagateError *)
Definition propagateError (d : dst) (eofIsError : bool) : dst :=
  match i_err (d_in d) with
  | None => d
  | Some e =>
    let e := match e with EOF => if eofIsError then ErrUnexpectedEOF else EOF | _ => e end in
    DST (d_in d) (closeWithError (d_out d) e)
  end.
(** reader.go:1362-1370 corruptf *)
Definition corruptf (d : dst) (p : corruption) : dst :=
  DST (d_in d) (closeWithError (d_out d) (CorruptInputError (i_total (d_in d)) (i_stream (d_in d)) p)).

(** ** Output *)
(** reader.go:1311-1348 decodeBufferMustFlush; the thread may wait inside, and
    the bytes may be appended to outputBuffer in several pieces, but nothing
    else is appended in between. *)
Definition mustFlush (o : ost) : ost :=
  match o with
  | OST [] h log err t s a c => o
  | OST db h log err t s a c =>
      OST [] h (log ++ [OData db]) err (add64 t (lenN db)) (add64 s (lenN db))
          (adler_update a db) (crc_update c db)
  end.
(** reader.go:1305-1309 *)
Definition tryFlush (o : ost) : ost := if (cap <=? lenN (o_dbuf o))%N then mustFlush o else o.

(** buffer.Buffer.Write of a prefix that fits, then window.Write of the same bytes *)
Definition o_append (o : ost) (p : list N) : ost :=
  match o with OST db h log err t s a c => OST (db ++ p) (rev p ++ h) log err t s a c end.

(** reader.go:1282-1294 decodeBufferWrite *)
Fixpoint dbWriteLoop (fuel : nat) (o : ost) (p : list N) : res ost :=
  match p with
  | [] => Ok o
  | _ =>
    match fuel with
    | O => NoFuel
    | S f =>
      let o := tryFlush o in
      let nn := N.to_nat (N.min (lenN p) (cap - lenN (o_dbuf o))) in
      dbWriteLoop f (o_append o (firstn nn p)) (skipn nn p)
    end
  end.
Definition decodeBufferWrite (o : ost) (p : list N) : res ost := dbWriteLoop (S (length p)) o p.

(** reader.go:1296-1303 decodeBufferWriteByte *)
Definition decodeBufferWriteByte (o : ost) (ch : N) : ost :=
  let o := tryFlush o in
  if (lenN (o_dbuf o) <? cap)%N then o_append o [ch] else o.

(** ** buffer.Window (library) *)
Definition window_lk (hist : list N) (d : N) : option N :=      (* LookupByte *)
  if ((1 <=? d) && (d <=? win))%N then
    if (d <=? lenN hist)%N then nth_error hist (N.to_nat (d - 1))
    else match e_far env with Some f => Some (f (d - 1 - lenN hist)%N) | None => None end
  else None.
Fixpoint window_slice (hist : list N) (d : N) (k : nat) : option (list N) :=
  match k with
  | O => Some []
  | S k' => match window_lk hist d, window_slice hist (d - 1) k' with
            | Some c, Some r => Some (c :: r)
            | _, _ => None end
  end.
(** LookupSlice: an error exactly when LookupByte(d) is one, else a prefix of
    the bytes at distances d, d-1, ...; never more than asked for. *)
Definition window_lookupSlice (hist : list N) (d len : N) : option (list N) :=
  match window_lk hist d with
  | None => None
  | Some _ => window_slice hist d (N.to_nat (N.min (e_slice env hist d len) (N.min d len)))
  end.

(** ** reader.go:871-926 decodeLL: token, or [None] after an error *)
Definition decodeLL_entry (s : N) : option (N * nat) :=
  (if s <? 265 then Some (s - 254, 0%nat)
  else if s <? 269 then Some (2 * s - 519, 1%nat)
  else if s <? 273 then Some (4 * s - 1057, 2%nat)
  else if s <? 277 then Some (8 * s - 2149, 3%nat)
  else if s <? 281 then Some (16 * s - 4365, 4%nat)
  else if s <? 285 then Some (32 * s - 8861, 5%nat)
  else if s =? 285 then Some (258, 0%nat)
  else None)%N.
Definition decodeLL (d : dst) (s : N) : res (dst * option token) :=
  if (s <? 256)%N then Ok (d, Some (makeLiteralToken s))
  else if (s =? 256)%N then Ok (d, Some makeStopToken)
  else match decodeLL_entry s with
  | None => Ok (corruptf d CBadLL, None)
  | Some (length, additionalBits) =>
    if Nat.eqb additionalBits 0 then let* t := makeCopyToken length 1 in Ok (d, Some t)
    else
      let* (i, out) := getBits (d_in d) additionalBits in
      let d := DST i (d_out d) in
      match out with
      | None => Ok (propagateError d true, None)
      | Some out => let* t := makeCopyToken (length + out) 1 in Ok (d, Some t)
      end
  end.

(** ** reader.go:928-962 decodeD *)
Definition decodeD_entry (s : N) : option (N * nat) :=
  (if s <? 4 then Some (s + 1, 0%nat)
  else if s <? N.of_nat logicalNumDCodes then
    let x0 := N.shiftr (s - 2) 1 in
    let x1 := N.shiftl 1 (x0 + 1) in
    let x2 := if N.odd s then N.shiftl 1 x0 else 0 in
    Some (x1 + x2 + 1, N.to_nat x0)
  else None)%N.
Definition decodeD (d : dst) (s length : N) : res (dst * option token) :=
  match decodeD_entry s with
  | None => Ok (corruptf d CBadD, None)
  | Some (distance, additionalBits) =>
    if Nat.eqb additionalBits 0 then let* t := makeCopyToken length (distance mod two16) in Ok (d, Some t)
    else
      let* (i, out) := getBits (d_in d) additionalBits in
      let d := DST i (d_out d) in
      match out with
      | None => Ok (propagateError d true, None)
      | Some out => let* t := makeCopyToken length ((distance + out) mod two16) in Ok (d, Some t)
      end
  end.

(** ** reader.go:858-867, byte by byte part of a copy; [inr]: a look-up failed *)
Fixpoint copyLoop (o : ost) (distance : N) (length : nat) : ost + ost :=
  match length with
  | O => inl o
  | S k =>
    match window_lk (o_hist o) distance with
    | None => inr o
    | Some ch => copyLoop (decodeBufferWriteByte o ch) distance k
    end
  end.

(** ** reader.go:813-869 decodeHuffmanBlock *)
Fixpoint huffLoop (fuel : nat) (hLL hD : decoder) (d : dst) : res (dst * bool) :=
  match fuel with
  | O => NoFuel
  | S f =>
    let* (i, sym) := readSymbol (d_in d) hLL in
    let d := DST i (d_out d) in
    match sym with
    | None => Ok (corruptf d CDegenerateLL, false)
    | Some s =>
      let* (d, t) := decodeLL d s in
      match t with
      | None => Ok (d, false)
      | Some t =>
        if (tdist t =? 0)%N then
          if (256 <=? lol t)%N then Ok (d, true)
          else huffLoop f hLL hD (DST (d_in d) (decodeBufferWriteByte (d_out d) (lol t)))
        else
          let* (i, sym) := readSymbol (d_in d) hD in
          let d := DST i (d_out d) in
          match sym with
          | None => Ok (corruptf d CDegenerateD, false)
          | Some s =>
            let* (d, t) := decodeD d s (lol t) in
            match t with
            | None => Ok (d, false)
            | Some t =>
              match window_lookupSlice (o_hist (d_out d)) (tdist t) (lol t) with
              | None => Ok (corruptf d CDistance, false)
              | Some p =>
                let* o := decodeBufferWrite (d_out d) p in
                match copyLoop o (tdist t) (N.to_nat (lol t) - length p) with
                | inl o => huffLoop f hLL hD (DST (d_in d) o)
                | inr o => Ok (corruptf (DST (d_in d) o) CDistance, false)
                end
              end
            end
          end
      end
    end
  end.
Definition decodeHuffmanBlock (hLL hD : decoder) (d : dst) : res (dst * bool) :=
  huffLoop (S (bits_left (d_in d))) hLL hD d.

(** ** reader.go:987-995: the code length code; [sX] indexed by symbol *)
Fixpoint set_nth (l : list nat) (i v : nat) : list nat :=
  match l, i with
  | [], _ => []
  | _ :: t, O => v :: t
  | x :: t, S j => x :: set_nth t j v
  end.
Fixpoint readXSizes (order : list nat) (i : ist) (sX : list nat) : res (ist * option (list nat)) :=
  match order with
  | [] => Ok (i, Some sX)
  | s :: r =>
    let* (i, out) := getBits i 3 in
    match out with
    | None => Ok (i, None)
    | Some v => readXSizes r i (set_nth sX s (N.to_nat v))
    end
  end.

(** ** reader.go:1055-1121 decodeX.  combinedLengths is zero-initialised and
    filled from the left; [done] is its filled part.  Returns the new filled part. *)
Definition decodeX (d : dst) (sym : N) (done : list nat) (total : nat) : res (dst * option (list nat)) :=
  let run (bits base : nat) (v : nat) :=
    let* (i, out) := getBits (d_in d) bits in
    let d := DST i (d_out d) in
    match out with
    | None => Ok (propagateError d true, None)
    | Some out =>
      let count := base + N.to_nat out in
      if total - length done <? count then Ok (corruptf d CRepeatCount, None)
      else Ok (d, Some (done ++ repeat v count))
    end in
  if (sym <? 16)%N then Ok (d, Some (done ++ [N.to_nat sym]))
  else if (sym =? 16)%N then
    match rev done with
    | [] => Ok (corruptf d CRepeatFirst, None)
    | lastLength :: _ => run 2 3 lastLength
    end
  else if (sym =? 17)%N then run 3 3 0
  else if (sym =? 18)%N then run 7 11 0
  else Ok (d, Some done).

(** reader.go:1005-1017 *)
Fixpoint lengthsLoop (fuel : nat) (h : decoder) (d : dst) (done : list nat) (total : nat)
  : res (dst * option (list nat)) :=
  if length done <? total then
    match fuel with
    | O => NoFuel
    | S f =>
      let* (i, sym) := readSymbol (d_in d) h in
      let d := DST i (d_out d) in
      match sym with
      | None => Ok (corruptf d CDegenerateX, None)
      | Some s =>
        let* (d, r) := decodeX d s done total in
        match r with
        | None => Ok (d, None)
        | Some done => lengthsLoop f h d done total
        end
      end
    end
  else Ok (d, Some done).

(** ** reader.go:964-1053 readDynamicTrees; the event of lines 1035-1049 is
    sent by the caller in the model. *)
Definition readDynamicTrees (d : dst) : res (dst * option trees) :=
  let* (i, out) := getBits (d_in d) 14 in
  let d := DST i (d_out d) in
  match out with
  | None => Ok (propagateError d true, None)
  | Some out =>
    let numLL := 257 + N.to_nat (N.land out 0x1f) in
    let numD := 1 + N.to_nat (N.land (N.shiftr out 5) 0x1f) in
    let numX := 4 + N.to_nat (N.land (N.shiftr out 10) 0x0f) in
    let d := if logicalNumLLCodes <? numLL then corruptf d CHlit else d in
    let d := if logicalNumDCodes <? numD then corruptf d CHdist else d in
    let* (i, sX) := readXSizes (firstn numX scramble) (d_in d) (repeat 0 19) in
    let d := DST i (d_out d) in
    match sX with
    | None => Ok (propagateError d true, None)
    | Some sX =>
      if negb (e_acc env sX) then Ok (corruptf d CInitX, None)
      else
        let total := numLL + numD in
        let* (d, comb) := lengthsLoop (S total) (mk_decoder sX) d [] total in
        match comb with
        | None => Ok (d, None)
        | Some comb =>
          let sLL := firstn numLL comb ++ repeat 0 (physicalNumLLCodes - numLL) in
          let sD := skipn numLL comb ++ repeat 0 (physicalNumDCodes - numD) in
          if negb (e_acc env sLL) then Ok (corruptf d CInitLL, None)
          else if negb (e_acc env sD) then Ok (corruptf d CInitD, None)
          else Ok (d, Some (Trees (N.of_nat numX) (N.of_nat numLL) (N.of_nat numD) sX sLL sD))
        end
    end
  end.

(** ** reader.go:759-786 readFlateBlockStored *)
Definition readFlateBlockStored (d : dst) : res (dst * bool) :=
  let '(i, len0) := readU16le (d_in d) in
  let d := DST i (d_out d) in
  match len0 with
  | None => Ok (propagateError d true, false)
  | Some len0 =>
    let '(i, len1) := readU16le (d_in d) in
    let d := DST i (d_out d) in
    match len1 with
    | None => Ok (propagateError d true, false)
    | Some len1 =>
      if negb (len1 =? 65535 - len0)%N then Ok (corruptf d CStoredLen, false)   (* len1 != ^len0 *)
      else
        let '(i, p) := inputBufferReadN (d_in d) (N.to_nat len0) in
        let d := DST i (d_out d) in
        match p with
        | None => Ok (propagateError d true, false)
        | Some p => let* o := decodeBufferWrite (d_out d) p in Ok (DST (d_in d) o, true)
        end
    end
  end.

End Env.

(** ** The Reader, reader.go:21-87 *)
Record reader := Reader {
  r_opt : options;
  r_d : dst;
  r_num : N; r_hdr : header; r_fmt : format;      (* numStreams, header, actualFormat *)
  r_events : list event }.                        (* ghost *)

Definition set_d (r : reader) (d : dst) : reader :=
  match r with Reader o _ n h f ev => Reader o d n h f ev end.
Definition set_rhdr (r : reader) (h : header) : reader :=
  match r with Reader o d n _ f ev => Reader o d n h f ev end.
Definition set_fmt (r : reader) (f : format) : reader :=
  match r with Reader o d n h _ ev => Reader o d n h f ev end.
Definition r_in (r : reader) : ist := d_in (r_d r).
Definition r_out (r : reader) : ost := d_out (r_d r).
Definition set_rin (r : reader) (i : ist) : reader := set_d r (DST i (r_out r)).
Definition set_rout (r : reader) (o : ost) : reader := set_d r (DST (r_in r) o).

(** reader.go:121-131 *)
Definition dec_cap (o : options) : N := (2 ^ (o_mlevel o + 6))%N.
Definition win_size (o : options) : N := (2 ^ o_wbits o)%N.

(** ** reader.go:1385-1395 sendEvent *)
Definition r_sendEvent (r : reader) (p : pre_event) : reader :=
  match r with
  | Reader o d n h f ev =>
    Reader o d n h f (ev ++ [Event (p_type p) (i_total (d_in d)) (i_stream (d_in d)) (o_total (d_out d))
      (o_stream (d_out d)) n f (p_header p) (p_block p) (p_trees p) (p_footer p)])
  end.

Definition r_propagate (r : reader) (b : bool) : reader := set_d r (propagateError (r_d r) b).
Definition r_corrupt (r : reader) (p : corruption) : reader := set_d r (corruptf (r_d r) p).

Definition opt_dict (o : options) : list N := match o_dict o with Some d => d | None => [] end.

Section Thread.
Variable env : renv.

(** ** reader.go:470-478 *)
Definition readHeaderRaw (r : reader) : reader * bool :=
  (set_rhdr (set_fmt r RawFormat) (set_levels (r_hdr r) (h_wbits (r_hdr r)) (-1)), true).

(** ** reader.go:480-537 readHeaderZlib *)
Definition zlib_level (fl : N) : Z :=          (* reader.go:506 *)
  nth (N.to_nat (N.shiftr fl 6)) [1; 2; -1; 9]%Z 0%Z.
Definition readHeaderZlib (r : reader) : reader * bool :=
  let '(i, p) := inputBufferReadN (r_in r) 2 in
  let r := set_rin r i in
  match p with
  | None => (r_propagate r true, false)
  | Some p =>
    if negb (unbe16 p mod 31 =? 0)%N then (r_corrupt r CZlibCheck, false)
    else if negb (N.land (nthN p 0) 0x0f =? 8)%N then (r_corrupt r CZlibMethod, false)
    else
      let wb := (8 + N.shiftr (nthN p 0) 4)%N in
      let r := set_rhdr r (set_levels (r_hdr r) wb (h_clevel (r_hdr r))) in
      if (o_wbits (r_opt r) <? wb)%N then (r_corrupt r CZlibWindow, false)
      else
        let r := set_rhdr r (set_levels (r_hdr r) wb (zlib_level (nthN p 1))) in
        let isZero := e_iszero env (firstn (N.to_nat (win_size (r_opt r))) (o_hist (r_out r))) in
        if negb (N.land (nthN p 1) 0x20 =? 0)%N then
          let '(i, x) := readU32be (r_in r) in
          let r := set_rin r i in
          match x with
          | None => (r_propagate r true, false)
          | Some x =>
            if isZero then (r_corrupt r CZlibDictRequired, false)
            else if negb (x =? adler_checksum (opt_dict (r_opt r)))%N then (r_corrupt r CZlibDictDiffers, false)
            else (set_fmt r ZlibFormat, true)
          end
        else if negb isZero then (r_corrupt r CZlibDictUnused, false)
        else (set_fmt r ZlibFormat, true)
  end.

(** ** reader.go:539-552 readFooterZlib *)
Definition readFooterZlib (r : reader) (a32 : N) : reader * bool :=
  let '(i, x) := readU32be (r_in r) in
  let r := set_rin r i in
  match x with
  | None => (r_propagate r true, false)
  | Some x => if negb (x =? a32)%N then (r_corrupt r CZlibAdler, false) else (r, true)
  end.

(** ** reader.go:624-642 readHeaderGZIPExtraData *)
Definition set_extra (h : header) (x : list xrecord) : header :=
  match h with Header a b c d e _ g i => Header a b c d e x g i end.
Definition set_name (h : header) (x : list N) : header :=
  match h with Header _ b c d e f g i => Header x b c d e f g i end.
Definition set_comment (h : header) (x : list N) : header :=
  match h with Header a _ c d e f g i => Header a x c d e f g i end.
Definition set_mtime (h : header) (x : option Z) : header :=
  match h with Header a b _ d e f g i => Header a b x d e f g i end.

Definition readGZIPExtra (r : reader) (bit : bool) : res (reader * bool) :=
  if bit then
    let '(i, n) := readU16le (r_in r) in
    let r := set_rin r i in
    match n with
    | None => Ok (r_propagate r true, false)
    | Some n =>
      let '(i, p) := inputBufferReadN (r_in r) (N.to_nat n) in
      let r := set_rin r i in
      match p with
      | None => Ok (r_propagate r true, false)
      | Some p => let* x := extra_parse p in Ok (set_rhdr r (set_extra (r_hdr r) x), true)
      end
    end
  else Ok (r, true).

(** ** reader.go:644-670 readHeaderGZIPFileName, readHeaderGZIPComment *)
Definition readGZIPString (upd : header -> list N -> header) (r : reader) (bit : bool) : res (reader * bool) :=
  if bit then
    let* (i, s) := inputBufferReadStringZ (r_in r) in
    let r := set_rin r i in
    match s with
    | None => Ok (r_propagate r true, false)
    | Some s => Ok (set_rhdr r (upd (r_hdr r) s), true)
    end
  else Ok (r, true).

(** ** reader.go:672-687 readHeaderGZIPCRC16 *)
Definition readGZIPCRC16 (r : reader) (bit : bool) (c32 : N) : res (reader * bool) :=
  if bit then
    let '(i, x) := readU16le (r_in r) in
    let r := set_rin r i in
    match x with
    | None => Ok (r_propagate r true, false)
    | Some x => if negb (x =? c32 mod two16)%N then Ok (r_corrupt r CGzipHeaderCRC, false) else Ok (r, true)
    end
  else Ok (r, true).

(** ** reader.go:554-614 readHeaderGZIP *)
Definition gzip_level (b : N) : Z := (if (b =? 2)%N then 9 else if (b =? 4)%N then 1 else -1)%Z.
Definition i_crcreset (i : ist) : ist :=
  match i with IST src buf err b l t s _ => IST src buf err b l t s crc_reset end.
Definition flag_bit (x m : N) : bool := negb (N.land x m =? 0)%N.
Definition readHeaderGZIP (r : reader) : res (reader * bool) :=
  let r := set_rin r (i_crcreset (r_in r)) in
  let '(i, p) := inputBufferReadN (r_in r) 10 in
  let r := set_rin r i in
  match p with
  | None => Ok (r_propagate r true, false)
  | Some p =>
    if negb ((nthN p 0 =? 0x1f) && (nthN p 1 =? 0x8b))%N then Ok (r_corrupt r CGzipMagic, false)
    else if negb (nthN p 2 =? 8)%N then Ok (r_corrupt r CGzipMethod, false)
    else
      let mtime := unle32 (skipn 4 p) in
      let h := r_hdr r in
      let h := if (mtime =? 0)%N then h else set_mtime h (Some (Z.of_N mtime)) in
      let h := set_levels h (h_wbits h) (gzip_level (nthN p 8)) in
      let h := set_os h (ostype_decode (nthN p 9)) in
      let r := set_rhdr r h in
      let f := nthN p 3 in
      if flag_bit f 0xe0 then Ok (r_corrupt r CGzipFlags, false)
      else
        let r := set_rhdr r (set_datatype (r_hdr r) (if flag_bit f 0x01 then TextData else BinaryData)) in
        let? r := readGZIPExtra r (flag_bit f 0x04) in
        let? r := readGZIPString set_name r (flag_bit f 0x08) in
        let? r := readGZIPString set_comment r (flag_bit f 0x10) in
        let c32 := i_crc (r_in r) in
        let? r := readGZIPCRC16 r (flag_bit f 0x02) c32 in
        Ok (set_fmt r GZIPFormat, true)
  end.

(** ** reader.go:689-710 readFooterGZIP *)
Definition readFooterGZIP (r : reader) (c32 : N) : reader * bool :=
  let '(i, x) := readU32le (r_in r) in
  let r := set_rin r i in
  match x with
  | None => (r_propagate r true, false)
  | Some x =>
    let '(i, n) := readU32le (r_in r) in
    let r := set_rin r i in
    match n with
    | None => (r_propagate r true, false)
    | Some n =>
      if negb (x =? c32)%N then (r_corrupt r CGzipCRC, false)
      else if negb (n =? o_stream (r_out r) mod two32)%N then (r_corrupt r CGzipLength, false)
      else (r, true)
    end
  end.

(** ** reader.go:452-468 readHeaderAuto *)
Definition readHeaderAuto (r : reader) : res (reader * bool) :=
  let p := firstn (Nat.min 2 (e_peek2 env (i_total (r_in r)))) (i_buf (r_in r)) in
  if length p <? 2 then Ok (readHeaderRaw r)
  else if ((nthN p 0 =? 0x1f) && (nthN p 1 =? 0x8b))%N then readHeaderGZIP r
  else if ((N.land (nthN p 0) 0x0f =? 8) && (unbe16 p mod 31 =? 0))%N then Ok (readHeaderZlib r)
  else Ok (readHeaderRaw r).

(** ** reader.go:360-413 readHeader *)
Definition i_streamreset (i : ist) : ist :=
  match i with IST src buf err b l t _ c => IST src buf err b l t 0 c end.
Definition o_streamreset (o : ost) : ost :=
  match o with OST db h log err t _ a c => OST db h log err t 0 a c end.
Definition o_sethist (o : ost) (h : list N) : ost :=
  match o with OST db _ log err t s a c => OST db h log err t s a c end.
Definition incr_num (r : reader) : reader :=
  match r with Reader o d n h f ev => Reader o d (n + 1)%N h f ev end.
Definition readHeader (r : reader) : res (reader * bool) :=
  let r := set_d r (DST (i_streamreset (r_in r)) (o_streamreset (r_out r))) in
  let r := set_rin r (fillIfEmpty (r_in r)) in
  match i_buf (r_in r) with
  | [] => Ok (r_propagate r false, false)
  | _ =>
    let r := incr_num r in
    let r := set_rout r (o_sethist (r_out r) (rev (opt_dict (r_opt r)))) in
    let r := set_fmt r DefaultFormat in
    let r := r_sendEvent r (ev_simple StreamBeginEvent) in
    let r := set_rhdr r header0 in
    let? r := (match o_format (r_opt r) with
               | DefaultFormat => readHeaderAuto r
               | RawFormat => Ok (readHeaderRaw r)
               | ZlibFormat => Ok (readHeaderZlib r)
               | GZIPFormat => readHeaderGZIP r
               end) in
    Ok (r_sendEvent r (ev_header (r_hdr r)), true)
  end.

(** ** reader.go:415-450 readFooter *)
Definition readFooter (r : reader) : res (reader * bool) :=
  let r := set_rin r (inputBitsDiscard (r_in r)) in
  let a32 := o_adler (r_out r) in
  let c32 := o_crc (r_out r) in
  let r := r_sendEvent r (ev_footer a32 c32) in
  let? r := (match r_fmt r with
             | RawFormat => Ok (r, true)
             | ZlibFormat => Ok (readFooterZlib r a32)
             | GZIPFormat => Ok (readFooterGZIP r c32)
             | DefaultFormat => Panic PAssert
             end) in
  Ok (r_sendEvent r (ev_simple StreamCloseEvent), true).

(** ** reader.go:712-757 readFlateBlock with 788-811; the result is (isOK, isFinal) *)
Definition on_d (r : reader) (x : res (dst * bool)) : res (reader * bool) :=
  let* (d, ok) := x in Ok (set_d r d, ok).
Definition blockTypeOf (out : N) : blocktype :=
  match N.land (1 + N.shiftr out 1) 3 with
  | 0%N => InvalidBlock | 1%N => StoredBlock | 2%N => StaticBlock | _ => DynamicBlock end.
Definition readBlockBody (r : reader) (bt : blocktype) (isFinal : bool) : res (reader * bool) :=
  let cap := dec_cap (r_opt r) in
  let win := win_size (r_opt r) in
  match bt with
  | StoredBlock => on_d r (readFlateBlockStored cap (r_d r))
  | StaticBlock =>
      let r := r_sendEvent r (ev_trees StaticBlock isFinal (Trees 0 0 0 [] fixedSizesLL fixedSizesD)) in
      on_d r (decodeHuffmanBlock env cap win (mk_decoder fixedSizesLL) (mk_decoder fixedSizesD) (r_d r))
  | DynamicBlock =>
      let* (d, t) := readDynamicTrees env (r_d r) in
      let r := set_d r d in
      match t with
      | None => Ok (r, false)
      | Some t =>
        let r := r_sendEvent r (ev_trees DynamicBlock isFinal t) in
        on_d r (decodeHuffmanBlock env cap win (mk_decoder (t_lls t)) (mk_decoder (t_ds t)) (r_d r))
      end
  | InvalidBlock => Ok (r_corrupt r CReservedBlock, false)
  end.
Definition readFlateBlock (r : reader) : res (reader * bool) :=
  let* (i, out) := getBits env (r_in r) 3 in
  let r := set_rin r i in
  match out with
  | None => Ok (r_propagate r true, false)
  | Some out =>
    let isFinal := negb (N.land out 1 =? 0)%N in
    let bt := blockTypeOf out in
    let r := r_sendEvent r (ev_block BlockBeginEvent bt isFinal) in
    let* (r, isOK) := readBlockBody r bt isFinal in
    let r := if isOK then r_sendEvent r (ev_block BlockEndEvent bt isFinal) else r in
    Ok (r, isOK && negb isFinal)
  end.

(** reader.go:340-342 *)
Fixpoint blocksLoop (fuel : nat) (r : reader) : res reader :=
  match fuel with
  | O => NoFuel
  | S f => let* (r, more) := readFlateBlock r in if more then blocksLoop f r else Ok r
  end.

(** ** reader.go:327-358 readThread *)
Definition o_sumreset (o : ost) : ost :=
  match o with OST db h log err t s _ _ => OST db h log err t s adler_reset crc_reset end.
Fixpoint streamsLoop (fuel : nat) (r : reader) : res reader :=
  match i_err (r_in r) with
  | Some _ => Ok r
  | None =>
    match fuel with
    | O => NoFuel
    | S f =>
      let* (r, ok) := readHeader r in
      if ok then
        let r := set_rout r (o_sumreset (r_out r)) in
        let* r := blocksLoop (S (bits_left (r_in r))) r in
        let r := set_rout r (mustFlush (r_out r)) in
        let* (r, ok) := readFooter r in
        if ok then streamsLoop f r else Ok r
      else Ok r
    end
  end.
Definition set_ierr (i : ist) (e : option goerr) : ist :=
  match i with IST src buf _ b l t s c => IST src buf e b l t s c end.
Definition reset_num (r : reader) : reader :=
  match r with Reader o d _ h f ev => Reader o d 0 h f ev end.
Definition readThread (r : reader) : res reader :=
  let r := reset_num r in
  let* r := streamsLoop (S (S (src_left (r_in r)))) r in
  let r := match i_err (r_in r) with
           | None => set_rin r (set_ierr (r_in r) (Some EOF))
           | Some _ => r end in
  Ok (r_propagate r false).

(** ** reader.go:91-119 NewReader.  The counters of hash objects start at zero
    values; they are reset before use. *)
Definition ist0 (src : list (list N * option goerr)) : ist := IST src [] None 0 0 0 0 0.
Definition ost0 : ost := OST [] [] [] None 0 0 0 0.
Definition newReader (src : list (list N * option goerr)) (opts : list opt) : reader :=
  Reader (populateReaderDefaults (opt_apply options_reset opts)) (DST (ist0 src) ost0) 0 header0 DefaultFormat [].

(** ** reader.go:193-253 Reset, when no thread is running (never started, or
    finished); ibBlock, ibLen, totals, hashes and header are kept. *)
Definition r_reset (r : reader) (src : list (list N * option goerr)) (opts : list opt) : reader :=
  match r with
  | Reader o (DST i u) n h f ev =>
    Reader (match opts with [] => o | _ => populateReaderDefaults (opt_apply o opts) end)
      (DST (IST src [] None (ib i) (ibl i) (i_total i) (i_stream i) (i_crc i))
           (OST [] [] [] None (o_total u) (o_stream u) (o_adler u) (o_crc u)))
      n h f ev
  end.
End Thread.

(** ** What the callers of Read obtain once the thread has ended, when they
    read until an error (reader.go:257-283): all bytes, then the error. *)
Definition log_data (l : list outact) : list N :=
  flat_map (fun a => match a with OData p => p | OErr _ => [] end) l.
Definition r_result (r : reader) : list N * option goerr := (log_data (o_log (r_out r)), o_err (r_out r)).
