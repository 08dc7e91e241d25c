(** Model of the small types: enums, errors, header, events, options, util. *)
From Verif Require Import Base SpecHuffman MToken.

(** ** Enums *)
Inductive format := DefaultFormat | RawFormat | ZlibFormat | GZIPFormat.      (* enum_format.go:12-27 *)
Inductive strategy := DefaultStrategy | HuffmanOnlyStrategy | HuffmanRLEStrategy | FixedStrategy. (* enum_strategy.go:12-29 *)
Inductive flushtype := BlockFlush | PartialFlush | SyncFlush | FullFlush | FinishFlush. (* enum_flushtype.go:12-55 *)
Inductive datatype := UnknownData | BinaryData | TextData.                    (* enum_datatype.go *)
Inductive blocktype := InvalidBlock | StoredBlock | StaticBlock | DynamicBlock. (* enum_blocktype.go *)
Inductive eventtype := StreamBeginEvent | StreamHeaderEvent | BlockBeginEvent | BlockTreesEvent
  | BlockEndEvent | StreamEndEvent | StreamCloseEvent.                        (* enum_eventtype.go *)
Inductive writerstate := noStream | openStream | closingStream | closedStream | errorState | closedState. (* enum_writerstate.go *)

Definition format_eqb (a b : format) : bool :=
  match a, b with
  | DefaultFormat, DefaultFormat | RawFormat, RawFormat | ZlibFormat, ZlibFormat | GZIPFormat, GZIPFormat => true
  | _, _ => false end.
Definition strategy_eqb (a b : strategy) : bool :=
  match a, b with
  | DefaultStrategy, DefaultStrategy | HuffmanOnlyStrategy, HuffmanOnlyStrategy
  | HuffmanRLEStrategy, HuffmanRLEStrategy | FixedStrategy, FixedStrategy => true
  | _, _ => false end.
Definition datatype_eqb (a b : datatype) : bool :=
  match a, b with
  | UnknownData, UnknownData | BinaryData, BinaryData | TextData, TextData => true
  | _, _ => false end.

(** OSType (enum_ostype.go:10-67) is the constant's number, 0 = unknown, 4 = Unix. *)
Definition OSTypeUnknown : N := 0.
Definition OSTypeUnix : N := 4.
Definition ostype_valid (o : N) : bool := (o <=? 14)%N.          (* enum_ostype.go:186-188 *)
(** gzipOSTypeEncodeTable / gzipOSTypeDecodeTable, enum_ostype.go:147-183;
    a missing key of the decode map reads as OSTypeUnknown. *)
Definition ostype_encode (o : N) : option N := if ((1 <=? o) && (o <=? 14))%N then Some (o - 1)%N else None.
Definition ostype_decode (b : N) : N := if (b <=? 13)%N then (b + 1)%N else OSTypeUnknown.

(** ** Errors *)
Inductive corruption :=        (* the call sites of corruptf in reader.go *)
| CZlibCheck | CZlibMethod | CZlibWindow | CZlibDictRequired | CZlibDictDiffers | CZlibDictUnused
| CZlibAdler | CGzipMagic | CGzipMethod | CGzipFlags | CGzipHeaderCRC | CGzipCRC | CGzipLength
| CReservedBlock | CStoredLen | CDegenerateLL | CDegenerateD | CDegenerateX | CDistance
| CBadLL | CBadD | CHlit | CHdist | CInitX | CInitLL | CInitD | CRepeatFirst | CRepeatCount.

Inductive goerr :=
| EOF | ErrUnexpectedEOF                          (* io *)
| ErrClosed                                       (* io/fs *)
| Canceled                                        (* context.Canceled *)
| EINVAL                                          (* any error matching syscall.EINVAL *)
| IOErr (n : nat)                                 (* any other error of the environment *)
| CorruptInputError (offTotal offStream : N) (p : corruption).

(** ** header.go *)
(** time.Time (LastModified) is [None] when IsZero, else its Unix seconds. *)
Record xrecord := XRecord { x_id0 : N; x_id1 : N; x_bytes : list N }.     (* header.go:27-30 *)

Record header := Header {                                                 (* header.go:10-19 *)
  h_name : list N; h_comment : list N; h_mtime : option Z; h_datatype : datatype;
  h_os : N; h_extra : list xrecord; h_wbits : N; h_clevel : Z }.

Definition header0 : header := Header [] [] None UnknownData OSTypeUnknown [] 0 0.

(** header.go:33-48; each record consumes at least 4 bytes. *)
Fixpoint xparse (fuel : nat) (raw : list N) : res (list xrecord) :=
  match fuel with
  | O => NoFuel
  | S f =>
    match raw with
    | a :: b :: l0 :: l1 :: t =>
        let recLen := N.to_nat (unle16 [l0; l1]) in
        if recLen <=? length t then                     (* raw[index : index+recLen] *)
          let* r := xparse f (skipn recLen t) in
          Ok (XRecord a b (firstn recLen t) :: r)
        else Panic PBounds
    | _ => Ok []
    end
  end.
Definition extra_parse (raw : list N) : res (list xrecord) := xparse (S (length raw)) raw.

(** header.go:51-66 *)
Definition extra_bytes (recs : list xrecord) : list N :=
  flat_map (fun r => [x_id0 r; x_id1 r] ++ le16 (lenN (x_bytes r) mod two16)%N ++ x_bytes r) recs.

(** ** trace.go *)
Record trees := Trees { t_x : N; t_ll : N; t_d : N; t_xs : list nat; t_lls : list nat; t_ds : list nat }.

Record event := Event {                                                   (* trace.go:19-31 *)
  e_type : eventtype; e_inTotal : N; e_inStream : N; e_outTotal : N; e_outStream : N;
  e_numStreams : N; e_format : format;
  e_header : option header; e_block : option (blocktype * bool);
  e_trees : option trees; e_footer : option (N * N) }.                    (* footer: Adler-32, CRC-32 *)

(** The part of an Event filled in by the caller of sendEvent. *)
Record pre_event := PreEvent {
  p_type : eventtype; p_header : option header; p_block : option (blocktype * bool);
  p_trees : option trees; p_footer : option (N * N) }.
Definition ev_simple (t : eventtype) : pre_event := PreEvent t None None None None.
Definition ev_header (h : header) : pre_event := PreEvent StreamHeaderEvent (Some h) None None None.
Definition ev_block (t : eventtype) (b : blocktype) (f : bool) : pre_event := PreEvent t None (Some (b, f)) None None.
Definition ev_trees (b : blocktype) (f : bool) (t : trees) : pre_event :=
  PreEvent BlockTreesEvent None (Some (b, f)) (Some t) None.
Definition ev_footer (a c : N) : pre_event := PreEvent StreamEndEvent None None None (Some (a, c)).

(** ** options.go.  Tracers do not influence the code; [tracers] only counts
    them (an event is sent to each). *)
Record options := Options {                                               (* options.go:10-19 *)
  o_format : format; o_strategy : strategy; o_clevel : Z; o_mlevel : N; o_wbits : N;
  o_dict : option (list N); o_tracers : nat }.

Definition options_reset : options :=                                     (* options.go:21-32 *)
  Options DefaultFormat DefaultStrategy (-1) 0 0 None 0.

Inductive opt :=      (* the closures returned by WithX, options.go:61-125; WithMethod changes nothing *)
| WithFormat (f : format) | WithMethod | WithStrategy (s : strategy) | WithCompressLevel (l : Z)
| WithMemoryLevel (m : N) | WithWindowBits (w : N) | WithDictionary (d : option (list N)) | WithTracers (n : nat).

Definition opt_valid (o : opt) : bool :=                                  (* the assertions of options.go:61-125 *)
  match o with
  | WithCompressLevel l => ((-1 <=? l) && (l <=? 9))%Z
  | WithMemoryLevel m => (m <=? 9)%N
  | WithWindowBits w => ((w =? 0) || ((8 <=? w) && (w <=? 15)))%N
  | WithDictionary (Some []) => false
  | _ => true
  end.

Definition opt_apply1 (o : options) (x : opt) : options :=
  match o with
  | Options f s c m w d t =>
    match x with
    | WithFormat f' => Options f' s c m w d t
    | WithMethod => o
    | WithStrategy s' => Options f s' c m w d t
    | WithCompressLevel c' => Options f s c' m w d t
    | WithMemoryLevel m' => Options f s c m' w d t
    | WithWindowBits w' => Options f s c m w' d t
    | WithDictionary d' => Options f s c m w d' t
    | WithTracers t' => Options f s c m w d t'
    end
  end.
Definition opt_apply (o : options) (l : list opt) : options := fold_left opt_apply1 l o.   (* options.go:34-38 *)

(** options.go:40-47 *)
Definition populateReaderDefaults (o : options) : options :=
  match o with
  | Options f s c m w d t =>
      Options f s c (if (m =? 0)%N then 9%N else m) (if (w =? 0)%N then 15%N else w) d t
  end.
(** options.go:49-57 *)
Definition populateWriterDefaults (o : options) : options :=
  match populateReaderDefaults o with
  | Options f s c m w d t =>
      Options (if format_eqb f DefaultFormat then ZlibFormat else f) s
              (if (c =? -1)%Z then 6%Z else c) m w d t
  end.

(** ** util.go:14-22 makeMask; [bpb] = bitsPerBlock *)
Definition makeMask (bpb shift : nat) : N :=
  if Nat.eqb shift 0 then 0%N
  else if bpb <=? shift then N.ones (N.of_nat bpb)
  else (N.shiftl 1 (N.of_nat shift) - 1)%N.
