(** Independent specification of the trace events of a successful run: nesting,
    footers and counters. *)
From Verif Require Import Base SpecChecksum MCommon.

(** Events of one block. *)
Inductive block_evs (fin : bool) : list pre_event -> Prop :=
| be_stored : block_evs fin [ev_block BlockBeginEvent StoredBlock fin; ev_block BlockEndEvent StoredBlock fin]
| be_huff bt tr : bt = StaticBlock \/ bt = DynamicBlock ->
    block_evs fin [ev_block BlockBeginEvent bt fin; ev_trees bt fin tr; ev_block BlockEndEvent bt fin].

(** The part of an event that says what happened. *)
Definition pre_of (e : event) : pre_event :=
  PreEvent (e_type e) (e_header e) (e_block e) (e_trees e) (e_footer e).

(** The event sequences of a session: [ds] are the contents of the streams
    completed so far.  A stream is: begin, header, non-final blocks, one final
    block, end (with the checksums of the contents), close. *)
Inductive evst := EvIdle | EvOpen | EvLast.
Inductive SEvs : list (list N) -> evst -> list pre_event -> Prop :=
| se_nil : SEvs [] EvIdle []
| se_begin ds es h : SEvs ds EvIdle es -> SEvs ds EvOpen (es ++ [ev_simple StreamBeginEvent; ev_header h])
| se_block ds es bs fin : SEvs ds EvOpen es -> block_evs fin bs ->
    SEvs ds (if fin then EvLast else EvOpen) (es ++ bs)
| se_end ds es d : SEvs ds EvLast es ->
    SEvs (ds ++ [d]) EvIdle (es ++ [ev_footer (spec_adler32 d) (spec_crc32 d); ev_simple StreamCloseEvent]).

(** The totals reported are (modulo 2^64) those of nondecreasing true counters,
    bounded by [ti] and [to]. *)
Inductive EvCnt : list event -> N -> N -> Prop :=
| ec_nil ti to : EvCnt [] ti to
| ec_snoc evs e ti to ti' to' : EvCnt evs ti to -> (ti <= ti')%N -> (to <= to')%N ->
    e_inTotal e = (ti' mod two64)%N -> e_outTotal e = (to' mod two64)%N -> EvCnt (evs ++ [e]) ti' to'
| ec_weaken evs ti to ti' to' : EvCnt evs ti to -> (ti <= ti')%N -> (to <= to')%N -> EvCnt evs ti' to'.

(** The totals carried by the StreamClose events. *)
Definition closes (evs : list event) : list (N * N) :=
  flat_map (fun e => match e_type e with StreamCloseEvent => [(e_inTotal e, e_outTotal e)] | _ => [] end) evs.
(** Running totals (64-bit counters) of pairs of byte strings, starting at [i] and [o]. *)
Fixpoint running (i o : N) (l : list (list N * list N)) : list (N * N) :=
  match l with
  | [] => []
  | (a, b) :: t => ((i + lenN a) mod two64, (o + lenN b) mod two64)%N :: running (i + lenN a) (o + lenN b) t
  end.
