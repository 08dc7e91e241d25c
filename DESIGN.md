# Formal model of chronos-tachyon/flate in Rocq (Coq 8.16.1)

(Generated by `tools/design.py` from `tools/design_head.md`, MANIFEST.json and `tools/design_tail.md`.)

## 1. Shape of the development

All sources are in `rocq/theories`. Layers:

| layer | files | content |
|---|---|---|
| base | `Base.v` | outcome type (`Ok`/`Panic`/`NoFuel`), bit/byte lists, byte orders |
| specification | `Spec*.v` | independent and small: CRC-32 bit by bit, Adler-32 sums, canonical Huffman code (RFC 1951 3.2.2), DEFLATE grammar as inductive relations over bit lists, zlib (RFC 1950) and gzip (RFC 1952) framing, what a sequence of Writer calls asks for, inputs of a Reader, event grammar, text forms, cost bounds, library contracts |
| model | `M*.v` | executable Gallina functions, one per Go function, each citing file:lines |
| proofs | `P*.v` (not `Prop*`) | lemmas |
| properties | `Prop*.v` | the theorems named in MANIFEST.json, each with `Print Assumptions` and examples that meet the hypotheses |
| tests | `Demo.v`, `Test*.v` | `vm_compute` runs of the model on the vectors of `reader_test.go` and on a small concrete library (tests, not proofs) |

## 2. How the code is modelled

* Bytes and machine words are `N`; wrap-around (`mod 2^16/32/64`) is written out where Go truncates. Bit counts and
  code sizes are `nat`. Slices are lists. Panics (assertion failures, slice bounds) are the value `Panic`; loops that are
  not structural run on fuel and return `NoFuel` when exhausted, which the theorems exclude (so termination is proved).
* External libraries are not in the repo. They are oracles in the records `wenv`/`renv`; theorems assume the contracts
  `lib_ok`/`rlib_ok` of `SpecLib.v` (satisfied by the concrete library of `Demo.v`: `demo_lib_ok`, `demo_rlib_ok`):
  * `buffer.Buffer`: bounded FIFO of bytes. `ReadFrom(r)` delivers the next element of an arbitrary list of results
    `(bytes, error)`. `PrepareBulkRead` may return less than asked (ring buffer), as chosen by an oracle.
  * `buffer.LZ77`: bounded FIFO plus history since the last clear. The match finder is an arbitrary oracle; assumed is only
    that a reported match is real and within the configured length/distance limits.
  * `buffer.Window`: history since the last clear; look-ups within history and window size are exact, look-ups beyond
    fail or give arbitrary bytes.
  * `huffman.Encoder.Init(n, freqs)`: arbitrary oracle choosing code lengths; assumed: used symbols get 1..15 bits
    (1..7 for the 19-symbol code), unused get 0, the code is complete or has at most one symbol. `Encode`/`Decode`
    implement the canonical code of RFC 1951 3.2.2. `Decoder.Init` is an oracle that accepts proper codes and rejects
    over-subscribed ones.
  * the underlying `io.Writer`: oracle giving for each call success or (bytes accepted, error); optional Flush/Sync, which may fail.
* Sources of a Reader are lists of `(bytes, error)` results; most Reader theorems ask for `polite_src` (no `(0, nil)` reads:
  `C32_refuted_empty_read` shows what happens otherwise).
* Concurrency of `Reader` (`Read`, `Close`, `Reset`, the decompression goroutine, two mutexes, two condition variables, the
  WaitGroup) is a small-step state machine (`MConc.v`) whose program counters cite lines of `reader.go`; any number of calls,
  every schedule. The sequential decoder model (`MReader.v`) and the concurrent one meet at the recorded list of chunks and
  errors (`o_log`). Abstractions are listed in the header of `MConc.v`.
* `MCli.v` models `cmd/gzip` from the parsed flags on; its simplifications are in its header.
* `MAsm.v` models the two assembly files instruction by instruction.

## 3. Properties: model, method, theorems

* **C01** Compress/decompress round trip (proved): composition of C02 and C27: what the Writer emits is in the grammar, the Reader decodes the grammar. Theorems: `C01_round_trip`. Relative to lib_ok; needs Close to succeed, which session_succeeds gives for mlevel<=7 or level 0 and session_succeeds_small_writes for writes of at most 61440 bytes.
* **C02** Writer output conforms to RFC 1951/1950/1952 (proved): `MWriter.v`/`MSession.v`; invariant "bits emitted = bits at the sink ++ pending bits = header ++ blocks of the grammar" (`PInv.v`), induction over the calls (`PApi.v`, `PClient.v`); the streams a call sequence asks for are specified in `SpecSession.v`. Theorems: `C02_writer_output_conforms`, `session_succeeds`. Relative to lib_ok (contracts of the huffman and LZ77 libraries).
* **C03** SyncFlush/FullFlush/FinishFlush deliver everything written so far (proved): same invariant at the moment Flush returns: no pending bits, no buffered input. Theorems: `C03_flush_delivers`.
* **C04** FullFlush is an independent restart point (proved): same invariant restarted from an empty history (`full_flush` in `PClient.v`), and with C27 the same seen through a Reader (`PropRestart.v`). Theorems: `C04_full_flush_restart`, `C04_reader_restarts`. C04_reader_restarts: the same seen through a raw Reader given only the later bytes..
* **C05** PartialFlush pushes all bits of the current block to the underlying writer (partial): what PartialFlush guarantees (all blocks complete up to the pending bits of one machine block) and a witness that more is not true. Theorems: `C05_partial_flush_partial`, `C05_refuted`. The documented guarantee is false: fewer bits than one machine block may stay pending.
* **C06** Writer errors are sticky and silent (proved): step lemmas over the calls with an arbitrary failing sink. Theorems: `C06_errors_sticky`.
* **C07** A closed Writer stays closed (proved): as C06. Theorems: `C07_closed_stays_closed`.
* **C08** Reset returns a Writer to a fresh state (partial): relational simulation of the reset Writer and a new one (`PWSim.v`); witness for the failure case. Theorems: `C08_reset_is_fresh`, `C08_reset_after_close`, `C08_reset_panics_only_if_open`, `C08_refuted`. Proved whenever the underlying Flush/Sync do not fail or the last Close returned nil; false of the code otherwise (C08_refuted).
* **C09** The Writer never panics on valid use (partial): the only reachable assertion is the size of a stored block; it needs more than 65535 bytes of buffered input (`PInv.big`), which small writes never build up (`short`). Theorems: `C09_writer_no_panic_partial`, `C09_small_writes_no_panic_partial`, `C09_writer_terminates_partial`, `C09_refuted`. Proved for memory level <= 7 or level 0, and at every level when no Write passes more than 61440 bytes; false otherwise: C09_refuted, for every library meeting lib_ok.
* **C10** Write accepts everything or fails (proved): as C06. Theorems: `C10_write_all_or_nothing`.
* **C11** gzip header round trip (proved): header encoder and decoder modelled byte by byte; C02 + C27 + the header relation of `SpecFormats.v`. Theorems: `C11_gzip_header_round_trip`.
* **C12** zlib header is well formed (proved): the bytes of the zlib/gzip header and footer of every stream. Theorems: `C12_stream_headers`.
* **C13** SetHeader accepts exactly the representable headers (proved): the five checks = representability. Theorems: `C13_set_header`.
* **C14** ExtraData serialisation round trip (proved): encoder/decoder of ExtraData. Theorems: `C14_extra_data_round_trip`.
* **C15** Parsing ExtraData never panics (partial): exact set of panicking inputs, for slices with cap = len. Theorems: `C15_parse_panics_exactly_on_bad_extra`, `C15_parse_total_otherwise`, `C15_refuted`. The property is false of the code: the exact set of panicking inputs is proved, with a witness.
* **C16** CRC-32 is the IEEE CRC-32 for every input and every chunking (proved): GF(2)-linearity of the register step; table = 8 steps; slicing-by-8 = 64 steps. Theorems: `C16_crc32_exact`. The assembly kernels are covered by C50.
* **C17** Adler-32 is exact despite 32-bit accumulators and deferred reduction (proved): accumulator bounds between reductions. Theorems: `C17_adler32_exact`.
* **C18** Length/distance symbol coding is the RFC 1951 table and is inverted by the decoder (proved): finite sweep over all lengths/distances lifted by `forallb_forall`. Theorems: `C18_writer_symbols`, `C18_writer_emits`, `C18_reader_inverts`, `C18_reader_rejects`.
* **C19** Code-length run-length coding is lossless (proved): induction over the length vector. Theorems: `C19_code_lengths_lossless`, `C19_dynamic_block_bits`.
* **C20** Bit packing is exact (proved): invariant on pending bits. Theorems: `C20_bit_packing`, `C20_bits_round_trip`.
* **C21** Block-size prediction equals the bits really written (proved): both bit writers interpret one list of actions. Theorems: `C21_static_prediction_exact`, `C21_dynamic_prediction_exact`.
* **C22** The cheapest block type is chosen (partial): comparison made by compressTokens; witness. Theorems: `C22_choice_partial`, `C22_refuted`. False of the code: static is compared only when dynamic is not larger than stored.
* **C23** FixedStrategy only uses static Huffman blocks (partial): the whole session does not depend on the option (simulation); witness. Theorems: `C23_refuted`, `C23_fixed_strategy_ignored`. False of the code: C23_refuted; what the option really does is proved: nothing (C23_fixed_strategy_ignored).
* **C24** HuffmanOnly emits no copies; HuffmanRLE only distance-1 copies; NoCompression only stored blocks (partial): token invariants; block invariants. Theorems: `C24_huffman_only_no_copies`, `C24_huffman_rle_distance_one`, `C24_no_compression_stored`, `C24_no_compression_partial_flush`, `C24_refuted_partial_flush`. The NoCompression part is false of the code when PartialFlush is used (it adds an empty static block: witness, and an exact description); proved without PartialFlush.
* **C25** Options: last one wins, defaults filled, Reset merges (proved): folds over option lists. Theorems: `C25_last_option_wins`, `C25_reset_merges`, `C25_reader_options`, `C25_reader_reset_merges`, `C25_valid_options`.
* **C26** Auto-detected text flag describes the stream it is written in (partial): witness; what is handed to the underlying writer stays (`PPrefix.v`), then the first iteration of Write. Theorems: `C26_refuted`, `C26_text_flag_partial`. False of the code from the second stream on, unless SetHeader is called in between (witness); proved: whenever the DataType is to be detected (first stream, or after SetHeader with an unknown DataType) FTEXT says exactly whether the bytes looked at contain no control character.
* **C27** Reader accepts every valid stream (proved): simulation of the decoder against the grammar, stream by stream (`PGram.v` ... `PAccept.v`). Theorems: `C27_reader_accepts_valid_stream`, `C27_needs_visible_dictionary`. An all-zero-looking dictionary needs the side condition in `valid`; witness given.
* **C28** Clean EOF only after valid data (proved): the converse simulation: a run that ends in EOF builds a derivation. Theorems: `C28_eof_means_valid`, `C28_eof_means_valid_strict`.
* **C29** Truncation is never mistaken for the end of the stream (proved): corollary of C28 and prefix-freeness of the grammar. Theorems: `C29_truncation_detected`.
* **C30** Truncation is reported as io.ErrUnexpectedEOF and I/O errors as themselves (partial): provenance of every error; witness. Theorems: `C30_refuted`, `C30_error_provenance`, `C30_truncation_partial`. False of the code when a Huffman code is cut (witness); proved: the error is ErrUnexpectedEOF, the own error of the source, or - only for an incomplete code - a degenerate-code CorruptInputError; and the provenance of the final error for every input.
* **C31** Checksum and length footers are enforced (proved): corollary of C28. Theorems: `C31_zlib_checksum_enforced`, `C31_gzip_checksum_enforced`.
* **C32** Delivered data does not depend on how the underlying reader chunks its data (partial): relational simulation of two runs (`PSim.v`). Theorems: `C32_chunking_irrelevant`, `C32_refuted_detection`, `C32_refuted_empty_read`. For a fixed format; false for auto-detection and for sources that return (0,nil).
* **C33** Concatenated streams are all decoded (partial): induction over streams. Theorems: `C33_reader_concatenation`, `C33_needs_detached_eof`. Needs EOF to be reported separately from data; witness given.
* **C34** The Reader never panics on untrusted input (partial): C15 is the only panic: every other assertion/index is discharged in the simulation. Theorems: `C34_reader_no_panic_raw_zlib`, `C34_reader_panic_only_bad_extra`, `C34_refuted`, `C34_panic_any_library`. False for gzip: exact panic condition and witness proved.
* **C35** No data after an error (partial): witness; earlier streams by C28-like induction. Theorems: `C35_refuted`, `C35_earlier_streams_intact_partial`. False of the code; witness, and what does hold about earlier streams.
* **C36** Window and dictionary requirements are enforced for zlib (proved): direct. Theorems: `C36_zlib_bad_header_rejected`.
* **C37** Format auto-detection recognises everything the Writer produces (proved): first two bytes of every output (raw output never looks like zlib/gzip). Theorems: `C37_auto_detection`, `C37_raw_output_looks`, `C37_round_trip`, `C37_round_trip_one`. The two first bytes of each stream must be visible at once (no_split, can_peek); C32_refuted_detection shows why.
* **C38** Decompression terminates (proved): fuel bound from the length of the input. Theorems: `C38_reader_terminates`.
* **C39** Reads deliver the decompressed bytes in order, exactly once, under every schedule (proved): small-step model `MConc.v`; invariants over every reachable state (`PConc*.v`). Theorems: `C39_reads_deliver_in_order`. Every schedule, any number of concurrent Read and Close calls.
* **C40** No lost wake-up (partial): well-founded measure on states and deadlock-freedom. Theorems: `C40_no_lost_wakeup`, `C40_refuted_with_reset`. Proved for Read and Close calls (no deadlock and no infinite execution); false when Reset is called concurrently with Read: witness.
* **C41** Reset works in the middle of a stream (partial): invariant of the self-deadlocked state; explicit schedule. Theorems: `C41_refuted`, `C41_reset_while_running_never_returns`, `C41_reset_when_idle`. False of the code: Reset while the goroutine runs locks mu2 twice and never returns; it returns when the goroutine is not running.
* **C42** Close stops the goroutine and later Reads report cancellation (proved): invariant after Close. Theorems: `C42_close_stops_and_cancels`.
* **C43** An error is reported only after the data decoded before it (partial): ordering invariant; explicit schedule. Theorems: `C43_error_order_partial`, `C43_refuted`. False of the code for the error of a damaged stream (visible before the data decoded before it); proved for io.EOF and context.Canceled.
* **C44** A Reader can be reused (proved): simulation of the reused Reader and a new one. Theorems: `C44_reader_reusable`.
* **C45** Trace events are well nested and their counters are truthful (proved): event grammar invariants of Writer and Reader. Theorems: `C45_writer_events`, `C45_writer_finish_totals`, `C45_reader_events`, `C45_reader_events_valid`.
* **C46** Text detection (proved): direct. Theorems: `C46_is_text`.
* **C47** Checksum32 JSON round trip (proved): direct. Theorems: `C47_checksum_text`, `C47_accepted_texts`. JSON strings modelled for unescaped characters, which is all the marshaller produces here.
* **C48** Parsing levels and window sizes (proved): direct. Theorems: `C48_clevel`, `C48_mlevel`, `C48_wbits`, `C48_inverse`.
* **C49** Stored blocks never exceed 65535 bytes and LEN/NLEN are complementary (proved): direct. Theorems: `C49_writer_stored`, `C49_reader_rejects`.
* **C50** Hardware CRC paths agree with the generic one (proved): `MAsm.v`: instruction-level model of crc32_amd64.s and crc32_arm64.s; GF(2)-linearity reduces each folding step to a check on basis vectors; loads outside the slice are failures. Theorems: `C50_amd64`, `C50_arm64`, `C50_amd64_kernel`, `C50_arm64_kernel`, `C50_amd64_assembly`, `C50_arm64_assembly`. The assembly kernels are modelled instruction by instruction (MAsm.v); the semantics of the instructions used are trusted.
* **C51** Data made available by SyncFlush can be read before more input arrives (partial): schedule that leaves the data in the decode buffer. Theorems: `C51_refuted`, `C51_handed_over_partial`. False of the code: the goroutine keeps decoded data until its buffer is full or the stream ends; what holds: whatever follows the flushed bytes, all but the last 2^(memory level + 6) bytes of the flushed data are handed over first, before any error; missing: those last bytes.
* **C52** gzip (the command) writes one complete stream or fails (partial): `MCli.v`; reduces a run to a session of C02/C09. Theorems: `C52_gzip_compress`, `C52_gzip_compress_succeeds`, `C52_gzip_compress_no_crash`, `C52_refuted_empty_dictionary`. Proved for every run with valid flags, at every memory level (io.Copy writes at most 32768 bytes at a time); an empty dictionary file crashes the command (refuted); getopt not modelled.
* **C53** gzip | gzip -d gives back the input (proved): C52 + C27/C37. Theorems: `C53_gzip_round_trip`. With detection, the first Read of standard input must not return one byte alone (C32_refuted_detection).
* **C54** gzip -d succeeds only on intact input (partial): C28, C29, C34, C38. Theorems: `C54_gunzip_exit0_means_valid`, `C54_gunzip_truncated`, `C54_gunzip_ends`, `C54_refuted_crash`. 'never crashes' is false (malformed extra field, C34): witness, and proved to be the only crash; trailing bytes may be ignored when the end of the input is announced with its last bytes (C33).
* **C55** CaptureHeader records the header of the last stream (proved): `MTrace.v` + C11 + C45. Theorems: `C55_capture_header`, `C55_noop`.
* **C56** The offsets of a CorruptInputError are positions in the input (proved): separate invariant over every function of the Reader (`POff.v`). Theorems: `C56_corruption_offsets`, `C56_corruption_offsets_bounded`. Counters are modulo 2^64.
* **C57** Compression never expands data by more than a computable bound (proved): cost invariant over the Writer (`PCost*.v`), independent of the grammar. Theorems: `C57_expansion`, `C57_blocks`, `C57_bound`.
* **C58** Read obeys the io.Reader contract and reading until an error gives all of the data (proved): per-call invariant over every schedule (`PConc7.v`), with C39 and C40. Theorems: `C58_read_contract`, `C58_read_all`.
* **C59** The decompressor does not run ahead of its Reads (proved): chunks are at most one decode buffer (`PChunk.v`), then an invariant over every schedule (`PropMemory.v`). Theorems: `C59_bounded_buffering`, `C59_no_running_ahead`. The bounds are attained (C59_met).
* **C60** A gzip header cannot make a Reader hold more memory than its options ask for (partial): a family of inputs, one for each length, through `follow_all`. Theorems: `C60_header_within_input_partial`, `C60_refuted_long_header`. False of the code: names and comments are read with no limit; for every n a valid input makes the Reader hold n bytes. What holds: name, comment and extra data together are never longer than the input (no announced size is trusted).
* **C61** Concurrent calls on one Writer behave as if made one after the other (proved): `MWConc.v`: one program counter per call; invariant over every schedule (`PropWConc.v`), then C01. Theorems: `C61_concurrent_calls`, `C61_no_deadlock`, `C61_session`, `C61_writes_come_out_whole`. No_deadlock is for tracers that do not call back (C62).
* **C62** A tracer may use the Writer it observes (partial): invariant of the blocked state. Theorems: `C62_reentrant_tracer_blocks_forever`, `C62_refuted`. False of the code: events are sent with the mutex held, so a tracer that calls any method blocks its goroutine and all later calls forever; what holds is C61, for tracers that do not call back.
* **C63** Arguments are taken by value (partial): `MAlias.v`: the caller's memory as an explicit store; simulation by C01's sessions. Theorems: `C63_arguments_by_value_partial`, `C63_refuted_set_header`, `C63_refuted_check_evaded`. False of SetHeader, which keeps the caller's extra records (later changes reach the stream, unchecked); proved for Write, WithDictionary and all memory not passed to SetHeader.
* **C64** The compressed bytes depend on the options and the calls only (proved): relational simulation of the two Writers: equal states up to the bits held back and the split into underlying calls (`PWord.v`). Theorems: `C64_same_bytes`, `C64_same_bytes_after_flush`. The match finder and the Huffman builder (other packages) are assumed to make the same choices on both; after a PartialFlush or BlockFlush the two may hold back different numbers of bits (C64_met).
* **C65** Writers used at the same time do not disturb each other (proved): `MPool.v`: boxes, slices and arrays, one memory access per step; ownership invariant over every schedule. Theorems: `C65_own_tokens`, `C65_no_race`, `C65_no_waiting`. Sync.Pool as documented; the pool of byte buffers (package bufferpool) is not part of the repository and is trusted.
* **C66** Calls return although the underlying reader is blocked (partial): invariant over every schedule in which the goroutine does not move (`MReent.v`, `PropBlocked.v`). Theorems: `C66_blocked_source_blocks_calls`, `C66_refuted`. False of the code: the goroutine holds mu1 while it is in the underlying Read, and every call locks mu1 first; proved that none of them returns before the underlying Read does, with a witness in which decompressed data is there to be read; what does hold is C40, for underlying readers that return.
* **C67** A tracer may use the Reader it observes (partial): `MReent.v` adds accessors and tracers to `MConc.v`; invariants over every schedule. Theorems: `C67_reentrant_tracer_blocks_forever`, `C67_refuted`, `C67_calls_return_partial`. False of the code: events are sent with mu1 held, so such a call never returns, nor does any later one; proved for tracers that do not call back: every call, accessors included, returns (Reset excepted, C40).
* **C68** A Writer holds back less than one block of data (proved): PropLatency.v: the session invariant of PInv/PApi (blocks written so far decode to the consumed data) with the bound `short` on what is left in the input buffer after each call. Theorems: `C68_bounded_latency`. C68_bound_is_sharp: one byte less than a block leaves no trace in the output..
* **C69** Decompression expands its input by at most a factor of 1032 (proved): an account of bits over every function of the Reader (`PBomb.v`): every bit consumed allows 129 bytes. Theorems: `C69_expansion_bound`, `C69_expansion_bound_reused`. 258 bytes for two bits.
* **C70** Flushed data survives a crash of the writing process (proved): `PFlushed.v`: the block loop gets past any complete blocks at the start of its input (`reach`), and from there on the output only grows. Theorems: `C70_flushed_data_survives`, `C70_crash_after_flush`. A panic is possible only from a gzip header with a cut extra field in the continuation (C34); formats are set explicitly; with FinishFlush among the earlier calls the source must return its final error alone (R9, C33).
* **C71** The output does not depend on how the data is divided among Write calls (partial): `PDivide.v`: replacing the pending data commutes with opening a stream, one Write equals two (`loop_split`); `PDivide2.v`: whole sequences; `SpecDivide.v`: joining neighbouring Writes. Theorems: `C71_division_declared_partial`, `C71_division_plain_partial`, `C71_division_refuted`, `C71_division_blocks_refuted`. Proved when DataType is declared (or the format is raw or zlib) and the input buffer is not larger than the early-block size (memory level 4 and below, or 7 and below with NoCompression) or less than one early block is written between Flushes; both conditions are necessary: two refutations.
* **C72** Raw and zlib output does not depend on SetHeader (proved): `PNoHeader.v`: a relation between two Writers that differ in header, events and stream number only, preserved by every method. Theorems: `C72_header_unused`.
* **C73** Only format, window and dictionary options matter to a Reader (proved): `PSim.v`, generalised: two Readers with different decode buffers; what one has handed over plus what it still buffers agrees with the other, and so do the checksums once the rest is added. Theorems: `C73_other_options_irrelevant`. Any source, including auto-detection and errors that come with data.
* **C74** A larger window accepts whatever a smaller one accepts (partial): the language accepted by the Reader (`RSt`, C27/C28) is monotone in the window. Theorems: `C74_larger_window_accepts`, `C74_hidden_dictionary_refuted`. Proved whenever the dictionary is recognised with the smaller window (always without dictionary, and for raw and gzip); refuted for zlib dictionaries whose visible tail is all zeros.
* **C75** Local damage to the content is always detected (proved): linearity and injectivity of the CRC register (`crc_burst`), the two sums of Adler-32 (`adler_burst`), and C31. Theorems: `C75_gzip_damage_detected`, `C75_zlib_damage_detected`, `C75_stored_gzip_damaged`, `C75_stored_gzip_intact`, `C75_stored_zlib_damaged`, `C75_stored_zlib_intact`. CRC-32 bursts of up to four whole bytes, Adler-32 of two; an example shows that three bytes can escape Adler-32.
* **C76** Flushed data survives a power failure (proved): a log of the calls on the underlying object; flushImpl splits into a part that writes and the final Flush and Sync; C70, C29, C33. Theorems: `C76_flush_is_durable`, `C76_flushed_data_survives_power_failure`, `C76_close_is_durable`, `C76_any_prefix`, `C76_survivors_are_prefixes`. For objects whose Sync does not return the ignored error EINVAL; the calls on the object are logged with adjacent Writes merged; the log is proved to agree with the model of the Writer.
* **C77** gzip (the command) processes what it is asked to (partial): model of main() down to the filter of C52-C54. Theorems: `C77_refuted`, `C77_operands_ignored`, `C77_operands_refused`, `C77_filter`, `C77_missing_dictionary`, `C77_digit_flags`, `C77_no_digit_flag`, `C77_gzip_filter`. False of the code for -c with operands (witness: gzip -c FILE | gzip -d gives the contents of standard input); everything else proved; getopt and profiling not modelled.
* **C78** A client that reads to the end leaves no goroutine behind (partial): every state at rest of the concurrent model. Theorems: `C78_left_only_with_unread_data`, `C78_no_goroutine_left_after_eof`, `C78_refuted`, `C78_met`. Proved for io.EOF; false of the code for CorruptInputError (witness C78_refuted); C42 shows Close ends it in any case.
* **C79** The format changes the envelope only (proved): relational simulation of two Writers with different formats. Theorems: `C79_same_compressed_data`, `C79_same_compressed_data_so_far`, `C79_met`. What the headers and footers contain is C02, C11 and C12.
* **C80** A failing underlying writer has been given a prefix of the output (proved): simulation of the failing Writer by the same Writer over a writer that never fails (`PFail.v`): equal states up to the failure, and from there on the lemmas of `PPrefix.v` (bytes handed over stay). Theorems: `C80_failed_output_is_a_prefix`, `C80_failed_output_is_readable`. Both sessions are complete sessions ending in Close, the one over the failing writer up to its first error (C06: nothing is handed over afterwards). C80_footer shows that writeFooterGZIP goes on after a failure, still in order..
* **C81** A stream does not depend on the streams written before it (proved): the simulation of `PWSim.v` generalised to Writers with different output so far and different states before a header (closed stream / no stream), `PWFrame.v` for the empty bit and output buffers, and `PStreams.v`: a successful FinishFlush leaves no data behind. Theorems: `C81_next_stream_is_independent`, `C81_concatenation`, `C81_header_needed`. The new Writer is used with the libraries and the underlying writer as they are at that moment (call counters shifted). Histories containing Reset need an underlying writer whose own Flush and Sync do not fail (C08). Setting a header is necessary: C81_header_needed (the DataType sticks, C26)..
* **C82** The counters in trace events are truthful (proved): `SpecCount.v`: a pass over the events with the number of streams begun and the totals at the latest StreamBegin; `PCount.v` and `PCountW.v`: the relation total = total at stream begin + stream counter holds of the Reader's input and output and of the Writer's, through every function of the model. Theorems: `C82_reader`, `C82_writer`, `C82_begin_zero`, `C82_reader_met`, `C82_writer_met`. 64-bit counters: equalities are modulo 2^64. For the Writer the numbering continues through Reset (Reader.Reset restarts it: the statement is about one run of the Reader)..
* **C83** Trace events describe the blocks of the stream; Reader and Writer agree (proved): `SpecBlocks.v`: `BlockE`/`RawStreamE`: a DEFLATE grammar that carries with every block the events describing it; `SpecTraced.v`: the events of a stream; the Reader's thread invariant (PBlockDec, PThread, PLoop) and the Writer's session invariant (PInv: `ELog`) carry the description; `PDescr.v`: the description is determined by the bits. Theorems: `C83_reader_events_describe`, `C83_reader_events_valid`, `C83_writer_events_describe`, `C83_mirror`, `c83_run`. Byte counters are C45/C56/C82, header payloads C11/C45. For streams the grammar of the Reader (incomplete codes accepted) is used on the Reader's side..
* **C84** Reported headers say what the header bytes say (proved): `SpecHeads.v`: what a Header says about header bytes; the heads of the traced streams of C83 satisfy it. Theorems: `C84_reader_headers`, `C84_reader_headers_valid`, `C84_zlib_header_round_trip`, `c84_run`. Gzip round trip: C11. zlib levels come back as classes (fastest, fast, default, best), as FLEVEL has two bits..
* **C85** What a Reader delivers depends only on the input it has read (proved): Two Readers are run side by side (`PCaus.v`): in step until the source of one fails, after which it decodes nothing more, while the other only adds to what it has decoded (`PGrow.v`). Theorems: `C85_delivered_from_prefix`, `C85_delivered_from_prefix_again`, `C85_cut_input`, `C85_common_prefix`, `thread_prefix`. With automatic format detection the first results of the underlying Read must be the same (C32)..
* **C86** Of a preset dictionary only the last window matters (raw and gzip) (proved): Two histories that agree in the last window give every block the same meaning (`reach_block`); with C02 and C33 this gives the round trip. Theorems: `C86_dictionary_tail_format`, `C86_reader_dictionary_tail`, `C86_round_trip_dictionary_tail`, `C86_zlib_refuted`. C86_zlib_refuted is the stated exception: a longer dictionary with the same tail is rejected in zlib format. C86_window_needed: a byte inside the window matters..
* **C87** A Reader does the same on 32-bit and 64-bit platforms (proved): Side by side, function by function (`PWide.v`): never more than 24 bits are asked for at a time, and the bit buffer takes whole bytes only as far as needed, so the word size is never reached. Theorems: `C87_same_on_32_and_64_bits`, `C87_same_result`, `C87_same_history`. Needs no assumption about the libraries, only that they are the same. C64 is the Writer's side (successful sessions)..
* **C88** What the accessors report describes the Writer or Reader completely (proved): C25 gives the options in force after any history, C73 says which of them matter to a Reader; the accessors are `MAccess.v`. Theorems: `C88_writer_accessors`, `C88_reader_accessors`, `C88_new_reader_accessors`, `C88_reader_from_writer`. UnderlyingReader and UnderlyingWriter are not modelled (the model has one sink and one source). Tracers by number..
* **C89** The option given last is in force; what was never given has its default (proved): the specification is `last_given` on the list of options; C25 gives the options in force, induction on the list from its end. Theorems: `C89_writer_configuration`, `C89_reader_configuration`, `C89_new_reader_configuration`. With C88 (reported = in force) this fixes the configuration from the options alone..
* **C90** SetHeader takes effect at the next stream (proved): two Writers equal except for the header, both with an open stream: one relational pass over the Writer (`PHeld.v`); a Write of at least one byte always leaves a stream open, or fails. Theorems: `C90_open_stream_unaffected`, `C90_last_header`. What the header in force at the start of a stream becomes in the output is C11 (gzip), C12 (zlib) and C26..
* **C91** The sync marker and message framing (proved): an open stream stays open (`PHeld.v`), pending bits are flushed before the length fields are buffered and the output buffer is empty between writes (`PWFrame.v`), so the last four bytes are the two length fields; each chunk extends the one before (`PPrefix.v`); reading is C70. Theorems: `C91_sync_marker`, `C91_message_framing`. Messages may be empty, except the first: a flush before any data writes nothing (C92)..
* **C92** A flush with nothing to flush (proved): no input is pending after any successful flush, and no bits after a SyncFlush (`PropIdle.v`, `PMark.v`, with the invariants of `PWFrame.v` and the frame lemmas of `PDivide.v`); then every branch of the flush is decided. Theorems: `C92_nothing_written`, `C92_nothing_after_finish`, `C92_flushing_again`. A FinishFlush or Close of a Writer that was given no data writes one empty stream (C01). What PartialFlush adds is C05..
* **C93** Where a Writer's errors come from, and what the underlying writer is handed (proved): one invariant through every function of the Writer (`PSlice.v`): the output buffer never exceeds its capacity and a recorded error has a permitted origin. Theorems: `C93_error_provenance`, `C93_pieces`. One session from NewWriter to Close; Reset begins a session anew (C08). The sentinel io.EOF-style errors of the underlying writer are passed on unchanged (C06)..
* **C94** Raw streams compressed independently can be joined (proved): blocks remain valid with more history, a larger window and whole bytes in front (induction over the grammar, `PropJoin.v`); what the Writer delivers is C03 and C02, acceptance is C27. Theorems: `C94_joined_streams`, `C94_joined_gzip`, `C94_joined_zlib`. Writers in the raw format, no dictionary; the other theorems add the header and trailer of gzip and zlib. Empty jobs contribute nothing..

## 4. What is modelled and what is not

Modelled function by function: `writer.go`, `reader.go`, `bitwriter.go`, `token.go`, `analysis.go`, `huffman.go`, `util.go`,
`options.go`, `header.go` (validation, ExtraData), `errors.go` (CorruptInputError offsets, not the message text),
`checksum32.go`, `trace.go`, the parsers of `enum_clevel.go`/`enum_mlevel.go`/`enum_wbits.go`, `internal/adler32`,
`internal/crc32` (Go and assembly), the accessors and the mutex of the Writer (`MWConc.v`), the memory its arguments share with the caller (`MAlias.v`), the pool of token slices of `pools.go` (`MPool.v`: the Writer model itself works on plain lists, C65 says why that is right), `cmd/gzip/main.go` (after flag parsing; only stdin/stdout is implemented there).

Not modelled: `enumhelper` tables and the String/GoString/JSON forms of the enums other than those above, zerolog tracers
(`trace.go` Log), getopt, pprof and logging of the command, package bufferpool and the inside of sync.Pool, UnderlyingReader and UnderlyingWriter,
error message texts, the machine-code compiler, Go's memory model below mutexes (data races are excluded only in
the sense that the model's steps hold the mutexes the code holds), `sync` primitives (taken to work as documented).

Simplifications: window contents are kept as the full history since the last clear with the look-up limited to the window
size; ExtraData.Parse assumes `cap(raw) = len(raw)`; strings are byte lists; 64-bit `int`.

## 5. Trusted base

* Coq's kernel (8.16.1; `coqchk` also accepts the files).
* `Print Assumptions` prints "Closed under the global context" for every theorem named in MANIFEST.json: no axiom, neither
  of the standard library nor of ours, is used. (A listing of every constant of the loaded libraries also shows
  `Coq.ssr.ssrunder.*` / standard-library axioms that merely come with imported modules; no theorem depends on them.)
* The reading of `/repo` recorded in the comments of the `M*.v` files; the library contracts of section 2 (hypotheses of the
  theorems, not axioms); the semantics given to the amd64/arm64 instructions in `MAsm.v`.
* `seeded/LOG.jsonl` records the wrong programs tried against the theorems and which proofs failed.
