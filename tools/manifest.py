#!/usr/bin/env python3
"""Writes MANIFEST.json.  Edit CLAIMS below."""
import json
CLAIMS = [
 ("C46","proved",["C46_is_text"],""),
 ("C47","proved",["C47_checksum_text","C47_accepted_texts"],"JSON strings modelled for unescaped characters, which is all the marshaller produces here"),
 ("C48","proved",["C48_clevel","C48_mlevel","C48_wbits","C48_inverse"],""),
 ("C01","proved",["C01_round_trip"],"relative to lib_ok; needs Close to succeed, which session_succeeds gives for mlevel<=7 or level 0 and session_succeeds_small_writes for writes of at most 61440 bytes"),
 ("C11","proved",["C11_gzip_header_round_trip"],""),
 ("C14","proved",["C14_extra_data_round_trip"],""),
 ("C15","partial",["C15_parse_panics_exactly_on_bad_extra","C15_parse_total_otherwise","C15_refuted"],"the property is false of the code: the exact set of panicking inputs is proved, with a witness"),
 ("C27","proved",["C27_reader_accepts_valid_stream","C27_needs_visible_dictionary"],"an all-zero-looking dictionary needs the side condition in `valid`; witness given"),
 ("C28","proved",["C28_eof_means_valid","C28_eof_means_valid_strict"],""),
 ("C29","proved",["C29_truncation_detected"],""),
 ("C30","partial",["C30_refuted","C30_error_provenance","C30_truncation_partial"],"false of the code when a Huffman code is cut (witness); proved: the error is ErrUnexpectedEOF, the own error of the source, or - only for an incomplete code - a degenerate-code CorruptInputError; and the provenance of the final error for every input"),
 ("C31","proved",["C31_zlib_checksum_enforced","C31_gzip_checksum_enforced"],""),
 ("C32","partial",["C32_chunking_irrelevant","C32_refuted_detection","C32_refuted_empty_read"],"for a fixed format; false for auto-detection and for sources that return (0,nil)"),
 ("C33","partial",["C33_reader_concatenation","C33_needs_detached_eof"],"needs EOF to be reported separately from data; witness given"),
 ("C34","partial",["C34_reader_no_panic_raw_zlib","C34_reader_panic_only_bad_extra","C34_refuted","C34_panic_any_library"],"false for gzip: exact panic condition and witness proved"),
 ("C35","partial",["C35_refuted","C35_earlier_streams_intact_partial"],"false of the code; witness, and what does hold about earlier streams"),
 ("C36","proved",["C36_zlib_bad_header_rejected"],""),
 ("C38","proved",["C38_reader_terminates"],""),
 ("C44","proved",["C44_reader_reusable"],""),
 ("C02","proved",["C02_writer_output_conforms","session_succeeds"],"relative to lib_ok (contracts of the huffman and LZ77 libraries)"),
 ("C03","proved",["C03_flush_delivers"],""),
 ("C04","proved",["C04_full_flush_restart","C04_reader_restarts"],"C04_reader_restarts: the same seen through a raw Reader given only the later bytes."),
 ("C05","partial",["C05_partial_flush_partial","C05_refuted"],"the documented guarantee is false: fewer bits than one machine block may stay pending"),
 ("C06","proved",["C06_errors_sticky"],""),
 ("C07","proved",["C07_closed_stays_closed"],""),
 ("C09","partial",["C09_writer_no_panic_partial","C09_small_writes_no_panic_partial","C09_writer_terminates_partial","C09_refuted"],"proved for memory level <= 7 or level 0, and at every level when no Write passes more than 61440 bytes; false otherwise: C09_refuted, for every library meeting lib_ok"),
 ("C22","partial",["C22_choice_partial","C22_refuted"],"false of the code: static is compared only when dynamic is not larger than stored"),
 ("C23","partial",["C23_refuted","C23_fixed_strategy_ignored"],"false of the code: C23_refuted; what the option really does is proved: nothing (C23_fixed_strategy_ignored)"),
 ("C26","partial",["C26_refuted","C26_text_flag_partial"],"false of the code from the second stream on, unless SetHeader is called in between (witness); proved: whenever the DataType is to be detected (first stream, or after SetHeader with an unknown DataType) FTEXT says exactly whether the bytes looked at contain no control character"),
 ("C08","partial",["C08_reset_is_fresh","C08_reset_after_close","C08_reset_panics_only_if_open","C08_refuted"],"proved whenever the underlying Flush/Sync do not fail or the last Close returned nil; false of the code otherwise (C08_refuted)"),
 ("C25","proved",["C25_last_option_wins","C25_reset_merges","C25_reader_options","C25_reader_reset_merges","C25_valid_options"],""),
 ("C49","proved",["C49_writer_stored","C49_reader_rejects"],""),
 ("C10","proved",["C10_write_all_or_nothing"],""),
 ("C12","proved",["C12_stream_headers"],""),
 ("C13","proved",["C13_set_header"],""),
 ("C24","partial",["C24_huffman_only_no_copies","C24_huffman_rle_distance_one","C24_no_compression_stored","C24_no_compression_partial_flush","C24_refuted_partial_flush"],"the NoCompression part is false of the code when PartialFlush is used (it adds an empty static block: witness, and an exact description); proved without PartialFlush"),
 ("C37","proved",["C37_auto_detection","C37_raw_output_looks","C37_round_trip","C37_round_trip_one"],"the two first bytes of each stream must be visible at once (no_split, can_peek); C32_refuted_detection shows why"),
 ("C45","proved",["C45_writer_events","C45_writer_finish_totals","C45_reader_events","C45_reader_events_valid"],""),
 ("C16","proved",["C16_crc32_exact"],"the assembly kernels are covered by C50"),
 ("C17","proved",["C17_adler32_exact"],""),
 ("C18","proved",["C18_writer_symbols","C18_writer_emits","C18_reader_inverts","C18_reader_rejects"],""),
 ("C19","proved",["C19_code_lengths_lossless","C19_dynamic_block_bits"],""),
 ("C20","proved",["C20_bit_packing","C20_bits_round_trip"],""),
 ("C21","proved",["C21_static_prediction_exact","C21_dynamic_prediction_exact"],""),
 ("C50","proved",["C50_amd64","C50_arm64","C50_amd64_kernel","C50_arm64_kernel","C50_amd64_assembly","C50_arm64_assembly"],"the assembly kernels are modelled instruction by instruction (MAsm.v); the semantics of the instructions used are trusted"),
 ("C39","proved",["C39_reads_deliver_in_order"],"every schedule, any number of concurrent Read and Close calls"),
 ("C40","partial",["C40_no_lost_wakeup","C40_refuted_with_reset"],"proved for Read and Close calls (no deadlock and no infinite execution); false when Reset is called concurrently with Read: witness"),
 ("C41","partial",["C41_refuted","C41_reset_while_running_never_returns","C41_reset_when_idle"],"false of the code: Reset while the goroutine runs locks mu2 twice and never returns; it returns when the goroutine is not running"),
 ("C42","proved",["C42_close_stops_and_cancels"],""),
 ("C43","partial",["C43_error_order_partial","C43_refuted"],"false of the code for the error of a damaged stream (visible before the data decoded before it); proved for io.EOF and context.Canceled"),
 ("C51","partial",["C51_refuted","C51_handed_over_partial"],"false of the code: the goroutine keeps decoded data until its buffer is full or the stream ends; what holds: whatever follows the flushed bytes, all but the last 2^(memory level + 6) bytes of the flushed data are handed over first, before any error; missing: those last bytes"),
 ("C52","partial",["C52_gzip_compress","C52_gzip_compress_succeeds","C52_gzip_compress_no_crash","C52_refuted_empty_dictionary"],"proved for every run with valid flags, at every memory level (io.Copy writes at most 32768 bytes at a time); an empty dictionary file crashes the command (refuted); getopt not modelled"),
 ("C53","proved",["C53_gzip_round_trip"],"with detection, the first Read of standard input must not return one byte alone (C32_refuted_detection)"),
 ("C54","partial",["C54_gunzip_exit0_means_valid","C54_gunzip_truncated","C54_gunzip_ends","C54_refuted_crash"],"'never crashes' is false (malformed extra field, C34): witness, and proved to be the only crash; trailing bytes may be ignored when the end of the input is announced with its last bytes (C33)"),
 ("C55","proved",["C55_capture_header","C55_noop"],""),
 ("C57","proved",["C57_expansion","C57_blocks","C57_bound"],""),
 ("C58","proved",["C58_read_contract","C58_read_all"],""),
 ("C59","proved",["C59_bounded_buffering","C59_no_running_ahead"],"the bounds are attained (C59_met)"),
 ("C60","partial",["C60_header_within_input_partial","C60_refuted_long_header"],"false of the code: names and comments are read with no limit; for every n a valid input makes the Reader hold n bytes. What holds: name, comment and extra data together are never longer than the input (no announced size is trusted)"),
 ("C56","proved",["C56_corruption_offsets","C56_corruption_offsets_bounded"],"counters are modulo 2^64"),
 ("C61","proved",["C61_concurrent_calls","C61_no_deadlock","C61_session","C61_writes_come_out_whole"],"no_deadlock is for tracers that do not call back (C62)"),
 ("C62","partial",["C62_reentrant_tracer_blocks_forever","C62_refuted"],"false of the code: events are sent with the mutex held, so a tracer that calls any method blocks its goroutine and all later calls forever; what holds is C61, for tracers that do not call back"),
 ("C63","partial",["C63_arguments_by_value_partial","C63_refuted_set_header","C63_refuted_check_evaded"],"false of SetHeader, which keeps the caller's extra records (later changes reach the stream, unchecked); proved for Write, WithDictionary and all memory not passed to SetHeader"),
 ("C64","proved",["C64_same_bytes","C64_same_bytes_after_flush"],"the match finder and the Huffman builder (other packages) are assumed to make the same choices on both; after a PartialFlush or BlockFlush the two may hold back different numbers of bits (C64_met)"),
 ("C65","proved",["C65_own_tokens","C65_no_race","C65_no_waiting"],"sync.Pool as documented; the pool of byte buffers (package bufferpool) is not part of the repository and is trusted"),
 ("C66","partial",["C66_blocked_source_blocks_calls", "C66_refuted"],"false of the code: the goroutine holds mu1 while it is in the underlying Read, and every call locks mu1 first; proved that none of them returns before the underlying Read does, with a witness in which decompressed data is there to be read; what does hold is C40, for underlying readers that return"),
 ("C67","partial",["C67_reentrant_tracer_blocks_forever", "C67_refuted", "C67_calls_return_partial"],"false of the code: events are sent with mu1 held, so such a call never returns, nor does any later one; proved for tracers that do not call back: every call, accessors included, returns (Reset excepted, C40)"),
 ("C68","proved",["C68_bounded_latency"],"C68_bound_is_sharp: one byte less than a block leaves no trace in the output."),
 ("C69","proved",["C69_expansion_bound", "C69_expansion_bound_reused"],"258 bytes for two bits"),
 ("C70","proved",["C70_flushed_data_survives", "C70_crash_after_flush"],"a panic is possible only from a gzip header with a cut extra field in the continuation (C34); formats are set explicitly; with FinishFlush among the earlier calls the source must return its final error alone (R9, C33)"),
 ("C71","partial",["C71_division_declared_partial", "C71_division_plain_partial", "C71_division_refuted", "C71_division_blocks_refuted"],"proved when DataType is declared (or the format is raw or zlib) and the input buffer is not larger than the early-block size (memory level 4 and below, or 7 and below with NoCompression) or less than one early block is written between Flushes; both conditions are necessary: two refutations"),
 ("C72","proved",["C72_header_unused"],""),
 ("C73","proved",["C73_other_options_irrelevant"],"any source, including auto-detection and errors that come with data"),
 ("C74","partial",["C74_larger_window_accepts", "C74_hidden_dictionary_refuted"],"proved whenever the dictionary is recognised with the smaller window (always without dictionary, and for raw and gzip); refuted for zlib dictionaries whose visible tail is all zeros"),
 ("C75","proved",["C75_gzip_damage_detected", "C75_zlib_damage_detected", "C75_stored_gzip_damaged", "C75_stored_gzip_intact", "C75_stored_zlib_damaged", "C75_stored_zlib_intact"],"CRC-32 bursts of up to four whole bytes, Adler-32 of two; an example shows that three bytes can escape Adler-32"),
 ("C76","proved",["C76_flush_is_durable", "C76_flushed_data_survives_power_failure", "C76_close_is_durable", "C76_any_prefix", "C76_survivors_are_prefixes"],"for objects whose Sync does not return the ignored error EINVAL; the calls on the object are logged with adjacent Writes merged; the log is proved to agree with the model of the Writer"),
 ("C77","partial",["C77_refuted", "C77_operands_ignored", "C77_operands_refused", "C77_filter", "C77_missing_dictionary", "C77_digit_flags", "C77_no_digit_flag", "C77_gzip_filter"],"false of the code for -c with operands (witness: gzip -c FILE | gzip -d gives the contents of standard input); everything else proved; getopt and profiling not modelled"),
 ("C78","partial",["C78_left_only_with_unread_data", "C78_no_goroutine_left_after_eof", "C78_refuted", "C78_met"],"proved for io.EOF; false of the code for CorruptInputError (witness C78_refuted); C42 shows Close ends it in any case"),
 ("C79","proved",["C79_same_compressed_data", "C79_same_compressed_data_so_far", "C79_met"],"what the headers and footers contain is C02, C11 and C12"),
 ("C80","proved",["C80_failed_output_is_a_prefix", "C80_failed_output_is_readable"],"Both sessions are complete sessions ending in Close, the one over the failing writer up to its first error (C06: nothing is handed over afterwards). C80_footer shows that writeFooterGZIP goes on after a failure, still in order."),
 ("C81","proved",["C81_next_stream_is_independent", "C81_concatenation", "C81_header_needed"],"The new Writer is used with the libraries and the underlying writer as they are at that moment (call counters shifted). Histories containing Reset need an underlying writer whose own Flush and Sync do not fail (C08). Setting a header is necessary: C81_header_needed (the DataType sticks, C26)."),
 ("C82","proved",["C82_reader", "C82_writer", "C82_begin_zero", "C82_reader_met", "C82_writer_met"],"64-bit counters: equalities are modulo 2^64. For the Writer the numbering continues through Reset (Reader.Reset restarts it: the statement is about one run of the Reader)."),
 ("C83","proved",["C83_reader_events_describe", "C83_reader_events_valid", "C83_writer_events_describe", "C83_mirror", "c83_run"],"Byte counters are C45/C56/C82, header payloads C11/C45. For streams the grammar of the Reader (incomplete codes accepted) is used on the Reader's side."),
 ("C84","proved",["C84_reader_headers", "C84_reader_headers_valid", "C84_zlib_header_round_trip", "c84_run"],"gzip round trip: C11. zlib levels come back as classes (fastest, fast, default, best), as FLEVEL has two bits."),
 ("C85","proved",["C85_delivered_from_prefix", "C85_delivered_from_prefix_again", "C85_cut_input", "C85_common_prefix", "thread_prefix"],"With automatic format detection the first results of the underlying Read must be the same (C32)."),
 ("C86","proved",["C86_dictionary_tail_format", "C86_reader_dictionary_tail", "C86_round_trip_dictionary_tail", "C86_zlib_refuted"],"C86_zlib_refuted is the stated exception: a longer dictionary with the same tail is rejected in zlib format. C86_window_needed: a byte inside the window matters."),
 ("C87","proved",["C87_same_on_32_and_64_bits", "C87_same_result", "C87_same_history"],"Needs no assumption about the libraries, only that they are the same. C64 is the Writer's side (successful sessions)."),
 ("C88","proved",["C88_writer_accessors", "C88_reader_accessors", "C88_new_reader_accessors", "C88_reader_from_writer"],"UnderlyingReader and UnderlyingWriter are not modelled (the model has one sink and one source). Tracers by number."),
 ("C89","proved",["C89_writer_configuration", "C89_reader_configuration", "C89_new_reader_configuration"],"With C88 (reported = in force) this fixes the configuration from the options alone."),
 ("C90","proved",["C90_open_stream_unaffected", "C90_last_header"],"What the header in force at the start of a stream becomes in the output is C11 (gzip), C12 (zlib) and C26."),
 ("C91","proved",["C91_sync_marker", "C91_message_framing"],"Messages may be empty, except the first: a flush before any data writes nothing (C92)."),
 ("C92","proved",["C92_nothing_written", "C92_nothing_after_finish", "C92_flushing_again"],"A FinishFlush or Close of a Writer that was given no data writes one empty stream (C01). What PartialFlush adds is C05."),
 ("C93","proved",["C93_error_provenance", "C93_pieces"],"One session from NewWriter to Close; Reset begins a session anew (C08). The sentinel io.EOF-style errors of the underlying writer are passed on unchanged (C06)."),
 ("C94","proved",["C94_joined_streams", "C94_joined_gzip", "C94_joined_zlib"],"Writers in the raw format, no dictionary; the other theorems add the header and trailer of gzip and zlib. Empty jobs contribute nothing."),
]
CLAIMS.sort()
json.dump({"claims":[dict(property=a,status=b,theorems=c,note=d) for a,b,c,d in CLAIMS]},open('/verif/MANIFEST.json','w'),indent=1)
