{"id": "C01", "title": "Compress/decompress round trip", "statement": "Whatever sequence of Write and Flush calls is made on a Writer (any format, strategy, level, memory level, window size, dictionary, header) over an io.Writer that does not fail, if Close returns nil then a Reader configured with the same format and dictionary and at least the same window size, reading the produced bytes of one stream, delivers exactly the concatenation of the written bytes and then io.EOF.", "quantifier": "all option combinations, all sequences of Write/Flush calls and slices, all match-finder and Huffman-length choices, all ways the compressed bytes are chunked by the underlying io.Reader", "why_tests_cant": "the space of inputs, call sequences, match choices and chunkings is infinite; tests check 26 vectors with a single Write", "anchors": ["writer.go:Writer.Write", "writer.go:Writer.Flush", "writer.go:Writer.Close", "reader.go:Reader.Read", "reader.go:readThread"]}
{"id": "C02", "title": "Writer output conforms to RFC 1951/1950/1952", "statement": "The bytes a Writer hands to the underlying io.Writer between creation and a successful Close are a sequence of well-formed raw DEFLATE / zlib / gzip streams according to an independent reading of the RFCs, and each stream encodes exactly the bytes written to it.", "quantifier": "all options, call sequences, input bytes, match-finder and Huffman-length choices", "why_tests_cant": "interoperability with every conforming decoder is a claim about all outputs", "anchors": ["writer.go:compressTokens", "writer.go:writeStoredBlock", "writer.go:writeStaticBlock", "writer.go:writeDynamicBlock", "writer.go:writeHeader", "writer.go:writeFooter"]}
{"id": "C03", "title": "SyncFlush/FullFlush/FinishFlush deliver everything written so far", "statement": "When Flush(SyncFlush), Flush(FullFlush) or Flush(FinishFlush) returns nil on a Writer with an open stream, the bytes that have already reached the underlying io.Writer are byte aligned and decode to every byte accepted by Write so far.", "quantifier": "all call histories, options, inputs", "why_tests_cant": "must hold after every history of calls and for every alignment of pending bits", "anchors": ["writer.go:flushImpl", "writer.go:flushGuts", "enum_flushtype.go:SyncFlush"]}
{"id": "C04", "title": "FullFlush is an independent restart point", "statement": "Everything the Writer emits in a stream after Flush(FullFlush) can be decoded without any of the data (or dictionary) that preceded the flush.", "quantifier": "all call histories before and after the flush, all match finders honouring their contract", "why_tests_cant": "quantifies over all later matches", "anchors": ["writer.go:flushGuts", "enum_flushtype.go:FullFlush"]}
{"id": "C05", "title": "PartialFlush pushes all bits of the current block to the underlying writer", "statement": "Documented guarantee: when Flush(PartialFlush) returns nil, all bits of the current block have reached the underlying io.Writer.", "quantifier": "all call histories", "why_tests_cant": "depends on the number of pending bits (0..63) left by an arbitrary history", "anchors": ["enum_flushtype.go:PartialFlush", "writer.go:flushGuts", "writer.go:outputBitsWrite"]}
{"id": "C06", "title": "Writer errors are sticky and silent", "statement": "Once Write or Flush has returned an error from the underlying writer, every later Write and Flush returns the same error, hands no byte to the underlying writer and emits no event, until Close or Reset; Close returns that error once.", "quantifier": "all call histories and all failure points and partial-write counts of the underlying writer", "why_tests_cant": "quantifies over every failure point", "anchors": ["writer.go:Write", "writer.go:Flush", "writer.go:Close", "writer.go:outputBufferFlush"]}
{"id": "C07", "title": "A closed Writer stays closed", "statement": "After Close, every Write, Flush and Close returns fs.ErrClosed and nothing reaches the underlying writer, until Reset.", "quantifier": "all call histories", "why_tests_cant": "history quantification", "anchors": ["writer.go:Write", "writer.go:Flush", "writer.go:Close"]}
{"id": "C08", "title": "Reset returns a Writer to a fresh state", "statement": "After Reset(w), the Writer produces exactly the bytes a newly constructed Writer with the merged options and same header would produce.", "quantifier": "all call histories before Reset, including failed ones", "why_tests_cant": "requires every field left over by every history to be harmless", "anchors": ["writer.go:Reset"]}
{"id": "C09", "title": "The Writer never panics on valid use", "statement": "No sequence of Write/Flush/Close calls with valid options makes the Writer panic (assertion failure).", "quantifier": "all options, inputs, call sequences", "why_tests_cant": "the failing inputs are a thin set of large incompressible slices", "anchors": ["writer.go:writeStoredBlock", "writer.go:compressTokens", "writer.go:compressSlow"]}
{"id": "C10", "title": "Write accepts everything or fails", "statement": "Write(buf) returns len(buf) with a nil error or 0 with a non-nil error, always terminates, and on success exactly buf is appended to the data of the stream.", "quantifier": "all buffers and histories", "why_tests_cant": "termination and totality over all inputs", "anchors": ["writer.go:Write"]}
{"id": "C11", "title": "gzip header round trip", "statement": "A header accepted by SetHeader is written so that a Reader reports back the same FileName, Comment, ExtraData records, OSType (Unix if unknown), DataType and LastModified (to the second, for times strictly after the Unix epoch), and CompressLevel class.", "quantifier": "all headers accepted by SetHeader", "why_tests_cant": "infinitely many headers", "anchors": ["writer.go:writeHeaderGZIP", "reader.go:readHeaderGZIP", "header.go:ExtraData"]}
{"id": "C12", "title": "zlib header is well formed", "statement": "For every window size, level, strategy and dictionary the two zlib header bytes have CM=8, CINFO=wbits-8, FCHECK making the 16-bit value divisible by 31, FDICT set exactly when a dictionary is in use, followed by the big-endian Adler-32 of the dictionary.", "quantifier": "all option combinations and dictionaries", "why_tests_cant": "dictionary is arbitrary bytes", "anchors": ["writer.go:writeHeaderZlib"]}
{"id": "C13", "title": "SetHeader accepts exactly the representable headers", "statement": "SetHeader returns nil iff the file name has <256 bytes with no NUL, '/' or '\\\\', the comment has <256 bytes with no NUL, the time is zero or in [0,2^32-1) seconds, the OSType is valid and the extra data (each record and in total) fits in 65535 bytes; on error the Writer's header is unchanged.", "quantifier": "all headers", "why_tests_cant": "infinitely many strings and records", "anchors": ["writer.go:SetHeader"]}
{"id": "C14", "title": "ExtraData serialisation round trip", "statement": "Parsing the serialisation of any list of records with payloads below 65536 bytes gives back the same records.", "quantifier": "all record lists", "why_tests_cant": "infinite domain", "anchors": ["header.go:AsBytes", "header.go:Parse"]}
{"id": "C15", "title": "Parsing ExtraData never panics", "statement": "ExtraData.Parse and hence the Reader do not panic for any byte string found in a gzip extra field.", "quantifier": "all byte strings", "why_tests_cant": "attacker-controlled input", "anchors": ["header.go:Parse", "reader.go:readHeaderGZIPExtraData"]}
{"id": "C16", "title": "CRC-32 is the IEEE CRC-32 for every input and every chunking", "statement": "The table-driven slicing-by-8 CRC equals the bit-by-bit reflected IEEE 802.3 CRC-32, for every byte string, and feeding data in pieces gives the same value as feeding it at once.", "quantifier": "all byte strings, all splits", "why_tests_cant": "infinite domain; tables of 2048 words and a length-dependent fast path", "anchors": ["internal/crc32/crc32.go:genericUpdate", "internal/crc32/crc32.go:init"]}
{"id": "C17", "title": "Adler-32 is exact despite 32-bit accumulators and deferred reduction", "statement": "Adler-32 computed with uint32 accumulators and a modulo every 5552 bytes equals the mathematical definition modulo 65521 for every byte string of any length, and is independent of chunking.", "quantifier": "all byte strings, all splits", "why_tests_cant": "overflow only shows for long runs of large bytes", "anchors": ["internal/adler32/adler32.go:Update"]}
{"id": "C18", "title": "Length/distance symbol coding is the RFC 1951 table and is inverted by the decoder", "statement": "For every match length 3..258 and distance 1..32768 the Writer emits the RFC 1951 symbol and extra bits, and the Reader maps every symbol and extra bits of the RFC table back to the same length and distance; symbols 286, 287, 30 and 31 are rejected.", "quantifier": "all lengths, distances, symbols and extra-bit values", "why_tests_cant": "finite but 2^23 combinations; relation to RFC table needs a spec", "anchors": ["token.go:symbolLL", "token.go:symbolD", "reader.go:decodeLL", "reader.go:decodeD"]}
{"id": "C19", "title": "Code-length run-length coding is lossless", "statement": "The code-length sequences written in a dynamic block header expand, by the RFC 1951 rules, to exactly the code lengths the encoder uses, with HLIT/HDIST in range.", "quantifier": "all vectors of code lengths 0..15 with a used end-of-block symbol", "why_tests_cant": "16^318 vectors", "anchors": ["analysis.go:encodeTreeTokens", "token.go:symbolX", "reader.go:decodeX"]}
{"id": "C20", "title": "Bit packing is exact", "statement": "Writing any sequence of bit strings and byte strings delivers to the underlying writer exactly these bits, LSB first, zero padded to a byte boundary before byte strings, for 32-bit and 64-bit blocks; reading gives the same bits back.", "quantifier": "all sequences of bit/byte writes, both block sizes", "why_tests_cant": "arbitrary interleavings and alignments", "anchors": ["writer.go:outputBitsWrite", "writer.go:outputBitsFlush", "writer.go:outputBufferWrite", "reader.go:inputBitsFill", "reader.go:inputBitsRead"]}
{"id": "C21", "title": "Block-size prediction equals the bits really written", "statement": "The length computed by a dry run of a static or dynamic block is exactly the number of bits the real write of that block produces.", "quantifier": "all token sequences, all Huffman length assignments", "why_tests_cant": "all inputs", "anchors": ["bitwriter.go:bitcounter", "writer.go:compressTokens"]}
{"id": "C22", "title": "The cheapest block type is chosen", "statement": "For every block the Writer picks, of stored, static and dynamic encodings, one of minimal predicted size.", "quantifier": "all blocks", "why_tests_cant": "needs counting over all inputs", "anchors": ["writer.go:compressTokens"]}
{"id": "C23", "title": "FixedStrategy only uses static Huffman blocks", "statement": "With FixedStrategy every Huffman-encoded block uses the pre-defined static code (documented meaning of the option).", "quantifier": "all inputs", "why_tests_cant": "claim about all blocks of all outputs", "anchors": ["enum_strategy.go:FixedStrategy", "writer.go:compressTokens"]}
{"id": "C24", "title": "HuffmanOnly emits no copies; HuffmanRLE only distance-1 copies; NoCompression only stored blocks", "statement": "With HuffmanOnlyStrategy no back reference is ever emitted, with HuffmanRLEStrategy every back reference has distance 1, and with NoCompression every block in the output is a stored block.", "quantifier": "all inputs and call sequences, any match finder honouring the limits it is configured with", "why_tests_cant": "claims about all outputs", "anchors": ["writer.go:hybridOptions", "writer.go:compressConfig", "writer.go:compressStore"]}
{"id": "C25", "title": "Options: last one wins, defaults filled, Reset merges", "statement": "NewWriter/NewReader give the configuration of the last setter of each field with defaults filled in (zlib, level 6, memory 9, window 15), and Reset with options gives the same configuration as constructing with the concatenated option lists; option constructors accept exactly the valid values.", "quantifier": "all option lists", "why_tests_cant": "arbitrary lists", "anchors": ["options.go:apply", "options.go:populateWriterDefaults", "writer.go:Reset", "reader.go:Reset"]}
{"id": "C26", "title": "Auto-detected text flag describes the stream it is written in", "statement": "When the user leaves DataType unknown, each gzip stream's FTEXT flag reflects that stream's own leading data.", "quantifier": "all histories with several streams", "why_tests_cant": "needs a multi-stream history", "anchors": ["writer.go:writeHeader", "analysis.go:isText"]}
{"id": "C27", "title": "Reader accepts every valid stream", "statement": "Given any byte sequence that is a valid stream of the configured (or detected) format according to the RFCs, with distances within the window limit and a matching dictionary, the Reader delivers exactly its decompressed content followed by io.EOF.", "quantifier": "all valid streams, not only those made by this Writer; all chunkings", "why_tests_cant": "infinite domain", "anchors": ["reader.go:readFlateBlock", "reader.go:decodeHuffmanBlock", "reader.go:readDynamicTrees", "reader.go:readHeader", "reader.go:readFooter"]}
{"id": "C28", "title": "Clean EOF only after valid data", "statement": "If reads from a Reader end with io.EOF (and not another error), the input was a sequence of well-formed streams with correct checksums and lengths (up to the point where the underlying reader reported EOF), and the delivered bytes are exactly their content.", "quantifier": "all byte sequences, including malicious ones", "why_tests_cant": "adversarial input space", "anchors": ["reader.go:corruptf", "reader.go:propagateError", "reader.go:readFooterGZIP", "reader.go:readFooterZlib"]}
{"id": "C29", "title": "Truncation is never mistaken for the end of the stream", "statement": "If a valid stream is cut anywhere strictly inside, the Reader ends with an error different from io.EOF.", "quantifier": "all valid streams, all cut points", "why_tests_cant": "every crash point", "anchors": ["reader.go:inputBitsFill", "reader.go:inputBufferRead", "reader.go:propagateError"]}
{"id": "C30", "title": "Truncation is reported as io.ErrUnexpectedEOF and I/O errors as themselves", "statement": "When the underlying reader ends or fails inside a stream, Read eventually returns io.ErrUnexpectedEOF, respectively the underlying error itself.", "quantifier": "all streams and all failure points", "why_tests_cant": "every failure point", "anchors": ["reader.go:readSymbol", "reader.go:decodeHuffmanBlock", "reader.go:propagateError"]}
{"id": "C31", "title": "Checksum and length footers are enforced", "statement": "A zlib stream whose Adler-32 or a gzip stream whose CRC-32 or length modulo 2^32 does not match the decompressed data never ends in io.EOF.", "quantifier": "all streams and footers", "why_tests_cant": "all inputs", "anchors": ["reader.go:readFooterZlib", "reader.go:readFooterGZIP"]}
{"id": "C32", "title": "Delivered data does not depend on how the underlying reader chunks its data", "statement": "For a fixed configuration the delivered bytes and final error are a function of the bytes supplied by the underlying io.Reader and its final error only.", "quantifier": "all chunkings", "why_tests_cant": "exponentially many chunkings", "anchors": ["reader.go:inputBufferFill", "reader.go:readHeaderAuto", "reader.go:readThread"]}
{"id": "C33", "title": "Concatenated streams are all decoded", "statement": "A concatenation of valid streams, as produced by FinishFlush followed by more data, is decoded to the concatenation of their contents.", "quantifier": "all lists of streams, all well-behaved readers", "why_tests_cant": "depends on whether io.EOF arrives together with data", "anchors": ["reader.go:readThread", "enum_flushtype.go:FinishFlush"]}
{"id": "C34", "title": "The Reader never panics on untrusted input", "statement": "No byte sequence makes the Reader's decompression goroutine panic.", "quantifier": "all byte sequences", "why_tests_cant": "adversarial input space", "anchors": ["reader.go", "header.go:Parse"]}
{"id": "C35", "title": "No data after an error", "statement": "Once corruption has been detected nothing decoded from beyond the corrupted point is delivered.", "quantifier": "all inputs", "why_tests_cant": "requires following what the decoder does after the first error", "anchors": ["reader.go:readThread", "reader.go:readDynamicTrees", "reader.go:readFooter"]}
{"id": "C36", "title": "Window and dictionary requirements are enforced for zlib", "statement": "A zlib stream declaring a window larger than the Reader's limit, requiring a dictionary that was not supplied or differs (by Adler-32), or not using a supplied one, is rejected with a CorruptInputError and no byte of it is delivered.", "quantifier": "all headers, dictionaries, limits", "why_tests_cant": "arbitrary dictionaries", "anchors": ["reader.go:readHeaderZlib"]}
{"id": "C37", "title": "Format auto-detection recognises everything the Writer produces", "statement": "A Reader with DefaultFormat decodes the output of a Writer in any of the three formats, provided at least two bytes are available at once; in particular no raw stream of the Writer looks like zlib or gzip.", "quantifier": "all Writer outputs", "why_tests_cant": "every raw stream's first byte", "anchors": ["reader.go:readHeaderAuto"]}
{"id": "C38", "title": "Decompression terminates", "statement": "On any finite input the decompression loop performs a bounded number of steps and ends.", "quantifier": "all inputs and chunkings", "why_tests_cant": "non-termination cannot be tested", "anchors": ["reader.go:readThread", "reader.go:decodeHuffmanBlock", "reader.go:readDynamicTrees"]}
{"id": "C39", "title": "Reads deliver the decompressed bytes in order, exactly once, under every schedule", "statement": "Under every interleaving of the decompression goroutine with any number of concurrent Read callers and any buffer sizes, the bytes returned by Read calls in the order they complete form a prefix of the decompressed data; io.EOF is returned only after all of it.", "quantifier": "all schedules, numbers of readers and read sizes", "why_tests_cant": "schedules", "anchors": ["reader.go:Read", "reader.go:decodeBufferMustFlush", "reader.go:closeWithError"]}
{"id": "C40", "title": "No lost wake-up", "statement": "Whenever a Read call is waiting although data or an error is available, some thread that will wake it is able to run; and the decompression goroutine never waits forever while all Read callers are waiting for data.", "quantifier": "all schedules", "why_tests_cant": "schedules", "anchors": ["reader.go:Read", "reader.go:decodeBufferMustFlush"]}
{"id": "C41", "title": "Reset works in the middle of a stream", "statement": "Reset on a Reader returns, also when a stream is only partially read.", "quantifier": "all histories and schedules", "why_tests_cant": "needs the interleaving with the goroutine alive", "anchors": ["reader.go:Reset", "reader.go:stopReadThreadLocked"]}
{"id": "C42", "title": "Close stops the goroutine and later Reads report cancellation", "statement": "Close called while the goroutine is running makes it exit without delivering more data; every later Read returns context.Canceled.", "quantifier": "all schedules", "why_tests_cant": "schedules", "anchors": ["reader.go:Close", "reader.go:stopReadThreadLocked"]}
{"id": "C43", "title": "An error is reported only after the data decoded before it", "statement": "A Read returns an error only when every byte decoded before that error has been returned, and never returns data after an error.", "quantifier": "all schedules", "why_tests_cant": "race between setting the error and flushing the last decoded bytes", "anchors": ["reader.go:closeWithError", "reader.go:decodeBufferMustFlush", "reader.go:Read"]}
{"id": "C44", "title": "A Reader can be reused", "statement": "Whatever happened before (success, corruption, truncation, cancellation), after the goroutine has ended Reset gives a Reader that behaves on the new input like a new one.", "quantifier": "all previous inputs", "why_tests_cant": "requires all leftover fields (bit buffer, Huffman tables, checksums) to be harmless", "anchors": ["reader.go:Reset", "reader.go:readFooter"]}
{"id": "C45", "title": "Trace events are well nested and their counters are truthful", "statement": "On success every stream produces StreamBegin, StreamHeader, then for each block BlockBegin, (BlockTrees), BlockEnd, then StreamEnd and StreamClose; totals never decrease, and the StreamEnd event carries the Adler-32 and CRC-32 of the stream's uncompressed data.", "quantifier": "all inputs and call sequences", "why_tests_cant": "all histories", "anchors": ["writer.go:sendEvent", "reader.go:sendEvent", "trace.go"]}
{"id": "C46", "title": "Text detection", "statement": "isText holds exactly for data without bytes 0x00-0x08, 0x0e-0x1f and 0x7f.", "quantifier": "all byte strings", "why_tests_cant": "infinite domain", "anchors": ["analysis.go:isText"]}
{"id": "C47", "title": "Checksum32 JSON round trip", "statement": "Unmarshalling the JSON form of a Checksum32 gives back the same value, for every 32-bit value.", "quantifier": "all 2^32 values", "why_tests_cant": "2^32 values", "anchors": ["checksum32.go"]}
{"id": "C48", "title": "Parsing levels and window sizes", "statement": "CompressLevel.Parse, MemoryLevel.Parse and WindowBits.Parse accept exactly the documented spellings, yield only valid values, reset to the default on failure and invert String on every valid value.", "quantifier": "all strings", "why_tests_cant": "infinite domain", "anchors": ["enum_clevel.go:Parse", "enum_mlevel.go:Parse", "enum_wbits.go:Parse"]}
{"id": "C49", "title": "Stored blocks never exceed 65535 bytes and LEN/NLEN are complementary", "statement": "Every stored block the Writer emits carries at most 65535 bytes with NLEN the complement of LEN, and the Reader rejects any other pair.", "quantifier": "all inputs", "why_tests_cant": "all inputs", "anchors": ["writer.go:writeStoredBlock", "reader.go:readFlateBlockStored"]}
{"id": "C50", "title": "Hardware CRC paths agree with the generic one", "statement": "The architecture-specific update functions compute the same CRC as the generic code for every length and alignment split, given that the assembly kernel meets its stated contract.", "quantifier": "all byte strings", "why_tests_cant": "split at 64-byte/16-byte boundaries for all lengths", "anchors": ["internal/crc32/crc32_amd64.go:archUpdate", "internal/crc32/crc32_arm64.go:archUpdate"]}
{"id": "C51", "title": "Data made available by SyncFlush can be read before more input arrives", "statement": "When a peer has sent a SyncFlush-ed prefix and then pauses, Read on the receiving Reader delivers the data of that prefix without waiting for further input.", "quantifier": "all schedules", "why_tests_cant": "needs a blocked underlying reader", "anchors": ["reader.go:decodeBufferMustFlush", "reader.go:readThread", "reader.go:startReadThread"]}
{"id": "C52", "title": "gzip (the command) writes one complete stream or fails", "statement": "If the gzip command compressing standard input exits with status 0, its input ended without an error and standard output holds exactly one valid stream of the chosen format, level, window and dictionary, with the given name, comment and time, whose contents are the bytes of standard input; and it does exit with 0 when nothing fails.", "quantifier": "all flags and inputs, however standard input is chunked", "why_tests_cant": "all inputs, flags and failures", "anchors": ["cmd/gzip/main.go:main"]}
{"id": "C53", "title": "gzip | gzip -d gives back the input", "statement": "What the gzip command wrote, gzip -d with the same dictionary and a window at least as large turns back into the original bytes with exit status 0, whether the format is given or detected.", "quantifier": "all flags and inputs", "why_tests_cant": "infinite domain", "anchors": ["cmd/gzip/main.go:main"]}
{"id": "C54", "title": "gzip -d succeeds only on intact input", "statement": "If gzip -d exits with status 0, its input was read to its end without error and consists of complete valid streams whose contents are exactly what was written; a truncated stream makes it fail having written a prefix of the contents; it never crashes.", "quantifier": "all inputs, including failures of standard input and output", "why_tests_cant": "all inputs and failure points", "anchors": ["cmd/gzip/main.go:main"]}
{"id": "C55", "title": "CaptureHeader records the header of the last stream", "statement": "A Header registered with CaptureHeader at a Reader of gzip data holds, after the data has been read, the fields the Writer was given for the last stream.", "quantifier": "all sequences of streams and headers", "why_tests_cant": "all inputs", "anchors": ["trace.go:CaptureHeader", "trace.go:captureHeaderTracer.OnEvent", "reader.go:sendEvent"]}
{"id": "C56", "title": "The offsets of a CorruptInputError are positions in the input", "statement": "When reading ends with a CorruptInputError made by this package, OffsetTotal is the number of input bytes consumed so far (never more than the input has) and OffsetStream the number since the last reported beginning of a stream.", "quantifier": "all inputs and all ways they are chunked", "why_tests_cant": "infinite domain", "anchors": ["errors.go:CorruptInputError", "reader.go:corruptf"]}
{"id": "C57", "title": "Compression never expands data by more than a computable bound", "statement": "Whatever the data, the output of a successful session is at most the data plus 42 bits for every block, plus headers and footers; apart from two blocks per Flush or Close the Writer opens at most two blocks for every block_size bytes (the smaller of 60 KiB for NoCompression or else 4 KiB, and its input buffer), so the total is bounded by what the caller passed in.", "quantifier": "all data, all options, all sequences of Write, Flush and SetHeader, all behaviours of the underlying writer", "why_tests_cant": "all inputs: the choice between encodings depends on the data", "anchors": ["writer.go:compressTokens", "writer.go:compressImpl", "writer.go:flushImpl", "writer.go:writeStoredBlock", "bitwriter.go:bitcounter"]}
{"id": "C58", "title": "Read obeys the io.Reader contract and reading until an error gives all of the data", "statement": "Every Read(p) returns at most len(p) bytes, no bytes together with an error, and neither bytes nor an error only when p is empty; a client that calls Read with a non-empty buffer until it gets an error (io.ReadAll) is never left waiting, makes at most one successful call per byte of data, ends with the error of the decompression, and has got exactly the decompressed data when that is io.EOF.", "quantifier": "all inputs, all buffer sizes, every schedule of the caller and the decompression goroutine (the first part also with any number of concurrent Read and Close calls)", "why_tests_cant": "all schedules", "anchors": ["reader.go:Read", "reader.go:startReadThread", "reader.go:decodeBufferMustFlush", "reader.go:closeWithError"]}
{"id": "C59", "title": "The decompressor does not run ahead of its Reads", "statement": "However large the data and however slowly it is read, the decompressed bytes not yet taken by Read are at most two buffers of 2^(memory level+6) bytes (one shared output buffer, one chunk in the goroutine's hands): a Reader given a small input that expands enormously holds a bounded amount of it until Read is called.", "quantifier": "all inputs and options, any number of concurrent Read and Close calls, every schedule", "why_tests_cant": "all schedules and all input sizes", "anchors": ["reader.go:decodeBufferMustFlush", "reader.go:decodeBufferTryFlush", "reader.go:startReadThread", "reader.go:NewReader"]}
{"id": "C60", "title": "A gzip header cannot make a Reader hold more memory than its options ask for", "statement": "The memory a Reader holds for the optional fields of a gzip header (name, comment) is bounded independently of the input.", "quantifier": "all inputs", "why_tests_cant": "infinite domain", "anchors": ["reader.go:inputBufferReadStringZ", "reader.go:readHeaderGZIP"]}
{"id": "C61", "title": "Concurrent calls on one Writer behave as if made one after the other", "statement": "Whatever goroutines call Write, Flush, Close, Reset, SetHeader and the accessors of one Writer at the same time, there is one order of the calls, compatible with the order in which they were made and returned, such that every reply and the state of the Writer are those of making the calls one at a time in that order; in particular what each goroutine passed to Write comes out of a Reader whole; and the calls do not wait for each other forever.", "quantifier": "all options, all sets of concurrent calls, every schedule", "why_tests_cant": "all schedules", "anchors": ["writer.go:Writer.mu", "writer.go:Write", "writer.go:Flush", "writer.go:Close", "writer.go:Reset", "writer.go:SetHeader", "writer.go:Format"]}
{"id": "C62", "title": "A tracer may use the Writer it observes", "statement": "A Tracer registered with WithTracers may call methods of the Writer from OnEvent (for instance to ask for its Format), and the call it interrupts still returns.", "quantifier": "all tracers, options and schedules", "why_tests_cant": "all schedules", "anchors": ["writer.go:sendEvent", "writer.go:Write", "writer.go:Format"]}
{"id": "C63", "title": "Arguments are taken by value", "statement": "What the caller does with the slices it has passed to Write, WithDictionary or SetHeader after the call has returned has no effect on the stream.", "quantifier": "all calls and all later changes of the caller's memory", "why_tests_cant": "all histories of the caller's memory", "anchors": ["writer.go:SetHeader", "writer.go:Write", "options.go:WithDictionary", "header.go:Header"]}
{"id": "C64", "title": "The compressed bytes depend on the options and the calls only", "statement": "Two Writers given the same options and the same successful sequence of SetHeader, Write, Flush and Close calls write the same bytes, to the byte, whether the machine is a 32-bit or a 64-bit one and whatever their underlying writers are (how many Write calls they get, when they would fail, what their Flush and Sync do); already after each SyncFlush, FullFlush or FinishFlush both have written the same.", "quantifier": "all options, all sequences of calls, both word sizes, all behaviours of the underlying writers", "why_tests_cant": "two builds of the package and all inputs: no one test run can compare them", "anchors": ["block32.go:bytesPerBlock", "block64.go:bytesPerBlock", "writer.go:outputBitsWrite", "writer.go:outputBitsFlush", "writer.go:outputBufferWrite", "writer.go:outputBufferFlush"]}
{"id": "C65", "title": "Writers used at the same time do not disturb each other", "statement": "Different Writers may be used from different goroutines at the same time although they share pooled memory: whatever the interleaving and whatever the pool hands out or drops, each Writer encodes exactly the literals and copies it has found itself, no two goroutines ever access the same pooled memory (no data race), and none waits for another.", "quantifier": "any number of goroutines, all sequences of blocks they compress (also ones that end early because the underlying writer failed), every interleaving of their memory accesses, every behaviour of sync.Pool", "why_tests_cant": "all schedules and all pool behaviours", "anchors": ["pools.go:takeTokens", "pools.go:giveTokens", "pools.go:tokenPool", "writer.go:compressSlow", "writer.go:writeDynamicBlock", "analysis.go:encodeTreeTokens"]}
{"id": "C66", "title": "Calls return although the underlying reader is blocked", "statement": "While the goroutine of a Reader is inside a Read of the underlying reader that does not return (a network connection on which nothing arrives), Read returns the data that has been decompressed already, Close returns, and so do the accessors.", "quantifier": "all inputs, options and schedules", "why_tests_cant": "all schedules", "anchors": ["reader.go:inputBufferFill", "reader.go:startReadThread", "reader.go:Close", "reader.go:Format"]}
{"id": "C67", "title": "A tracer may use the Reader it observes", "statement": "A Tracer registered with WithTracers may call methods of the Reader from OnEvent (for instance to ask for its Format), and decompression goes on.", "quantifier": "all tracers, options, inputs and schedules", "why_tests_cant": "all schedules", "anchors": ["reader.go:sendEvent", "reader.go:readThread", "reader.go:Format"]}
{"id": "C68", "title": "A Writer holds back less than one block of data", "statement": "After any successful sequence of Write, Flush and SetHeader calls, in any order and with any write sizes, what the Writer has already written to the underlying io.Writer is the finished streams followed by the header of the open stream and by whole blocks of it (except fewer than 64 bits that do not fill a machine word yet); these blocks decode to everything that was passed to Write since the stream began, except a tail shorter than one block: 60 KiB with NoCompression, 4 KiB otherwise, or the whole input buffer if that is smaller (memory level below 8 resp. 4). So the delay of a long-running Writer that is never flushed is bounded by a constant.", "quantifier": "all options, all sequences of calls and write sizes, all behaviours of the match finder, Huffman package and underlying writer within their contracts", "why_tests_cant": "the amount held back depends on the whole history of write sizes and flushes and on how the input buffer fills; a test sees a few histories", "anchors": ["writer.go:Write", "writer.go:compressImpl", "writer.go:compressStore", "writer.go:compressSlow"]}
{"id": "C69", "title": "Decompression expands its input by at most a factor of 1032", "statement": "For every input, valid, damaged or malicious, and all options, the number of bytes a Reader delivers is at most 1032 times the number of bytes it was given; the same holds each time a finished Reader is Reset and used again. A service that limits the size of compressed input therefore limits the size of what comes out.", "quantifier": "all inputs, all ways they are chunked, all options, all libraries within their contracts", "why_tests_cant": "the bound is about the worst input; a test decompresses particular ones", "anchors": ["reader.go:decodeHuffmanBlock", "reader.go:readSymbol", "reader.go:readFlateBlockStored", "reader.go:readFooter", "reader.go:Reset"]}
{"id": "C70", "title": "Flushed data survives a crash of the writing process", "statement": "If Flush with SyncFlush, FullFlush or FinishFlush succeeded, then whatever follows the bytes on the underlying writer at that moment (nothing, because the writing process crashed; a part of the rest; or rubbish), a Reader set for the Writer's format, reading until it gets an error, is given all the data written before that Flush. If nothing follows, it is given exactly that data.", "quantifier": "all sessions of Writes, Flushes and SetHeaders, all options, all continuations of the stream and ways to chunk it", "why_tests_cant": "the continuation is arbitrary: a test cuts or damages particular streams at particular places", "anchors": ["writer.go:Flush", "writer.go:flushImpl", "reader.go:readThread", "reader.go:readFlateBlock", "reader.go:closeWithError"]}
{"id": "C71", "title": "The output does not depend on how the data is divided among Write calls", "statement": "Two sequences of Write, Flush, SetHeader and Close calls which differ only in how the data between other calls is divided among Writes give the same bytes, the same error and the same events. (False of the code in two cases: the gzip text flag is guessed from the first Write alone, and if the input buffer is larger than the early-block size, blocks end where Writes end.)", "quantifier": "all sessions and all ways to divide the data, all options, all failures of the underlying writer", "why_tests_cant": "a test divides particular data in particular ways; the equality must hold for all divisions", "anchors": ["writer.go:Write", "writer.go:compressImpl", "writer.go:compressSlow", "writer.go:compressStore", "writer.go:writeHeader"]}
{"id": "C72", "title": "Raw and zlib output does not depend on SetHeader", "statement": "With a raw or zlib Writer, SetHeader calls (with any header, valid or not, at any time) change neither the bytes written nor any error: the session without them gives the same.", "quantifier": "all sessions, all headers, all options but gzip, all failures of the underlying writer", "why_tests_cant": "all headers at all points of all sessions", "anchors": ["writer.go:SetHeader", "writer.go:writeHeader", "writer.go:writeHeaderZlib"]}
{"id": "C73", "title": "Only format, window and dictionary options matter to a Reader", "statement": "Two Readers on the same input whose options agree in WithFormat, WithWindowBits and WithDictionary return the same bytes and the same final error, with identical offsets inside it; WithMemoryLevel (the size of the decode buffer), WithStrategy, WithCompressLevel, WithMethod and WithTracers change nothing, in valid, truncated and corrupt streams alike.", "quantifier": "all inputs, all sources, all pairs of option lists", "why_tests_cant": "the decode buffer fills at different points for every memory level and every input; tests try a few", "anchors": ["reader.go:NewReader", "reader.go:decodeBufferWrite", "reader.go:decodeBufferWriteByte", "reader.go:decodeBufferTryFlush", "options.go:populateReaderDefaults"]}
{"id": "C74", "title": "A larger window accepts whatever a smaller one accepts", "statement": "If a Reader set to one format reads an input to io.EOF, then so does a Reader with the same format and dictionary and a larger WithWindowBits (or the default), with the same data. (False of the code for a zlib dictionary of which the smaller window shows zeros only: it is taken for no dictionary there and for a dictionary with the larger window.)", "quantifier": "all inputs, formats, dictionaries and pairs of window sizes; sources that report the end separately", "why_tests_cant": "all inputs times all window sizes", "anchors": ["reader.go:readHeaderZlib", "reader.go:readHeader", "reader.go:decodeHuffmanBlock", "options.go:WithWindowBits"]}
{"id": "C75", "title": "Local damage to the content is always detected", "statement": "A Reader never reports io.EOF on a gzip stream whose content differs, in one run of at most four bytes, from the content its footer was made for (two bytes for zlib); in particular replacing such a run of stored bytes of a stream of stored blocks is always reported as an error.", "quantifier": "all contents, positions and replacements of the run, all headers, dictionaries, sources and ways to compress the damaged content", "why_tests_cant": "all contents times all positions times all damages; a checksum weaker than it should be passes most samples", "anchors": ["reader.go:readFooterGZIP", "reader.go:readFooterZlib", "internal/crc32", "internal/adler32"]}
{"id": "C76", "title": "Flushed data survives a power failure", "statement": "When Flush or Close returns nil, the underlying object's Flush and then its Sync have been called, and have succeeded, after the last byte was handed over: whatever a power failure at any later moment leaves on a disk that keeps what was synced contains all of the data written before the Flush, readable by a Reader; after Close it is the complete output. At every other moment what is left decodes to a prefix of the data.", "quantifier": "all histories of calls, all libraries, all moments of the failure, all contents the failure may leave (any extension of what was synced within what was written)", "why_tests_cant": "all crash points times all histories", "anchors": ["writer.go:flushImpl", "writer.go:Flush", "writer.go:Close", "writer.go:isIgnoredSyncError"]}
{"id": "C77", "title": "gzip (the command) processes what it is asked to", "statement": "gzip -c FILE writes the compressed contents of FILE; without -c operands are refused before anything is read or written; without operands the command is a filter that uses the format, level (-0 ... -9 are levels 0 ... 9) and dictionary (given, or read from the file after '@') asked for, and a dictionary file that cannot be read ends it with nothing written. (The first part is false of the code: with -c the operands are ignored and standard input is processed instead.)", "quantifier": "all flag values, operands, files and standard inputs", "why_tests_cant": "all command lines times all file systems times all inputs", "anchors": ["cmd/gzip/main.go:main", "cmd/gzip/main.go:doCompressOrDecompress"]}
{"id": "C78", "title": "A client that reads to the end leaves no goroutine behind", "statement": "Once a Read has returned an error, nothing is left running: when everything has come to rest the Reader's goroutine has ended, without Close having been called. (True of io.EOF; false of the code for a damaged raw stream, where the goroutine reports the damage, goes on decoding and can block for ever on data nobody reads.) In general a goroutine is left over only if part of the decompressed data has not been read.", "quantifier": "all inputs, options, schedules and interleavings of Read and Close calls", "why_tests_cant": "all schedules times all inputs; a leak has no effect a test of the results can see", "anchors": ["reader.go:Reader.Read", "reader.go:Reader.readThread", "reader.go:Reader.stopReadThreadLocked"]}
{"id": "C79", "title": "The format changes the envelope only", "statement": "Raw, zlib and gzip Writers with otherwise equal options that are given the same calls return the same errors and write the same compressed data: the zlib (gzip) output is the raw output with, for each stream, a zlib (gzip) header in front and a 4 (8) byte footer behind. This holds at every moment, not only after Close. (For underlying writers that accept everything.)", "quantifier": "all options, all sequences of Write/Flush/SetHeader/Close calls, every match finder and Huffman coder, failing underlying Flush and Sync included", "why_tests_cant": "all call sequences times all data times all options, for two programs at once", "anchors": ["writer.go:Writer.writeHeader", "writer.go:Writer.writeFooter", "writer.go:Writer.compressImpl", "writer.go:Writer.flushImpl"]}
{"id": "C80", "title": "A failing underlying writer has been given a prefix of the output", "statement": "Whenever the underlying writer fails (at any of its calls, having accepted any part of the bytes; or at Flush or Sync), what it has been given up to the first error the Writer reports is a prefix of the bytes the same calls give to an underlying writer that does not fail; so a Reader given just that produces a prefix of the data.", "quantifier": "every failure point and amount accepted, every option list, every sequence of calls, both word sizes", "why_tests_cant": "there are as many failure points as bytes of output times sequences of calls; a test injects a failure at a few of them", "anchors": ["writer.go:outputBufferWrite", "writer.go:outputBufferFlush", "writer.go:writeFooterGZIP", "writer.go:flushImpl", "writer.go:writeHeader"]}
{"id": "C81", "title": "A stream does not depend on the streams written before it", "statement": "After any history of calls on a Writer, once Flush(FinishFlush) has returned nil, setting a header and writing something continues exactly as a new Writer with the same options would begin: same return values, the bytes added to the output are the bytes the new Writer produces, and the same events are delivered (apart from running totals). So several streams written by one Writer are the concatenation of the outputs of several Writers.", "quantifier": "every history before (also errors of other calls, Reset, dictionaries), every option list, header, data and sequence of calls after, every behaviour of the libraries and the underlying writer", "why_tests_cant": "state leaking from one stream into the next (checksums, window, pending bits, matcher state) shows only for particular histories; a test compares a few", "anchors": ["writer.go:Flush", "writer.go:writeHeader", "writer.go:flushImpl", "writer.go:writeFooter", "writer.go:Write"]}
{"id": "C82", "title": "The counters in trace events are truthful", "statement": "Every event delivered to a tracer by a Reader or a Writer carries in NumStreams the number of StreamBegin events delivered so far (so the k-th stream is numbered k), and its stream byte counters are exactly how much the total counters have grown since the StreamBegin of that stream, for input and output; at StreamBegin both are 0.", "quantifier": "every input, options and underlying reader for the Reader; every sequence of calls (with errors, failures of the underlying writer, Resets) for the Writer; every event", "why_tests_cant": "wrong or missing resets of a counter show only with several streams, in particular places; tests look at single streams", "anchors": ["reader.go:sendEvent", "reader.go:readHeader", "reader.go:readThread", "writer.go:sendEvent", "writer.go:writeHeader", "trace.go:Event"]}
{"id": "C83", "title": "Trace events describe the blocks of the stream; Reader and Writer agree", "statement": "The events a Reader or Writer delivers are, stream by stream, exactly: begin, header, then for every block of the DEFLATE data in order a block-begin event with the block's true type and final flag, for static and dynamic blocks a trees event with the code lengths (and for dynamic blocks the counts and code-length code) that the block's bits carry, a block-end event, and after the last block an end event with the Adler-32 and CRC-32 of the stream's contents and a close event. A Reader decoding a Writer's output delivers the Writer's events (up to the header payloads).", "quantifier": "Reader: every input, options, chunking that ends with io.EOF; Writer: every options, sequence of calls, division into Writes and match finder; every block and every code; the pair: every matching configuration", "why_tests_cant": "an event with the type of another block, a missed final flag, or trees swapped or taken after canonicalisation shows only for particular blocks, and no test compares the two sides", "anchors": ["reader.go:readFlateBlock", "reader.go:readDynamicTrees", "reader.go:sendEvent", "writer.go:writeStoredBlock", "writer.go:writeStaticBlock", "writer.go:writeDynamicBlock", "trace.go:Event", "trace.go:TreesEvent"]}
{"id": "C84", "title": "Reported headers say what the header bytes say", "statement": "Every header a Reader reports describes the bytes of its stream before the DEFLATE data: for zlib the window size of CINFO and the level of FLEVEL and nothing else, for gzip the name, comment, modification time, text flag, operating system, level of XFL and subfields that the bytes carry, for raw streams nothing; and the window size and level class with which a zlib Writer was configured are what the Reader reports for every stream of its output.", "quantifier": "every input, options and chunking that ends with io.EOF; every valid sequence of streams; every configuration and session of a zlib Writer", "why_tests_cant": "fields misassigned or left over from a previous stream show for particular header bytes and orders of streams only; tests check one gzip header", "anchors": ["reader.go:readHeaderZlib", "reader.go:readHeaderGZIP", "writer.go:writeHeaderZlib", "header.go:Header"]}
{"id": "C85", "title": "What a Reader delivers depends only on the input it has read", "statement": "If the input fails with any error after some bytes, what a Reader delivers is a prefix of what it delivers when the input goes on instead - however it goes on, and whether or not the input is valid. So two inputs that agree up to a point yield the same data as far as that data is determined by the common part, and cutting a file anywhere never changes or adds a byte of what is recovered.", "quantifier": "every option set, every sequence of results of the underlying Read (cut at any call), any error, any continuation, fresh and re-used Readers; for declared formats every cut between two bytes", "why_tests_cant": "a decoder that peeks ahead, or decodes left-over bits after the end, goes wrong only for particular bytes at the cut; there are infinitely many inputs and every one can be cut anywhere", "anchors": ["reader.go:readThread", "reader.go:readSymbol", "reader.go:inputBitsFill", "reader.go:inputBufferRead", "reader.go:closeWithError"]}
{"id": "C86", "title": "Of a preset dictionary only the last window matters (raw and gzip)", "statement": "A raw or gzip stream made with one preset dictionary is read back with every dictionary that ends in the same window: bytes in front of the Writer's window (2^WithWindowBits) can be added, dropped or changed. Every valid stream stays valid, with the same data, when the dictionary is replaced by one with the same last window. For zlib it must be the same dictionary, byte for byte, because its checksum is in the header.", "quantifier": "every dictionary pair with a common tail of one window, every option set of Writer and Reader, every session, every valid stream or concatenation, every chunking with a detached end", "why_tests_cant": "dictionaries longer than the window, and the distance at which a reference reaches across the start of the data, are unbounded families; a wrong end of the dictionary shows only for references of one particular distance", "anchors": ["options.go:WithDictionary", "writer.go:Dict", "reader.go:Dict"]}
{"id": "C87", "title": "A Reader does the same on 32-bit and 64-bit platforms", "statement": "Given the same options and the same results of the underlying Read, a Reader on a platform with 32-bit words delivers the same bytes, the same error with the same offsets and the same trace events as on a platform with 64-bit words - for valid and for invalid inputs, and through any number of Resets.", "quantifier": "every option set, every input (valid, damaged, truncated, failing), every chunking, every history of one Reader, every library", "why_tests_cant": "tests run on one platform; the bit buffer has 32 or 64 bits, and a difference would show only for inputs that make it hold a particular number of bits when the input fails or goes wrong", "anchors": ["block32.go:bytesPerBlock", "block64.go:bytesPerBlock", "reader.go:inputBitsFill", "reader.go:inputBitsPeek", "reader.go:inputBitsCommit", "reader.go:readSymbol"]}
{"id": "C88", "title": "What the accessors report describes the Writer or Reader completely", "statement": "After any sequence of calls, Resets with options included, the values that Format, Method, Strategy, CompressLevel, MemoryLevel, WindowBits, Dict and Tracers report are valid arguments of the options of the same names, and a new Writer given them is exactly the Writer one would get with all the options given so far. The same for a Reader, whatever it has read: a new Reader given what it reports reads every input alike. What a Writer reports configures a Reader for its output.", "quantifier": "every list of options, every sequence of calls and Resets, every input", "why_tests_cant": "options can be given any number of times, in any order, partly at construction and partly at any Reset; a value that is reported but not in force, or in force but not reported, shows only for some histories", "anchors": ["writer.go:Format", "writer.go:Dict", "writer.go:CompressLevel", "reader.go:WindowBits", "reader.go:Dict", "options.go:populateWriterDefaults"]}
{"id": "C89", "title": "The option given last is in force; what was never given has its default", "statement": "Every accessor of a Writer reports the value given last by the option of its name, counting the options of the constructor and of all Resets in order, and if none was given (or the Default value was given last) the default: zlib, level 6, memory level 9, 15 window bits, no dictionary, DefaultStrategy. The same for a Reader after any history, where the default format stays automatic. No option changes what another one set.", "quantifier": "every list of options, every sequence of calls and Resets, every input", "why_tests_cant": "options can be given any number of times, in any order, at construction or at any Reset, and defaults are filled in each time over the values already in force; an option that touches another's field shows only in some orders", "anchors": ["options.go:WithCompressLevel", "options.go:WithMemoryLevel", "options.go:WithWindowBits", "options.go:WithDictionary", "options.go:populateWriterDefaults", "options.go:populateReaderDefaults", "writer.go:Reset", "reader.go:Reset"]}
{"id": "C90", "title": "SetHeader takes effect at the next stream", "statement": "Once Write has been given a byte of a stream, SetHeader calls have no influence on that stream: the bytes written, the trace events and the results of the other calls are the same as without them, until the stream is ended with FinishFlush or Close, whether calls succeed or fail. Before a stream starts, the header accepted last replaces the earlier ones.", "quantifier": "every format, every history of calls and Resets before, every sequence of Write, Flush and SetHeader calls within the stream, every failure of the underlying writer", "why_tests_cant": "the header is one mutable field that is consulted at every stream start and also updated there; whether anything later in the stream still looks at it depends on the calls made, on buffering (the header is written at the first compressed byte) and on failures", "anchors": ["writer.go:SetHeader", "writer.go:writeHeader", "writer.go:writeHeaderGZIP", "writer.go:writeFooter", "writer.go:compressImpl", "writer.go:flushImpl"]}
{"id": "C91", "title": "The sync marker and message framing", "statement": "A SyncFlush or FullFlush that succeeds while a stream is open leaves the output ending with the bytes 00 00 FF FF. When messages are compressed one after the other in one stream, each followed by SyncFlush, the output is one chunk per message, each ending with that marker; so a protocol that takes the marker off each message before sending it and puts it back on receipt (permessage-deflate, RFC 7692) loses nothing: a Reader given the first k chunks returns exactly the first k messages.", "quantifier": "every format, compression level and strategy, every sequence of calls before the flush, every number of messages, the first not empty, each written in any pieces, every k, every way the received bytes arrive", "why_tests_cant": "the marker must follow whatever bits are pending at that moment and the messages share one window, so every chunk depends on all the earlier ones", "anchors": ["writer.go:Flush", "writer.go:flushImpl", "writer.go:flushGuts", "writer.go:writeStoredBlock", "writer.go:outputBitsFlush", "writer.go:outputBufferWrite", "reader.go:Read"]}
{"id": "C92", "title": "A flush with nothing to flush", "statement": "Flushes (other than FinishFlush), empty Writes and SetHeader calls on a Writer that was given no data write nothing at all. After a successful FinishFlush, further flushes - FinishFlush included - and Close write nothing: no second, empty stream is appended. With a stream open and everything flushed by SyncFlush or FullFlush, each further SyncFlush or FullFlush adds exactly the five bytes 00 00 00 FF FF, and BlockFlush adds nothing.", "quantifier": "every format, compression level and strategy, every sequence of calls before, every number of repeated flushes, every behaviour of the underlying writer", "why_tests_cant": "what a flush writes depends on the Writer's state, on pending input, pending bits and buffered output, which depend on the whole history", "anchors": ["writer.go:Flush", "writer.go:Close", "writer.go:flushImpl", "writer.go:compressImpl", "writer.go:flushGuts", "writer.go:writeStoredBlock", "writer.go:outputBitsFlush"]}
{"id": "C93", "title": "Where a Writer's errors come from, and what the underlying writer is handed", "statement": "Every error a Writer's calls report is ErrClosed, or an error the underlying writer's own Write, Flush or Sync gave. The underlying writer is only ever handed pieces that are not empty and not longer than 2^(memory level + 7) bytes: one that refuses all others with an error of its own never gets to do so.", "quantifier": "every option set, every sequence of calls, every underlying writer (any errors, any partial writes, at any call)", "why_tests_cant": "the sizes of the pieces depend on what is buffered when, and errors can come up in any of the nested write paths, in the header, in blocks and in the footer", "anchors": ["writer.go:outputBufferWrite", "writer.go:outputBufferFlush", "writer.go:outputBitsFlush", "writer.go:Write", "writer.go:Flush", "writer.go:Close", "writer.go:flushImpl"]}
{"id": "C94", "title": "Raw streams compressed independently can be joined", "statement": "Pieces of data compressed by Writers of their own in the raw format - at the same time, with different options, on different machines - and ended with SyncFlush or FullFlush, the last one with Close, can be joined in order: a Reader given the concatenation returns all the data and the source's end. (This is how parallel compressors work.) The same holds of a gzip Reader when a valid gzip header is put in front and the CRC-32 and size of all the data behind. It holds of a zlib Reader with a zlib header declaring a window no smaller than any Writer's in front and the Adler-32 of all the data behind.", "quantifier": "every number of jobs, every option set without a dictionary whose window the Reader allows, every sequence of calls of each job without FinishFlush, every way the joined bytes arrive", "why_tests_cant": "each piece is compressed with a window of its own and decoded with whatever came before in the window, at a bit position that depends on all the earlier pieces", "anchors": ["writer.go:Flush", "writer.go:flushGuts", "writer.go:Close", "writer.go:writeStoredBlock", "reader.go:Read", "reader.go:readFlateBlock"]}
