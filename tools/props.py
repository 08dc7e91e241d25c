import json
P=[]
def p(title, statement, quant, why, anchors):
    P.append(dict(id="C%02d"%(len(P)+1), title=title, statement=statement, quantifier=quant, why_tests_cant=why, anchors=anchors))

p("Compress/decompress round trip",
  "Whatever sequence of Write and Flush calls is made on a Writer (any format, strategy, level, memory level, window size, dictionary, header) over an io.Writer that does not fail, if Close returns nil then a Reader configured with the same format and dictionary and at least the same window size, reading the produced bytes of one stream, delivers exactly the concatenation of the written bytes and then io.EOF.",
  "all option combinations, all sequences of Write/Flush calls and slices, all match-finder and Huffman-length choices, all ways the compressed bytes are chunked by the underlying io.Reader",
  "the space of inputs, call sequences, match choices and chunkings is infinite; tests check 26 vectors with a single Write",
  ["writer.go:Writer.Write","writer.go:Writer.Flush","writer.go:Writer.Close","reader.go:Reader.Read","reader.go:readThread"])
p("Writer output conforms to RFC 1951/1950/1952",
  "The bytes a Writer hands to the underlying io.Writer between creation and a successful Close are a sequence of well-formed raw DEFLATE / zlib / gzip streams according to an independent reading of the RFCs, and each stream encodes exactly the bytes written to it.",
  "all options, call sequences, input bytes, match-finder and Huffman-length choices",
  "interoperability with every conforming decoder is a claim about all outputs",
  ["writer.go:compressTokens","writer.go:writeStoredBlock","writer.go:writeStaticBlock","writer.go:writeDynamicBlock","writer.go:writeHeader","writer.go:writeFooter"])
p("SyncFlush/FullFlush/FinishFlush deliver everything written so far",
  "When Flush(SyncFlush), Flush(FullFlush) or Flush(FinishFlush) returns nil on a Writer with an open stream, the bytes that have already reached the underlying io.Writer are byte aligned and decode to every byte accepted by Write so far.",
  "all call histories, options, inputs", "must hold after every history of calls and for every alignment of pending bits",
  ["writer.go:flushImpl","writer.go:flushGuts","enum_flushtype.go:SyncFlush"])
p("FullFlush is an independent restart point",
  "Everything the Writer emits in a stream after Flush(FullFlush) can be decoded without any of the data (or dictionary) that preceded the flush.",
  "all call histories before and after the flush, all match finders honouring their contract", "quantifies over all later matches",
  ["writer.go:flushGuts","enum_flushtype.go:FullFlush"])
p("PartialFlush pushes all bits of the current block to the underlying writer",
  "Documented guarantee: when Flush(PartialFlush) returns nil, all bits of the current block have reached the underlying io.Writer.",
  "all call histories", "depends on the number of pending bits (0..63) left by an arbitrary history",
  ["enum_flushtype.go:PartialFlush","writer.go:flushGuts","writer.go:outputBitsWrite"])
p("Writer errors are sticky and silent",
  "Once Write or Flush has returned an error from the underlying writer, every later Write and Flush returns the same error, hands no byte to the underlying writer and emits no event, until Close or Reset; Close returns that error once.",
  "all call histories and all failure points and partial-write counts of the underlying writer", "quantifies over every failure point",
  ["writer.go:Write","writer.go:Flush","writer.go:Close","writer.go:outputBufferFlush"])
p("A closed Writer stays closed",
  "After Close, every Write, Flush and Close returns fs.ErrClosed and nothing reaches the underlying writer, until Reset.",
  "all call histories", "history quantification", ["writer.go:Write","writer.go:Flush","writer.go:Close"])
p("Reset returns a Writer to a fresh state",
  "After Reset(w), the Writer produces exactly the bytes a newly constructed Writer with the merged options and same header would produce.",
  "all call histories before Reset, including failed ones", "requires every field left over by every history to be harmless",
  ["writer.go:Reset"])
p("The Writer never panics on valid use",
  "No sequence of Write/Flush/Close calls with valid options makes the Writer panic (assertion failure).",
  "all options, inputs, call sequences", "the failing inputs are a thin set of large incompressible slices",
  ["writer.go:writeStoredBlock","writer.go:compressTokens","writer.go:compressSlow"])
p("Write accepts everything or fails",
  "Write(buf) returns len(buf) with a nil error or 0 with a non-nil error, always terminates, and on success exactly buf is appended to the data of the stream.",
  "all buffers and histories", "termination and totality over all inputs",
  ["writer.go:Write"])
p("gzip header round trip",
  "A header accepted by SetHeader is written so that a Reader reports back the same FileName, Comment, ExtraData records, OSType (Unix if unknown), DataType and LastModified (to the second, for times strictly after the Unix epoch), and CompressLevel class.",
  "all headers accepted by SetHeader", "infinitely many headers", ["writer.go:writeHeaderGZIP","reader.go:readHeaderGZIP","header.go:ExtraData"])
p("zlib header is well formed",
  "For every window size, level, strategy and dictionary the two zlib header bytes have CM=8, CINFO=wbits-8, FCHECK making the 16-bit value divisible by 31, FDICT set exactly when a dictionary is in use, followed by the big-endian Adler-32 of the dictionary.",
  "all option combinations and dictionaries", "dictionary is arbitrary bytes", ["writer.go:writeHeaderZlib"])
p("SetHeader accepts exactly the representable headers",
  "SetHeader returns nil iff the file name has <256 bytes with no NUL, '/' or '\\\\', the comment has <256 bytes with no NUL, the time is zero or in [0,2^32-1) seconds, the OSType is valid and the extra data (each record and in total) fits in 65535 bytes; on error the Writer's header is unchanged.",
  "all headers", "infinitely many strings and records", ["writer.go:SetHeader"])
p("ExtraData serialisation round trip",
  "Parsing the serialisation of any list of records with payloads below 65536 bytes gives back the same records.",
  "all record lists", "infinite domain", ["header.go:AsBytes","header.go:Parse"])
p("Parsing ExtraData never panics",
  "ExtraData.Parse and hence the Reader do not panic for any byte string found in a gzip extra field.",
  "all byte strings", "attacker-controlled input", ["header.go:Parse","reader.go:readHeaderGZIPExtraData"])
p("CRC-32 is the IEEE CRC-32 for every input and every chunking",
  "The table-driven slicing-by-8 CRC equals the bit-by-bit reflected IEEE 802.3 CRC-32, for every byte string, and feeding data in pieces gives the same value as feeding it at once.",
  "all byte strings, all splits", "infinite domain; tables of 2048 words and a length-dependent fast path", ["internal/crc32/crc32.go:genericUpdate","internal/crc32/crc32.go:init"])
p("Adler-32 is exact despite 32-bit accumulators and deferred reduction",
  "Adler-32 computed with uint32 accumulators and a modulo every 5552 bytes equals the mathematical definition modulo 65521 for every byte string of any length, and is independent of chunking.",
  "all byte strings, all splits", "overflow only shows for long runs of large bytes", ["internal/adler32/adler32.go:Update"])
p("Length/distance symbol coding is the RFC 1951 table and is inverted by the decoder",
  "For every match length 3..258 and distance 1..32768 the Writer emits the RFC 1951 symbol and extra bits, and the Reader maps every symbol and extra bits of the RFC table back to the same length and distance; symbols 286, 287, 30 and 31 are rejected.",
  "all lengths, distances, symbols and extra-bit values", "finite but 2^23 combinations; relation to RFC table needs a spec", ["token.go:symbolLL","token.go:symbolD","reader.go:decodeLL","reader.go:decodeD"])
p("Code-length run-length coding is lossless",
  "The code-length sequences written in a dynamic block header expand, by the RFC 1951 rules, to exactly the code lengths the encoder uses, with HLIT/HDIST in range.",
  "all vectors of code lengths 0..15 with a used end-of-block symbol", "16^318 vectors", ["analysis.go:encodeTreeTokens","token.go:symbolX","reader.go:decodeX"])
p("Bit packing is exact",
  "Writing any sequence of bit strings and byte strings delivers to the underlying writer exactly these bits, LSB first, zero padded to a byte boundary before byte strings, for 32-bit and 64-bit blocks; reading gives the same bits back.",
  "all sequences of bit/byte writes, both block sizes", "arbitrary interleavings and alignments", ["writer.go:outputBitsWrite","writer.go:outputBitsFlush","writer.go:outputBufferWrite","reader.go:inputBitsFill","reader.go:inputBitsRead"])
p("Block-size prediction equals the bits really written",
  "The length computed by a dry run of a static or dynamic block is exactly the number of bits the real write of that block produces.",
  "all token sequences, all Huffman length assignments", "all inputs", ["bitwriter.go:bitcounter","writer.go:compressTokens"])
p("The cheapest block type is chosen",
  "For every block the Writer picks, of stored, static and dynamic encodings, one of minimal predicted size.",
  "all blocks", "needs counting over all inputs", ["writer.go:compressTokens"])
p("FixedStrategy only uses static Huffman blocks",
  "With FixedStrategy every Huffman-encoded block uses the pre-defined static code (documented meaning of the option).",
  "all inputs", "claim about all blocks of all outputs", ["enum_strategy.go:FixedStrategy","writer.go:compressTokens"])
p("HuffmanOnly emits no copies; HuffmanRLE only distance-1 copies; NoCompression only stored blocks",
  "With HuffmanOnlyStrategy no back reference is ever emitted, with HuffmanRLEStrategy every back reference has distance 1, and with NoCompression every block in the output is a stored block.",
  "all inputs and call sequences, any match finder honouring the limits it is configured with", "claims about all outputs", ["writer.go:hybridOptions","writer.go:compressConfig","writer.go:compressStore"])
p("Options: last one wins, defaults filled, Reset merges",
  "NewWriter/NewReader give the configuration of the last setter of each field with defaults filled in (zlib, level 6, memory 9, window 15), and Reset with options gives the same configuration as constructing with the concatenated option lists; option constructors accept exactly the valid values.",
  "all option lists", "arbitrary lists", ["options.go:apply","options.go:populateWriterDefaults","writer.go:Reset","reader.go:Reset"])
p("Auto-detected text flag describes the stream it is written in",
  "When the user leaves DataType unknown, each gzip stream's FTEXT flag reflects that stream's own leading data.",
  "all histories with several streams", "needs a multi-stream history", ["writer.go:writeHeader","analysis.go:isText"])
p("Reader accepts every valid stream",
  "Given any byte sequence that is a valid stream of the configured (or detected) format according to the RFCs, with distances within the window limit and a matching dictionary, the Reader delivers exactly its decompressed content followed by io.EOF.",
  "all valid streams, not only those made by this Writer; all chunkings", "infinite domain", ["reader.go:readFlateBlock","reader.go:decodeHuffmanBlock","reader.go:readDynamicTrees","reader.go:readHeader","reader.go:readFooter"])
p("Clean EOF only after valid data",
  "If reads from a Reader end with io.EOF (and not another error), the input was a sequence of well-formed streams with correct checksums and lengths (up to the point where the underlying reader reported EOF), and the delivered bytes are exactly their content.",
  "all byte sequences, including malicious ones", "adversarial input space", ["reader.go:corruptf","reader.go:propagateError","reader.go:readFooterGZIP","reader.go:readFooterZlib"])
p("Truncation is never mistaken for the end of the stream",
  "If a valid stream is cut anywhere strictly inside, the Reader ends with an error different from io.EOF.",
  "all valid streams, all cut points", "every crash point", ["reader.go:inputBitsFill","reader.go:inputBufferRead","reader.go:propagateError"])
p("Truncation is reported as io.ErrUnexpectedEOF and I/O errors as themselves",
  "When the underlying reader ends or fails inside a stream, Read eventually returns io.ErrUnexpectedEOF, respectively the underlying error itself.",
  "all streams and all failure points", "every failure point", ["reader.go:readSymbol","reader.go:decodeHuffmanBlock","reader.go:propagateError"])
p("Checksum and length footers are enforced",
  "A zlib stream whose Adler-32 or a gzip stream whose CRC-32 or length modulo 2^32 does not match the decompressed data never ends in io.EOF.",
  "all streams and footers", "all inputs", ["reader.go:readFooterZlib","reader.go:readFooterGZIP"])
p("Delivered data does not depend on how the underlying reader chunks its data",
  "For a fixed configuration the delivered bytes and final error are a function of the bytes supplied by the underlying io.Reader and its final error only.",
  "all chunkings", "exponentially many chunkings", ["reader.go:inputBufferFill","reader.go:readHeaderAuto","reader.go:readThread"])
p("Concatenated streams are all decoded",
  "A concatenation of valid streams, as produced by FinishFlush followed by more data, is decoded to the concatenation of their contents.",
  "all lists of streams, all well-behaved readers", "depends on whether io.EOF arrives together with data", ["reader.go:readThread","enum_flushtype.go:FinishFlush"])
p("The Reader never panics on untrusted input",
  "No byte sequence makes the Reader's decompression goroutine panic.",
  "all byte sequences", "adversarial input space", ["reader.go","header.go:Parse"])
p("No data after an error",
  "Once corruption has been detected nothing decoded from beyond the corrupted point is delivered.",
  "all inputs", "requires following what the decoder does after the first error", ["reader.go:readThread","reader.go:readDynamicTrees","reader.go:readFooter"])
p("Window and dictionary requirements are enforced for zlib",
  "A zlib stream declaring a window larger than the Reader's limit, requiring a dictionary that was not supplied or differs (by Adler-32), or not using a supplied one, is rejected with a CorruptInputError and no byte of it is delivered.",
  "all headers, dictionaries, limits", "arbitrary dictionaries", ["reader.go:readHeaderZlib"])
p("Format auto-detection recognises everything the Writer produces",
  "A Reader with DefaultFormat decodes the output of a Writer in any of the three formats, provided at least two bytes are available at once; in particular no raw stream of the Writer looks like zlib or gzip.",
  "all Writer outputs", "every raw stream's first byte", ["reader.go:readHeaderAuto"])
p("Decompression terminates",
  "On any finite input the decompression loop performs a bounded number of steps and ends.",
  "all inputs and chunkings", "non-termination cannot be tested", ["reader.go:readThread","reader.go:decodeHuffmanBlock","reader.go:readDynamicTrees"])
p("Reads deliver the decompressed bytes in order, exactly once, under every schedule",
  "Under every interleaving of the decompression goroutine with any number of concurrent Read callers and any buffer sizes, the bytes returned by Read calls in the order they complete form a prefix of the decompressed data; io.EOF is returned only after all of it.",
  "all schedules, numbers of readers and read sizes", "schedules", ["reader.go:Read","reader.go:decodeBufferMustFlush","reader.go:closeWithError"])
p("No lost wake-up",
  "Whenever a Read call is waiting although data or an error is available, some thread that will wake it is able to run; and the decompression goroutine never waits forever while all Read callers are waiting for data.",
  "all schedules", "schedules", ["reader.go:Read","reader.go:decodeBufferMustFlush"])
p("Reset works in the middle of a stream",
  "Reset on a Reader returns, also when a stream is only partially read.",
  "all histories and schedules", "needs the interleaving with the goroutine alive", ["reader.go:Reset","reader.go:stopReadThreadLocked"])
p("Close stops the goroutine and later Reads report cancellation",
  "Close called while the goroutine is running makes it exit without delivering more data; every later Read returns context.Canceled.",
  "all schedules", "schedules", ["reader.go:Close","reader.go:stopReadThreadLocked"])
p("An error is reported only after the data decoded before it",
  "A Read returns an error only when every byte decoded before that error has been returned, and never returns data after an error.",
  "all schedules", "race between setting the error and flushing the last decoded bytes", ["reader.go:closeWithError","reader.go:decodeBufferMustFlush","reader.go:Read"])
p("A Reader can be reused",
  "Whatever happened before (success, corruption, truncation, cancellation), after the goroutine has ended Reset gives a Reader that behaves on the new input like a new one.",
  "all previous inputs", "requires all leftover fields (bit buffer, Huffman tables, checksums) to be harmless", ["reader.go:Reset","reader.go:readFooter"])
p("Trace events are well nested and their counters are truthful",
  "On success every stream produces StreamBegin, StreamHeader, then for each block BlockBegin, (BlockTrees), BlockEnd, then StreamEnd and StreamClose; totals never decrease, and the StreamEnd event carries the Adler-32 and CRC-32 of the stream's uncompressed data.",
  "all inputs and call sequences", "all histories", ["writer.go:sendEvent","reader.go:sendEvent","trace.go"])
p("Text detection",
  "isText holds exactly for data without bytes 0x00-0x08, 0x0e-0x1f and 0x7f.",
  "all byte strings", "infinite domain", ["analysis.go:isText"])
p("Checksum32 JSON round trip",
  "Unmarshalling the JSON form of a Checksum32 gives back the same value, for every 32-bit value.",
  "all 2^32 values", "2^32 values", ["checksum32.go"])
p("Parsing levels and window sizes",
  "CompressLevel.Parse, MemoryLevel.Parse and WindowBits.Parse accept exactly the documented spellings, yield only valid values, reset to the default on failure and invert String on every valid value.",
  "all strings", "infinite domain", ["enum_clevel.go:Parse","enum_mlevel.go:Parse","enum_wbits.go:Parse"])
p("Stored blocks never exceed 65535 bytes and LEN/NLEN are complementary",
  "Every stored block the Writer emits carries at most 65535 bytes with NLEN the complement of LEN, and the Reader rejects any other pair.",
  "all inputs", "all inputs", ["writer.go:writeStoredBlock","reader.go:readFlateBlockStored"])
p("Hardware CRC paths agree with the generic one",
  "The architecture-specific update functions compute the same CRC as the generic code for every length and alignment split, given that the assembly kernel meets its stated contract.",
  "all byte strings", "split at 64-byte/16-byte boundaries for all lengths", ["internal/crc32/crc32_amd64.go:archUpdate","internal/crc32/crc32_arm64.go:archUpdate"])
p("Data made available by SyncFlush can be read before more input arrives",
  "When a peer has sent a SyncFlush-ed prefix and then pauses, Read on the receiving Reader delivers the data of that prefix without waiting for further input.",
  "all schedules", "needs a blocked underlying reader", ["reader.go:decodeBufferMustFlush","reader.go:readThread","reader.go:startReadThread"])
p("gzip (the command) writes one complete stream or fails",
  "If the gzip command compressing standard input exits with status 0, its input ended without an error and standard output holds exactly one valid stream of the chosen format, level, window and dictionary, with the given name, comment and time, whose contents are the bytes of standard input; and it does exit with 0 when nothing fails.",
  "all flags and inputs, however standard input is chunked", "all inputs, flags and failures", ["cmd/gzip/main.go:main"])
p("gzip | gzip -d gives back the input",
  "What the gzip command wrote, gzip -d with the same dictionary and a window at least as large turns back into the original bytes with exit status 0, whether the format is given or detected.",
  "all flags and inputs", "infinite domain", ["cmd/gzip/main.go:main"])
p("gzip -d succeeds only on intact input",
  "If gzip -d exits with status 0, its input was read to its end without error and consists of complete valid streams whose contents are exactly what was written; a truncated stream makes it fail having written a prefix of the contents; it never crashes.",
  "all inputs, including failures of standard input and output", "all inputs and failure points", ["cmd/gzip/main.go:main"])
p("CaptureHeader records the header of the last stream",
  "A Header registered with CaptureHeader at a Reader of gzip data holds, after the data has been read, the fields the Writer was given for the last stream.",
  "all sequences of streams and headers", "all inputs", ["trace.go:CaptureHeader","trace.go:captureHeaderTracer.OnEvent","reader.go:sendEvent"])
p("The offsets of a CorruptInputError are positions in the input",
  "When reading ends with a CorruptInputError made by this package, OffsetTotal is the number of input bytes consumed so far (never more than the input has) and OffsetStream the number since the last reported beginning of a stream.",
  "all inputs and all ways they are chunked", "infinite domain", ["errors.go:CorruptInputError","reader.go:corruptf"])
p("Compression never expands data by more than a computable bound",
  "Whatever the data, the output of a successful session is at most the data plus 42 bits for every block, plus headers and footers; apart from two blocks per Flush or Close the Writer opens at most two blocks for every block_size bytes (the smaller of 60 KiB for NoCompression or else 4 KiB, and its input buffer), so the total is bounded by what the caller passed in.",
  "all data, all options, all sequences of Write, Flush and SetHeader, all behaviours of the underlying writer", "all inputs: the choice between encodings depends on the data", ["writer.go:compressTokens","writer.go:compressImpl","writer.go:flushImpl","writer.go:writeStoredBlock","bitwriter.go:bitcounter"])
p("Read obeys the io.Reader contract and reading until an error gives all of the data",
  "Every Read(p) returns at most len(p) bytes, no bytes together with an error, and neither bytes nor an error only when p is empty; a client that calls Read with a non-empty buffer until it gets an error (io.ReadAll) is never left waiting, makes at most one successful call per byte of data, ends with the error of the decompression, and has got exactly the decompressed data when that is io.EOF.",
  "all inputs, all buffer sizes, every schedule of the caller and the decompression goroutine (the first part also with any number of concurrent Read and Close calls)", "all schedules", ["reader.go:Read","reader.go:startReadThread","reader.go:decodeBufferMustFlush","reader.go:closeWithError"])
p("The decompressor does not run ahead of its Reads",
  "However large the data and however slowly it is read, the decompressed bytes not yet taken by Read are at most two buffers of 2^(memory level+6) bytes (one shared output buffer, one chunk in the goroutine's hands): a Reader given a small input that expands enormously holds a bounded amount of it until Read is called.",
  "all inputs and options, any number of concurrent Read and Close calls, every schedule", "all schedules and all input sizes", ["reader.go:decodeBufferMustFlush","reader.go:decodeBufferTryFlush","reader.go:startReadThread","reader.go:NewReader"])
p("A gzip header cannot make a Reader hold more memory than its options ask for",
  "The memory a Reader holds for the optional fields of a gzip header (name, comment) is bounded independently of the input.",
  "all inputs", "infinite domain", ["reader.go:inputBufferReadStringZ","reader.go:readHeaderGZIP"])
p("Concurrent calls on one Writer behave as if made one after the other",
  "Whatever goroutines call Write, Flush, Close, Reset, SetHeader and the accessors of one Writer at the same time, there is one order of the calls, compatible with the order in which they were made and returned, such that every reply and the state of the Writer are those of making the calls one at a time in that order; in particular what each goroutine passed to Write comes out of a Reader whole; and the calls do not wait for each other forever.",
  "all options, all sets of concurrent calls, every schedule", "all schedules", ["writer.go:Writer.mu","writer.go:Write","writer.go:Flush","writer.go:Close","writer.go:Reset","writer.go:SetHeader","writer.go:Format"])
p("A tracer may use the Writer it observes",
  "A Tracer registered with WithTracers may call methods of the Writer from OnEvent (for instance to ask for its Format), and the call it interrupts still returns.",
  "all tracers, options and schedules", "all schedules", ["writer.go:sendEvent","writer.go:Write","writer.go:Format"])
p("Arguments are taken by value",
  "What the caller does with the slices it has passed to Write, WithDictionary or SetHeader after the call has returned has no effect on the stream.",
  "all calls and all later changes of the caller's memory", "all histories of the caller's memory", ["writer.go:SetHeader","writer.go:Write","options.go:WithDictionary","header.go:Header"])
p("The compressed bytes depend on the options and the calls only",
  "Two Writers given the same options and the same successful sequence of SetHeader, Write, Flush and Close calls write the same bytes, to the byte, whether the machine is a 32-bit or a 64-bit one and whatever their underlying writers are (how many Write calls they get, when they would fail, what their Flush and Sync do); already after each SyncFlush, FullFlush or FinishFlush both have written the same.",
  "all options, all sequences of calls, both word sizes, all behaviours of the underlying writers", "two builds of the package and all inputs: no one test run can compare them", ["block32.go:bytesPerBlock","block64.go:bytesPerBlock","writer.go:outputBitsWrite","writer.go:outputBitsFlush","writer.go:outputBufferWrite","writer.go:outputBufferFlush"])
p("Writers used at the same time do not disturb each other",
  "Different Writers may be used from different goroutines at the same time although they share pooled memory: whatever the interleaving and whatever the pool hands out or drops, each Writer encodes exactly the literals and copies it has found itself, no two goroutines ever access the same pooled memory (no data race), and none waits for another.",
  "any number of goroutines, all sequences of blocks they compress (also ones that end early because the underlying writer failed), every interleaving of their memory accesses, every behaviour of sync.Pool", "all schedules and all pool behaviours", ["pools.go:takeTokens","pools.go:giveTokens","pools.go:tokenPool","writer.go:compressSlow","writer.go:writeDynamicBlock","analysis.go:encodeTreeTokens"])
p("Calls return although the underlying reader is blocked",
  "While the goroutine of a Reader is inside a Read of the underlying reader that does not return (a network connection on which nothing arrives), Read returns the data that has been decompressed already, Close returns, and so do the accessors.",
  "all inputs, options and schedules", "all schedules", ["reader.go:inputBufferFill", "reader.go:startReadThread", "reader.go:Close", "reader.go:Format"])
p("A tracer may use the Reader it observes",
  "A Tracer registered with WithTracers may call methods of the Reader from OnEvent (for instance to ask for its Format), and decompression goes on.",
  "all tracers, options, inputs and schedules", "all schedules", ["reader.go:sendEvent", "reader.go:readThread", "reader.go:Format"])
p("A Writer holds back less than one block of data",
  "After any successful sequence of Write, Flush and SetHeader calls, in any order and with any write sizes, what the Writer has already written to the underlying io.Writer is the finished streams followed by the header of the open stream and by whole blocks of it (except fewer than 64 bits that do not fill a machine word yet); these blocks decode to everything that was passed to Write since the stream began, except a tail shorter than one block: 60 KiB with NoCompression, 4 KiB otherwise, or the whole input buffer if that is smaller (memory level below 8 resp. 4). So the delay of a long-running Writer that is never flushed is bounded by a constant.",
  "all options, all sequences of calls and write sizes, all behaviours of the match finder, Huffman package and underlying writer within their contracts", "the amount held back depends on the whole history of write sizes and flushes and on how the input buffer fills; a test sees a few histories", ["writer.go:Write", "writer.go:compressImpl", "writer.go:compressStore", "writer.go:compressSlow"])
p("Decompression expands its input by at most a factor of 1032",
  "For every input, valid, damaged or malicious, and all options, the number of bytes a Reader delivers is at most 1032 times the number of bytes it was given; the same holds each time a finished Reader is Reset and used again. A service that limits the size of compressed input therefore limits the size of what comes out.",
  "all inputs, all ways they are chunked, all options, all libraries within their contracts", "the bound is about the worst input; a test decompresses particular ones", ["reader.go:decodeHuffmanBlock", "reader.go:readSymbol", "reader.go:readFlateBlockStored", "reader.go:readFooter", "reader.go:Reset"])
p("Flushed data survives a crash of the writing process",
  "If Flush with SyncFlush, FullFlush or FinishFlush succeeded, then whatever follows the bytes on the underlying writer at that moment (nothing, because the writing process crashed; a part of the rest; or rubbish), a Reader set for the Writer's format, reading until it gets an error, is given all the data written before that Flush. If nothing follows, it is given exactly that data.",
  "all sessions of Writes, Flushes and SetHeaders, all options, all continuations of the stream and ways to chunk it", "the continuation is arbitrary: a test cuts or damages particular streams at particular places", ["writer.go:Flush", "writer.go:flushImpl", "reader.go:readThread", "reader.go:readFlateBlock", "reader.go:closeWithError"])
p("The output does not depend on how the data is divided among Write calls",
  "Two sequences of Write, Flush, SetHeader and Close calls which differ only in how the data between other calls is divided among Writes give the same bytes, the same error and the same events. (False of the code in two cases: the gzip text flag is guessed from the first Write alone, and if the input buffer is larger than the early-block size, blocks end where Writes end.)",
  "all sessions and all ways to divide the data, all options, all failures of the underlying writer", "a test divides particular data in particular ways; the equality must hold for all divisions", ["writer.go:Write", "writer.go:compressImpl", "writer.go:compressSlow", "writer.go:compressStore", "writer.go:writeHeader"])
p("Raw and zlib output does not depend on SetHeader",
  "With a raw or zlib Writer, SetHeader calls (with any header, valid or not, at any time) change neither the bytes written nor any error: the session without them gives the same.",
  "all sessions, all headers, all options but gzip, all failures of the underlying writer", "all headers at all points of all sessions", ["writer.go:SetHeader", "writer.go:writeHeader", "writer.go:writeHeaderZlib"])
p("Only format, window and dictionary options matter to a Reader",
  "Two Readers on the same input whose options agree in WithFormat, WithWindowBits and WithDictionary return the same bytes and the same final error, with identical offsets inside it; WithMemoryLevel (the size of the decode buffer), WithStrategy, WithCompressLevel, WithMethod and WithTracers change nothing, in valid, truncated and corrupt streams alike.",
  "all inputs, all sources, all pairs of option lists", "the decode buffer fills at different points for every memory level and every input; tests try a few", ["reader.go:NewReader", "reader.go:decodeBufferWrite", "reader.go:decodeBufferWriteByte", "reader.go:decodeBufferTryFlush", "options.go:populateReaderDefaults"])
p("A larger window accepts whatever a smaller one accepts",
  "If a Reader set to one format reads an input to io.EOF, then so does a Reader with the same format and dictionary and a larger WithWindowBits (or the default), with the same data. (False of the code for a zlib dictionary of which the smaller window shows zeros only: it is taken for no dictionary there and for a dictionary with the larger window.)",
  "all inputs, formats, dictionaries and pairs of window sizes; sources that report the end separately", "all inputs times all window sizes", ["reader.go:readHeaderZlib", "reader.go:readHeader", "reader.go:decodeHuffmanBlock", "options.go:WithWindowBits"])
p("Local damage to the content is always detected",
  "A Reader never reports io.EOF on a gzip stream whose content differs, in one run of at most four bytes, from the content its footer was made for (two bytes for zlib); in particular replacing such a run of stored bytes of a stream of stored blocks is always reported as an error.",
  "all contents, positions and replacements of the run, all headers, dictionaries, sources and ways to compress the damaged content", "all contents times all positions times all damages; a checksum weaker than it should be passes most samples", ["reader.go:readFooterGZIP", "reader.go:readFooterZlib", "internal/crc32", "internal/adler32"])
p("Flushed data survives a power failure",
  "When Flush or Close returns nil, the underlying object's Flush and then its Sync have been called, and have succeeded, after the last byte was handed over: whatever a power failure at any later moment leaves on a disk that keeps what was synced contains all of the data written before the Flush, readable by a Reader; after Close it is the complete output. At every other moment what is left decodes to a prefix of the data.",
  "all histories of calls, all libraries, all moments of the failure, all contents the failure may leave (any extension of what was synced within what was written)", "all crash points times all histories", ["writer.go:flushImpl", "writer.go:Flush", "writer.go:Close", "writer.go:isIgnoredSyncError"])
p("gzip (the command) processes what it is asked to",
  "gzip -c FILE writes the compressed contents of FILE; without -c operands are refused before anything is read or written; without operands the command is a filter that uses the format, level (-0 ... -9 are levels 0 ... 9) and dictionary (given, or read from the file after '@') asked for, and a dictionary file that cannot be read ends it with nothing written. (The first part is false of the code: with -c the operands are ignored and standard input is processed instead.)",
  "all flag values, operands, files and standard inputs", "all command lines times all file systems times all inputs", ["cmd/gzip/main.go:main", "cmd/gzip/main.go:doCompressOrDecompress"])
p("A client that reads to the end leaves no goroutine behind",
  "Once a Read has returned an error, nothing is left running: when everything has come to rest the Reader's goroutine has ended, without Close having been called. (True of io.EOF; false of the code for a damaged raw stream, where the goroutine reports the damage, goes on decoding and can block for ever on data nobody reads.) In general a goroutine is left over only if part of the decompressed data has not been read.",
  "all inputs, options, schedules and interleavings of Read and Close calls", "all schedules times all inputs; a leak has no effect a test of the results can see", ["reader.go:Reader.Read", "reader.go:Reader.readThread", "reader.go:Reader.stopReadThreadLocked"])
p("The format changes the envelope only",
  "Raw, zlib and gzip Writers with otherwise equal options that are given the same calls return the same errors and write the same compressed data: the zlib (gzip) output is the raw output with, for each stream, a zlib (gzip) header in front and a 4 (8) byte footer behind. This holds at every moment, not only after Close. (For underlying writers that accept everything.)",
  "all options, all sequences of Write/Flush/SetHeader/Close calls, every match finder and Huffman coder, failing underlying Flush and Sync included", "all call sequences times all data times all options, for two programs at once", ["writer.go:Writer.writeHeader", "writer.go:Writer.writeFooter", "writer.go:Writer.compressImpl", "writer.go:Writer.flushImpl"])
p("A failing underlying writer has been given a prefix of the output",
  "Whenever the underlying writer fails (at any of its calls, having accepted any part of the bytes; or at Flush or Sync), what it has been given up to the first error the Writer reports is a prefix of the bytes the same calls give to an underlying writer that does not fail; so a Reader given just that produces a prefix of the data.",
  "every failure point and amount accepted, every option list, every sequence of calls, both word sizes", "there are as many failure points as bytes of output times sequences of calls; a test injects a failure at a few of them", ["writer.go:outputBufferWrite", "writer.go:outputBufferFlush", "writer.go:writeFooterGZIP", "writer.go:flushImpl", "writer.go:writeHeader"])
p("A stream does not depend on the streams written before it",
  "After any history of calls on a Writer, once Flush(FinishFlush) has returned nil, setting a header and writing something continues exactly as a new Writer with the same options would begin: same return values, the bytes added to the output are the bytes the new Writer produces, and the same events are delivered (apart from running totals). So several streams written by one Writer are the concatenation of the outputs of several Writers.",
  "every history before (also errors of other calls, Reset, dictionaries), every option list, header, data and sequence of calls after, every behaviour of the libraries and the underlying writer", "state leaking from one stream into the next (checksums, window, pending bits, matcher state) shows only for particular histories; a test compares a few", ["writer.go:Flush", "writer.go:writeHeader", "writer.go:flushImpl", "writer.go:writeFooter", "writer.go:Write"])
p("The counters in trace events are truthful",
  "Every event delivered to a tracer by a Reader or a Writer carries in NumStreams the number of StreamBegin events delivered so far (so the k-th stream is numbered k), and its stream byte counters are exactly how much the total counters have grown since the StreamBegin of that stream, for input and output; at StreamBegin both are 0.",
  "every input, options and underlying reader for the Reader; every sequence of calls (with errors, failures of the underlying writer, Resets) for the Writer; every event", "wrong or missing resets of a counter show only with several streams, in particular places; tests look at single streams", ["reader.go:sendEvent", "reader.go:readHeader", "reader.go:readThread", "writer.go:sendEvent", "writer.go:writeHeader", "trace.go:Event"])
p("Trace events describe the blocks of the stream; Reader and Writer agree",
  "The events a Reader or Writer delivers are, stream by stream, exactly: begin, header, then for every block of the DEFLATE data in order a block-begin event with the block's true type and final flag, for static and dynamic blocks a trees event with the code lengths (and for dynamic blocks the counts and code-length code) that the block's bits carry, a block-end event, and after the last block an end event with the Adler-32 and CRC-32 of the stream's contents and a close event. A Reader decoding a Writer's output delivers the Writer's events (up to the header payloads).",
  "Reader: every input, options, chunking that ends with io.EOF; Writer: every options, sequence of calls, division into Writes and match finder; every block and every code; the pair: every matching configuration", "an event with the type of another block, a missed final flag, or trees swapped or taken after canonicalisation shows only for particular blocks, and no test compares the two sides", ["reader.go:readFlateBlock", "reader.go:readDynamicTrees", "reader.go:sendEvent", "writer.go:writeStoredBlock", "writer.go:writeStaticBlock", "writer.go:writeDynamicBlock", "trace.go:Event", "trace.go:TreesEvent"])
p("Reported headers say what the header bytes say",
  "Every header a Reader reports describes the bytes of its stream before the DEFLATE data: for zlib the window size of CINFO and the level of FLEVEL and nothing else, for gzip the name, comment, modification time, text flag, operating system, level of XFL and subfields that the bytes carry, for raw streams nothing; and the window size and level class with which a zlib Writer was configured are what the Reader reports for every stream of its output.",
  "every input, options and chunking that ends with io.EOF; every valid sequence of streams; every configuration and session of a zlib Writer", "fields misassigned or left over from a previous stream show for particular header bytes and orders of streams only; tests check one gzip header", ["reader.go:readHeaderZlib", "reader.go:readHeaderGZIP", "writer.go:writeHeaderZlib", "header.go:Header"])
p("What a Reader delivers depends only on the input it has read",
  "If the input fails with any error after some bytes, what a Reader delivers is a prefix of what it delivers when the input goes on instead - however it goes on, and whether or not the input is valid. So two inputs that agree up to a point yield the same data as far as that data is determined by the common part, and cutting a file anywhere never changes or adds a byte of what is recovered.",
  "every option set, every sequence of results of the underlying Read (cut at any call), any error, any continuation, fresh and re-used Readers; for declared formats every cut between two bytes", "a decoder that peeks ahead, or decodes left-over bits after the end, goes wrong only for particular bytes at the cut; there are infinitely many inputs and every one can be cut anywhere", ["reader.go:readThread", "reader.go:readSymbol", "reader.go:inputBitsFill", "reader.go:inputBufferRead", "reader.go:closeWithError"])
p("Of a preset dictionary only the last window matters (raw and gzip)",
  "A raw or gzip stream made with one preset dictionary is read back with every dictionary that ends in the same window: bytes in front of the Writer's window (2^WithWindowBits) can be added, dropped or changed. Every valid stream stays valid, with the same data, when the dictionary is replaced by one with the same last window. For zlib it must be the same dictionary, byte for byte, because its checksum is in the header.",
  "every dictionary pair with a common tail of one window, every option set of Writer and Reader, every session, every valid stream or concatenation, every chunking with a detached end", "dictionaries longer than the window, and the distance at which a reference reaches across the start of the data, are unbounded families; a wrong end of the dictionary shows only for references of one particular distance", ["options.go:WithDictionary", "writer.go:Dict", "reader.go:Dict"])
p("A Reader does the same on 32-bit and 64-bit platforms",
  "Given the same options and the same results of the underlying Read, a Reader on a platform with 32-bit words delivers the same bytes, the same error with the same offsets and the same trace events as on a platform with 64-bit words - for valid and for invalid inputs, and through any number of Resets.",
  "every option set, every input (valid, damaged, truncated, failing), every chunking, every history of one Reader, every library", "tests run on one platform; the bit buffer has 32 or 64 bits, and a difference would show only for inputs that make it hold a particular number of bits when the input fails or goes wrong", ["block32.go:bytesPerBlock", "block64.go:bytesPerBlock", "reader.go:inputBitsFill", "reader.go:inputBitsPeek", "reader.go:inputBitsCommit", "reader.go:readSymbol"])
p("What the accessors report describes the Writer or Reader completely",
  "After any sequence of calls, Resets with options included, the values that Format, Method, Strategy, CompressLevel, MemoryLevel, WindowBits, Dict and Tracers report are valid arguments of the options of the same names, and a new Writer given them is exactly the Writer one would get with all the options given so far. The same for a Reader, whatever it has read: a new Reader given what it reports reads every input alike. What a Writer reports configures a Reader for its output.",
  "every list of options, every sequence of calls and Resets, every input", "options can be given any number of times, in any order, partly at construction and partly at any Reset; a value that is reported but not in force, or in force but not reported, shows only for some histories", ["writer.go:Format", "writer.go:Dict", "writer.go:CompressLevel", "reader.go:WindowBits", "reader.go:Dict", "options.go:populateWriterDefaults"])
p("The option given last is in force; what was never given has its default",
  "Every accessor of a Writer reports the value given last by the option of its name, counting the options of the constructor and of all Resets in order, and if none was given (or the Default value was given last) the default: zlib, level 6, memory level 9, 15 window bits, no dictionary, DefaultStrategy. The same for a Reader after any history, where the default format stays automatic. No option changes what another one set.",
  "every list of options, every sequence of calls and Resets, every input", "options can be given any number of times, in any order, at construction or at any Reset, and defaults are filled in each time over the values already in force; an option that touches another's field shows only in some orders", ["options.go:WithCompressLevel", "options.go:WithMemoryLevel", "options.go:WithWindowBits", "options.go:WithDictionary", "options.go:populateWriterDefaults", "options.go:populateReaderDefaults", "writer.go:Reset", "reader.go:Reset"])
p("SetHeader takes effect at the next stream",
  "Once Write has been given a byte of a stream, SetHeader calls have no influence on that stream: the bytes written, the trace events and the results of the other calls are the same as without them, until the stream is ended with FinishFlush or Close, whether calls succeed or fail. Before a stream starts, the header accepted last replaces the earlier ones.",
  "every format, every history of calls and Resets before, every sequence of Write, Flush and SetHeader calls within the stream, every failure of the underlying writer", "the header is one mutable field that is consulted at every stream start and also updated there; whether anything later in the stream still looks at it depends on the calls made, on buffering (the header is written at the first compressed byte) and on failures", ["writer.go:SetHeader", "writer.go:writeHeader", "writer.go:writeHeaderGZIP", "writer.go:writeFooter", "writer.go:compressImpl", "writer.go:flushImpl"])
p("The sync marker and message framing",
  "A SyncFlush or FullFlush that succeeds while a stream is open leaves the output ending with the bytes 00 00 FF FF. When messages are compressed one after the other in one stream, each followed by SyncFlush, the output is one chunk per message, each ending with that marker; so a protocol that takes the marker off each message before sending it and puts it back on receipt (permessage-deflate, RFC 7692) loses nothing: a Reader given the first k chunks returns exactly the first k messages.",
  "every format, compression level and strategy, every sequence of calls before the flush, every number of messages, the first not empty, each written in any pieces, every k, every way the received bytes arrive", "the marker must follow whatever bits are pending at that moment and the messages share one window, so every chunk depends on all the earlier ones", ["writer.go:Flush", "writer.go:flushImpl", "writer.go:flushGuts", "writer.go:writeStoredBlock", "writer.go:outputBitsFlush", "writer.go:outputBufferWrite", "reader.go:Read"])
p("A flush with nothing to flush",
  "Flushes (other than FinishFlush), empty Writes and SetHeader calls on a Writer that was given no data write nothing at all. After a successful FinishFlush, further flushes - FinishFlush included - and Close write nothing: no second, empty stream is appended. With a stream open and everything flushed by SyncFlush or FullFlush, each further SyncFlush or FullFlush adds exactly the five bytes 00 00 00 FF FF, and BlockFlush adds nothing.",
  "every format, compression level and strategy, every sequence of calls before, every number of repeated flushes, every behaviour of the underlying writer", "what a flush writes depends on the Writer's state, on pending input, pending bits and buffered output, which depend on the whole history", ["writer.go:Flush", "writer.go:Close", "writer.go:flushImpl", "writer.go:compressImpl", "writer.go:flushGuts", "writer.go:writeStoredBlock", "writer.go:outputBitsFlush"])
p("Where a Writer's errors come from, and what the underlying writer is handed",
  "Every error a Writer's calls report is ErrClosed, or an error the underlying writer's own Write, Flush or Sync gave. The underlying writer is only ever handed pieces that are not empty and not longer than 2^(memory level + 7) bytes: one that refuses all others with an error of its own never gets to do so.",
  "every option set, every sequence of calls, every underlying writer (any errors, any partial writes, at any call)", "the sizes of the pieces depend on what is buffered when, and errors can come up in any of the nested write paths, in the header, in blocks and in the footer", ["writer.go:outputBufferWrite", "writer.go:outputBufferFlush", "writer.go:outputBitsFlush", "writer.go:Write", "writer.go:Flush", "writer.go:Close", "writer.go:flushImpl"])
p("Raw streams compressed independently can be joined",
  "Pieces of data compressed by Writers of their own in the raw format - at the same time, with different options, on different machines - and ended with SyncFlush or FullFlush, the last one with Close, can be joined in order: a Reader given the concatenation returns all the data and the source's end. (This is how parallel compressors work.) The same holds of a gzip Reader when a valid gzip header is put in front and the CRC-32 and size of all the data behind. It holds of a zlib Reader with a zlib header declaring a window no smaller than any Writer's in front and the Adler-32 of all the data behind.",
  "every number of jobs, every option set without a dictionary whose window the Reader allows, every sequence of calls of each job without FinishFlush, every way the joined bytes arrive", "each piece is compressed with a window of its own and decoded with whatever came before in the window, at a bit position that depends on all the earlier pieces", ["writer.go:Flush", "writer.go:flushGuts", "writer.go:Close", "writer.go:writeStoredBlock", "reader.go:Read", "reader.go:readFlateBlock"])
with open('/verif/properties.jsonl','w') as f:
    for x in P: f.write(json.dumps(x)+"\n")
print(len(P))
