# Formal model of chronos-tachyon/flate in Rocq (Coq 8.16.1)

(Generated by `tools/design.py` from `tools/design_head.md`, MANIFEST.json and `tools/design_tail.md`.)

## 1. Shape of the development

All sources are in `rocq/theories`. Layers:

| layer | files | content |
|---|---|---|
| base | `Base.v` | outcome type (`Ok`/`Panic`/`NoFuel`), bit/byte lists, byte orders |
| specification | `Spec*.v` | independent and small: CRC-32 bit by bit, Adler-32 sums, canonical Huffman code (RFC 1951 3.2.2), DEFLATE grammar as inductive relations over bit lists, zlib (RFC 1950) and gzip (RFC 1952) framing, what a sequence of Writer calls asks for, inputs of a Reader, event grammar, text forms, cost bounds, library contracts |
| model | `M*.v` | executable Gallina functions, one per Go function, each citing file:lines |
| proofs | `P*.v` (not `Prop*`) | lemmas |
| properties | `Prop*.v` | the theorems named in MANIFEST.json, each with `Print Assumptions` and examples that meet the hypotheses |
| tests | `Demo.v`, `Test*.v` | `vm_compute` runs of the model on the vectors of `reader_test.go` and on a small concrete library (tests, not proofs) |

## 2. How the code is modelled

* Bytes and machine words are `N`; wrap-around (`mod 2^16/32/64`) is written out where Go truncates. Bit counts and
  code sizes are `nat`. Slices are lists. Panics (assertion failures, slice bounds) are the value `Panic`; loops that are
  not structural run on fuel and return `NoFuel` when exhausted, which the theorems exclude (so termination is proved).
* External libraries are not in the repo. They are oracles in the records `wenv`/`renv`; theorems assume the contracts
  `lib_ok`/`rlib_ok` of `SpecLib.v` (satisfied by the concrete library of `Demo.v`: `demo_lib_ok`, `demo_rlib_ok`):
  * `buffer.Buffer`: bounded FIFO of bytes. `ReadFrom(r)` delivers the next element of an arbitrary list of results
    `(bytes, error)`. `PrepareBulkRead` may return less than asked (ring buffer), as chosen by an oracle.
  * `buffer.LZ77`: bounded FIFO plus history since the last clear. The match finder is an arbitrary oracle; assumed is only
    that a reported match is real and within the configured length/distance limits.
  * `buffer.Window`: history since the last clear; look-ups within history and window size are exact, look-ups beyond
    fail or give arbitrary bytes.
  * `huffman.Encoder.Init(n, freqs)`: arbitrary oracle choosing code lengths; assumed: used symbols get 1..15 bits
    (1..7 for the 19-symbol code), unused get 0, the code is complete or has at most one symbol. `Encode`/`Decode`
    implement the canonical code of RFC 1951 3.2.2. `Decoder.Init` is an oracle that accepts proper codes and rejects
    over-subscribed ones.
  * the underlying `io.Writer`: oracle giving for each call success or (bytes accepted, error); optional Flush/Sync, which may fail.
* Sources of a Reader are lists of `(bytes, error)` results; most Reader theorems ask for `polite_src` (no `(0, nil)` reads:
  `C32_refuted_empty_read` shows what happens otherwise).
* Concurrency of `Reader` (`Read`, `Close`, `Reset`, the decompression goroutine, two mutexes, two condition variables, the
  WaitGroup) is a small-step state machine (`MConc.v`) whose program counters cite lines of `reader.go`; any number of calls,
  every schedule. The sequential decoder model (`MReader.v`) and the concurrent one meet at the recorded list of chunks and
  errors (`o_log`). Abstractions are listed in the header of `MConc.v`.
* `MCli.v` models `cmd/gzip` from the parsed flags on; its simplifications are in its header.
* `MAsm.v` models the two assembly files instruction by instruction.

## 3. Properties: model, method, theorems

