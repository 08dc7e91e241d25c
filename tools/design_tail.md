
## 4. What is modelled and what is not

Modelled function by function: `writer.go`, `reader.go`, `bitwriter.go`, `token.go`, `analysis.go`, `huffman.go`, `util.go`,
`options.go`, `header.go` (validation, ExtraData), `errors.go` (CorruptInputError offsets, not the message text),
`checksum32.go`, `trace.go`, the parsers of `enum_clevel.go`/`enum_mlevel.go`/`enum_wbits.go`, `internal/adler32`,
`internal/crc32` (Go and assembly), the accessors and the mutex of the Writer (`MWConc.v`), the memory its arguments share with the caller (`MAlias.v`), the pool of token slices of `pools.go` (`MPool.v`: the Writer model itself works on plain lists, C65 says why that is right), `cmd/gzip/main.go` (after flag parsing; only stdin/stdout is implemented there).

Not modelled: `enumhelper` tables and the String/GoString/JSON forms of the enums other than those above, zerolog tracers
(`trace.go` Log), getopt, pprof and logging of the command, package bufferpool and the inside of sync.Pool, UnderlyingReader and UnderlyingWriter,
error message texts, the machine-code compiler, Go's memory model below mutexes (data races are excluded only in
the sense that the model's steps hold the mutexes the code holds), `sync` primitives (taken to work as documented).

Simplifications: window contents are kept as the full history since the last clear with the look-up limited to the window
size; ExtraData.Parse assumes `cap(raw) = len(raw)`; strings are byte lists; 64-bit `int`.

## 5. Trusted base

* Coq's kernel (8.16.1; `coqchk` also accepts the files).
* `Print Assumptions` prints "Closed under the global context" for every theorem named in MANIFEST.json: no axiom, neither
  of the standard library nor of ours, is used. (A listing of every constant of the loaded libraries also shows
  `Coq.ssr.ssrunder.*` / standard-library axioms that merely come with imported modules; no theorem depends on them.)
* The reading of `/repo` recorded in the comments of the `M*.v` files; the library contracts of section 2 (hypotheses of the
  theorems, not axioms); the semantics given to the amd64/arm64 instructions in `MAsm.v`.
* `seeded/LOG.jsonl` records the wrong programs tried against the theorems and which proofs failed.
