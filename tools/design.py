import json
m={c['property']:c for c in json.load(open('/verif/MANIFEST.json'))['claims']}
P=[json.loads(l) for l in open('/verif/properties.jsonl')]
how={
'C01':'composition of C02 and C27: what the Writer emits is in the grammar, the Reader decodes the grammar',
'C02':'`MWriter.v`/`MSession.v`; invariant "bits emitted = bits at the sink ++ pending bits = header ++ blocks of the grammar" (`PInv.v`), induction over the calls (`PApi.v`, `PClient.v`); the streams a call sequence asks for are specified in `SpecSession.v`',
'C03':'same invariant at the moment Flush returns: no pending bits, no buffered input',
'C04':'same invariant restarted from an empty history (`full_flush` in `PClient.v`), and with C27 the same seen through a Reader (`PropRestart.v`)',
'C05':'what PartialFlush guarantees (all blocks complete up to the pending bits of one machine block) and a witness that more is not true',
'C06':'step lemmas over the calls with an arbitrary failing sink','C07':'as C06','C10':'as C06',
'C08':'relational simulation of the reset Writer and a new one (`PWSim.v`); witness for the failure case',
'C09':'the only reachable assertion is the size of a stored block; it needs more than 65535 bytes of buffered input (`PInv.big`), which small writes never build up (`short`)',
'C11':'header encoder and decoder modelled byte by byte; C02 + C27 + the header relation of `SpecFormats.v`',
'C12':'the bytes of the zlib/gzip header and footer of every stream','C13':'the five checks = representability',
'C14':'encoder/decoder of ExtraData','C15':'exact set of panicking inputs, for slices with cap = len',
'C16':'GF(2)-linearity of the register step; table = 8 steps; slicing-by-8 = 64 steps','C17':'accumulator bounds between reductions',
'C18':'finite sweep over all lengths/distances lifted by `forallb_forall`','C19':'induction over the length vector',
'C20':'invariant on pending bits','C21':'both bit writers interpret one list of actions','C22':'comparison made by compressTokens; witness',
'C23':'the whole session does not depend on the option (simulation); witness','C24':'token invariants; block invariants',
'C25':'folds over option lists','C26':'witness; what is handed to the underlying writer stays (`PPrefix.v`), then the first iteration of Write','C27':'simulation of the decoder against the grammar, stream by stream (`PGram.v` ... `PAccept.v`)',
'C28':'the converse simulation: a run that ends in EOF builds a derivation','C29':'corollary of C28 and prefix-freeness of the grammar',
'C30':'provenance of every error; witness','C31':'corollary of C28','C32':'relational simulation of two runs (`PSim.v`)','C33':'induction over streams',
'C34':'C15 is the only panic: every other assertion/index is discharged in the simulation','C35':'witness; earlier streams by C28-like induction',
'C36':'direct','C37':'first two bytes of every output (raw output never looks like zlib/gzip)','C38':'fuel bound from the length of the input',
'C39':'small-step model `MConc.v`; invariants over every reachable state (`PConc*.v`)','C40':'well-founded measure on states and deadlock-freedom','C41':'invariant of the self-deadlocked state; explicit schedule',
'C42':'invariant after Close','C43':'ordering invariant; explicit schedule','C44':'simulation of the reused Reader and a new one','C45':'event grammar invariants of Writer and Reader',
'C46':'direct','C47':'direct','C48':'direct','C49':'direct',
'C50':'`MAsm.v`: instruction-level model of crc32_amd64.s and crc32_arm64.s; GF(2)-linearity reduces each folding step to a check on basis vectors; loads outside the slice are failures',
'C51':'schedule that leaves the data in the decode buffer','C52':'`MCli.v`; reduces a run to a session of C02/C09','C53':'C52 + C27/C37','C54':'C28, C29, C34, C38',
'C55':'`MTrace.v` + C11 + C45','C56':'separate invariant over every function of the Reader (`POff.v`)','C57':'cost invariant over the Writer (`PCost*.v`), independent of the grammar',
'C58':'per-call invariant over every schedule (`PConc7.v`), with C39 and C40','C59':'chunks are at most one decode buffer (`PChunk.v`), then an invariant over every schedule (`PropMemory.v`)','C60':'a family of inputs, one for each length, through `follow_all`','C61':'`MWConc.v`: one program counter per call; invariant over every schedule (`PropWConc.v`), then C01','C62':'invariant of the blocked state','C64':'relational simulation of the two Writers: equal states up to the bits held back and the split into underlying calls (`PWord.v`)','C65':'`MPool.v`: boxes, slices and arrays, one memory access per step; ownership invariant over every schedule','C66':"invariant over every schedule in which the goroutine does not move (`MReent.v`, `PropBlocked.v`)",'C67':"`MReent.v` adds accessors and tracers to `MConc.v`; invariants over every schedule",'C68':"PropLatency.v: the session invariant of PInv/PApi (blocks written so far decode to the consumed data) with the bound `short` on what is left in the input buffer after each call",'C69':"an account of bits over every function of the Reader (`PBomb.v`): every bit consumed allows 129 bytes",'C70':"`PFlushed.v`: the block loop gets past any complete blocks at the start of its input (`reach`), and from there on the output only grows",'C71':"`PDivide.v`: replacing the pending data commutes with opening a stream, one Write equals two (`loop_split`); `PDivide2.v`: whole sequences; `SpecDivide.v`: joining neighbouring Writes",'C72':"`PNoHeader.v`: a relation between two Writers that differ in header, events and stream number only, preserved by every method",'C73':"`PSim.v`, generalised: two Readers with different decode buffers; what one has handed over plus what it still buffers agrees with the other, and so do the checksums once the rest is added",'C74':"the language accepted by the Reader (`RSt`, C27/C28) is monotone in the window",'C75':"linearity and injectivity of the CRC register (`crc_burst`), the two sums of Adler-32 (`adler_burst`), and C31",'C76':"a log of the calls on the underlying object; flushImpl splits into a part that writes and the final Flush and Sync; C70, C29, C33",'C77':"model of main() down to the filter of C52-C54",'C78':"every state at rest of the concurrent model",'C79':"relational simulation of two Writers with different formats",'C80':"simulation of the failing Writer by the same Writer over a writer that never fails (`PFail.v`): equal states up to the failure, and from there on the lemmas of `PPrefix.v` (bytes handed over stay)",'C81':"the simulation of `PWSim.v` generalised to Writers with different output so far and different states before a header (closed stream / no stream), `PWFrame.v` for the empty bit and output buffers, and `PStreams.v`: a successful FinishFlush leaves no data behind",'C82':"`SpecCount.v`: a pass over the events with the number of streams begun and the totals at the latest StreamBegin; `PCount.v` and `PCountW.v`: the relation total = total at stream begin + stream counter holds of the Reader's input and output and of the Writer's, through every function of the model",'C83':"`SpecBlocks.v`: `BlockE`/`RawStreamE`: a DEFLATE grammar that carries with every block the events describing it; `SpecTraced.v`: the events of a stream; the Reader's thread invariant (PBlockDec, PThread, PLoop) and the Writer's session invariant (PInv: `ELog`) carry the description; `PDescr.v`: the description is determined by the bits",'C84':"`SpecHeads.v`: what a Header says about header bytes; the heads of the traced streams of C83 satisfy it",'C85':"Two Readers are run side by side (`PCaus.v`): in step until the source of one fails, after which it decodes nothing more, while the other only adds to what it has decoded (`PGrow.v`)",'C86':"Two histories that agree in the last window give every block the same meaning (`reach_block`); with C02 and C33 this gives the round trip",'C87':"Side by side, function by function (`PWide.v`): never more than 24 bits are asked for at a time, and the bit buffer takes whole bytes only as far as needed, so the word size is never reached",'C88':"C25 gives the options in force after any history, C73 says which of them matter to a Reader; the accessors are `MAccess.v`",'C89':"the specification is `last_given` on the list of options; C25 gives the options in force, induction on the list from its end",'C90':"two Writers equal except for the header, both with an open stream: one relational pass over the Writer (`PHeld.v`); a Write of at least one byte always leaves a stream open, or fails",'C91':"an open stream stays open (`PHeld.v`), pending bits are flushed before the length fields are buffered and the output buffer is empty between writes (`PWFrame.v`), so the last four bytes are the two length fields; each chunk extends the one before (`PPrefix.v`); reading is C70",'C92':"no input is pending after any successful flush, and no bits after a SyncFlush (`PropIdle.v`, `PMark.v`, with the invariants of `PWFrame.v` and the frame lemmas of `PDivide.v`); then every branch of the flush is decided",'C93':"one invariant through every function of the Writer (`PSlice.v`): the output buffer never exceeds its capacity and a recorded error has a permitted origin",'C94':"blocks remain valid with more history, a larger window and whole bytes in front (induction over the grammar, `PropJoin.v`); what the Writer delivers is C03 and C02, acceptance is C27",'C63':'`MAlias.v`: the caller\'s memory as an explicit store; simulation by C01\'s sessions'}
out=open('/tmp/design_props.md','w')
for p in P:
    c=m[p['id']]
    out.write(f"* **{p['id']}** {p['title']} ({c['status']}): {how.get(p['id'],'')}. Theorems: {', '.join('`'+t+'`' for t in c['theorems'])}."+(f" {c['note'][0].upper()+c['note'][1:]}." if c['note'] else '')+"\n")
out.close()
head=open('/verif/tools/design_head.md').read(); tail=open('/verif/tools/design_tail.md').read()
open('/verif/DESIGN.md','w').write(head+open('/tmp/design_props.md').read()+tail)
