#!/usr/bin/env python3
"""Reader and concurrency mutants; writes /tmp/mutants2.json"""
import json
M=[]
def m(id,file,old,new,definition,claim,*props): M.append(dict(id=id,file=file,old=old,new=new,definition=definition,claim=claim,props=list(props)))
R='MReader.v'; C='MConc.v'
m('t8','MToken.v','((0x0d <? ch) && (ch <? 0x20))','((0x0e <? ch) && (ch <? 0x20))','isTextByte','byte 0x0e counted as text','C46')
m('r1',R,'| Some x => if negb (x =? a32)%N then (r_corrupt r CZlibAdler, false) else (r, true)','| Some x => (r, true)','readFooterZlib','Adler-32 trailer not compared','C28','C31')
m('r2',R,"else if negb (n =? o_stream (r_out r) mod two32)%N then (r_corrupt r CGzipLength, false)\n      else (r, true)","else (r, true)",'readFooterGZIP','ISIZE not compared','C28','C31')
m('r3',R,"if negb (x =? c32)%N then (r_corrupt r CGzipCRC, false)\n      else if negb (n","if negb (n",'readFooterGZIP','CRC-32 trailer not compared','C28','C31')
m('r4',R,"if negb (len1 =? 65535 - len0)%N then Ok (corruptf d CStoredLen, false)   (* len1 != ^len0 *)\n      else\n","",'readFlateBlockStored','NLEN not checked','C28','C49')
m('r5',R,'if (d <=? lenN hist)%N then nth_error hist (N.to_nat (d - 1))','if (d <? lenN hist)%N then nth_error hist (N.to_nat (d - 1))','window_lk','first byte of the window not reachable','C27','C01')
m('r6',R,'if (o_wbits (r_opt r) <? wb)%N','if (o_wbits (r_opt r) <=? wb)%N','readHeaderZlib','a stream needing exactly the configured window is rejected','C27')
m('r7',R,"else if negb (x =? adler_checksum (opt_dict (r_opt r)))%N then (r_corrupt r CZlibDictDiffers, false)\n","",'readHeaderZlib','dictionary id not compared','C28')
m('r8',R,"else if negb isZero then (r_corrupt r CZlibDictUnused, false)\n","",'readHeaderZlib','a stream made without dictionary is decoded against one (still a valid stream; stricter than needed)','C28')
m('r9',R,'let d := if logicalNumLLCodes <? numLL then corruptf d CHlit else d in','','readDynamicTrees','HLIT > 286 not reported','C28')
m('r10',R,'else if (sym =? 18)%N then run 7 11 0','else if (sym =? 18)%N then run 7 10 0','decodeX','long zero run one too short','C27','C28','C01')
m('r11',R,"if total - length done <? count then","if S total - length done <? count then",'decodeX','repeat may run one past the end','C28')
m('r12',R,'else if s <? 277 then Some (8 * s - 2149, 3%nat)','else if s <? 276 then Some (8 * s - 2149, 3%nat)','decodeLL_entry','length symbol 276 decoded with the wrong formula','C18','C27','C01')
m('r13',R,'Some (x1 + x2 + 1, N.to_nat x0)','Some (x1 + x2, N.to_nat x0)','decodeD_entry','distances off by one','C18','C27','C01')
m('r14',R,'if flag_bit f 0xe0 then','if flag_bit f 0xc0 then','readHeaderGZIP','reserved flag bit 5 ignored','C28')
m('r15',R,"let? r := readGZIPString set_name r (flag_bit f 0x08) in\n        let? r := readGZIPString set_comment r (flag_bit f 0x10) in\n        let c32","let? r := readGZIPString set_comment r (flag_bit f 0x10) in\n        let? r := readGZIPString set_name r (flag_bit f 0x08) in\n        let c32",'readHeaderGZIP','name and comment read in the wrong order','C11','C27')
m('r16',R,'(adler_update a db) (crc_update c db)\n','(adler_update a db) (crc_update c [])\n','mustFlush','CRC of flushed data not updated','C27','C28','C31')
m('r17',R,'OST [] h (log ++ [OData db]) err','OST [] h log err','mustFlush','flushed data not delivered','C27','C01')
m('r18',R,'OST db h log err t s _ _ => OST db h log err t s adler_reset crc_reset','OST db h log err t s a c => OST db h log err t s a c','o_sumreset','checksums carried over from one stream to the next','C33')
m('r19',R,'  let r := set_rin r (inputBitsDiscard (r_in r)) in\n  let a32','  let a32','readFooter','leftover bits not discarded (the footer read discards them anyway, the next stream of raw does not)','C33')
m('r20',R,'match e with EOF => if eofIsError then ErrUnexpectedEOF else EOF | _ => e end','match e with EOF => EOF | _ => e end','propagateError','truncation reported as a clean end','C29','C28')
m('r21',R,'(DST (IST src [] None (ib i) (ibl i)','(DST (IST src (i_buf i) None (ib i) (ibl i)','r_reset','Reset keeps old buffered input','C44')
m('r22',R,'(OST [] [] [] None (o_total u)','(OST [] [] (o_log u) None (o_total u)','r_reset','Reset keeps old undelivered output','C44')
m('r23',R,'| GZIPFormat => Ok (readFooterGZIP r c32)\n','| GZIPFormat => Ok (r, true)\n','readFooter','gzip trailer not read','C31','C33','C28')
m('r24',R,'Ok (r, isOK && negb isFinal)','Ok (r, isOK)','readFlateBlock','final bit ignored','C27','C01')
m('r25',R,'match N.land (1 + N.shiftr out 1) 3 with','match N.land (N.shiftr out 1) 3 with','blockTypeOf','block types shifted','C27','C01')
m('r26',R,'let r := set_rout r (o_sethist (r_out r) (rev (opt_dict (r_opt r)))) in','let r := set_rout r (o_sethist (r_out r) []) in','readHeader','dictionary not loaded','C27','C01')
m('r27',R,'let r := set_rout r (o_sethist (r_out r) (rev (opt_dict (r_opt r)))) in','','readHeader','window of the previous stream visible in the next','C28')
m('r28',R,'if ((1 <=? d) && (d <=? win))%N','if ((1 <=? d) && (d <=? win + 1))%N','window_lk','distance beyond the window accepted','C28')
m('r29',R,"let r := set_rout r (mustFlush (r_out r)) in\n        let* (r, ok) := readFooter r in","let* (r, ok) := readFooter r in",'streamsLoop','buffered data not flushed before the trailer is checked','C27','C28','C31')
m('r30',R,"let c32 := i_crc (r_in r) in\n        let? r := readGZIPCRC16","let c32 := i_crc (r_in r) in\n        let r := set_rhdr r header0 in\n        let? r := readGZIPCRC16",'readHeaderGZIP','header fields lost','C11')
m('r31',R,'if (o_wbits (r_opt r) <? wb)%N then (r_corrupt r CZlibWindow, false)\n      else\n','','readHeaderZlib','declared window larger than the Reader\'s accepted','C36')
m('r32',R,'if negb (unbe16 p mod 31 =? 0)%N then (r_corrupt r CZlibCheck, false)\n    else ','','readHeaderZlib','FCHECK not verified','C36','C28')
m('r33',R,'let r := if isOK then r_sendEvent r (ev_block BlockEndEvent bt isFinal) else r in','let r := r_sendEvent r (ev_block BlockEndEvent bt isFinal) in','readFlateBlock','BlockEnd also sent for a damaged block','C45')
m('r34',R,'let x2 := if N.odd s then N.shiftl 1 x0 else 0 in','let x2 := if N.odd s then N.shiftl 1 x0 else 1 in','decodeD_entry','wrong base for even distance symbols','C18','C27')
m('r35',R,"| None => Ok (propagateError d true, false)\n        | Some p => let* o := decodeBufferWrite","| None => Ok (propagateError d false, false)\n        | Some p => let* o := decodeBufferWrite",'readFlateBlockStored','truncation inside stored data reported as clean EOF','C29','C28')
# concurrency
m('c1',C,"if is_nil b' then Some (St m1 false e b' sta sto es fo (signal2 t) pr z cl' h')","if is_nil b' then Some (St m1 false e b' sta sto es fo t pr z cl' h')",'cstep','Read does not signal the goroutine when it has emptied the buffer','C40')
m('c2',C,"match signal1 j cl with\n            | None => None\n            | Some cl => Some (St m1 false e (b ++ firstn k p)","match Some cl with\n            | None => None\n            | Some cl => Some (St m1 false e (b ++ firstn k p)",'tstep','the goroutine does not signal readers when it adds data','C40')
m('c3',C,"else match signal1 j cl' with","else match Some cl' with",'cstep','Read that leaves data does not pass the signal on','C40')
m('c4',C,'| CSet => Some (St m1 false (Some Canceled) [] sta','| CSet => Some (St m1 false (Some Canceled) b sta','cstep','Close leaves decompressed data readable','C42')
m('c5',C,'| TF4 p => Some (St m1 m2 e b sta sto es fo (Some (if fo then TRun else TF5 p)) pr z cl h)','| TF4 p => Some (St m1 m2 e b sta sto es fo (Some (TF5 p)) pr z cl h)','tstep','the goroutine does not notice the forced stop after waiting','C42')
m('c6',C,'| TErrSet x => Some (St m1 false (Some x) b sta sto true fo (Some TRun) pr z (map wake cl) h)','| TErrSet x => match signal1 j cl with Some cl => Some (St m1 false (Some x) b sta sto true fo (Some TRun) pr z cl h) | None => None end','tstep','Signal instead of Broadcast when the error is set','C40')
m('c7',C,'| RWake n => mu_lock m2 (St m1 true e b sta sto es fo t pr z (upd cl i (RLoop n)) h)','| RWake n => mu_lock m2 (St m1 true e b sta sto es fo t pr z (upd cl i (RTake n)) h)','cstep','if instead of for around cv1.Wait','C39')
m('c8',C,'| CFlags => Some (St false m2 e b sta sto true true t pr z (upd cl i CJoin) h)','| CFlags => Some (St false m2 e b sta sto true true t pr z (upd cl i CRelock) h)','cstep','Close does not wait for the goroutine','C42')
m('c9',C,"let b' := skipn k b in","let b' := b in",'cstep','Read does not consume what it returns','C39')
m('c10',C,'(upd (map wake cl) i CFlags)','(upd cl i CFlags)','cstep','Close does not wake the blocked Reads','C40')
m('c11',C,"| None, [] => Some (St m1 m2 e b sta sto es fo (signal2 t) pr z (upd cl i (RLoop n)) h)","| None, [] => Some (St m1 m2 e b sta sto es fo t pr z (upd cl i (RLoop n)) h)",'cstep','Read that finds nothing does not signal the goroutine (redundant signal: control)','C40')
m('c12',C,"Some (St m1 m2 e b sta sto es fo (Some (if es then TRun else TErr x)) r z cl h)","Some (St m1 m2 e b sta sto es fo (Some (TErr x)) r z cl h)",'tstep','an error found after Close replaces Canceled','C42')
m('c13',C,'(Some (if (ocap <=? lenN b)%N then TWait p else TF3 p))','(Some (if (ocap <? lenN b)%N then TWait p else TF3 p))','tstep','goroutine spins instead of waiting on a full buffer','C40')
m('c14',C,"| [] => Some (St m1 false e b sta sto es fo t pr z (upd cl i (RDone [] e)) (h ++ [([], e)]))","| [] => Some (St m1 m2 e b sta sto es fo t pr z (upd cl i (RDone [] e)) (h ++ [([], e)]))",'cstep','mu2 not released when returning an error','C40')
m('c15',C,'| OData p :: r => Some (St m1 m2 e b sta sto es fo (Some (if fo then TRun else TFlush p)) r z cl h)','| OData p :: r => Some (St m1 m2 e b sta sto es fo (Some (TFlush p)) r z cl h)','tstep','goroutine keeps delivering after a forced stop (the check after the wait still catches it: control)','C42')
m('c16',C,'| CTest => Some (St m1 m2 e b sta sto es fo t pr z (upd cl i (if sta && negb sto then CLock2 else CEnd)) h)','| CTest => Some (St m1 m2 e b sta sto es fo t pr z (upd cl i (if sta then CLock2 else CEnd)) h)','cstep','Close after the end of the stream discards data not yet read','C39','C42')
json.dump(M,open('/tmp/mutants2.json','w'))
for x in M:
    s=open('/verif/rocq/theories/'+x['file']).read()
    if s.count(x['old'])!=1: print('BAD',x['id'],s.count(x['old']))
