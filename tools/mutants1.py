import json
M=[]
def m(id,file,old,new,definition,claim,props): M.append(dict(id=id,file=file,old=old,new=new,definition=definition,claim=claim,props=props))
C='MChecksum.v';T='MToken.v';K='MCommon.v';W='MWriter.v';R='MReader.v'
m('a1',C,'N.to_nat 5552.','N.to_nat 5553.','adler_nmax','deferred reduction one byte too late: the 32-bit accumulator can overflow',['C17'])
m('a2',C,'adler_loop f (skipn adler_nmax p) (s1 mod adler_modulus) (s2 mod adler_modulus)','adler_loop f (skipn adler_nmax p) (s1 mod adler_modulus) s2','adler_loop','second accumulator never reduced',['C17'])
m('a3',C,'0xedb88320','0x82f63b78','ieeePolynomial','CRC-32C instead of CRC-32 IEEE',['C16'])
m('a4',C,'(N.lxor (tbl ieee0 p7) (N.lxor (tbl ieee1 p6)','(N.lxor (tbl ieee1 p7) (N.lxor (tbl ieee0 p6)','crc_slice8','two tables swapped in slicing-by-8',['C16'])
m('a5',C,'let left := Nat.modulo length 16 in','let left := Nat.modulo length 8 in','arch_update_amd64','tail split at 8 instead of 16 bytes: kernel called on a length it does not support',['C50'])
m('t1',T,'else if (l <=? 257) then Ok (Some (281','else if (l <=? 258) then Ok (Some (281','symbolLL','length 258 coded as symbol 284 with extra bits 31',['C18'])
m('t2',T,'else if tdist t <=? 4 then Ok (Some (tdist t - 1)','else if tdist t <=? 5 then Ok (Some (tdist t - 1)','symbolD','distance 5 coded as symbol 4 without its extra bit',['C18'])
m('t3',T,'Ok (Some code, N.to_nat size, N.land d mask)','Ok (Some code, N.to_nat size, N.land (d + 1) mask)','symbolD','extra bits of the distance off by one',['C18','C01'])
m('t4',T,'then (Some 18, 7%nat, l - 4096)','then (Some 17, 7%nat, l - 4096)','symbolX','long zero run coded with the wrong code length symbol',['C19','C02'])
m('t5',T,'(if 3 <? run then let* x := makeTreeZeroRunToken run','(if 2 <? run then let* x := makeTreeZeroRunToken run','zero_tokens','(equivalent mutant: a run of 3 zeros is also representable) control: C19 stays true',[ 'C19'])
m('t6',T,'let run := sizeRunLength rem\' size in','let run := sizeRunLength rem size in','encode_tree_loop','run counts the first element twice',['C19'])
m('t7',T,'if count <? 11 then Ok (Token (2048','if count <? 12 then Ok (Token (2048','makeTreeZeroRunToken','a run of 11 zeros does not fit 3 bits',['C19','C02'])
m('t8',T,'else if ((0x0d <? ch) && (ch <? 0x20))%N then false','else if ((0x0d <=? ch) && (ch <? 0x20))%N then false','isTextByte','carriage return counted as binary',['C46','C12'])
m('k1',K,'(if (c =? -1)%Z then 6%Z else c)','(if (c =? -1)%Z then 7%Z else c)','populateWriterDefaults','default level 7 instead of 6',['C25'])
m('k2',K,'(if (m =? 0)%N then 9%N else m)','(if (m =? 0)%N then 8%N else m)','populateReaderDefaults','default memory level 8',['C25'])
m('k3',K,'fold_left opt_apply1 l o.','fold_left opt_apply1 (rev l) o.','opt_apply','first option wins',['C25'])
m('k4',K,"| WithWindowBits w' => Options f s c m w' d t","| WithWindowBits w' => Options f s c w' w d t",'opt_apply1','WithWindowBits stores into the memory level',['C25'])
m('k5',K,'if recLen <=? length t then','if recLen <? length t then','xparse','a last record filling the field exactly is rejected',['C14','C15'])
m('k6',K,'[x_id0 r; x_id1 r] ++ le16','[x_id1 r; x_id0 r] ++ le16','extra_bytes','record id bytes swapped on writing',['C14','C11'])
m('k7',K,'if (b <=? 13)%N then (b + 1)%N','if (b <=? 13)%N then b','ostype_decode','OS decoded off by one',['C11'])
m('k8',K,'| WithDictionary (Some []) => false','| WithDictionary (Some []) => true','opt_valid','empty dictionary accepted',['C25'])
m('w1',W,'let n := (obLen o + 7) / 8 in','let n := obLen o / 8 in','o_bitsFlush','last partial byte lost',['C20','C02','C03'])
m('w2',W,'let? s := bw_writeU16le bw s (65535 - u16)%N in','let? s := bw_writeU16le bw s u16 in','writeStoredBlock','NLEN not complemented',['C49','C02'])
m('w3',W,'| SyncFlush => writeStoredBlock bw_writer w [] false','| SyncFlush => Ok (w, true)','flushGuts','SyncFlush emits no marker',['C03'])
m('w4',W,'Ok (set_lz w (lz_windowClear (w_lz w)), true)\n  | FinishFlush','Ok (w, true)\n  | FinishFlush','flushGuts','FullFlush keeps the window',['C04'])
m('w5',W,'let? w := writeStoredBlock bw_writer w [] true in','let? w := writeStoredBlock bw_writer w [] false in','flushGuts','last block not marked final',['C02','C01'])
m('w6',W,'if ok then Ok (w, (lenN buf, None)) else Ok (w, (0%N, werr (w_out w)))','if ok then Ok (w, (lenN buf, None)) else Ok (w, (lenN buf, werr (w_out w)))','w_Write','Write reports success count together with an error',['C10'])
m('w7',W,'let w := set_in w (match w_in w with WSum a c t _ => WSum a c t 0 end) in\n','','writeHeader','per-stream input counter not reset: second gzip stream has a wrong ISIZE',['C02','C01'])
m('w8',W,'Ok (set_in w (match w_in w with WSum _ _ t s => WSum adler_reset crc_reset t s end), true).','Ok (set_in w (match w_in w with WSum a _ t s => WSum a crc_reset t s end), true).','writeHeader','Adler-32 not reset at the start of a stream',['C02','C01'])
m('w9',W,'let* (w, ok1) := w_bufferWrite w (le32 c32) in\n  let* (w, ok2) := w_bufferWrite w (le32 (inStream (w_in w) mod two32)) in','let* (w, ok1) := w_bufferWrite w (le32 (inStream (w_in w) mod two32)) in\n  let* (w, ok2) := w_bufferWrite w (le32 c32) in','writeFooterGZIP','CRC-32 and ISIZE swapped',['C02','C01'])
m('w10',W,'let remainder := if (remainder =? 0)%N then 31%N else remainder in\n','','zlibHeaderBytes','FCHECK 31 when already divisible: sets FCHECK to 31 (still divisible) - control: header still valid',['C12'])
m('w11',W,'match o_dict o with Some _ => N.lor s1 0x20 | None => s1 end','s1','zlibHeaderBytes','FDICT never set',['C12','C02'])
m('w12',W,'(N.lor (match h_name h with [] => 0 | _ => 8 end)\n         (match h_comment h with [] => 0 | _ => 16 end))','(N.lor (match h_name h with [] => 0 | _ => 16 end)\n         (match h_comment h with [] => 0 | _ => 8 end))','gzipFlagBits','FNAME and FCOMMENT swapped',['C11','C12','C02'])
m('w13',W,'b2nat (256 <=? lenN (h_name h))%N','b2nat (256 <? lenN (h_name h))%N','checkHeaderFileName','a 256-byte name accepted',['C13'])
m('w14',W,"+ b2nat (has_byte (h_name h) 0x2f) + b2nat (has_byte (h_name h) 0x5c).","+ b2nat (has_byte (h_name h) 0x5c).",'checkHeaderFileName',"'/' accepted in the name",['C13'])
m('w15',W,'Definition storedBlockSize : N := 61440.','Definition storedBlockSize : N := 65536.','storedBlockSize','stored chunks of 65536 bytes',['C49','C09'])
m('w16',W,'else if (staticCounter <=? dynamicCounter)%N then writeStaticBlock','else if (dynamicCounter <=? staticCounter)%N then writeStaticBlock','compressTokens','the larger of the two Huffman encodings is chosen',['C22'])
m('w17',W,'let storedLength := (lenN data * 8 + 35)%N in','let storedLength := (lenN data + 35)%N in','compressTokens','stored size counted in bytes instead of bits',['C22'])
m('w18',W,'if ok then Ok (w_setstate w closedState, None) else Ok (close_helper w)','if ok then Ok (w, None) else Ok (close_helper w)','w_Close','Close does not mark the Writer closed',['C07'])
m('w19',W,'| WOut a b _ _ n c t st _ _ => WOut a b [] [] n c t st noStream None end) in\n    let w := set_lz w (lz_clear (w_lz w)) in','| WOut a b _ _ n c t st _ _ => WOut a b [] [] n c t st noStream None end) in','w_Reset','Reset keeps bytes that were written but not yet compressed',['C08'])
m('w20',W,'| WOut a b _ _ n c t st _ _ => WOut a b [] [] n c t st noStream None end) in','| WOut a b buf _ n c t st _ _ => WOut a b buf [] n c t st noStream None end) in','w_Reset','Reset keeps buffered output',['C08'])
m('w21',W,'| errorState => Ok (w, (0%N, werr (w_out w)))','| errorState => Ok (w, (0%N, None))','w_Write','an error is forgotten by the next Write',['C06','C10'])
m('w22',W,'| Some e => Ok (w_fail w e, false)\n    end\n  end.','| Some e => Ok (w, false)\n    end\n  end.','flushImpl','failed Sync not recorded',['C06'])
m('w23',W,'if (4 <? n) && Nat.eqb','if (5 <? n) && Nat.eqb','trim_numX','(HCLEN never below 5; still valid deflate) control for C02; C21 unaffected',['C19'])
m('w24',W,'| HuffmanRLEStrategy => LzOpts (o_mlevel o + 8) 8 (o_mlevel o + 11) 3 258 (Some 1%N)','| HuffmanRLEStrategy => LzOpts (o_mlevel o + 8) 8 (o_mlevel o + 11) 3 258 (Some 2%N)','hybridOptions','RLE strategy allows distance 2',['C24'])
m('w25',W,'let? s := bw_bitsWrite bw s 5 (N.of_nat (numD - 1)) in','let? s := bw_bitsWrite bw s 5 (N.of_nat numD) in','writeDynamicBlock','HDIST off by one',['C19','C02'])
m('w26',W,'let w := match o_dict (w_opt w) with Some d => set_lz w (lz_setWindow (w_lz w) d) | None => w end in\n','','writeHeader','dictionary never loaded (outputs still valid, just larger) - control',['C02'])
m('w27',W,'let w := set_lz w (lz_windowClear (w_lz w)) in\n  let w := match o_dict','let w := match o_dict','writeHeader','window of the previous stream still visible at a new stream',['C02','C33'])
m('w28',W,'let? w := compressImpl w true in\n','let? w := compressImpl w false in\n','flushImpl','Flush does not compress pending input',['C03'])
m('w29',W,'| Some EINVAL => Ok (w, true)','| Some EINVAL => Ok (w_fail w EINVAL, false)','flushImpl','EINVAL from Sync treated as a failure (changes when Close succeeds)',['C06'])
m('w30',W,'| noStream | closedStream => let? w := writeHeader w in','| noStream => let? w := writeHeader w in','compressImpl','no header for data written after FinishFlush',['C02','C33'])
json.dump(M,open('/tmp/mutants1.json','w'))
