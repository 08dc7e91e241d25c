#!/usr/bin/env python3
"""Generates rocq/theories/TestReader.v from the vectors of /repo/reader_test.go."""
import re
def lst(b): return "[" + ";".join(str(x) for x in b) + "]%N"
src=open('/repo/reader_test.go').read()
rows=re.findall(r'name:\s+"([^"]+)",\s+format:\s+(\w+),\s+dict:\s+(nil|\[\]byte\("[^"]*"\)),\s+compressed:\s+mustDecodeHex\("([0-9a-f]+)"\),\s+decompressed: \[\]byte\("([^"]*)"\)',src)
out=["(** Generated by tools/gentests.py: the test vectors of reader_test.go run through the",
"    reader model.  Tests of the model, not properties; they are checked and then dropped. *)",
"From Verif Require Import Base SpecChecksum SpecHuffman MToken MCommon MWriter MReader.",
"",
"Definition tenv : renv := REnv 8 (fun s => (kraft s <=? 32768)%N) (Some (fun _ => 0%N)) (fun _ d l => N.min d l)",
"  (fun w => forallb (N.eqb 0) w) (fun _ => 2).",
"Definition run (opts : list opt) (src : list (list N * option goerr)) :=",
"  match readThread tenv (newReader src opts) with Ok r => Some (r_result r) | _ => None end.",
"(* one read per chunk of n bytes *)",
"Fixpoint chunks (fuel n : nat) (l : list N) : list (list N * option goerr) :=",
"  match fuel, l with | S f, _ :: _ => (firstn n l, None) :: chunks f n (skipn n l) | _, _ => [] end.",
""]
for i,(name,fmt,dic,comp,dec) in enumerate(rows):
    opts="[WithFormat %s%s]"%(fmt, "" if dic=="nil" else "; WithDictionary (Some %s)"%lst(dic[8:-2].encode()))
    c=lst(bytes.fromhex(comp)); d=lst(dec.encode())
    out.append("(* %s *)"%name)
    out.append("Goal (* reader_vec_%d *) run %s [(%s, None)] = Some (%s, Some EOF).\nProof. vm_compute. reflexivity. Abort."%(i,opts,c,d))
    out.append("Goal (* reader_vec_%d_bytewise *) run %s (chunks 1000 1 %s) = Some (%s, Some EOF).\nProof. vm_compute. reflexivity. Abort."%(i,opts,c,d))
import zlib
txt=open('/repo/testdata/lipsum.txt','rb').read()
for ext in ['gz']:
    b=open('/repo/testdata/lipsum.txt.'+ext,'rb').read()
    out.append("Definition lipsum_%s : list N := %s."%(ext,lst(b)))
def ex(name,fmt,ext):
    out.append("Goal (* %s *) match run [WithFormat %s] (chunks 100 1024 lipsum_%s) with\n  | Some (d, Some EOF) => ((lenN d =? %d) && (spec_crc32 d =? %d))%%N | _ => false end = true.\nProof. vm_compute. reflexivity. Abort."%(name,fmt,ext,len(txt),zlib.crc32(txt)))
ex("big_gz_auto","DefaultFormat","gz")
open('/verif/rocq/theories/TestReader.v','w').write("\n".join(out)+"\n")
print(len(rows))
