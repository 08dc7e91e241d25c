(** Tests (not properties): runs of the Writer model, read back with the Reader model. *)
From Verif Require Import Base SpecHuffman MToken MCommon MWriter MReader Demo.

Inductive call := W (p : list N) | F (t : flushtype).
Fixpoint calls (l : list call) (w : writer) : res writer :=
  match l with
  | [] => Ok w
  | W p :: r => let* (w, _) := w_Write demo_wenv w p in calls r w
  | F t :: r => let* (w, _) := w_Flush demo_wenv w t in calls r w
  end.
Definition compress (o : list opt) (l : list call) : res (list N) :=
  let* w := calls l (newWriter o) in
  let* (w, _) := w_Close demo_wenv w in Ok (sink (w_out w)).
Definition data_of (l : list call) : list N := flat_map (fun c => match c with W p => p | _ => [] end) l.
Definition roundtrip (o ro : list opt) (l : list call) : bool :=
  match compress o l with
  | Ok b => match readThread demo_renv (newReader [(b, None)] ro) with
            | Ok r => match r_result r with
                      | (d, Some EOF) => if list_eq_dec N.eq_dec d (data_of l) then true else false
                      | _ => false end
            | _ => false end
  | _ => false
  end.

Definition txt : list N := [104;101;108;108;111;32;119;111;114;108;100;32;104;101;108;108;111;32;119;111;114;108;100;33]%N.
Definition noise : list N := map (fun i => (N.of_nat i * N.of_nat i * 7 + 13) mod 251)%N (seq 0 300).
Definition script : list call :=
  [W txt; F SyncFlush; W (repeat 7%N 300); F BlockFlush; W noise; F PartialFlush; W txt; F FullFlush; W txt; F SyncFlush].
Definition fmts := [RawFormat; ZlibFormat; GZIPFormat].
Definition strats := [DefaultStrategy; HuffmanOnlyStrategy; HuffmanRLEStrategy; FixedStrategy].

Goal (* roundtrips *) forallb (fun f => forallb (fun s => forallb (fun c =>
    roundtrip [WithFormat f; WithStrategy s; WithCompressLevel c; WithMemoryLevel 1] [WithFormat f] script)
    [0; 6]%Z) strats) fmts = true.
Proof. vm_compute. reflexivity. Abort.
Goal (* roundtrip_dict *) forallb (fun f =>
    roundtrip [WithFormat f; WithDictionary (Some txt); WithMemoryLevel 1] [WithFormat f; WithDictionary (Some txt)] script)
    fmts = true.
Proof. vm_compute. reflexivity. Abort.
Goal (* roundtrip_auto *) forallb (fun f => roundtrip [WithFormat f] [] script) fmts = true.
Proof. vm_compute. reflexivity. Abort.
Goal (* roundtrip_empty *) forallb (fun f => roundtrip [WithFormat f] [] []) fmts = true.
Proof. vm_compute. reflexivity. Abort.
