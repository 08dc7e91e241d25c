(** The accessors of Writer and Reader. *)
From Verif Require Import Base MCommon MWriter MReader.

(** writer.go:191-200, reader.go:163-172: a copy, or nil when empty *)
Definition acc_dict (o : options) : option (list N) :=
  match o_dict o with Some (b :: d) => Some (b :: d) | _ => None end.
(** What Format, Method, Strategy, CompressLevel, MemoryLevel, WindowBits, Dict
    and Tracers of a Writer report (writer.go:142-213), each passed to the
    option of the same name.  The only Method is DefaultMethod = DeflateMethod. *)
Definition w_reported (w : writer) : list opt :=
  [WithFormat (o_format (w_opt w)); WithMethod; WithStrategy (o_strategy (w_opt w)); WithCompressLevel (o_clevel (w_opt w));
   WithMemoryLevel (o_mlevel (w_opt w)); WithWindowBits (o_wbits (w_opt w)); WithDictionary (acc_dict (w_opt w)); WithTracers (o_tracers (w_opt w))].
(** Format, MemoryLevel, WindowBits, Dict, Tracers of a Reader, reader.go:138-185 *)
Definition r_reported (r : reader) : list opt :=
  [WithFormat (o_format (r_opt r)); WithMemoryLevel (o_mlevel (r_opt r)); WithWindowBits (o_wbits (r_opt r));
   WithDictionary (acc_dict (r_opt r)); WithTracers (o_tracers (r_opt r))].
