(** How much a compressed stream may cost (C57): RFC 1950/1952 sizes of headers
    and footers, and counting what a Tracer is told.  Nothing here mentions how
    the Writer works. *)
From Verif Require Import Base MCommon SpecSession.

(** Size in bytes of the header: RFC 1950 2.2 (two bytes, and the dictionary's
    Adler-32 if there is a dictionary), RFC 1952 2.3 (ten bytes, the optional
    fields, and the 16-bit header CRC). *)
Definition field_size (l : list N) : N := match l with [] => 0 | _ => lenN l + 1 end%N.
Definition extra_size (l : list xrecord) : N :=
  match l with [] => 0 | _ => 2 + fold_right (fun r n => 4 + lenN (x_bytes r) + n) 0 l end%N.
Definition header_size (o : options) (h : header) : N :=
  match o_format o with
  | ZlibFormat => match o_dict o with Some _ => 6 | None => 2 end
  | GZIPFormat => 12 + extra_size (h_extra h) + field_size (h_name h) + field_size (h_comment h)
  | _ => 0
  end%N.
(** Size in bytes of the footer: RFC 1950 Adler-32; RFC 1952 CRC-32 and ISIZE. *)
Definition footer_size (o : options) : N :=
  match o_format o with ZlibFormat => 4 | GZIPFormat => 8 | _ => 0 end%N.

(** What the Tracer was told. *)
Definition blocks_reported (evs : list event) : N :=
  lenN (filter (fun e => match e_type e with BlockBeginEvent => true | _ => false end) evs).
Definition footers_reported (evs : list event) : N :=
  lenN (filter (fun e => match e_type e with StreamEndEvent => true | _ => false end) evs).
Definition headers_reported (evs : list event) : list header :=
  flat_map (fun e => match e_header e with Some h => [h] | None => [] end) evs.
Definition sum (l : list N) : N := fold_right N.add 0%N l.

(** Calls of Flush, and those that end a stream. *)
Definition flushes (ops : list wop) : N := lenN (filter (fun o => match o with OFlush _ => true | _ => false end) ops).
Definition finishes (ops : list wop) : N := lenN (filter (fun o => match o with OFlush FinishFlush => true | _ => false end) ops).
(** How much data the Writer collects before it emits a block by itself:
    60 KiB (stored) or 4 KiB (compressed), or its whole buffer if that is less. *)
Definition block_size (o : options) : N :=
  N.min (if (o_clevel o =? 0)%Z then 61440 else 4096) (2 ^ (o_mlevel o + 8)).
