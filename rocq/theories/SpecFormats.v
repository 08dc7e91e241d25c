(** Independent specification of the zlib (RFC 1950) and gzip (RFC 1952)
    containers.  [Bw win] is the notion of block for a window of [win] bytes. *)
From Verif Require Import Base SpecChecksum SpecHuffman SpecDeflate.

Definition dict_bytes (dict : option (list N)) : list N :=
  match dict with Some d => d | None => [] end.

(** ** RFC 1950 section 2.2 *)
Definition ZlibStream (Bw : N -> blockpred)
    (dict : option (list N)) (bytes data : list N) : Prop :=
  exists cmf flg dictid body,
    is_byte cmf /\ is_byte flg /\
    (cmf mod 16 = 8)%N /\                                   (* CM: deflate *)
    (cmf / 16 <= 7)%N /\                                    (* CINFO: window size 2^(CINFO+8) *)
    ((cmf * 256 + flg) mod 31 = 0)%N /\                     (* FCHECK *)
    match dict with                                         (* FDICT and DICTID *)
    | Some d => N.testbit flg 5 = true /\ dictid = be32 (spec_adler32 d)
    | None => N.testbit flg 5 = false /\ dictid = []
    end /\
    RawStream (Bw (2 ^ (cmf / 16 + 8))%N) (dict_bytes dict) body data /\
    bytes = [cmf; flg] ++ dictid ++ body ++ be32 (spec_adler32 data).

(** ** RFC 1952 section 2.3 *)
Record gzip_fields := GzipFields {
  gz_text : bool;                       (* FTEXT *)
  gz_hcrc : bool;                       (* FHCRC *)
  gz_extra : option (list N);           (* FEXTRA: the subfields, XLEN bytes *)
  gz_name : option (list N);            (* FNAME: zero terminated *)
  gz_comment : option (list N);         (* FCOMMENT: zero terminated *)
  gz_mtime : N;                         (* MTIME, 0 = none *)
  gz_xfl : N;
  gz_os : N }.

Definition bit_if (b : bool) (v : N) : N := if b then v else 0%N.
Definition is_some {A} (o : option A) : bool := match o with Some _ => true | None => false end.

Definition gzip_flags (h : gzip_fields) : N :=
  (bit_if (gz_text h) 1 + bit_if (gz_hcrc h) 2 + bit_if (is_some (gz_extra h)) 4
   + bit_if (is_some (gz_name h)) 8 + bit_if (is_some (gz_comment h)) 16)%N.

Definition zstring (o : option (list N)) : list N :=
  match o with Some s => s ++ [0%N] | None => [] end.

Definition gzip_fields_ok (h : gzip_fields) : Prop :=
  (gz_mtime h < two32)%N /\ is_byte (gz_xfl h) /\ is_byte (gz_os h) /\
  match gz_extra h with Some x => bytes_ok x /\ (lenN x < two16)%N | None => True end /\
  match gz_name h with Some s => bytes_ok s /\ ~ In 0%N s | None => True end /\
  match gz_comment h with Some s => bytes_ok s /\ ~ In 0%N s | None => True end.

Definition gzip_header_nocrc (h : gzip_fields) : list N :=
  [0x1f; 0x8b; 8; gzip_flags h]%N ++ le32 (gz_mtime h) ++ [gz_xfl h; gz_os h]
  ++ match gz_extra h with Some x => le16 (lenN x) ++ x | None => [] end
  ++ zstring (gz_name h) ++ zstring (gz_comment h).

Definition gzip_header (h : gzip_fields) : list N :=
  gzip_header_nocrc h
  ++ (if gz_hcrc h then le16 (spec_crc32 (gzip_header_nocrc h) mod two16)%N else []).

Definition GzipStream (Bw : N -> blockpred)
    (dict : option (list N)) (h : gzip_fields) (bytes data : list N) : Prop :=
  gzip_fields_ok h /\
  exists body, RawStream (Bw 32768%N) (dict_bytes dict) body data /\
    bytes = gzip_header h ++ body ++ le32 (spec_crc32 data) ++ le32 (lenN data mod two32)%N.

(** ** One stream of a given format, and sequences of streams. *)
Inductive sformat := SRaw | SZlib | SGzip.

Definition Stream Bw (f : sformat) dict (bytes data : list N) : Prop :=
  match f with
  | SRaw => RawStream (Bw 32768%N) (dict_bytes dict) bytes data
  | SZlib => ZlibStream Bw dict bytes data
  | SGzip => exists h, GzipStream Bw dict h bytes data
  end.

Inductive Streams Bw (f : sformat) dict : list N -> list N -> Prop :=
| streams_nil : Streams Bw f dict [] []
| streams_cons b d bs ds :
    Stream Bw f dict b d -> Streams Bw f dict bs ds ->
    Streams Bw f dict (b ++ bs) (d ++ ds).
