(** Independent specification (C83): the events of whole streams. *)
From Verif Require Import Base SpecChecksum SpecHuffman SpecDeflate SpecFormats SpecReader MCommon SpecBlocks.

(** ** Whole sessions *)
(** One stream: its bytes (header, DEFLATE data, footer), its contents, and what was reported about it. *)
Record traced := Traced {
  tr_head : list N; tr_body : list N; tr_foot : list N; tr_data : list N; tr_hdr : header; tr_blocks : list pre_event }.
Definition tr_bytes (t : traced) : list N := tr_head t ++ tr_body t ++ tr_foot t.
Definition tr_events (t : traced) : list pre_event :=
  ev_simple StreamBeginEvent :: ev_header (tr_hdr t) :: tr_blocks t
  ++ [ev_footer (spec_adler32 (tr_data t)) (spec_crc32 (tr_data t)); ev_simple StreamCloseEvent].
(** An event without the header it carries. *)
Definition bare (e : pre_event) : pre_event := PreEvent (p_type e) None (p_block e) (p_trees e) (p_footer e).

(** The bytes before the DEFLATE data, resp. after it, of a stream of the format [f] that a Reader has to accept
    ([limit]: WithWindowBits; [dict]: WithDictionary; [extra]: what an extra field may be). *)
Definition HeadOf (extra : list N -> Prop) (limit : N) (dict : option (list N)) (f : sformat) (hd : list N) : Prop :=
  match f with
  | SRaw => hd = []
  | SZlib => exists cmf flg di, is_byte cmf /\ is_byte flg /\ (cmf mod 16 = 8)%N /\ (cmf / 16 + 8 <= limit)%N /\ ((cmf * 256 + flg) mod 31 = 0)%N /\
      match dict with
      | Some d => N.testbit flg 5 = true /\ di = be32 (spec_adler32 d)
      | None => N.testbit flg 5 = false /\ di = []
      end /\ hd = [cmf; flg] ++ di
  | SGzip => exists g, gzip_fields_ok g /\ (forall x, gz_extra g = Some x -> extra x) /\ hd = gzip_header g
  end.
Definition FootOf (f : sformat) (d : list N) : list N :=
  match f with SRaw => [] | SZlib => be32 (spec_adler32 d) | SGzip => le32 (spec_crc32 d) ++ le32 (lenN d mod two32)%N end.
