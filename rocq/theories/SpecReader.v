(** Independent specification of the inputs of a Reader and of what it has to
    accept. *)
From Verif Require Import Base SpecChecksum SpecHuffman SpecDeflate SpecFormats MCommon SpecSession.

(** ** What a source delivers: bytes up to its first error, and that error. *)
Definition source := list (list N * option goerr).
Fixpoint src_bytes (s : source) : list N :=
  match s with [] => [] | (p, None) :: r => p ++ src_bytes r | (p, Some _) :: _ => p end.
Fixpoint src_end (s : source) : goerr :=
  match s with [] => EOF | (_, None) :: r => src_end r | (_, Some e) :: _ => e end.
(** No (0, nil) results. *)
Fixpoint polite_src (s : source) : Prop :=
  match s with [] => True | (p, None) :: r => p <> [] /\ polite_src r | (_, Some _) :: _ => True end.
(** The final error comes alone. *)
Fixpoint detached_src (s : source) : Prop :=
  match s with [] => True | (_, None) :: r => detached_src r | (p, Some _) :: _ => p = [] end.
(** Where the source's Read calls begin and end: how many bytes are still to come. *)
Fixpoint src_cuts (s : source) : list nat :=
  length (src_bytes s) :: match s with [] => [] | (_, None) :: r => src_cuts r | (_, Some _) :: _ => [0] end.


(** ** Streams a Reader has to accept.  [limit]: WithWindowBits (default 15);
    [dict]: WithDictionary. *)
(** An extra field is a sequence of subfields (RFC 1952, section 2.3.1.1). *)
Definition ExtraField (p : list N) : Prop :=
  exists recs, Forall (fun r => is_byte (x_id0 r) /\ is_byte (x_id1 r) /\ bytes_ok (x_bytes r) /\ (lenN (x_bytes r) < 65536)%N) recs /\ p = extra_enc recs.
Definition Acceptable (limit : N) (dict : option (list N)) (f : sformat) (b d : list N) : Prop :=
  match f with
  | SRaw => RawStream (StrictBlock (2 ^ limit)) (dict_bytes dict) b d
  | SZlib => ZlibStream (fun w => StrictBlock w) dict b d /\
      exists cmf t, b = cmf :: t /\ (cmf / 16 + 8 <= limit)%N            (* declared window *)
  | SGzip => exists g, GzipStream (fun _ => StrictBlock (2 ^ limit)) dict g b d /\
      forall x, gz_extra g = Some x -> ExtraField x
  end.
(** A zlib Reader cannot tell a dictionary whose visible part is all zeros from none. *)
Definition DictVisible (limit : N) (dict : option (list N)) : Prop :=
  match dict with
  | None => True
  | Some d => exists x, In x (firstn (N.to_nat (2 ^ limit)) (rev d)) /\ x <> 0%N
  end.
