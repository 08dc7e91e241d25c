(** Independent specification of a Writer session: which streams a sequence of
    Write / Flush / SetHeader calls asks for, and what each stream has to be. *)
From Verif Require Import Base SpecChecksum SpecHuffman SpecDeflate SpecFormats MCommon.

(** ** Calls made on a Writer between creation and Close *)
Inductive wop :=
| OWrite (p : list N)
| OFlush (ft : flushtype)
| OSetHeader (h : header).

(** ** Headers which a gzip member can carry (documented at Writer.SetHeader) *)
Definition extra_enc (recs : list xrecord) : list N :=
  flat_map (fun r => [x_id0 r; x_id1 r] ++ le16 (lenN (x_bytes r)) ++ x_bytes r) recs.
Definition Representable (h : header) : Prop :=
  (lenN (h_name h) < 256)%N /\ ~ In 0%N (h_name h) /\ ~ In 0x2f%N (h_name h) /\ ~ In 0x5c%N (h_name h) /\
  (lenN (h_comment h) < 256)%N /\ ~ In 0%N (h_comment h) /\
  match h_mtime h with None => True | Some s => (0 <= s < 4294967295)%Z end /\
  (h_os h <= 14)%N /\
  Forall (fun r => (4 + lenN (x_bytes r) <= 65535)%N) (h_extra h) /\
  (lenN (extra_enc (h_extra h)) <= 65535)%N.

(** ** The streams asked for *)
Record asession := ASession {
  a_done : list (header * list N);   (* finished streams: header in force, data *)
  a_cur : list N;                    (* data of the stream being written *)
  a_hdr : header;                    (* header in force *)
  a_curh : header }.                 (* header in force when that stream began *)

Definition a_init : asession := ASession [] [] header0 header0.
(** The first non-empty Write begins a stream. *)
Definition a_write (a : asession) (p : list N) : asession :=
  match p, a_cur a with
  | [], _ => a
  | _, [] => ASession (a_done a) p (a_hdr a) (a_hdr a)
  | _, c => ASession (a_done a) (c ++ p) (a_hdr a) (a_curh a)
  end.
(** FinishFlush (and Close) end it; with nothing written at all there is one
    empty stream. *)
Definition a_finish (a : asession) : asession :=
  match a_cur a, a_done a with
  | [], [] => ASession [(a_hdr a, [])] [] (a_hdr a) (a_curh a)
  | [], _ => a
  | c, dn => ASession (dn ++ [(a_curh a, c)]) [] (a_hdr a) (a_curh a)
  end.
Definition a_flush (a : asession) (ft : flushtype) : asession :=
  match ft with FinishFlush => a_finish a | _ => a end.
Definition a_set (a : asession) (h : header) : asession :=
  ASession (a_done a) (a_cur a) h (a_curh a).

Inductive astep : asession -> wop -> asession -> Prop :=
| as_write a p : astep a (OWrite p) (a_write a p)
| as_flush a ft : astep a (OFlush ft) (a_flush a ft)
| as_set a h : Representable h -> astep a (OSetHeader h) (a_set a h)
| as_set_bad a h : ~ Representable h -> astep a (OSetHeader h) a.
Inductive asteps : asession -> list wop -> asession -> Prop :=
| ass_nil a : asteps a [] a
| ass_cons a op a1 ops a2 : astep a op a1 -> asteps a1 ops a2 -> asteps a (op :: ops) a2.

(** All the data of a sequence of calls, in order. *)
Definition op_data (op : wop) : list N := match op with OWrite p => p | _ => [] end.
Definition ops_data (ops : list wop) : list N := flat_map op_data ops.
Definition a_data (a : asession) : list N := concat (map snd (a_done a)) ++ a_cur a.

Lemma astep_data a op a' : astep a op a' -> a_data a' = a_data a ++ op_data op.
Proof.
  intros H. inversion H; subst; cbn [op_data]; rewrite ?app_nil_r; auto; unfold a_data.
  - unfold a_write. destruct p as [|x p]; [now rewrite app_nil_r|].
    destruct (a_cur a) eqn:E; cbn [a_done a_cur]; rewrite ?app_nil_r; auto. now rewrite !app_assoc.
  - unfold a_flush, a_finish. destruct ft; auto. destruct (a_cur a) eqn:E; cbn [a_done a_cur].
    + destruct (a_done a) eqn:E2; cbn; auto. rewrite E, E2. reflexivity.
    + rewrite map_app, concat_app. cbn. now rewrite !app_nil_r.
Qed.
Lemma asteps_data a ops a' : asteps a ops a' -> a_data a' = a_data a ++ ops_data ops.
Proof.
  induction 1 as [|a op a1 ops a2 H1 H2 IH]; [cbn; now rewrite app_nil_r|].
  rewrite IH, (astep_data H1). unfold ops_data. cbn [flat_map]. now rewrite app_assoc.
Qed.

(** ** What one stream has to be *)
(** RFC 1952 fields for a header: absent when empty; OS code 3 (Unix) if unknown. *)
Definition some_if (l : list N) : option (list N) := match l with [] => None | _ => Some l end.
(** XFL: 4 = fastest, 2 = best compression. *)
Definition xfl_for (o : options) : N :=
  match o_strategy o with
  | HuffmanOnlyStrategy | HuffmanRLEStrategy => 4
  | _ => if (o_clevel o <? 2)%Z then 4 else if (o_clevel o =? 9)%Z then 2 else 0
  end%N.
Definition GzipFieldsFor (o : options) (h : header) (g : gzip_fields) : Prop :=
  gz_name g = some_if (h_name h) /\ gz_comment g = some_if (h_comment h) /\
  gz_extra g = some_if (extra_enc (h_extra h)) /\
  gz_mtime g = match h_mtime h with None => 0%N | Some s => Z.to_N s end /\
  gz_os g = (if (h_os h =? 0)%N then 3 else h_os h - 1)%N /\
  gz_hcrc g = true /\
  (h_datatype h = TextData -> gz_text g = true) /\ (h_datatype h = BinaryData -> gz_text g = false) /\
  gz_xfl g = xfl_for o.

(** A stream of a Writer with effective options [o] for header [h] and data [d]. *)
Definition WriterStream (Bw : N -> blockpred) (o : options) (h : header) (b d : list N) : Prop :=
  match o_format o with
  | RawFormat => RawStream (Bw (2 ^ o_wbits o)%N) (dict_bytes (o_dict o)) b d
  | ZlibFormat => ZlibStream Bw (o_dict o) b d /\
      nth_error b 0 = Some (8 + 16 * (o_wbits o - 8))%N             (* the window size declared *)
  | GZIPFormat => exists g, GzipFieldsFor o h g /\ GzipStream (fun _ => Bw (2 ^ o_wbits o)%N) (o_dict o) g b d
  | DefaultFormat => False
  end.

(** ** The parts of a stream: header, DEFLATE data, footer *)
Definition StreamHeader (o : options) (h : header) (hb : list N) : Prop :=
  match o_format o with
  | RawFormat => hb = []
  | ZlibFormat => exists cmf flg,
      hb = [cmf; flg] ++ match o_dict o with Some d => be32 (spec_adler32 d) | None => [] end /\
      cmf = (8 + 16 * (o_wbits o - 8))%N /\                       (* CM = 8, CINFO = wbits - 8 *)
      is_byte flg /\ ((cmf * 256 + flg) mod 31 = 0)%N /\          (* FCHECK *)
      N.testbit flg 5 = is_some (o_dict o)                        (* FDICT *)
  | GZIPFormat => exists g, GzipFieldsFor o h g /\ gzip_fields_ok g /\ hb = gzip_header g
  | DefaultFormat => False
  end.
Definition stream_footer (o : options) (d : list N) : list N :=
  match o_format o with
  | ZlibFormat => be32 (spec_adler32 d)
  | GZIPFormat => le32 (spec_crc32 d) ++ le32 (lenN d mod two32)%N
  | _ => []
  end.

(** ** A stream which is not finished yet: complete (non-final) blocks only.
    [bits] are all the bits of the DEFLATE data so far. *)
Definition OpenData (B : blockpred) (o : options) (bits : list bool) (d : list N) : Prop :=
  Blocks B 0 (rev (dict_bytes (o_dict o))) bits (rev d ++ rev (dict_bytes (o_dict o))).

(** The bytes [s] delivered so far hold all the data of session [a]: finished
    streams, and of an unfinished one the header and whole bytes of complete
    blocks. *)
Definition GoodStreams (o : options) (l : list (header * list N)) (bs : list (list N)) : Prop :=
  Forall2 (fun hd b => WriterStream StrictBlock o (fst hd) b (snd hd)) l bs.
Definition Flushed (o : options) (a : asession) (s : list N) : Prop :=
  exists bs tail, s = concat bs ++ tail /\ GoodStreams o (a_done a) bs /\
   ((a_cur a = [] /\ tail = []) \/
    (a_cur a <> [] /\ exists hb body, tail = hb ++ body /\ StreamHeader o (a_curh a) hb /\
       OpenData (StrictBlock (2 ^ o_wbits o)) o (bits_of_bytes body) (a_cur a))).
