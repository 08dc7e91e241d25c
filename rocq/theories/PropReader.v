(** Theorems about the Reader: [decompress env opts src] is what a client that
    reads until it gets an error receives from a Reader created with the
    options [opts] over a source [src] (a list of results of its Read method). *)
From Verif Require Import Base SpecChecksum SpecHuffman SpecDeflate SpecFormats SpecSession SpecEvents MChecksum PChecksum MToken MCommon MWriter MReader SpecReader SpecLib PToken PHuffman PBits PActs PGram PInput POutput PDecode PDynamic PBlockDec PHeader PStream PFooter PThread PLoop PFormat PApi PInst PAccept PRead.

(** A well-behaved source: no read returns (0, nil), and bytes are bytes. *)
Definition good_src (src : source) : Prop := polite_src src /\ bytes_ok (src_bytes src).
(** The configured limit, dictionary and format. *)
Notation limit_of opts := (o_wbits (reffective opts)).
Notation dict_of opts := (o_dict (reffective opts)).
Definition set_to (opts : list opt) (f : sformat) : Prop :=
  o_format (reffective opts) = match f with SRaw => RawFormat | SZlib => ZlibFormat | SGzip => GZIPFormat end /\
  (f = SZlib -> DictVisible (limit_of opts) (dict_of opts)).
Definition valid (opts : list opt) (f : sformat) (bd : list N * list N) : Prop :=
  Acceptable (limit_of opts) (dict_of opts) f (fst bd) (snd bd).

Lemma valid_infos env opts f l : rlib_ok env -> opts_ok opts -> set_to opts f -> Forall (valid opts f) l ->
  exists ss, valid_list env opts f ss /\ map sb ss = map fst l /\ map sd ss = map snd l.
Proof.
  intros HL HO [_ HV] H. destruct (reffective_ok HO) as [HW _]. induction H as [|[b d] l H Hl [ss [I1 [I2 I3]]]]; [exists []; repeat split; constructor|].
  destruct (Acceptable_RSt HL HW HV H) as [h R]. exists (SInfo f b d h :: ss). cbn. rewrite I2, I3. repeat split. constructor; auto.
Qed.

(** ** C27: every valid stream is decoded *)
Theorem C27_reader_accepts_valid_stream :
  forall env opts src f d, rlib_ok env -> opts_ok opts -> good_src src -> set_to opts f ->
    Acceptable (limit_of opts) (dict_of opts) f (src_bytes src) d ->
    decompress env opts src = Ok (d, Some (src_end src)).
Proof.
  intros env opts src f d HL HO [HP HB] HS HA.
  destruct (@valid_infos env opts f [(src_bytes src, d)] HL HO HS) as [ss [V1 [V2 V3]]]; [repeat constructor; auto|]. cbn in V2, V3.
  pose proof (@follow_all env HL opts HO src HP HB f ss (proj1 HS) V1) as F. rewrite V2, V3 in F. cbn [concat] in F. rewrite !app_nil_r in F.
  assert (LS : length ss <= 1) by (apply (f_equal (@length _)) in V2; rewrite map_length in V2; cbn in V2; lia).
  specialize (F eq_refl (or_intror LS)). unfold decompress. destruct (readThread env (newReader src opts)); try contradiction. cbn. destruct F as [-> _]. auto.
Qed.

(** ** C33: concatenated streams are all decoded *)
Theorem C33_reader_concatenation :
  forall env opts src f l, rlib_ok env -> opts_ok opts -> good_src src -> set_to opts f ->
    Forall (valid opts f) l -> src_bytes src = concat (map fst l) -> detached_src src ->
    decompress env opts src = Ok (concat (map snd l), Some (src_end src)).
Proof.
  intros env opts src f l HL HO [HP HB] HS HA EB HD.
  destruct (valid_infos HL HO HS HA) as [ss [V1 [V2 V3]]].
  pose proof (@follow_all env HL opts HO src HP HB f ss (proj1 HS) V1) as F. rewrite V2, V3 in F. specialize (F EB (or_introl HD)).
  unfold decompress. destruct (readThread env (newReader src opts)); try contradiction. cbn. destruct F as [-> _]. auto.
Qed.

(** ** C28: io.EOF only after valid data *)
(** Any format: the input is a sequence of streams, each of a format the Reader
    may have picked, then bytes the source returned together with its EOF. *)
Theorem C28_eof_means_valid :
  forall env opts src d, rlib_ok env -> opts_ok opts -> good_src src -> DictVisible (limit_of opts) (dict_of opts) ->
    decompress env opts src = Ok (d, Some EOF) ->
    src_end src = EOF /\
    exists (l : list (sformat * (list N * list N))) rest,
      src_bytes src = concat (map (fun x => fst (snd x)) l) ++ rest /\ d = concat (map (fun x => snd (snd x)) l) /\
      (detached_src src -> rest = []) /\ (src_bytes src <> [] -> l <> []) /\
      Forall (fun x => Stream (fun _ => LaxBlock env (2 ^ limit_of opts)) (fst x) (dict_of opts) (fst (snd x)) (snd (snd x)) /\
        (o_format (reffective opts) = DefaultFormat \/ o_format (reffective opts) = fmt_of (fst x))) l.
Proof.
  intros env opts src d HL HO [HP HB] HV E. destruct (reffective_ok HO) as [HW _]. pose proof (@dec_facts env HL opts HO src HP HB) as T. rewrite E in T.
  destruct T as [e [ss [rest [[= <-] [S D]]]]]. destruct D as [[D1 [D2 [D3 D4]]]|[_ [f [p [t [z [_ [_ [F _]]]]]]]]]; [|exfalso; eapply eof_not_fail; eauto].
  split; auto. exists (map (fun s => (sf s, (sb s, sd s))) ss), rest. rewrite !map_map. cbn. split; [apply (seq_bytes S)|]. split; auto. split; auto.
  split; [intros NE; specialize (D4 NE); destruct ss; [auto|discriminate]|].
  clear - S HL HW HV. induction S as [|f b d h all ss rest P R S IH]; cbn; constructor; auto. cbn. split.
  - apply Stream_impl with (Bw := fun _ => RB env (reffective opts)); [intros win; apply RB_lax; auto|]. eapply RSt_stream; eauto.
  - destruct (o_format (reffective opts)) eqn:EF; auto; right; symmetry; rewrite <- EF; symmetry; eapply picks_fixed; eauto; congruence.
Qed.
(** When the window rejects references to before the data and the dictionary,
    these are the streams of the RFCs, with incomplete codes allowed. *)
Theorem C28_eof_means_valid_strict :
  forall env opts src d f, rlib_ok env -> e_far env = None -> opts_ok opts -> good_src src -> set_to opts f ->
    decompress env opts src = Ok (d, Some EOF) ->
    exists b rest, src_bytes src = b ++ rest /\ (detached_src src -> rest = []) /\
      Streams (fun _ => Block not_oversubscribed (strict_lk (2 ^ limit_of opts))) f (dict_of opts) b d.
Proof.
  intros env opts src d f HL EF HO [HP HB] [ST HV] E. destruct (reffective_ok HO) as [HW _]. pose proof (@dec_facts env HL opts HO src HP HB) as T. rewrite E in T.
  destruct T as [e [ss [rest [[= <-] [S D]]]]]. destruct D as [[-> [D2 [D3 D4]]]|[_ [f' [p [t [z [_ [_ [F _]]]]]]]]]; [|exfalso; eapply eof_not_fail; eauto].
  exists (concat (map sb ss)), rest. split; [apply (seq_bytes S)|]. split; auto.
  pose proof (@seq_fixed env (reffective opts) (at_src src) f _ _ _ ST S) as Q. clear - Q HL HW HV EF. induction Q as [|x l [Q1 Q2] _ IH]; cbn; constructor; auto.
  apply Stream_impl with (Bw := fun _ => RB env (reffective opts)); [intros win pos h fi w h'; apply RB_strict; auto|]. eapply RSt_stream; eauto.
Qed.

(** ** C29, C30: truncation *)
(** The stream [b] (after complete streams [l]) is cut: its first part [p] is
    followed by the end of the source.  The error is never io.EOF: it is
    io.ErrUnexpectedEOF, respectively the error of the source, or
    CorruptInputError for a code found to be degenerate; and what was delivered
    is a prefix of the true contents. *)
Theorem C29_truncation_detected :
  forall env opts src f l b d p q, rlib_ok env -> opts_ok opts -> good_src src -> set_to opts f ->
    Forall (valid opts f) l -> valid opts f (b, d) -> b = p ++ q -> p <> [] -> q <> [] ->
    src_bytes src = concat (map fst l) ++ p -> detached_src src \/ l = [] ->
    exists data e, decompress env opts src = Ok (data, Some e) /\ e <> EOF /\
      (e = eof_is_error (src_end src) \/ is_corrupt e) /\
      (~ is_corrupt (src_end src) -> exists rest, concat (map snd l) ++ d = data ++ rest).
Proof.
  intros env opts src f l b d p q HL HO [HP HB] HS Hl HA EB NP NQ ES HD.
  destruct (valid_infos HL HO HS Hl) as [ss [V1 [V2 V3]]]. destruct (@valid_infos env opts f [(b, d)] HL HO HS) as [ss2 [W1 [W2 W3]]]; [repeat constructor; auto|].
  destruct ss2 as [|x [|y ss2]]; try discriminate. cbn in W2, W3. inversion W2; inversion W3. inversion W1 as [|? ? [X1 X2] _]. subst x0 l0.
  assert (C : cut_of env opts f p x) by (split; auto; split; auto; exists q; split; auto; congruence).
  assert (HD' : detached_src src \/ ss = []). { destruct HD as [HD| ->]; auto. right. destruct ss; [auto|discriminate]. }
  rewrite <- V2 in ES. destruct (@follow_cut env HL opts HO src HP HB f ss p x (proj1 HS) V1 NP C ES HD') as [data [t [e [E1 [E2 [E3 E4]]]]]].
  exists data, e. split; auto. split; [|split].
  - destruct E3 as [-> |[a [b' [c [-> _]]]]]; [destruct (src_end src); discriminate|discriminate].
  - destruct E3 as [-> |[a [b' [c [-> _]]]]]; [auto|right; red; eauto].
  - intros NC. destruct (E4 NC) as [q' Q]. exists q'. rewrite E2, V3, <- app_assoc. f_equal. congruence.
Qed.

(** ** C31: checksums are enforced *)
Lemma bad_footer env opts src f w body d h tl : rlib_ok env -> opts_ok opts -> good_src src ->
  o_format (reffective opts) = fmt_of f -> Hd env (reffective opts) f w h -> RawStream (RB env (reffective opts)) (opt_dict (reffective opts)) body d ->
  src_bytes src = w ++ body ++ tl -> (forall t, tl <> ftr f d ++ t) -> forall data, decompress env opts src <> Ok (data, Some EOF).
Proof.
  intros HL HO [HP HB] EF HH HR EB NT data E. pose proof (@dec_facts env HL opts HO src HP HB) as T. rewrite E in T.
  destruct T as [e [ss [rest [[= <-] [S D]]]]]. destruct D as [[-> [D2 [D3 D4]]]|[_ [f' [p [t [z [_ [_ [F _]]]]]]]]]; [|exfalso; eapply eof_not_fail; eauto].
  inversion S as [all Q1 Q2 Q3|f' b d' h' all ss' rest' P R S' Q1 Q2 Q3].
  - subst ss. apply D4; auto. rewrite EB. intros K. apply app_eq_nil in K. destruct K as [_ K]. apply app_eq_nil in K. destruct K as [K _]. subst body.
    apply raw_nonempty in HR. auto.
  - assert (f' = f) by (eapply picks_is; eauto). subst f'. destruct R as [w' [body' [R1 [R2 ->]]]]. rewrite EB, <- !app_assoc in Q1.
    assert (EW : w' = w /\ h' = h /\ body' ++ ftr f d' ++ all = body ++ tl). { destruct (Hd_inj R1 HH Q1) as [-> ->]. split; auto. split; auto. apply app_inv_head in Q1. auto. }
    destruct EW as [-> [-> Q4]]. destruct (raw_inj HL R2 HR Q4) as [-> ->]. apply app_inv_head in Q4. eapply NT; eauto.
Qed.
Lemma valid_parts env opts f b d : rlib_ok env -> opts_ok opts -> set_to opts f -> valid opts f (b, d) ->
  exists w h body, Hd env (reffective opts) f w h /\ RawStream (RB env (reffective opts)) (opt_dict (reffective opts)) body d /\ b = w ++ body ++ ftr f d.
Proof. intros HL HO [_ HV] HA. destruct (reffective_ok HO) as [HW _]. destruct (Acceptable_RSt HL HW HV HA) as [h [w [body R]]]. exists w, h, body. auto. Qed.
(** [b] with its footer is valid; with any other footer, whatever follows, the
    Reader does not end with io.EOF. *)
Theorem C31_zlib_checksum_enforced :
  forall env opts src b d footer tail, rlib_ok env -> opts_ok opts -> good_src src -> set_to opts SZlib ->
    valid opts SZlib (b ++ be32 (spec_adler32 d), d) ->
    length footer = 4 -> footer <> be32 (spec_adler32 d) -> src_bytes src = b ++ footer ++ tail ->
    forall data, decompress env opts src <> Ok (data, Some EOF).
Proof.
  intros env opts src b d footer tail HL HO HG HS HA LF NF EB. destruct (valid_parts HL HO HS HA) as [w [h [body [P1 [P2 P3]]]]]. cbn [ftr] in P3.
  rewrite app_assoc in P3. apply app_inv_tail in P3. subst b. rewrite <- app_assoc in EB. eapply bad_footer; eauto. apply HS.
  intros t K. cbn [ftr] in K. apply app_inj_length in K; [|rewrite LF; reflexivity]. destruct K. auto.
Qed.
Theorem C31_gzip_checksum_enforced :
  forall env opts src b d footer tail, rlib_ok env -> opts_ok opts -> good_src src -> set_to opts SGzip ->
    valid opts SGzip (b ++ le32 (spec_crc32 d) ++ le32 (lenN d mod two32)%N, d) ->
    length footer = 8 -> footer <> le32 (spec_crc32 d) ++ le32 (lenN d mod two32)%N -> src_bytes src = b ++ footer ++ tail ->
    forall data, decompress env opts src <> Ok (data, Some EOF).
Proof.
  intros env opts src b d footer tail HL HO HG HS HA LF NF EB. destruct (valid_parts HL HO HS HA) as [w [h [body [P1 [P2 P3]]]]]. cbn [ftr] in P3.
  rewrite (app_assoc w) in P3. apply app_inv_tail in P3. subst b. rewrite <- app_assoc in EB. eapply bad_footer; eauto. apply HS.
  intros t K. cbn [ftr] in K. apply app_inj_length in K; [|rewrite LF; reflexivity]. destruct K. auto.
Qed.

(** ** C34, C38: termination, and panics *)
(** Decompression always ends, with an error value (io.EOF or other), or by the
    one panic described next. *)
Theorem C38_reader_terminates :
  forall env opts src, rlib_ok env -> opts_ok opts -> good_src src ->
    match decompress env opts src with
    | Ok (d, oe) => exists e, oe = Some e
    | Panic c => c = PBounds
    | NoFuel => False
    end.
Proof.
  intros env opts src HL HO [HP HB]. pose proof (@dec_facts env HL opts HO src HP HB) as T. destruct (decompress env opts src) as [[d oe]|c|]; auto.
  - destruct T as [e [ss [rest [-> _]]]]. eauto.
  - destruct T as [[pre [rest [_ [_ [h [p [b [_ [_ [_ [_ [_ [_ [_ K]]]]]]]]]]]]]] _]. unfold extra_parse in K. eapply xparse_panic; eauto.
Qed.
Lemma seq_raw_zlib env opts Pk f rest : (set_to opts SRaw \/ set_to opts SZlib) -> picks env (reffective opts) Pk f rest -> f <> SGzip.
Proof. intros [[H _]|[H _]] P ->; [pose proof (@picks_is env (reffective opts) Pk SRaw SGzip rest H P)|pose proof (@picks_is env (reffective opts) Pk SZlib SGzip rest H P)]; discriminate. Qed.
Theorem C34_reader_no_panic_raw_zlib :
  forall env opts src, rlib_ok env -> opts_ok opts -> good_src src -> set_to opts SRaw \/ set_to opts SZlib ->
    exists d e, decompress env opts src = Ok (d, Some e).
Proof.
  intros env opts src HL HO [HP HB] HS. pose proof (@dec_facts env HL opts HO src HP HB) as T. destruct (decompress env opts src) as [[d oe]|c|]; [| |contradiction].
  - destruct T as [e [ss [rest [-> _]]]]. eauto.
  - exfalso. destruct T as [[pre [rest [_ [P _]]]] _]. eapply seq_raw_zlib in P; eauto.
Qed.
(** An extra field whose last subfield is cut short. *)
Definition BadExtra (p : list N) : Prop :=
  exists recs id0 id1 n t, p = extra_enc recs ++ [id0; id1] ++ le16 n ++ t /\ (n < 65536)%N /\ (lenN t < n)%N /\
    Forall (fun r => (lenN (x_bytes r) < 65536)%N) recs.
(** A gzip header (10 bytes, of which byte 3 has the flag FEXTRA) followed by
    such an extra field. *)
Definition BadGzip (b : list N) : Prop :=
  exists h p t, b = h ++ le16 (lenN p) ++ p ++ t /\ length h = 10 /\ nth 0 h 0%N = 0x1f%N /\ nth 1 h 0%N = 0x8b%N /\
    N.testbit (nth 3 h 0%N) 2 = true /\ (lenN p < 65536)%N /\ BadExtra p.
Lemma xparse_bad f : forall raw c, bytes_ok raw -> length raw < f -> (xparse f raw = Panic c <-> c = PBounds /\ BadExtra raw).
Proof.
  induction f as [|f IH]; intros raw c HB L; [lia|]. cbn [xparse].
  assert (SHORT : length raw < 4 -> ~ BadExtra raw).
  { intros LS [recs [i0 [i1 [n [t [-> _]]]]]]. rewrite !app_length in LS. change (length (le16 n)) with 2 in LS. cbn in LS. lia. }
  destruct raw as [|a [|b [|x [|y t]]]]; try (split; [discriminate|intros [_ K]; exfalso; revert K; apply SHORT; cbn; lia]). clear SHORT.
  assert (BB : is_byte a /\ is_byte b /\ is_byte x /\ is_byte y /\ bytes_ok t) by (unfold bytes_ok in *; repeat match goal with Q : Forall _ (_ :: _) |- _ => inversion Q; clear Q; subst end; auto).
  destruct BB as [Ba [Bb [Bx [By Bt]]]]. set (n := unle16 [x; y]).
  assert (Hn : (n < 65536)%N) by (unfold n, unle16, nthN, is_byte in *; cbn [nth]; lia). assert (EN : le16 n = [x; y]) by (apply le16_unle16; [repeat constructor; auto|reflexivity]).
  clearbody n. assert (ER : a :: b :: x :: y :: t = a :: b :: le16 n ++ t) by (rewrite EN; auto). rewrite ER.
  assert (INV : forall recs i0 i1 m u, a :: b :: le16 n ++ t = extra_enc recs ++ [i0; i1] ++ le16 m ++ u -> (m < 65536)%N -> Forall (fun r => (lenN (x_bytes r) < 65536)%N) recs ->
     (recs = [] /\ n = m /\ t = u) \/ exists r l, recs = r :: l /\ n = lenN (x_bytes r) /\ t = x_bytes r ++ extra_enc l ++ [i0; i1] ++ le16 m ++ u).
  { intros recs i0 i1 m u E Hm HF. destruct recs as [|r l].
    - left. cbn [extra_enc flat_map app] in E. apply (f_equal (skipn 2)) in E; cbn [skipn] in E. apply app_inj_length in E; [|reflexivity]. destruct E as [E1 E2]. apply le16_inj in E1; auto.
    - right. exists r, l. split; auto. inversion HF; subst. rewrite extra_enc_cons in E. cbn [app] in E. apply (f_equal (skipn 2)) in E; cbn [skipn] in E. rewrite <- !app_assoc in E. apply app_inj_length in E; [|reflexivity]. destruct E as [E1 E2]. apply le16_inj in E1; auto. }
  destruct (Nat.leb_spec (N.to_nat n) (length t)) as [LT|LT].
  - set (t1 := firstn (N.to_nat n) t). set (t2 := skipn (N.to_nat n) t). assert (ET : t = t1 ++ t2) by (symmetry; apply firstn_skipn). assert (L1 : lenN t1 = n) by (unfold lenN, t1; rewrite firstn_length; lia).
    assert (B2 : bytes_ok t2) by (rewrite ET in Bt; apply bytes_ok_app in Bt; tauto). assert (L2 : length t2 < f) by (cbn in L; unfold t2; rewrite skipn_length; lia). specialize (IH t2 c B2 L2). clearbody t1 t2. subst t.
    assert (EQ : BadExtra (a :: b :: le16 n ++ t1 ++ t2) <-> BadExtra t2).
    { split.
      - intros [recs [i0 [i1 [m [u [E [Hm [Hu HF]]]]]]]]. destruct (INV _ _ _ _ _ E Hm HF) as [[-> [-> E2]]|[r [l [-> [En E2]]]]].
        + exfalso. subst u. unfold lenN in *. rewrite app_length in *. lia.
        + inversion HF; subst. apply app_inj_length in E2; [|apply lenN_len; congruence]. destruct E2 as [_ E2]. exists l, i0, i1, m, u. auto.
      - intros [recs [i0 [i1 [m [u [-> [Hm [Hu HF]]]]]]]]. exists (XRecord a b t1 :: recs), i0, i1, m, u. rewrite extra_enc_cons. cbn [x_id0 x_id1 x_bytes app]. rewrite L1, <- !app_assoc. split; auto. split; auto. split; auto. constructor; auto. cbn. rewrite L1. auto. }
    rewrite EQ, <- IH. destruct (xparse f t2); cbn [rbind]; split; intros K; try discriminate; auto.
  - split; [intros [= <-]|intros [-> _]; auto]. split; auto. exists [], a, b, n, t. cbn [extra_enc flat_map app]. split; auto. split; auto. split; [unfold lenN; lia|constructor].
Qed.
Theorem C34_reader_panic_only_bad_extra :
  forall env opts src c, rlib_ok env -> opts_ok opts -> good_src src -> decompress env opts src = Panic c ->
    c = PBounds /\ exists pre b, src_bytes src = pre ++ b /\ BadGzip b.
Proof.
  intros env opts src c HL HO [HP HB] E. pose proof (@dec_facts env HL opts HO src HP HB) as T. rewrite E in T.
  destruct T as [[pre [rest [EB [_ [h [p [b [ER [L [M1 [M2 [F [LP [BP K]]]]]]]]]]]]]] _]. unfold extra_parse in K. apply xparse_bad in K; auto. destruct K as [-> K]. split; auto.
  exists pre, rest. split; auto. exists h, p, b. auto 10.
Qed.
