(** The Writer and the Reader together. *)
From Verif Require Import Base SpecChecksum SpecHuffman SpecDeflate SpecFormats SpecSession SpecEvents MChecksum PChecksum MToken MCommon MWriter MReader MSession SpecReader SpecLib PToken PHuffman PBits PActs PGram PInput POutput PDecode PDynamic PBlockDec PHeader PStream PFooter PThread PLoop PCompress PWriter PSession PInv PFormat PApi PInst PAccept PRead PropWriter PropReader Demo PDemo.

(** ** The headers of a session can be represented *)
Lemma header0_rep : Representable header0.
Proof. unfold Representable, header0; cbn. assert ((0 < 256)%N) by lia. assert ((0 <= 14)%N) by lia. assert ((0 <= 65535)%N) by lia. do 9 (split; [solve [auto]|]). auto. Qed.
Definition a_rep (a : asession) : Prop := Forall (fun hd => Representable (fst hd)) (a_done a) /\ Representable (a_hdr a) /\ Representable (a_curh a).
Lemma astep_rep a op a' : astep a op a' -> a_rep a -> a_rep a'.
Proof.
  intros H [R1 [R2 R3]]. destruct H as [a p|a ft|a h Hh|a h Hh]; unfold a_rep in *; auto.
  - unfold a_write. destruct p; auto. destruct (a_cur a); auto.
  - destruct ft; auto. cbn [a_flush]. unfold a_finish. destruct (a_cur a); [destruct (a_done a) eqn:E|]; cbn; auto; [rewrite E; auto|].
    split; auto. apply Forall_app. split; auto.
Qed.
Lemma asteps_rep a ops a' : asteps a ops a' -> a_rep a -> a_rep a'.
Proof. induction 1; auto. intros. apply IHasteps. eapply astep_rep; eauto. Qed.
Lemma finish_rep a : a_rep a -> a_rep (a_finish a).
Proof.
  intros [R1 [R2 R3]]. unfold a_rep, a_finish. destruct (a_cur a); [destruct (a_done a) eqn:E|]; cbn; auto; [rewrite E; auto|].
  split; auto. apply Forall_app. split; auto.
Qed.
Lemma session_rep ops a : asteps a_init ops a -> Forall (fun hd => Representable (fst hd)) (a_done (a_finish a)).
Proof. intros H. apply finish_rep. eapply asteps_rep; eauto. split; [constructor|split; apply header0_rep]. Qed.

(** ** Streams of the Writer are acceptable to the Reader *)
Lemma strict_weak w w' : (w <= w')%N -> forall pos h f b h', StrictBlock w pos h f b h' -> StrictBlock w' pos h f b h'.
Proof. intros H pos h f b h'. apply strict_mono. auto. Qed.
Lemma zlib_bytes Bw dict b d : ZlibStream Bw dict b d -> bytes_ok b.
Proof.
  intros [cmf [flg [di [body [A1 [A2 [_ [_ [_ [A6 [[A7 _] ->]]]]]]]]]]]. cbn [app]. constructor; auto. constructor; auto. apply bytes_ok_app. split.
  - destruct dict; destruct A6 as [_ ->]; [apply be32_bytes|constructor].
  - apply bytes_ok_app. split; auto. apply be32_bytes.
Qed.
Lemma gzip_flags_byte g : is_byte (gzip_flags g).
Proof. unfold gzip_flags, is_byte. destruct (gz_text g), (gz_hcrc g), (gz_extra g), (gz_name g), (gz_comment g); cbn; lia. Qed.
Lemma gzip_header_bytes g : gzip_fields_ok g -> bytes_ok (gzip_header g).
Proof.
  intros [G1 [G2 [G3 [G4 [G5 G6]]]]]. unfold gzip_header. apply bytes_ok_app. split; [|destruct (gz_hcrc g); [apply le16_bytes|constructor]].
  unfold gzip_header_nocrc. apply bytes_ok_app. split; [repeat constructor; apply gzip_flags_byte|]. apply bytes_ok_app. split; [apply le32_bytes|]. apply bytes_ok_app. split; [repeat constructor; auto|].
  apply bytes_ok_app. split; [apply extra_bytes_ok'; auto|]. apply bytes_ok_app. split; apply zstring_ok'; auto.
Qed.
Lemma gzip_bytes Bw dict g b d : GzipStream Bw dict g b d -> bytes_ok b.
Proof.
  intros [G [body [[B1 _] ->]]]. apply bytes_ok_app. split; [apply gzip_header_bytes; auto|]. apply bytes_ok_app. split; auto. apply bytes_ok_app. split; apply le32_bytes.
Qed.
Lemma writer_bytes o h b d : WriterStream StrictBlock o h b d -> bytes_ok b.
Proof.
  unfold WriterStream. destruct (o_format o); [tauto|intros [H _]; auto|intros [H _]; eapply zlib_bytes; eauto|intros [g [_ H]]; eapply gzip_bytes; eauto].
Qed.
Lemma good_bytes o l bs : GoodStreams o l bs -> bytes_ok (concat bs).
Proof. induction 1; cbn; [constructor|]. apply bytes_ok_app. split; auto. eapply writer_bytes; eauto. Qed.

Lemma writer_acceptable o h b d f limit : (o_wbits o <= limit)%N -> (8 <= o_wbits o)%N -> o_format o = fmt_of f -> Representable h -> header_bytes h ->
  WriterStream StrictBlock o h b d -> Acceptable limit (o_dict o) f b d.
Proof.
  intros HW H8 EF HR HHB. assert (HP : (2 ^ o_wbits o <= 2 ^ limit)%N) by (apply N.pow_le_mono_r; [discriminate|auto]). unfold WriterStream. rewrite EF. destruct f; cbn [fmt_of Acceptable].
  - apply Raw_impl. apply strict_weak. auto.
  - intros [Z E]. split; auto. destruct b as [|c t]; [discriminate|]. inversion E; subst. eexists _, t. split; [reflexivity|]. replace (8 + 16 * (o_wbits o - 8))%N with (8 + (o_wbits o - 8) * 16)%N by lia.
    rewrite N.div_add by discriminate. change (8 / 16)%N with 0%N. lia.
  - intros [g [GF [G [body [B ->]]]]]. exists g. split.
    + split; auto. exists body. split; auto. eapply Raw_impl; [|exact B]. apply strict_weak. auto.
    + intros x E. destruct GF as [_ [_ [GE _]]]. rewrite GE in E. exists (h_extra h). destruct HR as [_ [_ [_ [_ [_ [_ [_ [_ [HX _]]]]]]]]].
      destruct HHB as [_ [_ HB]]. split.
      * rewrite Forall_forall in *. intros r Hr. specialize (HX r Hr). specialize (HB r Hr). destruct HB as [? [? ?]]. repeat split; auto. lia.
      * destruct (extra_enc (h_extra h)); cbn in E; congruence.
Qed.

(** The headers given are headers of bytes. *)
Definition a_hb (a : asession) : Prop := Forall (fun hd => header_bytes (fst hd)) (a_done a) /\ header_bytes (a_hdr a) /\ header_bytes (a_curh a).
Lemma finish_hb a : a_hb a -> a_hb (a_finish a).
Proof.
  intros [R1 [R2 R3]]. unfold a_hb, a_finish. destruct (a_cur a); [destruct (a_done a) eqn:E|]; cbn; auto; [rewrite E; auto|].
  split; auto. apply Forall_app. split; auto.
Qed.
Lemma asteps_hb a ops a' : asteps a ops a' -> Forall op_ok ops -> a_hb a -> a_hb a'.
Proof.
  induction 1 as [|a op a1 ops a2 H1 H2 IH]; auto. intros Ho Ha. inversion Ho; subst. apply IH; auto. destruct H1 as [a p|a ft|a h Hh|a h Hh].
  - destruct Ha as [R1 [R2 R3]]. unfold a_hb, a_write. destruct p; auto. destruct (a_cur a); auto.
  - destruct ft; auto. apply finish_hb. auto.
  - destruct Ha as [R1 [R2 R3]]. split; auto.
  - auto.
Qed.
Lemma header0_hb : header_bytes header0. Proof. repeat split; constructor. Qed.
Lemma session_hb ops a : asteps a_init ops a -> Forall op_ok ops -> Forall (fun hd => header_bytes (fst hd)) (a_done (a_finish a)).
Proof. intros H Ho. apply finish_hb. eapply asteps_hb; eauto. split; [constructor|split; apply header0_hb]. Qed.

(** ** C01: round trip *)
(** A Reader configured for what the Writer produced. *)
Definition matching (wopts ropts : list opt) : Prop :=
  o_format (reffective ropts) = o_format (effective wopts) /\ o_dict (reffective ropts) = o_dict (effective wopts) /\
  (o_wbits (effective wopts) <= o_wbits (reffective ropts))%N /\
  (o_format (effective wopts) = ZlibFormat -> DictVisible (o_wbits (reffective ropts)) (o_dict (reffective ropts))).

Definition fmt_stream (f : format) : sformat := match f with RawFormat => SRaw | GZIPFormat => SGzip | _ => SZlib end.
Lemma fmt_stream_of o : wopt_ok o -> o_format o = fmt_of (fmt_stream (o_format o)).
Proof. intros H. pose proof (wo_format H). destruct (o_format o); auto. congruence. Qed.

Lemma good_valid wopts ropts l bs : opts_ok wopts -> matching wopts ropts -> Forall (fun hd => Representable (fst hd)) l -> Forall (fun hd => header_bytes (fst hd)) l ->
  GoodStreams (effective wopts) l bs -> Forall (valid ropts (fmt_stream (o_format (effective wopts)))) (combine bs (map snd l)) /\ map fst (combine bs (map snd l)) = bs /\ map snd (combine bs (map snd l)) = map snd l.
Proof.
  intros HO [M1 [M2 [M3 M4]]] HR HH HG. pose proof (effective_ok HO) as Hw. induction HG as [|[h d] b l bs H HG IH]; cbn; [repeat split; constructor|].
  inversion HR; inversion HH; subst. destruct IH as [I1 [I2 I3]]; auto. rewrite I2, I3. split; auto. constructor; auto. unfold valid. cbn [fst snd] in *. rewrite M2.
  eapply writer_acceptable; eauto; [apply (wo_wbits Hw)|apply fmt_stream_of; auto].
Qed.

Theorem C01_round_trip :
  forall wenv renv wopts ropts ops w' src, lib_ok wenv -> rlib_ok renv -> opts_ok wopts -> opts_ok ropts -> Forall op_ok ops ->
    w_session wenv (newWriter wopts) ops = Ok (w', None) -> matching wopts ropts ->
    polite_src src -> detached_src src \/ ~ In (OFlush FinishFlush) ops -> src_bytes src = sink (w_out w') ->
    decompress renv ropts src = Ok (ops_data ops, Some (src_end src)).
Proof.
  intros wenv renv wopts ropts ops w' src HL HRL HO HRO Hops E M HP HD EB. pose proof M as [M1 [M2 [M3 M4]]].
  destruct (C02_writer_output_conforms HL HO Hops E) as [a [bs [A1 [A2 [A3 A4]]]]]. pose proof (effective_ok HO) as Hw.
  destruct (good_valid HO M (session_rep A1) (session_hb A1 Hops) A3) as [V1 [V2 V3]]. set (l := combine bs (map snd (a_done (a_finish a)))) in *.
  assert (GS : good_src src) by (split; auto; rewrite EB, A2; eapply good_bytes; eauto).
  assert (ST : set_to ropts (fmt_stream (o_format (effective wopts)))).
  { split; [rewrite M1; apply fmt_stream_of; auto|]. intros EZ. apply M4. rewrite (fmt_stream_of Hw), EZ. reflexivity. }
  destruct HD as [HD|HD].
  - rewrite <- A4, <- V3. apply C33_reader_concatenation with (f := fmt_stream (o_format (effective wopts))); auto. rewrite EB, A2, V2. auto.
  - subst l. assert (L1 : length (a_done (a_finish a)) = 1).
    { assert (K : a_done a = []).
      { assert (G : forall a0 ops0 a1, asteps a0 ops0 a1 -> ~ In (OFlush FinishFlush) ops0 -> a_done a0 = [] -> a_done a1 = []).
        { induction 1 as [|b op b1 ops1 b2 H1 H2 IH]; auto. intros NI D. cbn in NI. apply IH; [tauto|]. destruct H1 as [b p|b ft|b h Hh|b h Hh]; auto.
          - unfold a_write. destruct p; auto. destruct (a_cur b); auto.
          - destruct ft; auto. exfalso. tauto. }
        eapply G; eauto. }
      unfold a_finish. rewrite K. destruct (a_cur a); reflexivity. }
    destruct (a_done (a_finish a)) as [|[h d] [|y t]]; try discriminate. rewrite A2 in EB. inversion A3 as [|? b ? ? Q1 Q2]; subst. inversion Q2; subst. cbn in *. rewrite app_nil_r in *. subst d.
    apply C27_reader_accepts_valid_stream with (f := fmt_stream (o_format (effective wopts))); auto. inversion V1; subst. auto.
Qed.

(** ** C11: gzip headers come back *)
(** What the Reader reports for a header [h] given to a Writer with options [o]. *)
Record HeaderBack (o : options) (h h' : header) : Prop := MkHeaderBack {
  hb_name : h_name h' = h_name h;
  hb_comment : h_comment h' = h_comment h;
  hb_extra : h_extra h' = h_extra h;
  hb_mtime : h_mtime h' = match h_mtime h with Some 0%Z => None | t => t end;
  hb_os : h_os h' = if (h_os h =? 0)%N then 4%N (* OSTypeUnix *) else h_os h;
  hb_text : h_datatype h <> UnknownData -> h_datatype h' = h_datatype h;
  hb_some : h_datatype h' <> UnknownData;
  hb_level : h_clevel h' = match o_strategy o with                                   (* fastest, best or default *)
             | HuffmanOnlyStrategy | HuffmanRLEStrategy => 1
             | _ => if (o_clevel o <? 2)%Z then 1 else if (o_clevel o =? 9)%Z then 9 else -1
             end%Z }.
Lemma some_if_spec (l : list N) : match some_if l with Some s => s = l | None => l = [] end.
Proof. destruct l; reflexivity. Qed.
Lemma hdr10_mtime text mt xfl os : h_mtime (hdr10 header0 text mt xfl os) = if (mt =? 0)%N then None else Some (Z.of_N mt).
Proof. unfold hdr10. destruct (mt =? 0)%N; reflexivity. Qed.
Lemma hdr10_os text mt xfl os : h_os (hdr10 header0 text mt xfl os) = ostype_decode os.
Proof. unfold hdr10. destruct (mt =? 0)%N; reflexivity. Qed.
Lemma hdr10_datatype text mt xfl os : h_datatype (hdr10 header0 text mt xfl os) = if text then TextData else BinaryData.
Proof. unfold hdr10. destruct (mt =? 0)%N; reflexivity. Qed.
Lemma hdr10_level text mt xfl os : h_clevel (hdr10 header0 text mt xfl os) = gzip_level xfl.
Proof. unfold hdr10. destruct (mt =? 0)%N; reflexivity. Qed.
Lemma hdr10_rest text mt xfl os : h_name (hdr10 header0 text mt xfl os) = [] /\ h_comment (hdr10 header0 text mt xfl os) = [] /\ h_extra (hdr10 header0 text mt xfl os) = [].
Proof. unfold hdr10. destruct (mt =? 0)%N; auto. Qed.
Lemma header_back o h g : Representable h -> GzipFieldsFor o h g -> HeaderBack o h (hdr_of header0 g (h_extra h)).
Proof.
  intros HR [G1 [G2 [G3 [G4 [G5 [G6 [G7 [G8 G9]]]]]]]]. destruct HR as [_ [_ [_ [_ [_ [_ [HT [HO _]]]]]]]].
  unfold hdr_of. rewrite G1, G2, G3, G4, G5, G9. pose proof (some_if_spec (h_name h)) as N1. pose proof (some_if_spec (h_comment h)) as N2.
  assert (N3 : is_some (some_if (extra_enc (h_extra h))) = match h_extra h with [] => false | _ => true end) by (destruct (h_extra h); reflexivity). rewrite N3.
  set (h10 := hdr10 header0 _ _ _ _).
  assert (K1 : h_mtime h10 = match h_mtime h with Some 0%Z => None | t => t end).
  { unfold h10. rewrite hdr10_mtime. destruct (h_mtime h) as [s|]; [|reflexivity]. destruct (N.eqb_spec (Z.to_N s) 0) as [E|E].
    - assert (s = 0%Z) by lia. subst. reflexivity.
    - rewrite Z2N.id by lia. destruct s; auto. cbn in E. lia. }
  assert (K2 : h_os h10 = if (h_os h =? 0)%N then 4%N else h_os h).
  { unfold h10. rewrite hdr10_os. unfold ostype_decode. destruct (N.eqb_spec (h_os h) 0) as [E|E]; [reflexivity|]. destruct (N.leb_spec (h_os h - 1) 13); lia. }
  assert (K3 : h_datatype h10 = if gz_text g then TextData else BinaryData) by apply hdr10_datatype.
  assert (K4 : h_clevel h10 = gzip_level (xfl_for o)) by apply hdr10_level.
  assert (K5 : h_name h10 = [] /\ h_comment h10 = [] /\ h_extra h10 = []) by apply hdr10_rest.
  assert (K6 : h_clevel h10 = match o_strategy o with HuffmanOnlyStrategy | HuffmanRLEStrategy => 1 | _ => if (o_clevel o <? 2)%Z then 1 else if (o_clevel o =? 9)%Z then 9 else -1 end%Z).
  { rewrite K4. unfold xfl_for. destruct (o_strategy o); auto; destruct (_ <? _)%Z; auto; destruct (_ =? _)%Z; auto. }
  assert (K7 : h_datatype h <> UnknownData -> (if gz_text g then TextData else BinaryData) = h_datatype h).
  { intros ND. destruct (h_datatype h); [congruence|rewrite G8; auto|rewrite G7; auto]. }
  clearbody h10. destruct h10 as [a b c d e f x y]. cbn in K1, K2, K3, K6, K5. destruct K5 as [-> [-> ->]].
  destruct (some_if (h_name h)), (some_if (h_comment h)), (h_extra h) eqn:EX; cbn in *; subst; constructor; cbn; auto; try congruence; try (destruct (gz_text g); discriminate).
Qed.

(** The headers reported by a Reader's StreamHeader events, in order. *)
Definition headers_reported (env : renv) (opts : list opt) (src : source) : list header :=
  match readThread env (newReader src opts) with Ok r => headers_of (r_events r) | _ => [] end.

Theorem C11_gzip_header_round_trip :
  forall wenv renv wopts ropts ops w' src, lib_ok wenv -> rlib_ok renv -> opts_ok wopts -> opts_ok ropts -> Forall op_ok ops ->
    w_session wenv (newWriter wopts) ops = Ok (w', None) -> matching wopts ropts -> o_format (effective wopts) = GZIPFormat ->
    polite_src src -> detached_src src -> src_bytes src = sink (w_out w') ->
    exists a, asteps a_init ops a /\ Forall2 (HeaderBack (effective wopts)) (map fst (a_done (a_finish a))) (headers_reported renv ropts src).
Proof.
  intros wenv renv wopts ropts ops w' src HL HRL HO HRO Hops E [M1 [M2 [M3 M4]]] EG HP HD EB.
  destruct (C02_writer_output_conforms HL HO Hops E) as [a [bs [A1 [A2 [A3 A4]]]]]. exists a. split; auto. destruct (reffective_ok HRO) as [HW _].
  pose proof (session_rep A1) as RP. pose proof (good_bytes A3) as GB.
  assert (INF : exists ss, valid_list renv ropts SGzip ss /\ map sb ss = bs /\ Forall2 (HeaderBack (effective wopts)) (map fst (a_done (a_finish a))) (map sh ss)).
  { clear - A3 RP EG HRL HW M2 M3. induction A3 as [|[h d] b l bs H HG IH]; [exists []; repeat split; constructor|]. inversion RP; subst. destruct IH as [ss [I1 [I2 I3]]]; auto.
    unfold WriterStream in H. rewrite EG in H. destruct H as [g [GF GS]]. cbn [fst snd] in *. exists (SInfo SGzip b d (hdr_of header0 g (h_extra h)) :: ss). cbn. rewrite I2. split; [|split; auto; constructor; auto; apply header_back; auto].
    constructor; auto. cbn. split; auto. apply gzip_RSt; auto.
    - rewrite M2. destruct GS as [G [body [B ->]]]. split; auto. exists body. split; auto. eapply Raw_impl; [|exact B]. apply strict_weak. apply N.pow_le_mono_r; [discriminate|auto].
    - destruct GF as [_ [_ [-> _]]]. pose proof (some_if_spec (extra_enc (h_extra h))) as Q. destruct (some_if _); [|exact I]. subst l0. cbn [extra_ok]. rewrite <- (app_nil_r (extra_enc _)).
      apply extra_parse_enc; [|cbn; lia]. destruct H2 as [_ [_ [_ [_ [_ [_ [_ [_ [HX _]]]]]]]]]. eapply Forall_impl; [|exact HX]. cbn. intros. lia. }
  destruct INF as [ss [I1 [I2 I3]]]. assert (EF : o_format (reffective ropts) = fmt_of SGzip) by (rewrite M1, EG; auto).
  assert (HB : bytes_ok (src_bytes src)) by (rewrite EB, A2; auto).
  pose proof (@follow_all renv HRL ropts HRO src HP HB SGzip ss EF I1) as F. rewrite I2, EB in F. specialize (F A2 (or_introl HD)). unfold headers_reported.
  destruct (readThread renv (newReader src ropts)); try contradiction. destruct F as [_ [_ [-> _]]]. auto.
Qed.
