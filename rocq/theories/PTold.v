(** The log of the Writer as streams (C83). *)
From Verif Require Import Base SpecChecksum SpecEvents SpecBlocks SpecTraced PAt SpecHuffman SpecDeflate SpecFormats SpecSession MChecksum PChecksum MToken MCommon MWriter MReader MSession SpecReader SpecLib
  PToken PHuffman PTree PBits PActs PGram PInput POutput PDecode PDynamic PBlockDec PHeader PStream PFooter PThread PLoop PCompress PWriter PSession PInv PFormat PClient PApi PInst PAccept PRead PropReader PropRound PDescr PMirror Demo PDemo PropReader3.

Lemma bits_split w : length w mod 8 = 0 -> exists b, bytes_ok b /\ w = bits_of_bytes b.
Proof.
  intros H. exists (le_bytes (length w / 8) (N_of_bits w)). split; [apply le_bytes_ok|].
  rewrite bits_le_bytes. replace (8 * (length w / 8)) with (length w) by lia. now rewrite bits_of_N_of_bits.
Qed.
(** ** Open streams *)
Inductive DeflO (acc : list nat -> Prop) (pos : nat) : list bool -> list pre_event -> Prop :=
| dO_nil : DeflO acc pos [] []
| dO_more w es w' es' : BlockS acc pos false w es -> DeflO acc (pos + length w) w' es' -> DeflO acc pos (w ++ w') (es ++ es').
Lemma DeflO_more acc pos w es : DeflO acc pos w es -> forall w' es', BlockS acc (pos + length w) false w' es' -> DeflO acc pos (w ++ w') (es ++ es').
Proof.
  induction 1 as [pos|pos w es w1 es1 H _ IH]; intros w' es' B.
  - cbn in B. rewrite Nat.add_0_r in B. pose proof (dO_more B (dO_nil acc _)) as K. rewrite !app_nil_r in K. exact K.
  - rewrite <- !app_assoc. apply dO_more; auto. apply IH. rewrite app_length in B. rewrite <- Nat.add_assoc. auto.
Qed.
Lemma DeflO_last acc pos w es : DeflO acc pos w es -> forall w' es', BlockS acc (pos + length w) true w' es' -> DeflS acc pos (w ++ w') (es ++ es').
Proof.
  induction 1 as [pos|pos w es w1 es1 H _ IH]; intros w' es' B.
  - cbn in B. rewrite Nat.add_0_r in B. apply dS_last. auto.
  - rewrite <- !app_assoc. apply dS_more; auto. apply IH. rewrite app_length in B. rewrite <- Nat.add_assoc. auto.
Qed.
Lemma mod8_add a b c d : a mod 8 = c mod 8 -> b mod 8 = d mod 8 -> (a + b) mod 8 = (c + d) mod 8.
Proof. intros H1 H2. rewrite (Nat.add_mod a), (Nat.add_mod c), H1, H2 by discriminate. auto. Qed.

Section Log.
Variable opt : options.
Hypothesis Hopt : wopt_ok opt.

(** What the log says about one stream. *)
Definition Logged (t : traced) : Prop :=
  tr_head t = hdr_bytes opt (tr_hdr t) /\ header_ok (tr_hdr t) /\ tr_foot t = ftr_bytes opt (tr_data t) /\ bytes_ok (tr_body t) /\
  exists w pad, length pad < 8 /\ bits_of_bytes (tr_body t) = w ++ pad /\ DeflS proper_code 0 w (tr_blocks t).
Definition opened (st : evst) (w : list bool) (es : list pre_event) : Prop :=
  match st with
  | EvIdle => w = [] /\ es = []
  | EvOpen => exists h wb bes, header_ok h /\ DeflO proper_code 0 wb bes /\ w = bits_of_bytes (hdr_bytes opt h) ++ wb /\ es = ev_simple StreamBeginEvent :: ev_header h :: bes
  | EvLast => exists h wb bes, header_ok h /\ DeflS proper_code 0 wb bes /\ w = bits_of_bytes (hdr_bytes opt h) ++ wb /\ es = ev_simple StreamBeginEvent :: ev_header h :: bes
  end.
Lemma bits_mod8 b : length (bits_of_bytes b) mod 8 = 0.
Proof. rewrite length_bits_of_bytes, Nat.mul_comm. apply Nat.mod_mul. discriminate. Qed.
Lemma ELog_streams ds st w es : ELog opt ds st w es ->
  exists l tw te, w = bits_of_bytes (concat (map tr_bytes l)) ++ tw /\ es = concat (map tr_events l) ++ te /\ map tr_data l = ds /\ Forall Logged l /\ opened st tw te.
Proof.
  induction 1 as [|ds w es h H IH Hh|ds w es fin wb bes H IH HB|ds w es d pad H IH Hp Ha].
  - exists [], [], []. repeat split. constructor.
  - destruct IH as [l [tw [te [-> [-> [<- [F [-> ->]]]]]]]]. exists l, (bits_of_bytes (hdr_bytes opt h)), [ev_simple StreamBeginEvent; ev_header h].
    rewrite !app_nil_r. split; auto. split; auto. split; auto. split; auto. cbn. exists h, [], []. rewrite app_nil_r. repeat split; auto; try apply Hh. constructor.
  - destruct IH as [l [tw [te [-> [-> [<- [F [h [w0 [b0 [K1 [K2 [-> ->]]]]]]]]]]]]]. rewrite <- !app_assoc. exists l, (bits_of_bytes (hdr_bytes opt h) ++ w0 ++ wb), (ev_simple StreamBeginEvent :: ev_header h :: b0 ++ bes).
    split; [rewrite <- ?app_assoc; auto|]. split; auto. split; auto. split; auto.
    assert (HB' : BlockS proper_code (0 + length w0) fin wb bes).
    { eapply BlockS_pos; [|exact HB]. rewrite !app_length, Nat.add_assoc. apply (@mod8_add _ _ 0); auto. rewrite <- app_length, <- bits_of_bytes_app. apply bits_mod8. }
    destruct fin; exists h, (w0 ++ wb), (b0 ++ bes); (split; [auto|split; [|auto]]); [eapply DeflO_last; eauto|eapply DeflO_more; eauto].
  - destruct IH as [l [tw [te [-> [-> [<- [F [h [w0 [b0 [K1 [K2 [-> ->]]]]]]]]]]]]].
    destruct (@bits_split (w0 ++ pad)) as [body [B1 B2]].
    { pose proof (bits_mod8 (concat (map tr_bytes l))). pose proof (bits_mod8 (hdr_bytes opt h)). rewrite !app_length in *. lia. }
    exists (l ++ [Traced (hdr_bytes opt h) body (ftr_bytes opt d) d h b0]), [], []. rewrite !map_app, !concat_app, !app_nil_r. cbn [map concat]. rewrite !app_nil_r. 
    change (tr_bytes (Traced (hdr_bytes opt h) body (ftr_bytes opt d) d h b0)) with (hdr_bytes opt h ++ body ++ ftr_bytes opt d).
    change (tr_events (Traced (hdr_bytes opt h) body (ftr_bytes opt d) d h b0)) with (ev_simple StreamBeginEvent :: ev_header h :: b0 ++ [ev_footer (spec_adler32 d) (spec_crc32 d); ev_simple StreamCloseEvent]).
    cbn [tr_data].
    split; [rewrite !bits_of_bytes_app, <- B2, <- !app_assoc; auto|]. split; [rewrite <- !app_assoc; auto|]. split; auto. split; [|cbn; auto].
    apply Forall_app. split; auto. constructor; auto. split; auto. split; auto. split; auto. split; auto. exists w0, pad. auto.
Qed.

(** ** The header of a stream is determined by the bytes. *)
Lemma hdr_gzip h : o_format opt = GZIPFormat -> header_ok h -> hdr_bytes opt h = gzip_header (fields_of opt h).
Proof.
  intros EF Hh. unfold hdr_bytes. rewrite EF. unfold gzip_header. cbn [gz_hcrc fields_of]. rewrite (gzip_body_fields opt Hh).
  pose proof (@gzip_body_ok opt h (proj1 Hh)) as HB. rewrite (gzip_body_fields opt Hh) in HB.
  assert (EC := @crc_chunks [gzip_header_nocrc (fields_of opt h)] (Forall_cons _ HB (Forall_nil _))).
  cbn [fold_left concat] in EC. rewrite app_nil_r in EC. rewrite EC. reflexivity.
Qed.
Lemma fields_extra h x : header_ok h -> gz_extra (fields_of opt h) = Some x -> ExtraField x.
Proof.
  intros [[T1 [T2 T3]] Hc] E. apply checked_iff in Hc. destruct Hc as [A1 [A2 [A3 [A4 [A5 [A6 [A7 [A8 [A9 A10]]]]]]]]].
  cbn [gz_extra fields_of] in E. exists (h_extra h). split.
  - rewrite Forall_forall in *. intros r Hr. specialize (A9 r Hr). specialize (T3 r Hr). cbn beta in *. destruct T3 as [? [? ?]]. repeat split; auto. lia.
  - destruct (extra_enc (h_extra h)); cbn in E; congruence.
Qed.
Lemma hdr_bytes_HG h : o_format opt = GZIPFormat -> header_ok h -> exists h2, HG header0 (hdr_bytes opt h) h2.
Proof.
  intros EF Hh. rewrite (hdr_gzip EF Hh). destruct (gz_extra (fields_of opt h)) as [p|] eqn:EG.
  - destruct (@fields_extra h p Hh EG) as [recs [F ->]]. eexists. exists (fields_of opt h), recs. split; [apply fields_of_ok; auto|]. split; [|auto]. rewrite EG. cbn. rewrite <- (app_nil_r (extra_enc recs)). apply extra_parse_enc; [|cbn; lia].
    eapply Forall_impl; [|exact F]. cbn. tauto.
  - eexists. exists (fields_of opt h), []. split; [apply fields_of_ok; auto|]. split; [|auto]. rewrite EG. exact I.
Qed.
Lemma hdr_bytes_inj h1 h2 x y : header_ok h1 -> header_ok h2 -> hdr_bytes opt h1 ++ x = hdr_bytes opt h2 ++ y -> hdr_bytes opt h1 = hdr_bytes opt h2 /\ x = y.
Proof.
  intros H1 H2 E. assert (K : hdr_bytes opt h1 = hdr_bytes opt h2); [|split; auto; rewrite K in E; apply app_inv_head in E; auto].
  destruct (o_format opt) eqn:EF.
  - unfold hdr_bytes. rewrite EF. auto.
  - unfold hdr_bytes. rewrite EF. auto.
  - unfold hdr_bytes. rewrite EF. auto.
  - destruct (hdr_bytes_HG EF H1) as [g1 G1]. destruct (hdr_bytes_HG EF H2) as [g2 G2]. apply (HG_inj G1 G2 E).
Qed.

(** ** Beside the contents. *)
Lemma pads_same w p b w' p' b' : length p < 8 -> length p' < 8 -> bits_of_bytes b = w ++ p -> bits_of_bytes b' = w' ++ p' -> w = w' -> length b = length b'.
Proof.
  intros L1 L2 E1 E2 ->. apply (f_equal (@length _)) in E1. apply (f_equal (@length _)) in E2. rewrite length_bits_of_bytes, app_length in *. lia.
Qed.
Lemma body_same lk dict b d x t y : RawStream (Block proper_code lk) dict b d -> bytes_ok (tr_body t) -> (exists w pad, length pad < 8 /\ bits_of_bytes (tr_body t) = w ++ pad /\ DeflS proper_code 0 w (tr_blocks t)) ->
  b ++ x = tr_body t ++ y -> b = tr_body t /\ x = y /\ RawStreamE proper_code lk dict b d (tr_blocks t).
Proof.
  intros R HB [w [pad [L [E D]]]] EQ. destruct (RawStream_E R) as [es RE]. destruct RE as [Hb [w' [pad' [L' [E' D']]]]].
  pose proof (DeflE_S D') as S'. apply (DeflS_impl (@proper_racc demo_renv demo_rlib_ok)) in S'. pose proof (DeflS_impl (@proper_racc demo_renv demo_rlib_ok) D) as S.
  pose proof (f_equal bits_of_bytes EQ) as EB. rewrite !bits_of_bytes_app, E, E', <- !app_assoc in EB.
  destruct (DeflS_inj demo_rlib_ok S' S EB) as [-> [-> _]]. clear EB.
  assert (LB := pads_same L' L E' E eq_refl). apply app_inj_length in EQ; auto. destruct EQ as [-> ->]. split; auto. split; auto. split; auto. exists w, pad'. auto.
Qed.
End Log.
