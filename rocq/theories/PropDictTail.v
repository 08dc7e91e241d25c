(** Of a preset dictionary only the last window matters (raw DEFLATE and gzip). *)
From Verif Require Import Base SpecChecksum SpecHuffman SpecDeflate SpecFormats SpecSession SpecEvents MChecksum PChecksum MToken MCommon MWriter MReader MSession SpecReader SpecLib PToken PHuffman PBits PActs PGram PInput POutput PDecode PDynamic PBlockDec PHeader PStream PFooter PThread PLoop PCompress PWriter PSession PInv PFormat PApi PInst PAccept PRead PropWriter PropReader PropReader3 PropRound Demo PDemo.

(** The last [n] bytes of [l] (all of it if it is shorter). *)
Definition last_bytes (n : N) (l : list N) : list N := skipn (length l - N.to_nat n) l.

(** ** Outputs that agree as far as a back reference can reach *)
Definition reach (win : N) (h h' : list N) : Prop := firstn (N.to_nat win) h = firstn (N.to_nat win) h'.
Lemma reach_last win l l' : last_bytes win l = last_bytes win l' -> reach win (rev l) (rev l').
Proof. unfold last_bytes, reach. intros H. rewrite !firstn_rev, H. reflexivity. Qed.
Lemma reach_cons win c h h' : reach win h h' -> reach win (c :: h) (c :: h').
Proof.
  unfold reach. destruct (N.to_nat win) as [|n]; auto. intros H. cbn [firstn]. f_equal.
  assert (K : forall l : list N, firstn n l = firstn n (firstn (S n) l)) by (intros l; rewrite firstn_firstn; f_equal; lia).
  rewrite (K h), (K h'), H. reflexivity.
Qed.
Lemma reach_app win t h h' : reach win h h' -> reach win (t ++ h) (t ++ h').
Proof. intros H. induction t as [|c t IH]; cbn; auto. apply reach_cons, IH. Qed.
Lemma nth_firstn (n i : nat) (l : list N) : i < n -> nth_error (firstn n l) i = nth_error l i.
Proof. revert i l. induction n as [|n IH]; intros i l H; [lia|]. destruct l as [|x l]; [destruct i; reflexivity|]. destruct i; cbn; auto. apply IH. lia. Qed.
Lemma reach_lk win h h' d c : reach win h h' -> strict_lk win h d = Some c -> strict_lk win h' d = Some c.
Proof.
  unfold reach, strict_lk, lenN. intros R H.
  destruct ((1 <=? d) && (d <=? win) && (d <=? N.of_nat (length h)))%N eqn:E; [|discriminate].
  apply andb_true_iff in E. destruct E as [E E3]. apply andb_true_iff in E. destruct E as [E1 E2]. apply N.leb_le in E1, E2, E3.
  assert (L : N.to_nat (d - 1) < N.to_nat win) by lia.
  assert (G : nth_error h' (N.to_nat (d - 1)) = Some c) by (rewrite <- (nth_firstn h' L), <- R, (nth_firstn h L); exact H).
  assert (LE : (d <= N.of_nat (length h'))%N). { assert (Q : N.to_nat (d - 1) < length h') by (apply nth_error_Some; congruence). lia. }
  apply N.leb_le in E1, E2, LE. rewrite E1, E2, LE. exact G.
Qed.

(** ** Blocks and streams decode to the same data after either history *)
Lemma reach_copy win d n : forall h h' h1, reach win h h' -> copy_bytes (strict_lk win) h d n = Some h1 ->
  exists t, h1 = t ++ h /\ copy_bytes (strict_lk win) h' d n = Some (t ++ h').
Proof.
  induction n as [|n IH]; intros h h' h1 R H; cbn [copy_bytes] in *.
  - inversion H; subst. exists []. auto.
  - destruct (strict_lk win h d) as [c|] eqn:E; [|discriminate]. rewrite (reach_lk R E).
    destruct (IH _ _ _ (reach_cons c R) H) as [t [-> T]]. exists (t ++ [c]). rewrite T, <- !app_assoc. auto.
Qed.
Lemma reach_expand win ts : forall h h' h1, reach win h h' -> expand (strict_lk win) h ts = Some h1 ->
  exists t, h1 = t ++ h /\ expand (strict_lk win) h' ts = Some (t ++ h').
Proof.
  induction ts as [|[c|l d] ts IH]; intros h h' h1 R H; cbn [expand] in *.
  - inversion H; subst. exists []. auto.
  - destruct (IH _ _ _ (reach_cons c R) H) as [t [-> T]]. exists (t ++ [c]). rewrite T, <- !app_assoc. auto.
  - destruct (copy_bytes (strict_lk win) h d (N.to_nat l)) as [h2|] eqn:E; [|discriminate].
    destruct (reach_copy R E) as [t2 [-> T2]]. rewrite T2. destruct (IH _ _ _ (reach_app t2 R) H) as [t [-> T]]. exists (t ++ t2). rewrite T, <- !app_assoc. auto.
Qed.
Lemma reach_block win pos h h' f w h1 : reach win h h' -> StrictBlock win pos h f w h1 ->
  exists t, h1 = t ++ h /\ StrictBlock win pos h' f w (t ++ h').
Proof.
  intros R H. unfold StrictBlock in *. destruct H as [pad data A B C D|ts w h1 A B|ll d ts wt w h1 A B C].
  - exists (rev data). split; auto. constructor; auto.
  - destruct (reach_expand R B) as [t [-> T]]. exists t. split; auto. econstructor; eauto.
  - destruct (reach_expand R C) as [t [-> T]]. exists t. split; auto. econstructor; eauto.
Qed.
Lemma reach_blocks win pos h h' w h1 : reach win h h' -> Blocks (StrictBlock win) pos h w h1 ->
  exists t, h1 = t ++ h /\ Blocks (StrictBlock win) pos h' w (t ++ h').
Proof.
  intros R H. induction H as [|w h1 w' h2 H1 IH H2]; [exists []; split; auto; constructor|].
  destruct IH as [t [-> T]]. destruct (reach_block (reach_app t R) H2) as [t2 [-> T2]].
  exists (t2 ++ t). split; [now rewrite app_assoc|]. rewrite <- app_assoc. econstructor; eauto.
Qed.
Lemma reach_deflate win h h' w h1 : reach win h h' -> Deflate (StrictBlock win) h w h1 ->
  exists t, h1 = t ++ h /\ Deflate (StrictBlock win) h' w (t ++ h').
Proof.
  intros R [w1 [h2 [w2 [A [B ->]]]]]. destruct (reach_blocks R A) as [t [-> T]]. destruct (reach_block (reach_app t R) B) as [t2 [-> T2]].
  exists (t2 ++ t). split; [now rewrite app_assoc|]. rewrite <- app_assoc. exists w1, (t ++ h'), w2. auto.
Qed.
Lemma reach_raw win D D' b d : last_bytes win D = last_bytes win D' -> RawStream (StrictBlock win) D b d -> RawStream (StrictBlock win) D' b d.
Proof.
  intros R [HB [w [pad [A [B C]]]]]. split; auto. exists w, pad. split; auto. split; auto.
  destruct (reach_deflate (reach_last R) C) as [t [E T]]. apply app_inv_tail in E. subst t. exact T.
Qed.

(** ** C86: the formats *)
(** Any stream that is valid with one dictionary is valid, with the same data,
    with every dictionary that ends in the same window. *)
Theorem C86_dictionary_tail_format :
  forall limit D D' f b d, f <> SZlib ->
    last_bytes (2 ^ limit) (dict_bytes D) = last_bytes (2 ^ limit) (dict_bytes D') ->
    Acceptable limit D f b d -> Acceptable limit D' f b d.
Proof.
  intros limit D D' f b d HF R H. destruct f; [|congruence|]; cbn [Acceptable] in *.
  - eapply reach_raw; eauto.
  - destruct H as [g [[G [body [B E]]] X]]. exists g. split; auto. split; auto. exists body. split; auto. eapply reach_raw; eauto.
Qed.
(** The Reader: streams made with dictionary [D], read with [D']. *)
Theorem C86_reader_dictionary_tail :
  forall env opts src f D l, rlib_ok env -> opts_ok opts -> good_src src -> detached_src src -> set_to opts f -> f <> SZlib ->
    last_bytes (2 ^ limit_of opts) (dict_bytes D) = last_bytes (2 ^ limit_of opts) (dict_bytes (dict_of opts)) ->
    Forall (fun bd => Acceptable (limit_of opts) D f (fst bd) (snd bd)) l -> src_bytes src = concat (map fst l) ->
    decompress env opts src = Ok (concat (map snd l), Some (src_end src)).
Proof.
  intros env opts src f D l HL HO HG HD HS HF R HA EB. apply C33_reader_concatenation with (f := f); auto.
  eapply Forall_impl; [|exact HA]. intros [b d] H. unfold valid. cbn [fst snd] in *. eapply C86_dictionary_tail_format; eauto.
Qed.

(** A stream acceptable in a small window is acceptable in a larger one. *)
Lemma acceptable_larger limit limit' D f b d : (limit <= limit')%N -> f <> SZlib -> Acceptable limit D f b d -> Acceptable limit' D f b d.
Proof.
  intros HW HF H. assert (HP : (2 ^ limit <= 2 ^ limit')%N) by (apply N.pow_le_mono_r; [discriminate|auto]). destruct f; [|congruence|]; cbn [Acceptable] in *.
  - eapply Raw_impl; [|exact H]. apply strict_weak. auto.
  - destruct H as [g [[G [body [B E]]] X]]. exists g. split; auto. split; auto. exists body. split; auto. eapply Raw_impl; [|exact B]. apply strict_weak. auto.
Qed.

(** The round trip: the Reader needs no more of the Writer's dictionary than
    the Writer's window, and does not mind more in front of it. *)
Definition tail_matching (wopts ropts : list opt) : Prop :=
  o_format (reffective ropts) = o_format (effective wopts) /\ o_format (effective wopts) <> ZlibFormat /\
  (o_wbits (effective wopts) <= o_wbits (reffective ropts))%N /\
  last_bytes (2 ^ o_wbits (effective wopts)) (dict_bytes (o_dict (effective wopts))) = last_bytes (2 ^ o_wbits (effective wopts)) (dict_bytes (o_dict (reffective ropts))).
Theorem C86_round_trip_dictionary_tail :
  forall wenv renv wopts ropts ops w' src, lib_ok wenv -> rlib_ok renv -> opts_ok wopts -> opts_ok ropts -> Forall op_ok ops ->
    w_session wenv (newWriter wopts) ops = Ok (w', None) -> tail_matching wopts ropts ->
    polite_src src -> detached_src src -> src_bytes src = sink (w_out w') ->
    decompress renv ropts src = Ok (ops_data ops, Some (src_end src)).
Proof.
  intros wenv renv wopts ropts ops w' src HL HRL HO HRO Hops E [M1 [M2 [M3 M4]]] HP HD EB.
  destruct (C02_writer_output_conforms HL HO Hops E) as [a [bs [A1 [A2 [A3 A4]]]]]. pose proof (effective_ok HO) as Hw.
  set (f := fmt_stream (o_format (effective wopts))).
  assert (NF : f <> SZlib). { unfold f. pose proof (wo_format Hw) as W. destruct (o_format (effective wopts)); cbn; congruence. }
  assert (V : forall l bs0, Forall (fun hd => Representable (fst hd)) l -> Forall (fun hd => header_bytes (fst hd)) l -> GoodStreams (effective wopts) l bs0 ->
     Forall (valid ropts f) (combine bs0 (map snd l)) /\ map fst (combine bs0 (map snd l)) = bs0 /\ map snd (combine bs0 (map snd l)) = map snd l).
  { intros l bs0 HR HH HG. induction HG as [|[h d] b l bs0 H HG IH]; cbn; [repeat split; constructor|].
    inversion HR; inversion HH; subst. destruct IH as [I1 [I2 I3]]; auto. rewrite I2, I3. split; auto. constructor; auto. unfold valid. cbn [fst snd] in *.
    apply acceptable_larger with (o_wbits (effective wopts)); auto. eapply C86_dictionary_tail_format; [auto|exact M4|].
    eapply writer_acceptable; eauto; [lia|apply (wo_wbits Hw)|apply fmt_stream_of; auto]. }
  destruct (V _ _ (session_rep A1) (session_hb A1 Hops) A3) as [V1 [V2 V3]].
  assert (GS : good_src src) by (split; auto; rewrite EB, A2; eapply good_bytes; eauto).
  assert (ST : set_to ropts f).
  { split; [rewrite M1; apply fmt_stream_of; auto|]. intros EZ. congruence. }
  rewrite <- A4, <- V3. apply C33_reader_concatenation with (f := f); auto. rewrite EB, A2, V2. auto.
Qed.

(** ** A concrete case *)
Definition tail_dict : list N := map N.of_nat (seq 0 256).
Definition tail_wopts (f : format) : list opt := [WithFormat f; WithWindowBits 8; WithDictionary (Some tail_dict)].
Definition tail_ropts (f : format) : list opt := [WithFormat f; WithDictionary (Some ([7; 7; 7]%N ++ tail_dict))].
Definition tail_data : list N := skipn 216 tail_dict.
Definition tail_stream (f : format) : list N :=
  match w_session demo_wenv (newWriter (tail_wopts f)) [OWrite tail_data] with Ok (w, None) => sink (w_out w) | _ => [] end.
(** The data is found in the dictionary ([C86_met] reads 8 bytes for 40), and
    read back with a longer dictionary. *)
Example C86_met :
  tail_matching (tail_wopts RawFormat) (tail_ropts RawFormat) /\
  lenN (tail_stream RawFormat) = 8%N /\
  decompress demo_renv (tail_ropts RawFormat) [(tail_stream RawFormat, None)] = Ok (tail_data, Some EOF).
Proof.
  split; [|split; vm_compute; reflexivity].
  split; [reflexivity|]. split; [discriminate|]. split; [vm_compute; discriminate|]. vm_compute. reflexivity.
Qed.
(** Not so for zlib, whose header carries a checksum of the whole dictionary:
    there the same dictionary is needed, byte for byte. *)
Theorem C86_zlib_refuted :
  exists ropts ropts' D D' b d, o_dict (reffective ropts) = Some D /\ o_dict (reffective ropts') = Some D' /\
    last_bytes (2 ^ 8) D = last_bytes (2 ^ 8) D' /\ b = tail_stream ZlibFormat /\
    decompress demo_renv ropts [(b, None)] = Ok (d, Some EOF) /\ d = tail_data /\
    decompress demo_renv ropts' [(b, None)] = Ok ([], Some (CorruptInputError 6 6 CZlibDictDiffers)).
Proof.
  exists [WithFormat ZlibFormat; WithDictionary (Some tail_dict)], (tail_ropts ZlibFormat), tail_dict, ([7; 7; 7]%N ++ tail_dict), (tail_stream ZlibFormat), tail_data.
  split; [reflexivity|]. split; [reflexivity|]. split; [vm_compute; reflexivity|]. split; [reflexivity|]. split; [vm_compute; reflexivity|]. split; [reflexivity|]. vm_compute. reflexivity.
Qed.
(** And a byte inside the window does matter. *)
Example C86_window_needed :
  exists D' d, length D' = 256 /\ skipn 217 D' = skipn 217 tail_dict /\ d <> tail_data /\
    decompress demo_renv [WithFormat RawFormat; WithDictionary (Some D')] [(tail_stream RawFormat, None)] = Ok (d, Some EOF).
Proof.
  exists (firstn 216 tail_dict ++ [0%N] ++ skipn 217 tail_dict), (0%N :: skipn 1 tail_data).
  split; [reflexivity|]. split; [reflexivity|]. split; [vm_compute; discriminate|]. vm_compute. reflexivity.
Qed.
