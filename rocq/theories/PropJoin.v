(** C94: raw streams compressed independently can be joined. *)
From Verif Require Import Base SpecChecksum SpecHuffman SpecDeflate SpecFormats SpecSession SpecEvents MChecksum PChecksum MToken MCommon MWriter MReader MSession SpecReader SpecLib PToken PHuffman PBits PActs PGram PInput POutput PDecode PDynamic PBlockDec PHeader PStream PFooter PThread PLoop PCompress PWriter PSession PInv PFormat PApi PInst PAccept PRead PFlushed PropWriter PropReader PropReader3 PropRound Demo PDemo PropFlushed.

(** ** The grammar: blocks do not mind more history, a larger window, or whole bytes in front *)
Lemma lk_more win win' h old d c : (win <= win')%N -> strict_lk win h d = Some c -> strict_lk win' (h ++ old) d = Some c.
Proof.
  intros HW. unfold strict_lk. destruct (1 <=? d)%N; [|discriminate]. cbn [andb]. destruct (d <=? win)%N eqn:E1; [|discriminate]. cbn [andb].
  destruct (d <=? lenN h)%N eqn:E2; [|discriminate]. apply N.leb_le in E1, E2. intros E3.
  replace (d <=? win')%N with true by (symmetry; apply N.leb_le; lia). replace (d <=? lenN (h ++ old))%N with true by (symmetry; apply N.leb_le; unfold lenN in *; rewrite app_length; lia).
  cbn [andb]. rewrite nth_error_app1; [exact E3|]. apply nth_error_Some. rewrite E3. discriminate.
Qed.
Lemma copy_more win win' old d : (win <= win')%N -> forall n h h', copy_bytes (strict_lk win) h d n = Some h' -> copy_bytes (strict_lk win') (h ++ old) d n = Some (h' ++ old).
Proof.
  intros HW. induction n as [|n IH]; intros h h' E; cbn [copy_bytes] in *; [injection E as <-; reflexivity|].
  destruct (strict_lk win h d) as [c|] eqn:EL; [|discriminate E]. rewrite (@lk_more _ _ _ old _ _ HW EL). exact (IH (c :: h) h' E).
Qed.
Lemma expand_more win win' old : (win <= win')%N -> forall ts h h', expand (strict_lk win) h ts = Some h' -> expand (strict_lk win') (h ++ old) ts = Some (h' ++ old).
Proof.
  intros HW. induction ts as [|t ts IH]; intros h h' E; cbn [expand] in *; [injection E as <-; reflexivity|]. destruct t as [c|l d]; [exact (IH (c :: h) h' E)|].
  destruct (copy_bytes (strict_lk win) h d (N.to_nat l)) as [h1|] eqn:EC; [|discriminate E]. rewrite (@copy_more _ _ old _ HW _ _ _ EC). exact (IH h1 h' E).
Qed.
Lemma block_more win win' old k pos h fin w h' : (win <= win')%N -> StrictBlock win pos h fin w h' -> StrictBlock win' (8 * k + pos) (h ++ old) fin w (h' ++ old).
Proof.
  intros HW H. destruct H.
  - rewrite <- app_assoc. apply block_stored; auto. replace (8 * k + pos + 3 + length pad) with (pos + 3 + length pad + k * 8) by lia. rewrite Nat.mod_add by lia. exact H0.
  - eapply block_static; eauto. eapply expand_more; eauto.
  - eapply block_dynamic; eauto. eapply expand_more; eauto.
Qed.
Lemma blocks_more win win' old k pos h w h' : (win <= win')%N -> Blocks (StrictBlock win) pos h w h' -> Blocks (StrictBlock win') (8 * k + pos) (h ++ old) w (h' ++ old).
Proof.
  intros HW. induction 1 as [|w h1 w' h2 HB IH HN]; [constructor|]. econstructor; [exact IH|]. rewrite <- Nat.add_assoc. eapply block_more; eauto.
Qed.
Lemma blocks_app B pos h w h1 : Blocks B pos h w h1 -> forall w' h2, Blocks B (pos + length w) h1 w' h2 -> Blocks B pos h (w ++ w') h2.
Proof.
  intros H w' h2 H2. remember (pos + length w) as q eqn:EQ. revert EQ. induction H2 as [|v g v' g' HB IH HN]; intros ->; [rewrite app_nil_r; exact H|].
  rewrite app_assoc. econstructor; [exact (IH eq_refl)|]. rewrite app_length, Nat.add_assoc. exact HN.
Qed.
Lemma bits_length b : length (bits_of_bytes b) = 8 * length b.
Proof. apply length_bits_of_bytes. Qed.

(** A whole number of bytes of complete, non-final blocks. *)
Definition Part (win : N) (b d : list N) : Prop := bytes_ok b /\ Blocks (StrictBlock win) 0 [] (bits_of_bytes b) (rev d).
Lemma bits_app a b : bits_of_bytes (a ++ b) = bits_of_bytes a ++ bits_of_bytes b.
Proof. unfold bits_of_bytes. apply flat_map_app. Qed.
Lemma part_raw win win' b d s e : (win <= win')%N -> Part win b d -> RawStream (StrictBlock win') [] s e -> RawStream (StrictBlock win') [] (b ++ s) (d ++ e).
Proof.
  intros HW [B1 B2] [S1 [w [pad [P1 [P2 [w1 [h [w2 [D1 [D2 D3]]]]]]]]]]. split; [apply bytes_ok_app; split; auto|]. exists (bits_of_bytes b ++ w), pad. split; [exact P1|].
  split; [rewrite bits_app, P2, app_assoc; reflexivity|]. cbn [rev app] in *. rewrite app_nil_r in *. subst w.
  exists (bits_of_bytes b ++ w1), (h ++ rev d), w2. rewrite rev_app_distr. split; [|split; [|apply app_assoc]].
  - eapply blocks_app; [pose proof (@blocks_more win win' [] 0 0 [] _ _ HW B2) as K; rewrite !app_nil_r in K; exact K|].
    pose proof (@blocks_more win' win' (rev d) (length b) 0 [] w1 h ltac:(lia) D1) as K. rewrite Nat.add_0_r in K. cbn [Nat.add]. rewrite bits_length. exact K.
  - pose proof (@block_more win' win' (rev d) (length b) _ _ _ _ _ ltac:(lia) D2) as K. rewrite app_length, bits_length. exact K.
Qed.

(** ** The Writer *)
Lemma not_finished a ops a' : asteps a ops a' -> ~ In (OFlush FinishFlush) ops -> a_done a' = a_done a.
Proof.
  induction 1 as [a|a op a1 ops a2 HS _ IH]; intros HN; [reflexivity|]. rewrite IH by (intros H; apply HN; right; exact H).
  inversion HS; subst; try reflexivity.
  - unfold a_write. destruct p; [reflexivity|]. destruct (a_cur a); reflexivity.
  - destruct ft; try reflexivity. exfalso. apply HN. left. reflexivity.
Qed.

(** One job: options and calls. *)
Definition job : Type := list opt * list wop.
Definition job_ok (wbits : N) (j : job) : Prop :=
  opts_ok (fst j) /\ o_format (effective (fst j)) = RawFormat /\ o_dict (effective (fst j)) = None /\
  (o_wbits (effective (fst j)) <= wbits)%N /\ Forall op_ok (snd j) /\ ~ In (OFlush FinishFlush) (snd j).
(** [s] is what a Writer of its own writes for the job, ended with a flush ... *)
Definition flushed_part (j : job) (s : list N) : Prop :=
  exists env ft w, lib_ok env /\ (ft = SyncFlush \/ ft = FullFlush) /\
    w_run env (newWriter (fst j)) (snd j ++ [OFlush ft]) = Ok (w, None) /\ s = sink (w_out w).
(** ... or with Close. *)
Definition closed_part (j : job) (s : list N) : Prop :=
  exists env w, lib_ok env /\ w_session env (newWriter (fst j)) (snd j) = Ok (w, None) /\ s = sink (w_out w).

Lemma pow_mono a b : (a <= b)%N -> (2 ^ a <= 2 ^ b)%N.
Proof. intros. apply N.pow_le_mono_r; [discriminate|assumption]. Qed.
Lemma part_of wbits j s : job_ok wbits j -> flushed_part j s -> bytes_ok s -> exists win, (win <= 2 ^ wbits)%N /\ Part win s (ops_data (snd j)).
Proof.
  intros [HO [HF [HD [HW [Hops HN]]]]] [env [ft [w [HL [Hft [E ->]]]]]] HB.
  assert (HDl : delivering ft) by (destruct Hft as [->| ->]; unfold delivering; auto).
  destruct (@C03_flush_delivers env (fst j) (snd j) ft w HL HO Hops HDl E) as [a [HA [AD [bs [tail [ES [G T]]]]]]].
  assert (DN : a_done a = []).
  { rewrite (not_finished HA); [reflexivity|]. intros H. apply in_app_or in H. destruct H as [H|[H|[]]]; [exact (HN H)|]. destruct Hft as [->| ->]; discriminate H. }
  unfold GoodStreams in G. rewrite DN in G. inversion G; subst bs. cbn [concat app] in ES. unfold a_data in AD. rewrite DN in AD. cbn in AD.
  exists (2 ^ o_wbits (effective (fst j)))%N. split; [apply pow_mono, HW|]. split; [exact HB|]. rewrite <- AD.
  destruct T as [[T1 T2]|[NE [hb [body [T1 [T2 T3]]]]]].
  - rewrite ES, T2, T1. constructor.
  - unfold StreamHeader in T2. rewrite HF in T2. subst hb. cbn [app] in T1. rewrite ES, T1. unfold OpenData in T3. rewrite HD in T3. cbn in T3. rewrite app_nil_r in T3. exact T3.
Qed.
Lemma close_of wbits j s : job_ok wbits j -> closed_part j s -> exists win, (win <= 2 ^ wbits)%N /\ RawStream (StrictBlock win) [] s (ops_data (snd j)).
Proof.
  intros [HO [HF [HD [HW [Hops HN]]]]] [env [w [HL [E ->]]]].
  destruct (@C02_writer_output_conforms env (fst j) (snd j) w HL HO Hops E) as [a [bs [HA [ES [G AD]]]]].
  assert (DN : a_done a = []) by (rewrite (not_finished HA HN); reflexivity).
  exists (2 ^ o_wbits (effective (fst j)))%N. split; [apply pow_mono, HW|]. rewrite ES.
  assert (D1 : exists h d, a_done (a_finish a) = [(h, d)]).
  { unfold a_finish. rewrite DN. destruct (a_cur a); cbn; eauto. }
  destruct D1 as [h [d D1]]. rewrite D1 in *. unfold GoodStreams in G. inversion G as [|x b l l' GW GN]; subst. inversion GN; subst. cbn in *. rewrite app_nil_r in *.
  unfold WriterStream in GW. rewrite HF, HD in GW. rewrite <- AD. exact GW.
Qed.
Lemma raw_more win win' s d : (win <= win')%N -> RawStream (StrictBlock win) [] s d -> RawStream (StrictBlock win') [] s d.
Proof.
  intros HW [S1 [w [pad [P1 [P2 [w1 [h [w2 [D1 [D2 D3]]]]]]]]]]. split; [exact S1|]. exists w, pad. split; [exact P1|]. split; [exact P2|]. exists w1, h, w2. split; [|split; [|exact D3]].
  - pose proof (@blocks_more win win' [] 0 0 (rev []) w1 h HW D1) as K. rewrite !app_nil_r in K. exact K.
  - pose proof (@block_more win win' [] 0 _ _ _ _ _ HW D2) as K. cbn [rev]; rewrite !app_nil_r in *; exact K.
Qed.

Lemma joined_raw wb jobs parts last lastpart :
  Forall (job_ok wb) jobs -> job_ok wb last -> Forall2 flushed_part jobs parts -> closed_part last lastpart -> bytes_ok (concat parts ++ lastpart) ->
  RawStream (StrictBlock (2 ^ wb)) [] (concat parts ++ lastpart) (concat (map (fun j => ops_data (snd j)) jobs) ++ ops_data (snd last)).
Proof.
  intros HJ HJl HP HC HB. induction HP as [|j s jobs parts HP1 HP2 IH]; cbn [concat map app] in *.
  - destruct (close_of HJl HC) as [win [W R]]. exact (raw_more W R).
  - inversion_clear HJ. rewrite <- app_assoc in HB. apply bytes_ok_app in HB. destruct HB as [HB1 HB2]. destruct (part_of H HP1 HB1) as [win [W P]].
    rewrite <- !app_assoc. apply (part_raw W P). apply IH; auto.
Qed.

(** ** Joining
    Jobs compressed by Writers of their own - at the same time, with different
    settings, on different machines - joined in order are one stream that
    decompresses to all the data. *)
Theorem C94_joined_streams :
  forall renv ropts jobs parts last lastpart src,
    rlib_ok renv -> opts_ok ropts -> o_format (reffective ropts) = RawFormat -> o_dict (reffective ropts) = None ->
    Forall (job_ok (o_wbits (reffective ropts))) jobs -> job_ok (o_wbits (reffective ropts)) last ->
    Forall2 flushed_part jobs parts -> closed_part last lastpart ->
    good_src src -> src_bytes src = concat parts ++ lastpart ->
    decompress renv ropts src = Ok (concat (map (fun j => ops_data (snd j)) jobs) ++ ops_data (snd last), Some (src_end src)).
Proof.
  intros renv ropts jobs parts last lastpart src HL HO HF HD HJ HJl HP HC HS EB. set (wb := o_wbits (reffective ropts)) in *.
  apply (@C27_reader_accepts_valid_stream renv ropts src SRaw); auto; [split; [exact HF|discriminate]|].
  unfold Acceptable. fold wb. rewrite HD. cbn [dict_bytes]. pose proof (proj2 HS) as HB. rewrite EB in HB |- *. apply joined_raw; auto.
Qed.

(** The same with a gzip header in front and, behind, the checksum and size of
    all the data: a .gz file made of pieces compressed independently. *)
Theorem C94_joined_gzip :
  forall renv ropts g jobs parts last lastpart data src,
    rlib_ok renv -> opts_ok ropts -> o_format (reffective ropts) = GZIPFormat -> o_dict (reffective ropts) = None ->
    gzip_fields_ok g -> (forall x, gz_extra g = Some x -> ExtraField x) ->
    Forall (job_ok (o_wbits (reffective ropts))) jobs -> job_ok (o_wbits (reffective ropts)) last ->
    Forall2 flushed_part jobs parts -> closed_part last lastpart ->
    data = concat (map (fun j => ops_data (snd j)) jobs) ++ ops_data (snd last) ->
    good_src src ->
    src_bytes src = gzip_header g ++ (concat parts ++ lastpart) ++ le32 (spec_crc32 data) ++ le32 (lenN data mod two32)%N ->
    decompress renv ropts src = Ok (data, Some (src_end src)).
Proof.
  intros renv ropts g jobs parts last lastpart data src HL HO HF HD HG HX HJ HJl HP HC -> HS EB. set (wb := o_wbits (reffective ropts)) in *.
  apply (@C27_reader_accepts_valid_stream renv ropts src SGzip); auto; [split; [exact HF|discriminate]|].
  unfold Acceptable. fold wb. rewrite HD. exists g. split; [|exact HX]. split; [exact HG|]. cbn [dict_bytes].
  exists (concat parts ++ lastpart). split; [|exact EB]. pose proof (proj2 HS) as HB. rewrite EB in HB.
  apply bytes_ok_app in HB. destruct HB as [_ HB]. apply bytes_ok_app in HB. destruct HB as [HB _]. apply joined_raw; auto.
Qed.

(** And as a zlib stream: the header declares a window no smaller than any job's. *)
Theorem C94_joined_zlib :
  forall renv ropts cmf flg jobs parts last lastpart data src,
    rlib_ok renv -> opts_ok ropts -> o_format (reffective ropts) = ZlibFormat -> o_dict (reffective ropts) = None ->
    is_byte cmf -> is_byte flg -> (cmf mod 16 = 8)%N -> (cmf / 16 <= 7)%N -> ((cmf * 256 + flg) mod 31 = 0)%N -> N.testbit flg 5 = false ->
    (cmf / 16 + 8 <= o_wbits (reffective ropts))%N ->
    Forall (job_ok (cmf / 16 + 8)) jobs -> job_ok (cmf / 16 + 8) last ->
    Forall2 flushed_part jobs parts -> closed_part last lastpart ->
    data = concat (map (fun j => ops_data (snd j)) jobs) ++ ops_data (snd last) ->
    good_src src -> src_bytes src = [cmf; flg] ++ (concat parts ++ lastpart) ++ be32 (spec_adler32 data) ->
    decompress renv ropts src = Ok (data, Some (src_end src)).
Proof.
  intros renv ropts cmf flg jobs parts last lastpart data src HL HO HF HD B1 B2 HM HI HC5 HT HW HJ HJl HP HC -> HS EB.
  apply (@C27_reader_accepts_valid_stream renv ropts src SZlib); auto.
  { split; [exact HF|]. intros _. rewrite HD. exact I. }
  unfold Acceptable. rewrite HD. split.
  - exists cmf, flg, [], (concat parts ++ lastpart). do 5 (split; [assumption|]). split; [split; [exact HT|reflexivity]|]. split; [|exact EB]. cbn [dict_bytes].
    pose proof (proj2 HS) as HB. rewrite EB in HB. apply bytes_ok_app in HB. destruct HB as [_ HB]. apply bytes_ok_app in HB. destruct HB as [HB _].
    apply joined_raw; auto.
  - rewrite EB. eexists _, _. split; [reflexivity|exact HW].
Qed.

(** ** The hypotheses are met *)
Definition rawjob (p : list N) : job := ([WithFormat RawFormat; WithMemoryLevel 7], [OWrite p]).
Definition j1 : job := rawjob [104; 101]%N.
Definition j2 : job := rawjob [].
Definition j3 : job := rawjob [108; 108; 111]%N.
Definition out_of (r : res (writer * option goerr)) : list N := match r with Ok (w, None) => sink (w_out w) | _ => [] end.
Definition flushed_out (j : job) : list N := out_of (w_run demo_wenv (newWriter (fst j)) (snd j ++ [OFlush SyncFlush])).
Definition closed_out (j : job) : list N := out_of (w_session demo_wenv (newWriter (fst j)) (snd j)).
Example C94_hypotheses_met :
  Forall (job_ok 15) [j1; j2; j3] /\ Forall2 flushed_part [j1; j2] [flushed_out j1; flushed_out j2] /\ closed_part j3 (closed_out j3) /\
  o_format (reffective raw_opts) = RawFormat /\ o_dict (reffective raw_opts) = None /\ o_wbits (reffective raw_opts) = 15%N.
Proof.
  assert (F : forall j, (exists w, w_run demo_wenv (newWriter (fst j)) (snd j ++ [OFlush SyncFlush]) = Ok (w, None)) -> flushed_part j (flushed_out j)).
  { intros j [w E]. exists demo_wenv, SyncFlush, w. unfold flushed_out. rewrite E. split; [apply demo_lib_ok|]. auto. }
  assert (OK : forall p, bytes_ok p -> job_ok 15 (rawjob p)).
  { intros p HB. unfold job_ok. cbn [fst snd rawjob]. split; [repeat constructor|]. split; [reflexivity|]. split; [reflexivity|]. split; [vm_compute; discriminate|].
    split; [repeat constructor; exact HB|]. intros [H|[]]; discriminate H. }
  split; [apply Forall_cons; [apply OK; repeat constructor|apply Forall_cons; [apply OK; repeat constructor|apply Forall_cons; [apply OK; repeat constructor|apply Forall_nil]]]|].
  split; [apply Forall2_cons; [apply (F j1); eexists; vm_compute; reflexivity|apply Forall2_cons; [apply (F j2); eexists; vm_compute; reflexivity|apply Forall2_nil]]|].
  split; [|repeat split; reflexivity].
  assert (E : exists w, w_session demo_wenv (newWriter (fst j3)) (snd j3) = Ok (w, None)) by (eexists; vm_compute; reflexivity).
  destruct E as [w E]. exists demo_wenv, w. split; [apply demo_lib_ok|]. split; [exact E|]. unfold closed_out. rewrite E. reflexivity.
Qed.
Example C94_met : flushed_out j1 <> [] /\ flushed_out j2 = [] /\
  decompress demo_renv raw_opts [(flushed_out j1 ++ flushed_out j2, None); (closed_out j3, None)] = Ok ([104; 101; 108; 108; 111]%N, Some EOF).
Proof. split; [vm_compute; discriminate|]. split; vm_compute; reflexivity. Qed.
Definition plain_gz : gzip_fields := {| gz_text := false; gz_hcrc := true; gz_extra := None; gz_name := Some [97; 46; 98]%N; gz_comment := None; gz_mtime := 0; gz_xfl := 0; gz_os := 255 |}.
Definition gz_ropts : list opt := [WithFormat GZIPFormat].
Example C94_gzip_met :
  gzip_fields_ok plain_gz /\ o_format (reffective gz_ropts) = GZIPFormat /\ o_dict (reffective gz_ropts) = None /\ o_wbits (reffective gz_ropts) = 15%N /\
  decompress demo_renv gz_ropts
    [(gzip_header plain_gz, None); (flushed_out j1 ++ flushed_out j2 ++ closed_out j3, None);
     (le32 (spec_crc32 [104; 101; 108; 108; 111]%N) ++ le32 5, None)] = Ok ([104; 101; 108; 108; 111]%N, Some EOF).
Proof.
  split; [|split; [reflexivity|split; [reflexivity|split; [reflexivity|vm_compute; reflexivity]]]].
  repeat split; try reflexivity; [repeat constructor|]. cbn. intros [H|[H|[H|[]]]]; discriminate H.
Qed.
Definition zl_ropts : list opt := [WithFormat ZlibFormat].
Example C94_zlib_met :
  is_byte 120 /\ is_byte 156 /\ (120 mod 16 = 8)%N /\ (120 / 16 <= 7)%N /\ ((120 * 256 + 156) mod 31 = 0)%N /\ N.testbit 156 5 = false /\ (120 / 16 + 8)%N = 15%N /\
  o_format (reffective zl_ropts) = ZlibFormat /\ o_dict (reffective zl_ropts) = None /\ o_wbits (reffective zl_ropts) = 15%N /\
  decompress demo_renv zl_ropts
    [([120; 156]%N, None); (flushed_out j1 ++ flushed_out j2 ++ closed_out j3, None);
     (be32 (spec_adler32 [104; 101; 108; 108; 111]%N), None)] = Ok ([104; 101; 108; 108; 111]%N, Some EOF).
Proof. do 10 (split; [first [reflexivity|vm_compute; discriminate]|]). vm_compute. reflexivity. Qed.
Print Assumptions C94_joined_streams.
Print Assumptions C94_joined_gzip.
Print Assumptions C94_joined_zlib.
