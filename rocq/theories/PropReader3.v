(** Claims about the Reader which are false of the code, with witnesses, and
    examples meeting the hypotheses of the Reader theorems. *)
From Verif Require Import Base SpecChecksum SpecHuffman SpecDeflate SpecFormats SpecSession SpecEvents MChecksum PChecksum MToken MCommon MWriter MReader SpecReader SpecLib PToken PHuffman PBits PActs PGram PInput POutput PDecode PDynamic PBlockDec PHeader PStream PFooter PThread PLoop PFormat PApi PInst PAccept PRead PropReader PropReader2 Demo.

(** ** The demo environment meets the contracts of the libraries. *)
Lemma one_symbol_kraft sizes : sizes_le 15 sizes -> (kraft sizes <= N.of_nat (used_symbols sizes) * 16384)%N.
Proof.
  unfold kraft, used_symbols, sizes_le in *. induction 1 as [|s l H Hl IH]; [cbn; lia|]. cbn [fold_right filter].
  destruct (Nat.eqb_spec s 0); cbn [negb length]; [lia|].
  assert ((2 ^ N.of_nat (15 - s) <= 2 ^ 14)%N) by (apply N.pow_le_mono_r; lia). change (2 ^ 14)%N with 16384%N in *. lia.
Qed.
Lemma demo_rlib_ok : rlib_ok demo_renv.
Proof.
  constructor; cbn.
  - auto.
  - intros sizes H E. apply N.leb_le in E. auto.
  - intros sizes _ [S H]. apply N.leb_le. pose proof (one_symbol_kraft S). unfold complete_code in H. destruct H as [->|[H|[H _]]]; [lia|rewrite H in *; lia|rewrite H in *; lia].
  - intros. unfold is_byte. lia.
  - reflexivity.
  - intros l [x [H1 H2]]. apply not_true_is_false. intros K. rewrite forallb_forall in K. specialize (K _ H1). apply N.eqb_eq in K. congruence.
Qed.
(** An environment whose window refuses references to before its contents. *)
Definition strict_renv : renv := REnv 4 (fun s => (kraft s <=? 32768)%N) None (fun _ d l => N.min d l) (fun w => forallb (N.eqb 0) w) (fun _ => 2).
Lemma strict_rlib_ok : rlib_ok strict_renv.
Proof. destruct demo_rlib_ok. constructor; cbn; auto. Qed.

(** ** Valid streams *)
(** The raw stream 4b 04 00 holds "a". *)
Lemma has_code sizes s : (0 <? code_size sizes s) = true -> HasCode sizes s (codeword sizes s).
Proof. intros H. split; auto. apply Nat.ltb_lt. auto. Qed.
Definition static_bits (fin : bool) (l : list N) : list bool := [fin; true; false] ++ flat_map (codeword fixed_ll) l ++ codeword fixed_ll 256.
Lemma static_lits (l : list N) : Forall (fun c => (c < 256)%N /\ (0 <? code_size fixed_ll c) = true) l -> TokensEnc fixed_ll fixed_d (map TLit l) (flat_map (codeword fixed_ll) l ++ codeword fixed_ll 256).
Proof.
  induction 1 as [|c l [H1 H2] Hl IH]; cbn.
  - apply encs_stop. apply has_code. reflexivity.
  - rewrite <- app_assoc. apply encs_cons; auto. apply enc_lit; auto. apply has_code. auto.
Qed.
Lemma expand_lits lk l : forall h, expand lk h (map TLit l) = Some (rev l ++ h).
Proof. induction l as [|c l IH]; intros h; cbn; auto. rewrite IH, <- app_assoc. reflexivity. Qed.
Lemma static_raw win l bytes pad : Forall (fun c => (c < 256)%N /\ (0 <? code_size fixed_ll c) = true) l -> bytes_ok bytes ->
  length pad < 8 -> bits_of_bytes bytes = static_bits true l ++ pad -> RawStream (StrictBlock win) [] bytes l.
Proof.
  intros HF HB HP E. split; auto. exists (static_bits true l), pad. split; auto. split; auto. exists [], [], (static_bits true l). split; [constructor|]. split; auto.
  cbn [rev length]. rewrite app_nil_r. unfold static_bits. apply block_static with (ts := map TLit l); [apply static_lits; auto|]. rewrite expand_lits, app_nil_r. auto.
Qed.
Definition raw_a : list N := [0x4b; 4; 0]%N.
Lemma raw_a_ok win : RawStream (StrictBlock win) [] raw_a [97]%N.
Proof. apply static_raw with (pad := repeat false 6); [repeat constructor|repeat constructor|cbn; lia|reflexivity]. Qed.
Definition zlib_a : list N := [0x78; 0x9c; 0x4b; 4; 0; 0; 0x62; 0; 0x62]%N.
Lemma zlib_a_ok : Acceptable 15 None SZlib zlib_a [97]%N.
Proof.
  split.
  - exists 0x78%N, 0x9c%N, [], raw_a. split; [reflexivity|]. split; [reflexivity|]. split; [reflexivity|]. split; [vm_compute; discriminate|]. split; [reflexivity|]. split; [split; reflexivity|].
    split; [apply raw_a_ok|]. vm_compute. reflexivity.
  - exists 0x78%N, [0x9c; 0x4b; 4; 0; 0; 0x62; 0; 0x62]%N. split; auto. vm_compute. discriminate.
Qed.
Definition zlib_opts : list opt := [WithFormat ZlibFormat].
Definition raw_opts : list opt := [WithFormat RawFormat].
Lemma raw_set : set_to raw_opts SRaw. Proof. split; [reflexivity|discriminate]. Qed.
Lemma zlib_set : set_to zlib_opts SZlib. Proof. split; [reflexivity|intros; exact I]. Qed.
Lemma raw_a_valid : valid raw_opts SRaw (raw_a, [97]%N). Proof. apply raw_a_ok. Qed.
Lemma zlib_a_valid : valid zlib_opts SZlib (zlib_a, [97]%N). Proof. apply zlib_a_ok. Qed.

(** The hypotheses of C27 and C33 are met, in two pieces of input. *)
Example C27_example : decompress demo_renv zlib_opts [([0x78; 0x9c; 0x4b], None); ([4; 0; 0; 0x62; 0; 0x62], None)]%N = Ok ([97]%N, Some EOF).
Proof.
  apply C27_reader_accepts_valid_stream with (f := SZlib).
  - apply demo_rlib_ok.
  - repeat constructor; cbn; discriminate.
  - split; [cbn; repeat split; discriminate|repeat constructor].
  - apply zlib_set.
  - apply zlib_a_ok.
Qed.

(** ** C30 is false: an input cut inside a Huffman code is reported as corrupt,
    and an I/O error there is swallowed. *)
Theorem C30_refuted :
  rlib_ok demo_renv /\ valid raw_opts SRaw ([0x4b; 4; 0]%N, [97]%N) /\
  (exists d e, decompress demo_renv raw_opts [([0x4b; 4]%N, None); ([], Some EOF)] = Ok (d, Some e) /\ e <> ErrUnexpectedEOF /\ is_corrupt e) /\
  (exists d e, decompress demo_renv raw_opts [([0x4b; 4]%N, None); ([], Some (IOErr 7))] = Ok (d, Some e) /\ e <> IOErr 7 /\ is_corrupt e).
Proof.
  split; [apply demo_rlib_ok|]. split; [apply raw_a_ok|]. split.
  - exists [97]%N, (CorruptInputError 2 2 CDegenerateLL). split; [vm_compute; reflexivity|]. split; [discriminate|red; eauto].
  - exists [97]%N, (CorruptInputError 2 2 CDegenerateLL). split; [vm_compute; reflexivity|]. split; [discriminate|red; eauto].
Qed.
(** The error is right when no code is cut: here the input ends in a stored block. *)
Example C30_example :
  decompress demo_renv raw_opts [([1; 2; 0; 253; 255; 65]%N, None); ([], Some (IOErr 7))] = Ok ([], Some (IOErr 7)) /\
  decompress demo_renv raw_opts [([1; 2; 0; 253; 255; 65]%N, None)] = Ok ([], Some ErrUnexpectedEOF).
Proof. split; vm_compute; reflexivity. Qed.

(** ** C35 is false: after a corrupt block, the Reader goes on with the next
    byte as if a new raw stream began there, and delivers its contents. *)
Theorem C35_refuted :
  exists a b c, decompress demo_renv raw_opts [([7] ++ [0x4b; 4; 0], None)]%N = Ok ([97]%N, Some (CorruptInputError a b c)) /\
    (forall d, ~ StrictRaw 32768 [] [7]%N d).
Proof.
  exists 1%N, 1%N, CReservedBlock. split; [vm_compute; reflexivity|].
  intros d [_ [w [pad [HP [E [w1 [h [w2 [HB [HF ->]]]]]]]]]]. cbn in E.
  assert (W1 : w1 = []).
  { revert E. destruct HB as [|w0 h0 w' h' HB0 HX]; auto. intros E. exfalso.
    assert (B0 : forall pos hist w h, Blocks (StrictBlock 32768) pos hist w h -> w = [] \/ exists t, w = false :: t).
    { clear. induction 1 as [|w h w' h' HB IH HX]; auto. right. destruct IH as [-> |[t ->]]; [|cbn; eauto]. cbn. destruct HX; cbn; eauto. }
    destruct (B0 _ _ _ _ HB0) as [-> |[t ->]]; [|discriminate]. cbn in HX. destruct HX; discriminate. }
  subst w1. cbn in E, HF. destruct HF; discriminate.
Qed.

(** ** Concatenated streams: C33 needs the source to report EOF separately. *)
Theorem C33_needs_detached_eof :
  valid raw_opts SRaw (raw_a, [97]%N) /\
  decompress demo_renv raw_opts [(raw_a ++ raw_a, None)] = Ok ([97; 97]%N, Some EOF) /\
  decompress demo_renv raw_opts [(raw_a ++ raw_a, Some EOF)] = Ok ([97]%N, Some EOF).
Proof. split; [apply raw_a_ok|]. split; vm_compute; reflexivity. Qed.

(** ** C32 is false in general: how the source cuts its data matters. *)
(** With format detection, a first read of a single byte means raw. *)
Theorem C32_refuted_detection :
  Acceptable 15 None SZlib zlib_a [97]%N /\
  decompress demo_renv [] [(zlib_a, None)] = Ok ([97]%N, Some EOF) /\
  exists e, decompress demo_renv [] [(firstn 1 zlib_a, None); (skipn 1 zlib_a, None)] = Ok ([], Some e) /\ e <> EOF.
Proof. split; [apply zlib_a_ok|]. split; [vm_compute; reflexivity|]. eexists. split; [vm_compute; reflexivity|]. discriminate. Qed.
(** A read which returns (0, nil) is taken for a failure. *)
Theorem C32_refuted_empty_read :
  Acceptable 15 None SRaw raw_a [97]%N /\
  decompress demo_renv raw_opts [(firstn 1 raw_a, None); (skipn 1 raw_a, None)] = Ok ([97]%N, Some EOF) /\
  exists d e, decompress demo_renv raw_opts [(firstn 1 raw_a, None); ([], None); (skipn 1 raw_a, None)] = Ok (d, Some e) /\ is_corrupt e.
Proof. split; [apply raw_a_ok|]. split; [vm_compute; reflexivity|]. do 2 eexists. split; [vm_compute; reflexivity|]. red; eauto. Qed.

(** ** The panic of C34 does not depend on the libraries. *)
Theorem C34_panic_any_library : forall env, decompress env [WithFormat GZIPFormat] [(panic_input, None)] = Panic PBounds.
Proof. intros env. vm_compute. reflexivity. Qed.

(** ** A zlib dictionary of zeros is not recognised as a dictionary. *)
Definition zlib_zero_dict : list N := [0x78; 0xbb; 0; 1; 0; 1; 0x4b; 4; 0; 0; 0x62; 0; 0x62]%N.
Theorem C27_needs_visible_dictionary :
  Acceptable 15 (Some [0]%N) SZlib zlib_zero_dict [97]%N /\
  exists e, decompress demo_renv [WithFormat ZlibFormat; WithDictionary (Some [0]%N)] [(zlib_zero_dict, None)] = Ok ([], Some e) /\ is_corrupt e.
Proof.
  split.
  - split.
    + exists 0x78%N, 0xbb%N, [0; 1; 0; 1]%N, raw_a. split; [reflexivity|]. split; [reflexivity|]. split; [reflexivity|]. split; [vm_compute; discriminate|]. split; [reflexivity|]. split; [split; reflexivity|].
      split; [|vm_compute; reflexivity]. destruct (raw_a_ok (2 ^ (0x78 / 16 + 8))%N) as [B [w [pad [P1 [P2 P3]]]]]. split; auto.
      exists (static_bits true [97]%N), (repeat false 6). split; [cbn; lia|]. split; [reflexivity|]. exists [], [0]%N, (static_bits true [97]%N). split; [constructor|]. split; auto.
      unfold static_bits. apply block_static with (ts := map TLit [97]%N); [apply static_lits; repeat constructor|reflexivity].
    + exists 0x78%N, (skipn 1 zlib_zero_dict). split; auto. vm_compute. discriminate.
  - eexists. split; [vm_compute; reflexivity|]. red; eauto.
Qed.
