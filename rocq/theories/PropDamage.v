(** C75: local damage to the content is always detected: a Reader never
    reports a clean end of a gzip stream whose content differs, in one run of
    at most four bytes, from the content its checksum was made for (two bytes
    for zlib).  The compression of the damaged content does not matter; a
    second pair of theorems is about streams of stored blocks, where damage to
    the stored bytes is exactly damage to the content. *)
From Verif Require Import Base SpecChecksum SpecHuffman SpecDeflate SpecFormats SpecSession SpecEvents MChecksum PChecksum MToken MCommon MWriter MReader SpecReader SpecLib PToken PHuffman PBits PActs PGram PInput POutput PDecode PDynamic PBlockDec PHeader PStream PFooter PThread PLoop PFormat PApi PInst PAccept PRead PropReader Demo PDemo PropReader3 PAsm2 PDamage.

Lemma crc_lt d : (spec_crc32 d < two32)%N.
Proof.
  unfold spec_crc32. pose proof (@feed_lt (bits_of_bytes d) ones32 ltac:(reflexivity)) as H.
  apply (@lxor_lt _ _ 32); [exact H|reflexivity].
Qed.
Lemma adler_lt' d : (spec_adler32 d < two32)%N.
Proof. unfold spec_adler32, two32. destruct (adler_sums d 1 0). lia. Qed.

(** ** Any compression *)
(** The stream [b ++ footer of d'] is a valid gzip stream with the content
    [d'].  What the Reader sees is [b] with the footer of another content [d]
    behind it, where [d] and [d'] differ in one run of at most four bytes. *)
Theorem C75_gzip_damage_detected :
  forall env opts src b p x y s tail, rlib_ok env -> opts_ok opts -> good_src src -> set_to opts SGzip ->
    let d := p ++ x ++ s in let d' := p ++ y ++ s in
    bytes_ok x -> bytes_ok y -> length x = length y -> length x <= 4 -> x <> y ->
    valid opts SGzip (b ++ le32 (spec_crc32 d') ++ le32 (lenN d' mod two32)%N, d') ->
    src_bytes src = b ++ (le32 (spec_crc32 d) ++ le32 (lenN d mod two32)%N) ++ tail ->
    forall data, decompress env opts src <> Ok (data, Some EOF).
Proof.
  intros env opts src b p x y s tail HL HO HG HS d d' Bx By L L4 NE V E. refine (@C31_gzip_checksum_enforced env opts src b d' _ tail HL HO HG HS V _ _ E); [reflexivity|].
  intros K. apply app_inj_length in K; [|reflexivity]. destruct K as [K _]. apply (f_equal unle32) in K. rewrite !unle32_le32 in K by apply crc_lt.
  apply NE. eapply crc_burst; eauto.
Qed.
Theorem C75_zlib_damage_detected :
  forall env opts src b p x y s tail, rlib_ok env -> opts_ok opts -> good_src src -> set_to opts SZlib ->
    let d := p ++ x ++ s in let d' := p ++ y ++ s in
    bytes_ok x -> bytes_ok y -> length x = length y -> length x <= 2 -> x <> y ->
    valid opts SZlib (b ++ be32 (spec_adler32 d'), d') ->
    src_bytes src = b ++ be32 (spec_adler32 d) ++ tail ->
    forall data, decompress env opts src <> Ok (data, Some EOF).
Proof.
  intros env opts src b p x y s tail HL HO HG HS d d' Bx By L L4 NE V E. refine (@C31_zlib_checksum_enforced env opts src b d' _ tail HL HO HG HS V _ _ E); [reflexivity|].
  intros K. apply (f_equal unbe32) in K. rewrite !unbe32_be32 in K by apply adler_lt'.
  apply NE. eapply adler_burst; eauto.
Qed.

(** ** Streams of stored blocks *)
(** RFC 1951, 3.2.4: the header bits in a byte of their own, the length, its
    complement, the bytes. *)
Definition stored_block (final : bool) (d : list N) : list N :=
  [if final then 1%N else 0%N] ++ le16 (lenN d) ++ le16 (65535 - lenN d)%N ++ d.
Fixpoint stored_body (ds : list (list N)) : list N :=
  match ds with
  | [] => stored_block true []
  | [d] => stored_block true d
  | d :: t => stored_block false d ++ stored_body t
  end.
(** A block's content fits its 16-bit length field. *)
Definition fits (d : list N) : Prop := bytes_ok d /\ (lenN d <= 65535)%N.

Lemma stored_ok final d : fits d -> bytes_ok (stored_block final d).
Proof.
  intros [B L]. unfold stored_block. apply bytes_ok_app; split; [repeat constructor; destruct final; reflexivity|].
  apply bytes_ok_app; split; [apply le16_bytes|]. apply bytes_ok_app; split; [apply le16_bytes|auto].
Qed.
Lemma stored_is win pos hist final d : fits d -> pos mod 8 = 0 ->
  StrictBlock win pos hist final (bits_of_bytes (stored_block final d)) (rev d ++ hist).
Proof.
  intros [B L] P. unfold stored_block. rewrite !bits_of_bytes_app, !bits_le16.
  replace (bits_of_bytes [if final then 1 else 0]%N) with ([final; false; false] ++ repeat false 5) by (destruct final; reflexivity).
  rewrite <- !app_assoc. apply block_stored; auto.
  rewrite repeat_length. replace (pos + 3 + 5) with (pos + 1 * 8) by lia. rewrite Nat.mod_add; lia.
Qed.
Lemma stored_body_ok ds : Forall fits ds -> bytes_ok (stored_body ds).
Proof.
  induction 1 as [|d t H Ht IH]; [apply stored_ok; split; [constructor|cbn; lia]|]. destruct t as [|e t]; cbn [stored_body]; [apply stored_ok; auto|].
  apply bytes_ok_app; split; [apply stored_ok|]; auto.
Qed.
Lemma stored_deflate win ds : ds <> [] -> Forall fits ds -> forall pos hist, pos mod 8 = 0 ->
  exists w1 h w2, Blocks (StrictBlock win) pos hist w1 h /\ StrictBlock win (pos + length w1) h true w2 (rev (concat ds) ++ hist) /\
    bits_of_bytes (stored_body ds) = w1 ++ w2.
Proof.
  intros NE F. induction F as [|d t H Ht IH]; [congruence|]. intros pos hist P. destruct t as [|e t].
  - exists [], hist, (bits_of_bytes (stored_block true d)). split; [constructor|]. split; auto. cbn [length concat]. rewrite app_nil_r, Nat.add_0_r. apply stored_is; auto.
  - pose proof (@stored_is win pos hist false d H P) as S1.
    destruct (IH ltac:(congruence) (pos + length (bits_of_bytes (stored_block false d))) (rev d ++ hist)) as [w1 [h [w2 [A [B C]]]]].
    { rewrite length_bits_of_bytes, Nat.mul_comm, Nat.mod_add; auto. }
    exists (bits_of_bytes (stored_block false d) ++ w1), h, w2. split; [eapply Blocks_cons; eauto|]. split.
    + rewrite app_length, Nat.add_assoc. replace (rev (concat (d :: e :: t)) ++ hist) with (rev (concat (e :: t)) ++ rev d ++ hist); auto.
      change (concat (d :: e :: t)) with (d ++ concat (e :: t)). now rewrite rev_app_distr, <- app_assoc.
    + change (stored_body (d :: e :: t)) with (stored_block false d ++ stored_body (e :: t)). now rewrite bits_of_bytes_app, C, app_assoc.
Qed.
Lemma stored_raw win dict ds : ds <> [] -> Forall fits ds -> RawStream (StrictBlock win) dict (stored_body ds) (concat ds).
Proof.
  intros NE F. split; [apply stored_body_ok; auto|]. destruct (@stored_deflate win ds NE F 0 (rev dict) eq_refl) as [w1 [h [w2 [A [B C]]]]].
  exists (w1 ++ w2), []. split; [cbn; lia|]. split; [now rewrite app_nil_r|]. exists w1, h, w2. auto.
Qed.

(** A gzip stream of the stored blocks [ds] and the header fields [g], with a
    checksum and length made for the content [d]. *)
Definition stored_gzip (g : gzip_fields) (ds : list (list N)) (d : list N) : list N :=
  gzip_header g ++ stored_body ds ++ le32 (spec_crc32 d) ++ le32 (lenN d mod two32)%N.
Definition good_fields (g : gzip_fields) : Prop := gzip_fields_ok g /\ forall x, gz_extra g = Some x -> ExtraField x.
Lemma stored_valid opts g ds : ds <> [] -> Forall fits ds -> good_fields g -> valid opts SGzip (stored_gzip g ds (concat ds), concat ds).
Proof.
  intros NE F [G X]. exists g. split; auto. split; auto. exists (stored_body ds). split; auto. cbn [snd]. apply stored_raw; auto.
Qed.
Theorem C75_stored_gzip_intact :
  forall env opts src g ds, rlib_ok env -> opts_ok opts -> good_src src -> set_to opts SGzip ->
    ds <> [] -> Forall fits ds -> good_fields g -> src_bytes src = stored_gzip g ds (concat ds) ->
    decompress env opts src = Ok (concat ds, Some (src_end src)).
Proof.
  intros env opts src g ds HL HO HG HS NE F G E. eapply C27_reader_accepts_valid_stream; eauto. rewrite E. apply (@stored_valid opts g ds NE F G).
Qed.
(** One run of at most four stored bytes, anywhere in any block, replaced. *)
Theorem C75_stored_gzip_damaged :
  forall env opts src g before after p x y s tail, rlib_ok env -> opts_ok opts -> good_src src -> set_to opts SGzip -> good_fields g ->
    Forall fits before -> Forall fits after -> fits (p ++ x ++ s) -> fits (p ++ y ++ s) ->
    length x = length y -> length x <= 4 -> x <> y ->
    src_bytes src = stored_gzip g (before ++ [p ++ y ++ s] ++ after) (concat (before ++ [p ++ x ++ s] ++ after)) ++ tail ->
    forall data, decompress env opts src <> Ok (data, Some EOF).
Proof.
  intros env opts src g before after p x y s tail HL HO HG HS G F1 F2 Fx Fy L L4 NE E.
  assert (C : forall z, concat (before ++ [p ++ z ++ s] ++ after) = (concat before ++ p) ++ z ++ (s ++ concat after)).
  { intros z. rewrite concat_app. cbn [app concat]. now rewrite <- !app_assoc. }
  assert (V : valid opts SGzip (stored_gzip g (before ++ [p ++ y ++ s] ++ after) (concat (before ++ [p ++ y ++ s] ++ after)), concat (before ++ [p ++ y ++ s] ++ after))).
  { apply stored_valid; auto; [destruct before; discriminate|]. apply Forall_app. split; auto. constructor; auto. }
  rewrite C in E, V. unfold stored_gzip in E, V. rewrite <- !app_assoc in E.
  destruct Fx as [Bx _], Fy as [By _]. apply bytes_ok_app in Bx, By. destruct Bx as [_ Bx], By as [_ By]. apply bytes_ok_app in Bx, By.
  eapply (@C75_gzip_damage_detected env opts src (gzip_header g ++ stored_body (before ++ [p ++ y ++ s] ++ after)) (concat before ++ p) x y (s ++ concat after) tail); auto; try tauto.
  - cbn zeta. rewrite <- (app_assoc (gzip_header g)). exact V.
  - rewrite E, <- !app_assoc. auto.
Qed.

(** The same for zlib: any valid two-byte header with the dictionary checksum. *)
Definition zlib_head (opts : list opt) (h : list N) : Prop :=
  exists cmf flg, is_byte cmf /\ is_byte flg /\ (cmf mod 16 = 8)%N /\ (cmf / 16 <= 7)%N /\ (cmf / 16 + 8 <= limit_of opts)%N /\
    ((cmf * 256 + flg) mod 31 = 0)%N /\ N.testbit flg 5 = is_some (dict_of opts) /\
    h = [cmf; flg] ++ match dict_of opts with Some d => be32 (spec_adler32 d) | None => [] end.
Definition stored_zlib (h : list N) (ds : list (list N)) (d : list N) : list N :=
  h ++ stored_body ds ++ be32 (spec_adler32 d).
Lemma stored_zvalid opts h ds : ds <> [] -> Forall fits ds -> zlib_head opts h -> valid opts SZlib (stored_zlib h ds (concat ds), concat ds).
Proof.
  intros NE F (cmf & flg & A1 & A2 & A3 & A4 & A5 & A6 & A7 & ->). split.
  - exists cmf, flg, match dict_of opts with Some d => be32 (spec_adler32 d) | None => [] end, (stored_body ds). do 5 (split; [assumption|]). split; [destruct (dict_of opts); auto|]. split; [apply (@stored_raw _ _ ds NE F)|].
    cbn [fst snd]. unfold stored_zlib. now rewrite <- !app_assoc.
  - cbn [fst]. exists cmf. eexists. split; [reflexivity|]. auto.
Qed.

Theorem C75_stored_zlib_intact :
  forall env opts src h ds, rlib_ok env -> opts_ok opts -> good_src src -> set_to opts SZlib ->
    ds <> [] -> Forall fits ds -> zlib_head opts h -> src_bytes src = stored_zlib h ds (concat ds) ->
    decompress env opts src = Ok (concat ds, Some (src_end src)).
Proof.
  intros env opts src h ds HL HO HG HS NE F G E. eapply C27_reader_accepts_valid_stream; eauto. rewrite E. apply (@stored_zvalid opts h ds NE F G).
Qed.
Theorem C75_stored_zlib_damaged :
  forall env opts src h before after p x y s tail, rlib_ok env -> opts_ok opts -> good_src src -> set_to opts SZlib -> zlib_head opts h ->
    Forall fits before -> Forall fits after -> fits (p ++ x ++ s) -> fits (p ++ y ++ s) ->
    length x = length y -> length x <= 2 -> x <> y ->
    src_bytes src = stored_zlib h (before ++ [p ++ y ++ s] ++ after) (concat (before ++ [p ++ x ++ s] ++ after)) ++ tail ->
    forall data, decompress env opts src <> Ok (data, Some EOF).
Proof.
  intros env opts src h before after p x y s tail HL HO HG HS G F1 F2 Fx Fy L L4 NE E.
  assert (C : forall z, concat (before ++ [p ++ z ++ s] ++ after) = (concat before ++ p) ++ z ++ (s ++ concat after)).
  { intros z. rewrite concat_app. cbn [app concat]. now rewrite <- !app_assoc. }
  assert (V : valid opts SZlib (stored_zlib h (before ++ [p ++ y ++ s] ++ after) (concat (before ++ [p ++ y ++ s] ++ after)), concat (before ++ [p ++ y ++ s] ++ after))).
  { apply stored_zvalid; auto; [destruct before; discriminate|]. apply Forall_app. split; auto. constructor; auto. }
  rewrite C in E, V. unfold stored_zlib in E, V. rewrite <- !app_assoc in E.
  destruct Fx as [Bx _], Fy as [By _]. apply bytes_ok_app in Bx, By. destruct Bx as [_ Bx], By as [_ By]. apply bytes_ok_app in Bx, By.
  eapply (@C75_zlib_damage_detected env opts src (h ++ stored_body (before ++ [p ++ y ++ s] ++ after)) (concat before ++ p) x y (s ++ concat after) tail); auto; try tauto.
  - cbn zeta. rewrite <- (app_assoc h). exact V.
  - rewrite E, <- !app_assoc. auto.
Qed.

(** ** Concrete cases *)
Definition gz_plain : gzip_fields := GzipFields false false None None None 0 0 255.
Definition gzip_opts : list opt := [WithFormat GZIPFormat].
Lemma gzip_set : set_to gzip_opts SGzip. Proof. split; [reflexivity|discriminate]. Qed.
Lemma gz_plain_ok : good_fields gz_plain.
Proof. split; [repeat split; reflexivity|discriminate]. Qed.
Lemma small_fits l : forallb (fun x => x <? 256)%N l = true -> (lenN l <=? 65535)%N = true -> fits l.
Proof.
  intros A B. split; [|lia]. rewrite forallb_forall in A. apply Forall_forall. intros x K. apply A in K. unfold is_byte. lia.
Qed.
Example C75_hypotheses :
  rlib_ok demo_renv /\ opts_ok gzip_opts /\ set_to gzip_opts SGzip /\ good_fields gz_plain /\
  Forall fits [[1; 2; 3]%N] /\ fits ([9] ++ [65; 66; 67; 68] ++ [7])%N /\ fits ([9] ++ [65; 0; 200; 68] ++ [7])%N /\
  good_src [(stored_gzip gz_plain [[1; 2; 3]; [9; 65; 66; 67; 68; 7]] [1; 2; 3; 9; 65; 66; 67; 68; 7], None)]%N.
Proof.
  split; [apply demo_rlib_ok|]. split; [repeat constructor|]. split; [apply gzip_set|]. split; [apply gz_plain_ok|].
  split; [constructor; [apply small_fits; reflexivity|constructor]|]. split; [apply small_fits; reflexivity|]. split; [apply small_fits; reflexivity|].
  split; [vm_compute; repeat constructor; discriminate|]. apply (@small_fits _); vm_compute; reflexivity.
Qed.
(** The intact stream, and the stream with two of its content bytes replaced. *)
Example C75_example :
  decompress demo_renv gzip_opts [(stored_gzip gz_plain [[1; 2; 3]; [9; 65; 66; 67; 68; 7]] [1; 2; 3; 9; 65; 66; 67; 68; 7], None)]%N
    = Ok ([1; 2; 3; 9; 65; 66; 67; 68; 7]%N, Some EOF) /\
  (exists a b c, decompress demo_renv gzip_opts [(stored_gzip gz_plain [[1; 2; 3]; [9; 65; 0; 200; 68; 7]] [1; 2; 3; 9; 65; 66; 67; 68; 7], None)]%N
    = Ok ([1; 2; 3; 9; 65; 0; 200; 68; 7]%N, Some (CorruptInputError a b c))).
Proof. split; [vm_compute; reflexivity|]. do 3 eexists. vm_compute. reflexivity. Qed.
(** The bounds are needed: Adler-32 does not see every change of three bytes. *)
Example C75_three_bytes_missed : spec_adler32 [1; 0; 1]%N = spec_adler32 [0; 2; 0]%N.
Proof. reflexivity. Qed.
Example C75_zlib_hypotheses : zlib_head zlib_opts [0x78; 0x9c]%N /\ set_to zlib_opts SZlib.
Proof. split; [|apply zlib_set]. exists 0x78%N, 0x9c%N. repeat split; try reflexivity; vm_compute; discriminate. Qed.
Example C75_zlib_example :
  decompress demo_renv zlib_opts [(stored_zlib [0x78; 0x9c]%N [[1; 2; 3]; [4; 5]]%N [1; 2; 3; 4; 5]%N, None)] = Ok ([1; 2; 3; 4; 5]%N, Some EOF) /\
  (exists a b c, decompress demo_renv zlib_opts [(stored_zlib [0x78; 0x9c]%N [[1; 3; 2]; [4; 5]]%N [1; 2; 3; 4; 5]%N, None)] = Ok ([1; 3; 2; 4; 5]%N, Some (CorruptInputError a b c))).
Proof. split; [vm_compute; reflexivity|]. do 3 eexists. vm_compute. reflexivity. Qed.
