(** C30: what the final error can be. *)
From Verif Require Import Base SpecChecksum SpecHuffman SpecDeflate SpecFormats SpecSession SpecEvents MChecksum PChecksum MToken MCommon MWriter MReader MSession SpecReader SpecLib PToken PHuffman PBits PActs PGram PInput POutput PDecode PDynamic PBlockDec PHeader PStream PFooter PThread PLoop PFormat PApi PInst PAccept PRead PropReader PropReader3 Demo PDemo.

(** For every input whatsoever, the error that ends the reading is io.EOF (and
    then the source had ended with io.EOF), or io.ErrUnexpectedEOF (and then the
    source had ended with io.EOF), or the very error the source had failed with,
    or a CorruptInputError.  An error of the source is never turned into io.EOF
    or io.ErrUnexpectedEOF. *)
Theorem C30_error_provenance :
  forall env opts src d oe, rlib_ok env -> opts_ok opts -> good_src src -> decompress env opts src = Ok (d, oe) ->
    exists e, oe = Some e /\
      ((exists a b c, e = CorruptInputError a b c) \/
       match src_end src with EOF => e = EOF \/ e = ErrUnexpectedEOF | x => e = x end).
Proof.
  intros env opts src d oe HL HO [HP HB] E. pose proof (@dec_facts env HL opts HO src HP HB) as T. rewrite E in T.
  destruct T as [e [ss [rest [-> [_ D]]]]]. exists e. split; auto. destruct D as [[_ [-> _]]|[_ [f [p [t [z [_ [_ [F _]]]]]]]]].
  - right. destruct (src_end src); auto.
  - destruct F as [F| ->]; [left; exact F|]. right. destruct (src_end src); cbn; auto.
Qed.
Print Assumptions C30_error_provenance.

(** A stream cut short: io.ErrUnexpectedEOF, respectively the source's own
    error; except that an incomplete Huffman code may be taken for an invalid
    one (C30_refuted).  No other complaint about the data is possible: no
    checksum, header, length or distance error. *)
Definition degenerate_code (e : goerr) : Prop :=
  exists a b, e = CorruptInputError a b CDegenerateLL \/ e = CorruptInputError a b CDegenerateD \/ e = CorruptInputError a b CDegenerateX.
Theorem C30_truncation_partial :
  forall env opts src f l b d p q, rlib_ok env -> opts_ok opts -> good_src src -> set_to opts f ->
    Forall (valid opts f) l -> valid opts f (b, d) -> b = p ++ q -> p <> [] -> q <> [] ->
    src_bytes src = concat (map fst l) ++ p -> detached_src src \/ l = [] ->
    exists data e, decompress env opts src = Ok (data, Some e) /\
      (e = match src_end src with EOF => ErrUnexpectedEOF | x => x end \/ degenerate_code e).
Proof.
  intros env opts src f l b d p q HL HO [HP HB] HS Hl HA EB NP NQ ES HD.
  destruct (valid_infos HL HO HS Hl) as [ss [V1 [V2 V3]]]. destruct (@valid_infos env opts f [(b, d)] HL HO HS) as [ss2 [W1 [W2 W3]]]; [repeat constructor; auto|].
  destruct ss2 as [|x [|y ss2]]; try discriminate. cbn in W2, W3. inversion W2; inversion W3. inversion W1 as [|? ? [X1 X2] _]. subst x0 l0.
  assert (C : cut_of env opts f p x) by (split; auto; split; auto; exists q; split; auto; congruence).
  assert (HD' : detached_src src \/ ss = []). { destruct HD as [HD| ->]; auto. right. destruct ss; [auto|discriminate]. }
  rewrite <- V2 in ES. destruct (@follow_cut env HL opts HO src HP HB f ss p x (proj1 HS) V1 NP C ES HD') as [data [t [e [E1 [E2 [E3 E4]]]]]].
  exists data, e. split; auto. destruct E3 as [-> |[a [b' [c [-> K]]]]]; [left; destruct (src_end src); reflexivity|right].
  exists a, b'. destruct K as [-> |[-> | ->]]; auto.
Qed.
Print Assumptions C30_truncation_partial.
(** Both outcomes occur: see C30_refuted and C30_example; the hypotheses are met: *)
Example C30_met : exists e, decompress demo_renv raw_opts [([0x4b; 4]%N, None); ([], Some (IOErr 7))] = Ok ([97]%N, Some e) /\ degenerate_code e.
Proof.
  exists (CorruptInputError 2 2 CDegenerateLL). split; [vm_compute; reflexivity|]. exists 2%N, 2%N. auto.
Qed.
