(** C88: what the accessors report describes the Writer or Reader completely. *)
From Verif Require Import Base MCommon MToken MWriter MReader MAccess SpecReader SpecLib SpecSession MSession MCalls PWFrame PSession PInst PRead PropReader PropReader3 PropReader4 PropReset PropOptions Demo PDemo.

Lemma acc_dict_ok o : o_dict o <> Some [] -> acc_dict o = o_dict o.
Proof. unfold acc_dict. destruct (o_dict o) as [[|b d]|]; congruence. Qed.

(** ** Writer *)
Lemma reported_effective w opts : opts_ok opts -> w_opt w = effective opts -> effective (w_reported w) = effective opts.
Proof.
  intros HO E. unfold w_reported. rewrite E. pose proof (effective_ok HO) as W. unfold effective at 1. cbn [opt_apply fold_left opt_apply1 options_reset].
  assert (D : acc_dict (effective opts) = o_dict (effective opts)). { apply acc_dict_ok. pose proof (wo_dict W) as K. destruct (o_dict (effective opts)) as [[|]|]; try congruence. destruct K; congruence. }
  rewrite D. pose proof (populate_idem (opt_apply options_reset opts)) as P. change (populateWriterDefaults (opt_apply options_reset opts)) with (effective opts) in P.
  destruct (effective opts) as [f s c m wb d t]. exact P.
Qed.
(** After any calls, Resets included, the reported options are valid arguments,
    and NewWriter with them gives exactly the Writer that NewWriter gives with
    all the options so far. *)
Theorem C88_writer_accessors :
  forall env opts cs w rs, platform env -> opts_ok opts -> opts_ok (given cs) -> w_calls env (newWriter opts) cs = Ok (w, rs) ->
    opts_ok (w_reported w) /\ newWriter (w_reported w) = newWriter (opts ++ given cs).
Proof.
  intros env opts cs w rs Hb HO HC E. pose proof (C25_reset_merges Hb E) as EW. assert (HA : opts_ok (opts ++ given cs)) by (apply Forall_app; auto).
  pose proof (effective_ok HA) as W. split.
  - unfold w_reported. rewrite EW. destruct W as [W1 W2 W3 W4 W5]. unfold opts_ok. repeat constructor; cbn [opt_valid].
    + lia.
    + lia.
    + destruct (N.eqb_spec (o_wbits (effective (opts ++ given cs))) 0); cbn; lia.
    + unfold acc_dict. destruct (o_dict (effective (opts ++ given cs))) as [[|]|]; reflexivity.
    + unfold acc_dict. destruct (o_dict (effective (opts ++ given cs))) as [[|b d]|]; auto. apply W5.
  - pose proof (reported_effective HA EW) as R. unfold newWriter. fold (effective (w_reported w)). fold (effective (opts ++ given cs)). rewrite R. reflexivity.
Qed.

(** ** Reader *)
Lemma r_reported_effective r opts : opts_ok opts -> r_opt r = reffective opts ->
  opts_ok (r_reported r) /\ o_format (reffective (r_reported r)) = o_format (reffective opts) /\ o_wbits (reffective (r_reported r)) = o_wbits (reffective opts) /\ o_dict (reffective (r_reported r)) = o_dict (reffective opts) /\ o_mlevel (reffective (r_reported r)) = o_mlevel (reffective opts).
Proof.
  intros HO E. pose proof (effective_ok HO) as W. destruct (reffective_ok HO) as [HW Hd].
  assert (EQ : o_mlevel (effective opts) = o_mlevel (reffective opts) /\ o_wbits (effective opts) = o_wbits (reffective opts) /\ o_dict (effective opts) = o_dict (reffective opts)).
  { unfold effective, reffective, populateWriterDefaults. destruct (populateReaderDefaults (opt_apply options_reset opts)); auto. }
  destruct EQ as [E1 [E2 E3]]. destruct W as [W1 W2 W3 W4 W5]. rewrite E1 in W3. rewrite E2 in W2. rewrite E3 in W5.
  assert (D : acc_dict (reffective opts) = o_dict (reffective opts)). { apply acc_dict_ok. destruct (o_dict (reffective opts)) as [[|]|]; try congruence. destruct W5; congruence. }
  unfold r_reported. rewrite E, D. split.
  - unfold opts_ok. repeat constructor; cbn [opt_valid].
    + lia.
    + destruct (N.eqb_spec (o_wbits (reffective opts)) 0); cbn; lia.
    + destruct (o_dict (reffective opts)) as [[|]|]; try reflexivity. destruct W5; congruence.
    + destruct (o_dict (reffective opts)); auto. apply W5.
  - revert W2 W3. generalize (reffective opts). intros o W2 W3. unfold reffective. cbn [opt_apply fold_left opt_apply1 options_reset populateReaderDefaults o_format o_wbits o_dict o_mlevel].
    repeat split; auto.
    + destruct (N.eqb_spec (o_wbits o) 0); auto. lia.
    + destruct (N.eqb_spec (o_mlevel o) 0); auto. lia.
Qed.
(** After any number of uses, the options a Reader reports are valid, and a new
    Reader given them reads every input as one given all the options so far. *)
Theorem C88_reader_accessors :
  forall env opts r src, rlib_ok env -> Ended env opts r -> good_src src ->
    opts_ok (r_reported r) /\ decompress env (r_reported r) src = decompress env opts src.
Proof.
  intros env opts r src HL HE HG. destruct (ended_facts HL HE) as [HO [EO _]]. destruct (r_reported_effective HO EO) as [A [B [C [D _]]]].
  split; auto. apply same_in_force; auto.
Qed.
Theorem C88_new_reader_accessors :
  forall env opts src0 src, rlib_ok env -> opts_ok opts -> good_src src ->
    opts_ok (r_reported (newReader src0 opts)) /\ decompress env (r_reported (newReader src0 opts)) src = decompress env opts src.
Proof.
  intros env opts src0 src HL HO HG. destruct (@r_reported_effective (newReader src0 opts) opts HO eq_refl) as [A [B [C [D _]]]].
  split; auto. apply same_in_force; auto.
Qed.

(** What the Writer reports makes a Reader for its output, whatever the format.
    (Zlib: unless the visible dictionary is all zeros.) *)
Theorem C88_reader_from_writer :
  forall env opts cs w rs, platform env -> opts_ok opts -> opts_ok (given cs) -> w_calls env (newWriter opts) cs = Ok (w, rs) ->
    o_format (reffective (w_reported w)) = o_format (effective (opts ++ given cs)) /\
    o_dict (reffective (w_reported w)) = o_dict (effective (opts ++ given cs)) /\
    o_wbits (reffective (w_reported w)) = o_wbits (effective (opts ++ given cs)).
Proof.
  intros env opts cs w rs Hb HO HC E. assert (HA : opts_ok (opts ++ given cs)) by (apply Forall_app; auto).
  pose proof (reported_effective HA (C25_reset_merges Hb E)) as R. pose proof (effective_ok HA) as W. rewrite <- R in *. unfold effective, reffective, populateWriterDefaults in *.
  assert (NF : o_format (populateReaderDefaults (opt_apply options_reset (w_reported w))) <> DefaultFormat).
  { cbn [w_reported opt_apply fold_left opt_apply1 options_reset populateReaderDefaults o_format]. rewrite (C25_reset_merges Hb E). apply (wo_format (effective_ok HA)). }
  destruct (populateReaderDefaults (opt_apply options_reset (w_reported w))) as [f s c m wb d t]. cbn in *. repeat split. destruct f; cbn; congruence.
Qed.

(** A concrete case: options given twice, changed by Reset, defaults filled in. *)
Example C88_met :
  exists w rs, w_calls demo_wenv (newWriter [WithFormat GZIPFormat; WithDictionary (Some [1; 2]%N)]) [KWrite [97]%N; KClose; KReset [WithStrategy HuffmanOnlyStrategy; WithCompressLevel (-1)]; KWrite [98]%N] = Ok (w, rs) /\
    w_reported w = [WithFormat GZIPFormat; WithMethod; WithStrategy HuffmanOnlyStrategy; WithCompressLevel 6; WithMemoryLevel 9; WithWindowBits 15; WithDictionary (Some [1; 2]%N); WithTracers 0].
Proof. eexists _, _. split; vm_compute; reflexivity. Qed.
