(** C73: which options matter to a Reader. *)
From Verif Require Import Base SpecChecksum SpecHuffman SpecDeflate SpecFormats SpecSession SpecEvents MChecksum PChecksum MToken MCommon MWriter MReader SpecReader SpecLib PToken PHuffman PBits PActs PGram PInput POutput PDecode PDynamic PBlockDec PHeader PStream PFooter PThread PLoop PFormat PApi PInst PAccept PRead PSim PropReader PropReader4.

(** The options that say what the input is: its format, its window and its
    dictionary.  The memory level (size of the decode buffer), the strategy,
    the compression level and the tracers do not. *)
Definition matters (o : opt) : bool :=
  match o with WithFormat _ | WithWindowBits _ | WithDictionary _ => true | _ => false end.

Lemma matters_agree l : forall o, let o1 := opt_apply o l in let o2 := opt_apply o (filter matters l) in
  o_format o1 = o_format o2 /\ o_wbits o1 = o_wbits o2 /\ o_dict o1 = o_dict o2.
Proof.
  unfold opt_apply. induction l as [|x l IH]; intros o; [repeat split|]. cbn [filter fold_left].
  assert (D : forall u v, o_format u = o_format v -> o_wbits u = o_wbits v -> o_dict u = o_dict v -> forall m,
     o_format (fold_left opt_apply1 m u) = o_format (fold_left opt_apply1 m v) /\ o_wbits (fold_left opt_apply1 m u) = o_wbits (fold_left opt_apply1 m v) /\ o_dict (fold_left opt_apply1 m u) = o_dict (fold_left opt_apply1 m v)).
  { intros u v E1 E2 E3 m. revert u v E1 E2 E3. induction m as [|y m IHm]; intros u v E1 E2 E3; cbn [fold_left]; auto. apply IHm; destruct u, v, y; cbn in *; auto. }
  destruct (matters x) eqn:E; cbn [fold_left]; [apply IH|]. destruct (IH o) as [I1 [I2 I3]]. cbn zeta. rewrite <- I1, <- I2, <- I3. apply D; destruct o, x; cbn in *; congruence.
Qed.
Lemma matters_effective opts opts' : filter matters opts = filter matters opts' ->
  o_format (reffective opts) = o_format (reffective opts') /\ o_wbits (reffective opts) = o_wbits (reffective opts') /\ o_dict (reffective opts) = o_dict (reffective opts').
Proof.
  intros E. destruct (@matters_agree opts options_reset) as [A1 [A2 A3]]. destruct (@matters_agree opts' options_reset) as [B1 [B2 B3]]. rewrite <- E in *.
  assert (P : forall o, o_format (populateReaderDefaults o) = o_format o /\ o_wbits (populateReaderDefaults o) = (if (o_wbits o =? 0)%N then 15%N else o_wbits o) /\ o_dict (populateReaderDefaults o) = o_dict o) by (intros []; cbn; auto).
  unfold reffective. destruct (P (opt_apply options_reset opts)) as [-> [-> ->]]. destruct (P (opt_apply options_reset opts')) as [-> [-> ->]]. rewrite A1, A2, A3, B1, B2, B3. auto.
Qed.

(** ** C73 *)
(** For every source, however it delivers its data and errors: two Readers whose
    options agree in format, window and dictionary read the same data and end
    with the same error; the other options change nothing. *)
Lemma same_in_force :
  forall env opts opts' src, rlib_ok env -> opts_ok opts -> opts_ok opts' -> good_src src ->
    o_format (reffective opts) = o_format (reffective opts') -> o_wbits (reffective opts) = o_wbits (reffective opts') -> o_dict (reffective opts) = o_dict (reffective opts') ->
    decompress env opts src = decompress env opts' src.
Proof.
  intros env opts opts' src HL HO HO' HG E1 E2 E3. destruct (reffective_ok HO) as [_ Hd].
  assert (SIM : Rsim0 eq true (reffective opts) (reffective opts') (newReader src opts) (newReader src opts')).
  { split; [split; reflexivity|]. split.
    - constructor; auto; try discriminate. apply HG.
    - constructor; cbn; auto; try congruence. constructor. }
  pose proof (@sim_thread eq (fun a b p E => f_equal (fun x => add64 x p) E) true env (rl_far HL) (reffective opts) (reffective opts') E1 E2 E3 Hd _ _ (fun _ => eq_refl) SIM) as S.
  pose proof (@no_fuel env opts src HL HO HG) as N1. pose proof (@no_fuel env opts' src HL HO' HG) as N2. unfold decompress.
  destruct (readThread env (newReader src opts)) as [r|c|], (readThread env (newReader src opts')) as [r'|c'|]; cbn in *; try congruence; try contradiction.
  destruct (sim_result eq_refl eq_refl S) as [R1 R2]. unfold r_result in *. cbn [snd] in R2. rewrite R1. f_equal. f_equal.
  destruct (o_err (r_out r)) as [e|], (o_err (r_out r')) as [e'|]; try contradiction; auto. destruct R2 as [->|[a [a' [b [c [-> [-> ->]]]]]]]; auto.
Qed.

Theorem C73_other_options_irrelevant :
  forall env opts opts' src, rlib_ok env -> opts_ok opts -> opts_ok opts' -> good_src src ->
    filter matters opts = filter matters opts' -> decompress env opts src = decompress env opts' src.
Proof. intros env opts opts' src HL HO HO' HG EM. destruct (matters_effective EM) as [E1 [E2 E3]]. apply same_in_force; auto. Qed.

(** Example: 200 bytes and then damage, read through a buffer of 128 bytes with
    tracers, and through the default one: the same 200 bytes, the same error. *)
From Verif Require Import Demo PropReader3.
Definition two_hundred : list N := map N.of_nat (seq 1 200).
Definition damaged : source := [([0; 200; 0], None); ([55; 255], None); (two_hundred ++ [7], Some EOF)]%N.
Definition small_opts : list opt := [WithMemoryLevel 1; WithTracers 3; WithFormat RawFormat; WithCompressLevel 9; WithStrategy HuffmanOnlyStrategy].
Example C73_example :
  decompress demo_renv small_opts damaged = decompress demo_renv [WithFormat RawFormat] damaged /\
  exists e, decompress demo_renv [WithFormat RawFormat] damaged = Ok (two_hundred, Some e) /\ e <> EOF.
Proof.
  split.
  - apply C73_other_options_irrelevant; try apply demo_rlib_ok; try (repeat constructor; fail); try reflexivity.
    split; [cbn; repeat split; discriminate|]. apply Forall_forall. intros x Hx.
    assert (A : forallb (fun x => (x <? 256)%N) (src_bytes damaged) = true) by (vm_compute; reflexivity). rewrite forallb_forall in A. apply N.ltb_lt. apply A. exact Hx.
  - eexists. split; [vm_compute; reflexivity|discriminate].
Qed.
(** The three options in [matters] do matter. *)
Example C73_format_matters : decompress demo_renv [WithFormat RawFormat] [(raw_a, None)] <> decompress demo_renv [WithFormat GZIPFormat] [(raw_a, None)].
Proof. vm_compute. discriminate. Qed.
Definition zlib_a : list N := [0x78; 0x9c; 0x4b; 4; 0; 0; 0x62; 0; 0x62]%N.
Example C73_window_matters : decompress demo_renv [WithFormat ZlibFormat] [(zlib_a, None)] <> decompress demo_renv [WithFormat ZlibFormat; WithWindowBits 8] [(zlib_a, None)].
Proof. vm_compute. discriminate. Qed.
Example C73_dictionary_matters : decompress demo_renv [WithFormat ZlibFormat] [(zlib_a, None)] <> decompress demo_renv [WithFormat ZlibFormat; WithDictionary (Some [1]%N)] [(zlib_a, None)].
Proof. vm_compute. discriminate. Qed.
