(** C77: the operands and flags of the command. *)
From Verif Require Import Base SpecChecksum SpecHuffman SpecDeflate SpecFormats SpecSession MChecksum MToken MCommon MWriter MReader MSession SpecReader SpecLib PInst PropWriter PropReader PropReader3 Demo PDemo MCli PropCli MMain.

(** What the user of "gzip -c FILE | gzip -d" expects: the contents of FILE,
    whatever is on the standard input of the first command. *)
Definition compresses_its_operand : Prop :=
  forall wenv renv version g g' fs stdin name content out,
    lib_ok wenv -> rlib_ok renv -> g_version g = false -> g_decompress g = false -> g_stdout g = true -> g_operands g = [name] -> fs name = Some content -> bytes_ok content ->
    bytes_ok (src_bytes stdin) -> main wenv renv version g fs stdin None None = Exit0 out ->
    g_version g' = false -> g_decompress g' = true -> g_operands g' = [] -> goes_with (main_flags g None) (main_flags g' None) -> g_dict g' = [] -> g_dict g = [] ->
    main wenv renv version g' fs [(out, None)] None None = Exit0 content.

Definition no_flags (d c : bool) (ops : list (list N)) : cmdline :=
  Cmdline false c d false false (repeat false 10) DefaultFormat DefaultStrategy (-1) 1 0 [] [] [] None ops.
(** With -c the operands are ignored: standard input is compressed. *)
Theorem C77_operands_ignored :
  forall wenv renv version g fs stdin limit seen ops, g_stdout g = true ->
    main wenv renv version (match g with Cmdline a b c d e f i j k l m n o p q _ => Cmdline a b c d e f i j k l m n o p q ops end) fs stdin limit seen
    = main wenv renv version g fs stdin limit seen.
Proof. intros. destruct g as [a b c d e f i j k l m n o p q r]. cbn in H. subst b. reflexivity. Qed.
Theorem C77_refuted : ~ compresses_its_operand.
Proof.
  intros H. set (fs := (fun n => match n with [102]%N => Some [97]%N | _ => None end) : files).
  set (out := match main demo_wenv demo_renv [] (no_flags false true [[102]]%N) fs [([], Some EOF)] None None with Exit0 o => o | _ => [] end).
  assert (E : main demo_wenv demo_renv [] (no_flags false true [[102]]%N) fs [([], Some EOF)] None None = Exit0 out) by (vm_compute; reflexivity).
  specialize (H demo_wenv demo_renv [] (no_flags false true [[102]]%N) (no_flags true false []) fs [([], Some EOF)] [102]%N [97]%N out demo_lib_ok demo_rlib_ok eq_refl eq_refl eq_refl eq_refl eq_refl).
  assert (K : main demo_wenv demo_renv [] (no_flags true false []) fs [(out, None)] None None = Exit0 []) by (vm_compute; reflexivity).
  rewrite K in H. enough (X : Exit0 [] = Exit0 [97]%N) by discriminate. apply H; auto; [repeat constructor|constructor|].
  split; [reflexivity|]. split; [reflexivity|]. split; [reflexivity|]. split; [vm_compute; discriminate|discriminate].
Qed.

(** Without -c operands are refused, before anything is read or written. *)
Theorem C77_operands_refused :
  forall wenv renv version g fs stdin limit seen, g_version g = false -> g_stdout g = false -> g_operands g <> [] ->
    main wenv renv version g fs stdin limit seen = Fatal [].
Proof.
  intros wenv renv version g fs stdin limit seen A B C. unfold main, main_stdout. rewrite A, B. destruct (main_dict fs g); auto. destruct (g_operands g); [congruence|reflexivity].
Qed.
(** Without operands the command is a filter: standard input to standard output,
    with the flags given and the dictionary given or found in the file named. *)
Definition asked_dict (fs : files) (s : list N) (d : option (list N)) : Prop :=
  match s with
  | [] => d = None
  | c :: r => (c = 64%N /\ exists f, fs r = Some f /\ d = Some f) \/ (c <> 64%N /\ d = Some s)
  end.
Theorem C77_filter :
  forall wenv renv version g fs stdin limit seen dict, g_version g = false -> g_operands g = [] -> asked_dict fs (g_dict g) dict ->
    main wenv renv version g fs stdin limit seen =
      if g_decompress g then cli_decompress renv (main_flags g dict) stdin limit seen else cli_compress wenv (main_flags g dict) stdin.
Proof.
  intros wenv renv version g fs stdin limit seen dict A B D. unfold main, main_stdout. rewrite A, B, orb_true_r.
  assert (E : main_dict fs g = inl dict).
  { unfold main_dict, asked_dict in *. destruct (g_dict g) as [|c r]; [now subst|]. destruct D as [[-> [f [F ->]]]|[N ->]]; [cbn; now rewrite F|].
    destruct (c =? 64)%N eqn:X; [apply N.eqb_eq in X; congruence|reflexivity]. }
  rewrite E. reflexivity.
Qed.
(** A dictionary file that cannot be read ends the command, with nothing written. *)
Theorem C77_missing_dictionary :
  forall wenv renv version g fs stdin limit seen r, g_version g = false -> g_dict g = 64%N :: r -> fs r = None ->
    main wenv renv version g fs stdin limit seen = Fatal [].
Proof. intros wenv renv version g fs stdin limit seen r A D F. unfold main, main_dict. rewrite A, D. cbn. now rewrite F. Qed.
(** -0 ... -9 are the compression levels 0 ... 9 (getopt allows one of them). *)
Theorem C77_digit_flags :
  forall g k, k < 10 -> g_digits g = repeat false k ++ [true] ++ repeat false (9 - k) -> main_clevel g = Z.of_nat k.
Proof.
  intros g k L E. unfold main_clevel. rewrite E. do 10 (destruct k as [|k]; [reflexivity|]). lia.
Qed.
Theorem C77_no_digit_flag : forall g, g_digits g = repeat false 10 -> main_clevel g = g_clevel g.
Proof. intros g E. unfold main_clevel. rewrite E. reflexivity. Qed.

(** The filter, end to end: the output is one stream of the format asked for
    with the input as content (C52), and "gzip | gzip -d" is the identity (C53). *)
Theorem C77_gzip_filter :
  forall wenv renv version g fs stdin dict out, lib_ok wenv -> g_version g = false -> g_decompress g = false -> g_operands g = [] ->
    asked_dict fs (g_dict g) dict -> flags_ok (main_flags g dict) -> bytes_ok (src_bytes stdin) ->
    main wenv renv version g fs stdin None None = Exit0 out ->
    src_end stdin = EOF /\ WriterStream StrictBlock (asked_options (main_flags g dict)) (asked_header (main_flags g dict)) out (src_bytes stdin).
Proof.
  intros wenv renv version g fs stdin dict out HL A D B AD FO HB E. rewrite (@C77_filter wenv renv version g fs stdin None None dict A B AD), D in E.
  destruct (@C52_gzip_compress wenv (main_flags g dict) stdin out HL FO D HB E) as [H1 [_ H3]]. auto.
Qed.
Example C77_example :
  main demo_wenv demo_renv [] (no_flags true false []) (fun _ => None)
    [(match main demo_wenv demo_renv [] (no_flags false false []) (fun _ => None) [([104; 105]%N, Some EOF)] None None with Exit0 o => o | _ => [] end, None)] None None
  = Exit0 [104; 105]%N /\ asked_dict (fun _ => None) [] None /\ flags_ok (main_flags (no_flags false false []) None).
Proof. split; [vm_compute; reflexivity|]. split; [reflexivity|]. unfold flags_ok; cbn; repeat (split || constructor); try lia. Qed.
