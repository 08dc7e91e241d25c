(** Properties C52-C54: the gzip command. *)
From Verif Require Import Base SpecChecksum SpecHuffman SpecDeflate SpecFormats SpecSession MChecksum MToken MCommon MWriter MReader MSession SpecReader SpecLib MCli PFormat PApi PInst PSession PInv PClient PAccept PHeader PStream PThread PRead PropWriter PropReader PropRound PropAuto Demo PDemo PropReader2 PropReader3.

(** Flags getopt can produce: valid enum values, bytes; and a dictionary file
    that is not empty. *)
Definition flags_ok (fl : flags) : Prop :=
  ((-1 <= f_clevel fl <= 9)%Z /\ (f_mlevel fl <= 9)%N /\ (f_wbits fl = 0 \/ 8 <= f_wbits fl <= 15)%N) /\
  match f_dict fl with Some d => bytes_ok d /\ d <> [] | None => True end /\
  bytes_ok (f_name fl) /\ bytes_ok (f_comment fl).
Lemma cli_opts_ok fl : flags_ok fl -> opts_ok (cli_opts fl).
Proof.
  intros [[A [B C]] [D _]]. unfold cli_opts, opts_ok. apply Forall_app. split.
  - repeat constructor; cbn; try lia. 
  - destruct (f_dict fl) as [[|x d]|]; [destruct D as [_ D]; congruence| |constructor]. constructor; [split; [reflexivity|tauto]|constructor].
Qed.
Lemma cli_valid fl : flags_ok fl -> forallb opt_valid (cli_opts fl) = true.
Proof. intros H. apply forallb_forall. intros x Hx. pose proof (cli_opts_ok H) as K. unfold opts_ok in K. rewrite Forall_forall in K. apply K. auto. Qed.
Lemma cli_header_bytes fl : flags_ok fl -> header_bytes (cli_header fl).
Proof. intros [_ [_ [A B]]]. split; [|split]; cbn; auto. Qed.

(** What io.Copy hands to the Writer. *)
Fixpoint chunks_of (src : source) : list (list N) :=
  match src with [] => [] | (p, e) :: r => (match p with [] => [] | _ => [p] end) ++ match e with None => chunks_of r | Some _ => [] end end.
Lemma chunks_bytes src : concat (chunks_of src) = src_bytes src.
Proof.
  induction src as [|[p e] r IH]; cbn; auto. rewrite concat_app. destruct e; cbn; rewrite ?app_nil_r, ?IH; destruct p; cbn; rewrite ?app_nil_r; auto.
Qed.
Lemma write_count env w p w' n : w_Write env w p = Ok (w', (n, None)) -> n = lenN p \/ n = 0%N.
Proof.
  unfold w_Write. destruct (w_state w); try (intros H; inversion H; auto; fail).
  all: destruct (writeLoop env _ w p) as [[w1 [|]]| |]; cbn; intros H; inversion H; auto.
Qed.
Lemma copy_in_run env src : forall w w', copy_in env w src = Ok (w', None) ->
  src_end src = EOF /\ w_run env w (map OWrite (chunks_of src)) = Ok (w', None).
Proof.
  induction src as [|[p e] r IH]; intros w w'; cbn [copy_in chunks_of src_end map]; [intros H; inversion H; auto|].
  set (after := fun w => match e with None => copy_in env w r | Some EOF => Ok (w, None) | Some x => Ok (w, Some x) end).
  assert (A : forall w1, after w1 = Ok (w', None) -> src_end ((p, e) :: r) = EOF /\ w_run env w1 (map OWrite (match e with None => chunks_of r | Some _ => [] end)) = Ok (w', None)).
  { intros w1. unfold after. cbn [src_end]. destruct e as [x|]; [destruct x; try discriminate; intros H; inversion H; auto|]. apply IH. }
  destruct p as [|x p]; [apply A|]. cbn [app map w_run w_step]. destruct (w_Write env w (x :: p)) as [[w1 [n we]]| |]; cbn [rbind]; try discriminate.
  destruct we; [discriminate|]. destruct (n =? lenN (x :: p))%N; [|discriminate]. apply A.
Qed.
Lemma chunks_ok src : bytes_ok (src_bytes src) -> Forall op_ok (map OWrite (chunks_of src)).
Proof.
  rewrite <- chunks_bytes. induction (chunks_of src) as [|c l IH]; cbn; intros H; constructor; apply bytes_ok_app in H; cbn; [|apply IH]; tauto.
Qed.
Definition cli_ops (fl : flags) (stdin : source) : list wop := OSetHeader (cli_header fl) :: map OWrite (chunks_of stdin) ++ [OFlush FinishFlush].
Lemma cli_ops_ok fl stdin : flags_ok fl -> bytes_ok (src_bytes stdin) -> Forall op_ok (cli_ops fl stdin).
Proof. intros H1 H2. constructor; [apply cli_header_bytes; auto|]. apply Forall_app. split; [apply chunks_ok; auto|repeat constructor]. Qed.
Lemma run_app env w a b : w_run env w (a ++ b) = let* (w1, e) := w_run env w a in match e with Some x => Ok (w1, Some x) | None => w_run env w1 b end.
Proof.
  revert w. induction a as [|x a IH]; intros w; cbn [app w_run rbind]; auto. destruct (w_step env w x) as [[w1 [e|]]| |]; cbn [rbind]; auto.
Qed.
(** A successful run is a successful session. *)
Lemma cli_session env fl stdin out : cli_compress env fl stdin = Exit0 out ->
  (flags_ok fl -> Representable (cli_header fl)) /\ src_end stdin = EOF /\
  exists w, w_session env (newWriter (cli_opts fl)) (cli_ops fl stdin) = Ok (w, None) /\ out = sink (w_out w).
Proof.
  unfold cli_compress. destruct (forallb opt_valid (cli_opts fl)); [|discriminate]. unfold ends.
  destruct (w_SetHeader (newWriter (cli_opts fl)) (cli_header fl)) as [w0 ok] eqn:E0. destruct ok; [|discriminate].
  destruct (copy_in env w0 stdin) as [[w1 [e|]]| |] eqn:E1; cbn [rbind]; try discriminate.
  destruct (w_Flush env w1 FinishFlush) as [[w2 [e|]]| |] eqn:E2; cbn [rbind]; try discriminate.
  destruct (w_Close env w2) as [[w3 [e|]]| |] eqn:E3; cbn [rbind]; try discriminate. intros H. inversion H.
  destruct (copy_in_run E1) as [C1 C2]. split; [|split; auto].
  - intros _. apply checked_iff. unfold w_SetHeader in E0.
    match type of E0 with context[Nat.eqb ?n 0] => destruct (Nat.eqb_spec n 0) as [Z|Z]; [exact Z|discriminate] end.
  - exists w3. split; auto. unfold w_session, cli_ops. cbn [w_run w_step]. rewrite E0. cbn [fst rbind]. rewrite run_app, C2. cbn [rbind w_run w_step]. rewrite E2. cbn [rbind]. exact E3.
Qed.
(** One stream with the header of the flags. *)
Lemma writes_steps l : forall a, Forall (fun c => c <> []) l -> a_done a = [] -> exists a', asteps a (map OWrite l) a' /\ a_done a' = [] /\ a_cur a' = a_cur a ++ concat l /\ a_hdr a' = a_hdr a /\ (a_cur a' <> [] -> a_curh a = a_hdr a \/ a_cur a = [] -> a_curh a' = a_hdr a).
Proof.
  induction l as [|c l IH]; intros a Hl D; cbn [map concat].
  - exists a. rewrite app_nil_r. repeat split; auto; [constructor|]. tauto.
  - inversion Hl; subst. destruct c as [|x c]; [congruence|].
    destruct (IH (a_write a (x :: c))) as [a' [A1 [A2 [A3 [A4 A5]]]]]; auto.
    { unfold a_write. destruct (a_cur a); auto. }
    exists a'. split; [econstructor; [constructor|exact A1]|]. split; auto.
    unfold a_write in *. destruct (a_cur a) as [|y t] eqn:E; cbn [a_cur a_hdr a_curh app] in *.
    + split; auto.
    + split; [now rewrite A3, <- app_assoc|]. split; auto. intros N [H|H]; [auto|discriminate].
Qed.
Lemma astep_det a op a1 a2 : astep a op a1 -> astep a op a2 -> a1 = a2.
Proof. intros H1 H2. inversion H1; subst; inversion H2; subst; auto; contradiction. Qed.
Lemma asteps_det a ops a1 : asteps a ops a1 -> forall a2, asteps a ops a2 -> a1 = a2.
Proof. induction 1 as [|a op b ops c H1 H2 IH]; intros a2 K; inversion K as [|? ? b' ? ? K1 K2]; subst; auto. apply IH. rewrite (astep_det H1 K1). exact K2. Qed.
Lemma chunks_ne src : Forall (fun c => c <> []) (chunks_of src).
Proof. induction src as [|[[|x p] e] r IH]; cbn; [constructor| |]; destruct e; auto; constructor; auto; discriminate. Qed.
Lemma cli_one fl stdin a : Representable (cli_header fl) -> asteps a_init (cli_ops fl stdin) a ->
  a_done (a_finish a) = [(cli_header fl, src_bytes stdin)].
Proof.
  intros R A. set (a0 := a_set a_init (cli_header fl)). destruct (@writes_steps (chunks_of stdin) a0 (chunks_ne stdin) eq_refl) as [a' [A1 [A2 [A3 [A4 A5]]]]].
  assert (A' : asteps a_init (cli_ops fl stdin) (a_finish a')).
  { unfold cli_ops. econstructor; [apply as_set; exact R|]. fold a0. clear - A1. induction A1; cbn; econstructor; eauto; [|constructor]. apply (as_flush a FinishFlush). }
  rewrite (asteps_det A A'). rewrite chunks_bytes in A3. cbn in A3, A4.
  unfold a_finish. rewrite A2. destruct (a_cur a') as [|x t] eqn:E; cbn [a_cur a_done app].
  - rewrite A4, <- A3. reflexivity.
  - rewrite A5 by (auto; discriminate). rewrite <- A3. reflexivity.
Qed.

(** ** What the flags ask for *)
(** When compressing, "auto" means gzip. *)
Definition asked_format (fl : flags) : format := match f_format fl with DefaultFormat => GZIPFormat | f => f end.
(** The options of the stream: the flags, and the documented default for each flag
    left at "default" (level 6, memory level 9, 32 KiB window). *)
Definition asked_options (fl : flags) : options :=
  Options (asked_format fl) (f_strategy fl) (if (f_clevel fl =? -1)%Z then 6%Z else f_clevel fl)
    (if (f_mlevel fl =? 0)%N then 9%N else f_mlevel fl) (if (f_wbits fl =? 0)%N then 15%N else f_wbits fl) (f_dict fl) 1.
(** --filename, --comment, --last-modified; everything else is left unspecified. *)
Definition asked_header (fl : flags) : header :=
  {| h_name := f_name fl; h_comment := f_comment fl; h_mtime := f_mtime fl;
     h_datatype := UnknownData; h_os := OSTypeUnknown; h_extra := []; h_wbits := 0; h_clevel := 0%Z |}.
Lemma asked_header_cli fl : cli_header fl = asked_header fl.
Proof. reflexivity. Qed.
Lemma asked_options_cli fl : f_decompress fl = false -> effective (cli_opts fl) = asked_options fl.
Proof.
  intros D. unfold effective, cli_opts, asked_options, asked_format, cli_format. rewrite D. destruct (f_dict fl), (f_format fl); reflexivity.
Qed.

(** ** C52: compression *)
(** If "gzip" exits with status 0, its input ended without an error, and standard
    output holds exactly one stream of the chosen format, level window and
    dictionary, with the given file name, comment and time, whose contents are
    all bytes of standard input. *)
Theorem C52_gzip_compress :
  forall env fl stdin out, lib_ok env -> flags_ok fl -> f_decompress fl = false -> bytes_ok (src_bytes stdin) ->
    cli_compress env fl stdin = Exit0 out ->
    src_end stdin = EOF /\ Representable (asked_header fl) /\
    WriterStream StrictBlock (asked_options fl) (asked_header fl) out (src_bytes stdin).
Proof.
  intros env fl stdin out HL HF HD HB E. rewrite <- (asked_options_cli HD), <- asked_header_cli. destruct (cli_session E) as [C1 [C2 [w [C3 C4]]]]. split; auto. specialize (C1 HF). split; auto.
  destruct (C02_writer_output_conforms HL (cli_opts_ok HF) (cli_ops_ok HF HB) C3) as [a [bs [A1 [A2 [A3 A4]]]]]. rewrite (cli_one C1 A1) in A3. rewrite C4, A2.
  inversion A3 as [|? b ? ? Q1 Q2]; subst. inversion Q2; subst. cbn [concat]. rewrite app_nil_r. exact Q1.
Qed.
Print Assumptions C52_gzip_compress.

(** It does, when nothing fails. *)
Definition io_copy_chunks (stdin : source) : Prop := Forall (fun c => lenN c <= 32768)%N (chunks_of stdin).
Lemma copy_in_ok env opts : lib_ok env -> no_failure env -> opts_ok opts ->
  forall s a w, small_blocks (effective opts) \/ (io_copy_chunks s /\ short (effective opts) w) ->
  sess env (effective opts) (StrictBlock (2 ^ o_wbits (effective opts))) 0 0 [] a w -> bytes_ok (src_bytes s) -> src_end s = EOF ->
  exists w' a', copy_in env w s = Ok (w', None) /\ sess env (effective opts) (StrictBlock (2 ^ o_wbits (effective opts))) 0 0 [] a' w'.
Proof.
  intros HL [N1 [N2 N3]] HO. pose proof (effective_ok HO) as Hw.
  induction s as [|[p e] r IH]; intros a w HS S HB HE; cbn [copy_in src_bytes src_end] in *; [eauto|].
  set (G := fun w1 => small_blocks (effective opts) \/ (match e with None => io_copy_chunks r | _ => True end /\ short (effective opts) w1)).
  assert (AF : forall a1 w1, G w1 -> sess env (effective opts) (StrictBlock (2 ^ o_wbits (effective opts))) 0 0 [] a1 w1 ->
    exists w' a', match e with None => copy_in env w1 r | Some EOF => Ok (w1, None) | Some x => Ok (w1, Some x) end = Ok (w', None) /\ sess env (effective opts) (StrictBlock (2 ^ o_wbits (effective opts))) 0 0 [] a' w').
  { intros a1 w1 G1 S1. destruct e as [x|]; [subst x; eauto|]. apply (IH a1 w1); auto. apply bytes_ok_app in HB. tauto. }
  assert (HBp : bytes_ok p) by (destruct e; [auto|]; apply bytes_ok_app in HB; tauto).
  assert (GW : G w).
  { destruct HS as [HS|[HS1 HS2]]; [left; auto|]. right. split; auto. destruct e; auto. unfold io_copy_chunks in *. cbn [chunks_of] in HS1.
    destruct p; auto. inversion HS1; auto. }
  destruct p as [|x p]; [eapply AF; eauto|].
  assert (PP : exists MP : Prop, guard (effective opts) MP w (lenN (x :: p)) /\ ~ MP).
  { destruct HS as [HS|[HS1 HS2]].
    - exists (may_panic (effective opts)). split; [left; auto|]. apply small_no_panic; auto.
    - exists False. split; auto. right. split; auto. unfold io_copy_chunks in HS1. cbn [chunks_of] in HS1.
      assert (K : (lenN (x :: p) <= 32768)%N) by (destruct e; inversion HS1; auto). lia. }
  destruct PP as [MP [HG NMP]]. pose proof (inst_strict (lib_lz HL) Hw) as HI.
  pose proof (@Write_ok env (lib_bpb HL) (lib_huff HL) _ Hw _ _ 0 0 [] MP (in_stored HI) True (in_empty HI) (in_tok HI) (in_mono HI) (in_match HI)
    a w (x :: p) S HBp HG) as P.
  destruct (w_Write env w (x :: p)) as [[w1 [n [we|]]]|q|]; cbn [rbind].
  - exfalso. destruct P as [_ [P1 P2]]. destruct P1 as [_ [e1 [_ [[n1 [b1 [k1 P1]]]|[[n1 P1]|[n1 [P1 _]]]]]]]; rewrite ?N1, ?N2, ?N3 in P1; discriminate.
  - destruct P as [-> [P P']]. rewrite N.eqb_refl. eapply AF; eauto. destruct GW as [GW|[G1 G2]]; [left; auto|right; auto].
  - exfalso. tauto.
  - contradiction.
Qed.
Theorem C52_gzip_compress_succeeds :
  forall env fl stdin, lib_ok env -> no_failure env -> flags_ok fl -> bytes_ok (src_bytes stdin) -> io_copy_chunks stdin ->
    Representable (asked_header fl) -> src_end stdin = EOF -> exists out, cli_compress env fl stdin = Exit0 out.
Proof.
  intros env fl stdin HL HN HF HB HS HR HE. rewrite <- asked_header_cli in HR. assert (HSW : small_writes (cli_ops fl stdin)).
  { intros p Hin. unfold cli_ops in Hin. destruct Hin as [Hin|Hin]; [discriminate|]. apply in_app_or in Hin. destruct Hin as [Hin|[Hin|[]]]; [|discriminate].
    apply in_map_iff in Hin. destruct Hin as [c [Hc Hin]]. inversion Hc; subst. pose proof (proj1 (Forall_forall _ _) HS p Hin) as K. cbn in K. lia. }
  destruct (session_succeeds_small_writes HL HN (cli_opts_ok HF) (cli_ops_ok HF HB) HSW) as [w E].
  unfold w_session, cli_ops in E. cbn [w_run w_step rbind] in E. unfold cli_compress. rewrite (cli_valid HF).
  pose proof (cli_opts_ok HF) as HO. pose proof (effective_ok HO) as Hw.
  destruct (@SetHeader_ok env (effective (cli_opts fl)) (StrictBlock (2 ^ o_wbits (effective (cli_opts fl)))) 0 0 [] a_init (newWriter (cli_opts fl)) (cli_header fl) (sess_new _ (lib_bpb HL) HO) (cli_header_bytes HF)) as [a1 [_ S1]].
  assert (SH0 : short (effective (cli_opts fl)) (fst (w_SetHeader (newWriter (cli_opts fl)) (cli_header fl)))).
  { apply short_nil. unfold w_SetHeader. match goal with |- context [if ?x then _ else _] => destruct x end; reflexivity. }
  destruct (w_SetHeader (newWriter (cli_opts fl)) (cli_header fl)) as [w0 ok] eqn:E0. cbn [fst] in E, S1, SH0. rewrite run_app in E.
  assert (OK : ok = true). { apply checked_iff in HR. unfold w_SetHeader in E0. rewrite HR in E0. inversion E0. auto. }
  subst ok. destruct (@copy_in_ok _ _ HL HN HO stdin _ _ (or_intror (conj HS SH0)) S1 HB HE) as [w1 [a2 [C1 _]]]. rewrite C1. destruct (copy_in_run C1) as [_ C2]. rewrite C2 in E. cbn [rbind w_run w_step] in E |- *.
  destruct (w_Flush env w1 FinishFlush) as [[w2 [e|]]| |]; cbn [rbind] in *; try discriminate.
  destruct (w_Close env w2) as [[w3 [e|]]| |]; cbn [rbind ends] in *; try discriminate. eauto.
Qed.

(** Whatever its input and however its output fails, "gzip" never crashes. *)
Lemma copy_in_no_panic env opts : lib_ok env -> opts_ok opts ->
  forall s a w, io_copy_chunks s -> short (effective opts) w ->
  sess env (effective opts) (StrictBlock (2 ^ o_wbits (effective opts))) 0 0 [] a w -> bytes_ok (src_bytes s) ->
  match copy_in env w s with
  | Ok (w', None) => exists a', sess env (effective opts) (StrictBlock (2 ^ o_wbits (effective opts))) 0 0 [] a' w' /\ short (effective opts) w'
  | Ok (w', Some e) => True
  | _ => False
  end.
Proof.
  intros HL HO. pose proof (effective_ok HO) as Hw. pose proof (inst_strict (lib_lz HL) Hw) as HI.
  induction s as [|[p e] r IH]; intros a w HC HS S HB; cbn [copy_in src_bytes] in *; [eauto|].
  assert (AF : forall a1 w1, short (effective opts) w1 -> sess env (effective opts) (StrictBlock (2 ^ o_wbits (effective opts))) 0 0 [] a1 w1 ->
    match (match e with None => copy_in env w1 r | Some EOF => Ok (w1, None) | Some x => Ok (w1, Some x) end) with
    | Ok (w', None) => exists a', sess env (effective opts) (StrictBlock (2 ^ o_wbits (effective opts))) 0 0 [] a' w' /\ short (effective opts) w'
    | Ok (w', Some e) => True
    | _ => False
    end).
  { intros a1 w1 G1 S1. destruct e as [x|]; [destruct x; eauto|]. apply (IH a1 w1); auto.
    - unfold io_copy_chunks in *. cbn [chunks_of] in HC. destruct p; auto. inversion HC; auto.
    - apply bytes_ok_app in HB. tauto. }
  assert (HBp : bytes_ok p) by (destruct e; [auto|]; apply bytes_ok_app in HB; tauto).
  destruct p as [|x p]; [eapply AF; eauto|].
  assert (HG : guard (effective opts) False w (lenN (x :: p))).
  { right. split; auto. unfold io_copy_chunks in HC. cbn [chunks_of] in HC.
    assert (K : (lenN (x :: p) <= 32768)%N) by (destruct e; inversion HC; auto). lia. }
  pose proof (@Write_ok env (lib_bpb HL) (lib_huff HL) _ Hw _ _ 0 0 [] False (in_stored HI) True (in_empty HI) (in_tok HI) (in_mono HI) (in_match HI)
    a w (x :: p) S HBp HG) as P.
  destruct (w_Write env w (x :: p)) as [[w1 [n [we|]]]|q|]; cbn [rbind]; auto; [|tauto].
  destruct P as [-> [P P']]. rewrite N.eqb_refl. eapply AF; eauto.
Qed.
Theorem C52_gzip_compress_no_crash :
  forall env fl stdin, lib_ok env -> flags_ok fl -> bytes_ok (src_bytes stdin) -> io_copy_chunks stdin ->
    forall p, cli_compress env fl stdin <> Crash p.
Proof.
  intros env fl stdin HL HF HB HC p. unfold cli_compress. rewrite (cli_valid HF).
  pose proof (cli_opts_ok HF) as HO. pose proof (effective_ok HO) as Hw. pose proof (inst_strict (lib_lz HL) Hw) as HI.
  destruct (@SetHeader_ok env (effective (cli_opts fl)) (StrictBlock (2 ^ o_wbits (effective (cli_opts fl)))) 0 0 [] a_init (newWriter (cli_opts fl)) (cli_header fl) (sess_new _ (lib_bpb HL) HO) (cli_header_bytes HF)) as [a1 [_ S1]].
  assert (SH0 : short (effective (cli_opts fl)) (fst (w_SetHeader (newWriter (cli_opts fl)) (cli_header fl)))).
  { apply short_nil. unfold w_SetHeader. match goal with |- context [if ?x then _ else _] => destruct x end; reflexivity. }
  destruct (w_SetHeader (newWriter (cli_opts fl)) (cli_header fl)) as [w0 ok]. cbn [fst] in S1, SH0.
  destruct ok; [|discriminate].
  pose proof (@copy_in_no_panic env _ HL HO stdin a1 w0 HC SH0 S1 HB) as P.
  destruct (copy_in env w0 stdin) as [[w1 [e|]]| |]; cbn [rbind ends]; try discriminate; try contradiction.
  destruct P as [a2 [S2 SH2]].
  assert (G2 : guard (effective (cli_opts fl)) False w1 0) by (right; split; [auto|lia]).
  pose proof (@Flush_ok env (lib_bpb HL) (lib_huff HL) _ Hw _ _ 0 0 [] False (in_stored HI) True (in_empty HI) (in_tok HI) (in_mono HI) (in_match HI) (in_pos HI)
    a2 w1 FinishFlush S2 ltac:(discriminate) G2) as Q.
  destruct (w_Flush env w1 FinishFlush) as [[w2 [e|]]| |]; cbn [rbind ends apost] in *; try discriminate; try tauto.
  destruct Q as [S3 SH3].
  assert (G3 : guard (effective (cli_opts fl)) False w2 0) by (right; split; [auto|lia]).
  pose proof (@Close_ok env (lib_bpb HL) (lib_huff HL) _ Hw _ _ 0 0 [] False (in_stored HI) True (in_empty HI) (in_tok HI) (in_mono HI) (in_match HI) (in_pos HI)
    _ w2 S3 G3) as R.
  destruct (w_Close env w2) as [[w3 [e|]]| |]; cbn [rbind ends] in *; try discriminate; tauto.
Qed.
Print Assumptions C52_gzip_compress_no_crash.

(** ** C53: gzip | gzip -d *)
(** The window a set of flags asks for, and what the flags of the second command
    must have in common with those of the first. *)
Definition flag_wbits (fl : flags) : N := if (f_wbits fl =? 0)%N then 15%N else f_wbits fl.
Definition goes_with (fl fl' : flags) : Prop :=
  f_decompress fl = false /\ f_decompress fl' = true /\ f_dict fl' = f_dict fl /\ (flag_wbits fl <= flag_wbits fl')%N /\
  (asked_format fl = ZlibFormat -> DictVisible (flag_wbits fl') (f_dict fl')).
Lemma eff_cli fl : f_decompress fl = false -> o_format (effective (cli_opts fl)) = asked_format fl /\ o_dict (effective (cli_opts fl)) = f_dict fl /\ o_wbits (effective (cli_opts fl)) = flag_wbits fl.
Proof. intros D. unfold effective, cli_opts, flag_wbits, asked_format, cli_format. rewrite D. destruct (f_dict fl), (f_format fl); cbn; auto. Qed.
Lemma reff_cli fl : o_format (reffective (cli_opts fl)) = cli_format fl /\ o_dict (reffective (cli_opts fl)) = f_dict fl /\ o_wbits (reffective (cli_opts fl)) = flag_wbits fl.
Proof. unfold reffective, cli_opts, flag_wbits, cli_format. destruct (f_dict fl), (f_format fl), (f_decompress fl); cbn; auto. Qed.
Lemma cli_exit env fl src d : flags_ok fl -> decompress env (cli_opts fl) src = Ok (d, Some EOF) -> cli_decompress env fl src None None = Exit0 d.
Proof.
  intros HF E. unfold cli_decompress. rewrite (cli_valid HF). unfold decompress in E. destruct (readThread env (newReader src (cli_opts fl))); cbn [rbind] in *; try discriminate.
  inversion E as [[E' H]]. rewrite E'. cbn -[Nat.eqb]. rewrite Nat.eqb_refl, H, E'. reflexivity.
Qed.
(** What "gzip" wrote, "gzip -d" turns back into the same bytes, if the format is
    given or - unless standard input hands out the first byte alone - also if it
    is not. *)
Theorem C53_gzip_round_trip :
  forall wenv renv fl fl' stdin out p0 e0 rest, lib_ok wenv -> rlib_ok renv -> flags_ok fl -> flags_ok fl' -> bytes_ok (src_bytes stdin) ->
    goes_with fl fl' -> cli_compress wenv fl stdin = Exit0 out ->
    polite_src ((p0, e0) :: rest) -> src_bytes ((p0, e0) :: rest) = out -> src_end ((p0, e0) :: rest) = EOF ->
    f_format fl' = asked_format fl \/ (f_format fl' = DefaultFormat /\ 2 <= length p0 /\ 2 <= e_peek2 renv 0) ->
    cli_decompress renv fl' ((p0, e0) :: rest) None None = Exit0 (src_bytes stdin).
Proof.
  intros wenv renv fl fl' stdin out p0 e0 rest HL HRL HF HF' HB [D1 [D2 [D3 [D4 D5]]]] E HP EB EE FM.
  pose proof (cli_opts_ok HF) as HO. pose proof (cli_opts_ok HF') as HO'. pose proof (effective_ok HO) as Hw.
  destruct (eff_cli D1) as [F1 [F2 F3]]. destruct (reff_cli fl') as [G1 [G2 G3]].
  assert (GF : cli_format fl' = f_format fl') by (unfold cli_format; rewrite D2; destruct (f_format fl'); reflexivity). rewrite GF in G1.
  apply cli_exit; auto. rewrite <- EE. destruct (cli_session E) as [R [_ [w [S1 S2]]]]. specialize (R HF).
  pose proof (cli_ops_ok HF HB) as Hops.
  destruct (session_clean HL HO Hops S1) as [a [bs [A1 [A2 [A3 [A4 A5]]]]]].
  pose proof (session_rep A1) as HR. pose proof (session_hb A1 Hops) as HH. rewrite (cli_one R A1) in *.
  assert (ONE : exists b, bs = [b] /\ WriterStream StrictBlock (effective (cli_opts fl)) (cli_header fl) b (src_bytes stdin) /\
     Parts (CleanBlock (2 ^ o_wbits (effective (cli_opts fl)))) (effective (cli_opts fl)) (cli_header fl, src_bytes stdin) b).
  { clear - A3 A4. destruct bs as [|b [|b' bs]]; [inversion A3| |inversion A3 as [|? ? ? ? _ K]; inversion K].
    exists b. split; auto. inversion A3; inversion A4; subst; auto. }
  destruct ONE as [b [-> [Q1 P1]]]. cbn [concat] in A2. rewrite app_nil_r in A2. pose proof (Forall_inv HR) as HR1. pose proof (Forall_inv HH) as HH1. cbn [fst] in HR1, HH1. rewrite S2 in EB.
  set (f := fmt_stream (o_format (effective (cli_opts fl)))). pose proof (fmt_stream_of Hw) as EF. fold f in EF.
  assert (AC : valid (cli_opts fl') f (b, src_bytes stdin)).
  { unfold valid. cbn [fst snd]. rewrite G2, D3, <- F2. eapply writer_acceptable; eauto; [rewrite F3; rewrite <- G3 in D4; exact D4|apply (wo_wbits Hw)]. }
  assert (GS : good_src ((p0, e0) :: rest)) by (split; auto; rewrite EB, A2; eapply writer_bytes; eauto).
  assert (DV : f = SZlib -> DictVisible (o_wbits (reffective (cli_opts fl'))) (o_dict (reffective (cli_opts fl')))).
  { intros EZ. rewrite G2, G3. apply D5. rewrite EZ in EF. rewrite <- F1. exact EF. }
  destruct FM as [FM|[FM [L2 PK]]].
  - apply C27_reader_accepts_valid_stream with (f := f); auto; [split; auto; now rewrite G1, FM, <- F1|]. rewrite EB, A2. exact AC.
  - replace (src_bytes stdin) with (concat (map (fun x : sformat * (list N * list N) => snd (snd x)) [(f, (b, src_bytes stdin))])) by (cbn; apply app_nil_r).
    apply C37_auto_detection; auto; cbn [map fst snd length]; auto.
    + now rewrite G1.
    + constructor; [|constructor]. split; [exact AC|]. split; [|exact DV]. cbn [fst snd]. intros ER. rewrite ER in EF. eapply raw_parts_looks; eauto.
    + cbn [concat]. rewrite app_nil_r. congruence.
    + intros l1 b1 l2 EL n EN. destruct l1 as [|x [|y l1]]; try discriminate. cbn [app] in EL. rewrite <- EL in EN. cbn [concat] in EN. rewrite app_nil_r in EN. rewrite <- A2, <- EB in EN.
      intros HI. cbn [src_cuts In] in HI. destruct HI as [HI|HI]; [lia|]. destruct e0 as [e0|].
      * destruct HI as [HI|[]]. lia.
      * apply cuts_le in HI. cbn [src_bytes] in EN. rewrite app_length in EN. lia.
    + intros l1 b1 l2 EL. destruct l1 as [|x [|y l1]]; try discriminate. exact PK.
Qed.
Print Assumptions C53_gzip_round_trip.

(** ** C54: decompression *)
(** Exit status 0 means: standard input was read to its end without an error,
    standard output took everything, and what was written are exactly the
    contents of the streams read - all of the input, if the end of the input was
    not announced together with its last bytes. *)
Theorem C54_gunzip_exit0_means_valid :
  forall env fl src limit seen out, rlib_ok env -> flags_ok fl -> f_decompress fl = true -> good_src src ->
    DictVisible (flag_wbits fl) (f_dict fl) ->
    cli_decompress env fl src limit seen = Exit0 out ->
    src_end src = EOF /\ match limit with Some n => length out <= n | None => True end /\
    exists (l : list (sformat * (list N * list N))) rest,
      src_bytes src = concat (map (fun x => fst (snd x)) l) ++ rest /\ out = concat (map (fun x => snd (snd x)) l) /\
      (detached_src src -> rest = []) /\ (src_bytes src <> [] -> l <> []) /\
      Forall (fun x => Stream (fun _ => LaxBlock env (2 ^ flag_wbits fl)) (fst x) (f_dict fl) (fst (snd x)) (snd (snd x)) /\
        (f_format fl = DefaultFormat \/ f_format fl = fmt_of (fst x))) l.
Proof.
  intros env fl src limit seen out HL HF D HG HV E. destruct (reff_cli fl) as [G1 [G2 G3]].
  unfold cli_decompress in E. rewrite (cli_valid HF) in E.
  pose proof (@C28_eof_means_valid env (cli_opts fl) src) as C. unfold decompress in C.
  destruct (readThread env (newReader src (cli_opts fl))) as [r| |]; cbn [rbind ends] in *; try discriminate.
  destruct (r_result r) as [d e]. destruct e as [e|]; [|discriminate]. assert (EE : e = EOF) by (destruct e; auto; discriminate). subst e.
  destruct (Nat.eqb_spec (length (cut_at limit d)) (length d)) as [L|L]; [|discriminate].
  assert (CD : cut_at limit d = d).
  { destruct limit as [n|]; auto. cbn [cut_at] in *. rewrite firstn_length in L. apply firstn_all2. lia. }
  rewrite CD in E. assert (d = out) by (cbn in E; congruence). subst d.
  destruct (C out HL (cli_opts_ok HF) HG) as [K1 [l [rest [K2 [K3 [K4 [K5 K6]]]]]]]; [rewrite G2, G3; exact HV|reflexivity|].
  split; auto. split.
  { destruct limit as [n|]; auto. cbn [cut_at] in CD. rewrite <- CD, firstn_length. lia. }
  exists l, rest. split; auto. split; auto. split; auto. split; auto.
  eapply Forall_impl; [|exact K6]. cbn beta. intros x [X1 X2]. rewrite G2, G3 in X1. split; auto. rewrite G1 in X2.
  unfold cli_format in X2. rewrite D in X2. destruct (f_format fl); auto.
Qed.
Print Assumptions C54_gunzip_exit0_means_valid.
(** A valid stream cut short is never accepted: the command fails, having written
    only a prefix of the contents. *)
Theorem C54_gunzip_truncated :
  forall env fl src limit seen f b d p q, rlib_ok env -> flags_ok fl -> f_decompress fl = true -> good_src src -> src_end src = EOF ->
    f_format fl = fmt_of f -> (f = SZlib -> DictVisible (flag_wbits fl) (f_dict fl)) ->
    Acceptable (flag_wbits fl) (f_dict fl) f b d -> b = p ++ q -> p <> [] -> q <> [] -> src_bytes src = p ->
    exists out, cli_decompress env fl src limit seen = Fatal out /\ exists rest, d = out ++ rest.
Proof.
  intros env fl src limit seen f b d p q HL HF HDC HG EE HS1 HS2 HV' EB NP NQ ES. destruct (reff_cli fl) as [G1 [G2 G3]].
  assert (HS : set_to (cli_opts fl) f).
  { split; [rewrite G1; unfold cli_format; rewrite HS1, HDC; destruct f; reflexivity|]. rewrite G2, G3. exact HS2. }
  assert (HV : valid (cli_opts fl) f (b, d)) by (unfold valid; rewrite G2, G3; exact HV').
  destruct (@C29_truncation_detected env (cli_opts fl) src f [] b d p q HL (cli_opts_ok HF) HG HS (Forall_nil _) HV EB NP NQ ES (or_intror eq_refl)) as [data [e [E1 [E2 [E3 E4]]]]].
  destruct E4 as [r0 R0]; [rewrite EE; intros [x [y [z K]]]; discriminate|]. cbn [map concat app] in R0.
  unfold decompress in E1. unfold cli_decompress. rewrite (cli_valid HF). destruct (readThread env (newReader src (cli_opts fl))) as [r| |]; cbn [rbind ends] in *; try discriminate.
  assert (RR : r_result r = (data, Some e)) by congruence. rewrite RR.
  exists (cut_at limit (cut_at seen data)). split; [destruct e; auto; congruence|].
  assert (P : forall n (x : list N), exists y, x = cut_at n x ++ y).
  { intros n x. destruct n as [n|]; [exists (skipn n x); cbn; now rewrite firstn_skipn|exists []; cbn; now rewrite app_nil_r]. }
  destruct (P seen data) as [y1 Y1]. destruct (P limit (cut_at seen data)) as [y2 Y2]. exists (y2 ++ y1 ++ r0).
  rewrite R0. rewrite Y1 at 1. rewrite Y2 at 1. now rewrite <- !app_assoc.
Qed.
(** The command always ends; the only crash is the one on a malformed extra field (C34). *)
Theorem C54_gunzip_ends :
  forall env fl src limit seen, rlib_ok env -> flags_ok fl -> good_src src ->
    match cli_decompress env fl src limit seen with
    | Crash c => c = PBounds /\ exists pre b, src_bytes src = pre ++ b /\ BadGzip b
    | _ => True
    end.
Proof.
  intros env fl src limit seen HL HF HG. unfold cli_decompress. rewrite (cli_valid HF).
  pose proof (C38_reader_terminates HL (cli_opts_ok HF) HG) as T. pose proof (fun c => @C34_reader_panic_only_bad_extra env (cli_opts fl) src c HL (cli_opts_ok HF) HG) as P. unfold decompress in *.
  destruct (readThread env (newReader src (cli_opts fl))) as [r|c|]; cbn [rbind ends] in *; [|auto|contradiction].
  destruct (r_result r) as [d e]. destruct T as [x ->]. destruct x; exact I || (destruct (Nat.eqb _ _); exact I).
Qed.
(** That crash: 16 bytes on standard input are enough. *)
Definition gunzip_flags : flags := Flags true DefaultFormat DefaultStrategy (-1) 1 0 None [] [] None.
Definition gzip_flags0 : flags := Flags false DefaultFormat DefaultStrategy (-1) 1 0 None [104; 105]%N [] (Some 1000000%Z).
Theorem C54_refuted_crash : cli_decompress demo_renv gunzip_flags [(panic_input, None)] None None = Crash PBounds.
Proof. vm_compute. reflexivity. Qed.
(** An empty dictionary file crashes the command, both ways. *)
Theorem C52_refuted_empty_dictionary : forall wenv renv fl stdin limit seen, f_dict fl = Some [] ->
  cli_compress wenv fl stdin = Crash PAssert /\ cli_decompress renv fl stdin limit seen = Crash PAssert.
Proof.
  intros wenv renv fl stdin limit seen E.
  assert (F : forallb opt_valid (cli_opts fl) = false). { unfold cli_opts. rewrite E, forallb_app. cbn [forallb opt_valid andb]. now rewrite andb_false_r. }
  unfold cli_compress, cli_decompress. rewrite F. auto.
Qed.

(** The theorems apply to ordinary runs. *)
Lemma flags_demo : flags_ok gzip_flags0 /\ flags_ok gunzip_flags.
Proof. unfold flags_ok; cbn; repeat (split || constructor); try lia; unfold is_byte; lia. Qed.
Example C52_runs : exists out, cli_compress demo_wenv gzip_flags0 [([104; 101; 108; 108; 111; 104; 101; 108; 108; 111]%N, None); ([10]%N, Some EOF)] = Exit0 out /\
  cli_decompress demo_renv gunzip_flags [(out, None)] None None = Exit0 [104; 101; 108; 108; 111; 104; 101; 108; 108; 111; 10]%N.
Proof. eexists. split; [vm_compute; reflexivity|]. vm_compute. reflexivity. Qed.
Example C53_goes : goes_with gzip_flags0 gunzip_flags.
Proof. repeat split; auto; cbn; try lia; discriminate. Qed.
