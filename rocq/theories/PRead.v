(** From the decompression thread to what a client reads. *)
From Verif Require Import Base SpecChecksum SpecHuffman SpecDeflate SpecFormats SpecSession SpecEvents MChecksum PChecksum MToken MCommon MWriter MReader SpecReader SpecLib PToken PHuffman PBits PActs PGram PInput POutput PDecode PDynamic PBlockDec PHeader PStream PFooter PThread PLoop PFormat PApi PInst PAccept.

(** The options a Reader created with [opts] works with. *)
Definition reffective (opts : list opt) : options := populateReaderDefaults (opt_apply options_reset opts).
(** What a client that reads until it gets an error sees: the bytes and the error. *)
Definition decompress (env : renv) (opts : list opt) (src : source) : res (list N * option goerr) :=
  let* r := readThread env (newReader src opts) in Ok (r_result r).

Lemma reffective_ok opts : opts_ok opts -> (8 <= o_wbits (reffective opts) <= 15)%N /\ bytes_ok (opt_dict (reffective opts)).
Proof.
  intros H. assert (P : pre_ok (opt_apply options_reset opts)). { apply pre_ok_apply; auto. unfold pre_ok, options_reset; cbn. repeat split; auto; lia. }
  unfold reffective. destruct (opt_apply options_reset opts) as [f s c m w d t]. destruct P as [P1 [P2 [P3 P4]]]. cbn in *. split.
  - destruct (N.eqb_spec w 0); lia.
  - unfold opt_dict. cbn. destruct d; [tauto|constructor].
Qed.

Section Dec.
Variable env : renv.
Hypothesis Hlib : rlib_ok env.
Variable opts : list opt.
Hypothesis Hopts : opts_ok opts.
Variable src : source.
Hypothesis Hpol : polite_src src.
Hypothesis Hbytes : bytes_ok (src_bytes src).
Notation opt := (reffective opts).
Notation RSt := (RSt env opt).
(** What is known of the input at any time: how it is cut, and the position. *)
Definition at_src (i : ist) : Prop :=
  incl (cuts i) (src_cuts src) /\
  exists k, i_total i = (k mod two64)%N /\ (k + lenN (i_all i) = lenN (src_bytes src))%N.
Lemma at_src_ink i i' w : ink i i' w -> at_src i -> at_src i'.
Proof.
  intros X [H1 [k [H2 H3]]]. split; [eapply incl_tran; [apply (nk_cuts X)|auto]|].
  exists (k + lenN w)%N. rewrite (nk_total X), H2. split; [unfold add64; rewrite N.add_mod_idemp_l by discriminate; auto|].
  rewrite (nk_all X), lenN_app in H3. lia.
Qed.
Lemma at_src_new : at_src (r_in (newReader src opts)).
Proof. split; [apply incl_refl|]. exists 0%N. split; reflexivity. Qed.
Notation StreamSeq := (StreamSeq env opt at_src).
Notation picks := (picks env opt at_src).

Lemma inv_new : inv opt (newReader src opts).
Proof.
  constructor; auto; try reflexivity.
  - constructor; try reflexivity; auto.
  - constructor; cbn; try reflexivity; try constructor; auto; lia.
Qed.
Lemma RC_new : RC (length (src_bytes src)) (newReader src opts).
Proof.
  assert (E : i_all (r_in (newReader src opts)) = src_bytes src) by reflexivity.
  constructor; rewrite ?E; auto; rewrite ?Nat.sub_diag; try reflexivity. constructor.
Qed.

Definition DClean (d : list N) (e : goerr) (ss : list sinfo) (rest : list N) : Prop :=
  d = concat (map sd ss) /\ e = src_end src /\ (detached_src src -> rest = []) /\ (src_bytes src <> [] -> ss <> []).
Definition DFailed (d : list N) (e : goerr) (ss : list sinfo) (rest : list N) : Prop :=
  rest <> [] /\ exists f p t (z : bool), picks f rest /\ d = concat (map sd ss) ++ t /\ fail_err (src_end src) e /\
    (if z then zombie e else exists junk, t = p ++ junk) /\ FailT env opt f rest (src_end src) p t e z.

(** The events of the streams, one by one (C83). *)
Definition described (ss : list sinfo) (evs : list event) : Prop :=
  exists ess, map pre_of evs = concat ess /\ Forall2 (fun s es => StE env opt (sf s) (sb s) (sd s) (sh s) es) ss ess.
Lemma thread_facts_d : match readThread env (newReader src opts) with
  | Ok r' => counted (length (src_bytes src)) r' /\
      exists d e ss rest, r_result r' = (d, Some e) /\ StreamSeq (src_bytes src) ss rest /\
        ((DClean d e ss rest /\ headers_of (r_events r') = map sh ss /\ SEvs (map sd ss) EvIdle (map pre_of (r_events r')) /\ closes (r_events r') = running 0 0 (pairs ss) /\ described ss (r_events r')) \/ DFailed d e ss rest)
  | Panic c => panicked env opt at_src (src_bytes src) c
  | NoFuel => False
  end.
Proof.
  destruct (reffective_ok Hopts) as [_ Hd]. pose proof (@readThread_spec env Hlib opt Hd _ at_src_ink _ inv_new at_src_new eq_refl) as T.
  destruct (readThread env (newReader src opts)) as [r'|c|]; auto.
  destruct T as [T1 [_ [_ [_ [_ [_ [ss [rest [s [t [S1 [S2 [S3 [S4 S5]]]]]]]]]]]]]]. split; [apply T1; apply RC_new|].
  change (i_all (r_in (newReader src opts))) with (src_bytes src) in *. change (i_end (r_in (newReader src opts))) with (src_end src) in *.
  change (o_log (r_out (newReader src opts))) with (@nil outact) in S2. cbn [app] in S2. unfold r_result. rewrite S2, log_data_app, S4.
  destruct S5 as [[[C1 [C2 C3]] [C4 [evs [C5 [C6 C7]]]]]|[F1 [f [e [p [z [F2 [F3 [F4 [F5 F6]]]]]]]]]].
  - exists (concat (map sd ss) ++ log_data t), (src_end src), ss, rest. split; [rewrite C3; auto|]. split; auto. left. split.
    + split; [rewrite C2; cbn; rewrite app_nil_r; auto|]. split; auto.
    + change (r_events (newReader src opts)) with (@nil event) in C5. cbn [app] in C5. rewrite C5. destruct C6 as [C6 [C8 C9]]. split; auto. split; [apply (C7 [] []); constructor|]. split; [|exact C9].
      rewrite (C8 _ RC_new). change (i_all (r_in (newReader src opts))) with (src_bytes src). rewrite Nat.sub_diag. reflexivity.
  - exists (concat (map sd ss) ++ log_data t), e, ss, rest. split; [rewrite F3; auto|]. split; auto. right. split; auto. exists f, p, (log_data t), z. auto.
Qed.
Lemma thread_facts : match readThread env (newReader src opts) with
  | Ok r' => counted (length (src_bytes src)) r' /\
      exists d e ss rest, r_result r' = (d, Some e) /\ StreamSeq (src_bytes src) ss rest /\
        ((DClean d e ss rest /\ headers_of (r_events r') = map sh ss /\ SEvs (map sd ss) EvIdle (map pre_of (r_events r')) /\ closes (r_events r') = running 0 0 (pairs ss)) \/ DFailed d e ss rest)
  | Panic c => panicked env opt at_src (src_bytes src) c
  | NoFuel => False
  end.
Proof.
  pose proof thread_facts_d as T. destruct (readThread env (newReader src opts)) as [r'|c|]; auto.
  destruct T as [T [d [e [ss [rest [E [S D]]]]]]]. split; auto. exists d, e, ss, rest. split; auto. split; auto. tauto.
Qed.
Lemma dec_facts : match decompress env opts src with
  | Ok (d, oe) => exists e ss rest, oe = Some e /\ StreamSeq (src_bytes src) ss rest /\ (DClean d e ss rest \/ DFailed d e ss rest)
  | Panic c => panicked env opt at_src (src_bytes src) c
  | NoFuel => False
  end.
Proof.
  pose proof thread_facts as T. unfold decompress. destruct (readThread env (newReader src opts)) as [r'|c|]; cbn [rbind]; auto.
  destruct T as [_ [d [e [ss [rest [E [S D]]]]]]]. rewrite E. exists e, ss, rest. split; auto. split; auto. tauto.
Qed.

Lemma eof_not_fail iend : ~ fail_err iend EOF.
Proof. intros [[a [b [c E]]]|E]; [discriminate|]. destruct iend; discriminate. Qed.

Lemma seq_nil_inv ss rest : StreamSeq [] ss rest -> ss = [] /\ rest = [].
Proof. intros H. inversion H as [all Q1 Q2 Q3|f' b d h all ss' rest' P R S' Q1 Q2 Q3]; auto. exfalso. apply picks_nonempty in P. auto. Qed.

(** ** Following a list of streams, perhaps cut off inside one more *)
Lemma gz_panic_app a b c : gz_panic a c -> gz_panic (a ++ b) c.
Proof. intros [h [p [t [-> H]]]]. exists h, p, (t ++ b). split; auto. rewrite <- !app_assoc. auto. Qed.
Definition valid_list (f : sformat) (l : list sinfo) : Prop := Forall (fun s => sf s = f /\ RSt f (sb s) (sd s) (sh s)) l.
Definition cut_of (f : sformat) (p : list N) (x : sinfo) : Prop := sf x = f /\ RSt f (sb x) (sd x) (sh x) /\ exists q, q <> [] /\ sb x = p ++ q.

Lemma concat_ne f l : valid_list f l -> concat (map sb l) = [] -> l = [].
Proof. intros H E. destruct H as [|x l [_ H] _]; auto. cbn in E. apply app_eq_nil in E. apply RSt_nonempty in H. tauto. Qed.

(** While valid streams are left there is no failure and no panic. *)
Definition valid_each_list (l : list sinfo) : Prop := Forall (fun s => RSt (sf s) (sb s) (sd s) (sh s)) l.
Lemma follow_each_d l : Finds env opt at_src l [] -> valid_each_list l -> src_bytes src = concat (map sb l) -> detached_src src \/ length l <= 1 ->
  match readThread env (newReader src opts) with
  | Ok r' => r_result r' = (concat (map sd l), Some (src_end src)) /\ counted (length (src_bytes src)) r' /\ headers_of (r_events r') = map sh l /\ SEvs (map sd l) EvIdle (map pre_of (r_events r')) /\ closes (r_events r') = running 0 0 (pairs l) /\ described l (r_events r')
  | _ => False
  end.
Proof.
  intros EF HL EB HD. assert (FOL : forall ss rest, StreamSeq (src_bytes src) ss rest -> (exists x l2, l = ss ++ x :: l2 /\ rest = concat (map sb (x :: l2))) \/ (ss = l /\ rest = [])).
  { intros ss rest HS. rewrite EB, <- (app_nil_r (concat _)) in HS. destruct (seq_follow_each Hlib EF HL HS) as [[x [l2 [E1 E2]]]|[ss2 [E1 E2]]].
    - left. exists x, l2. rewrite app_nil_r in E2. auto.
    - right. destruct (seq_nil_inv E2) as [-> ->]. rewrite app_nil_r in E1. auto. }
  pose proof thread_facts_d as T. destruct (readThread env (newReader src opts)) as [r'|c|]; auto.
  - destruct T as [T0 [d [e [ss [rest [E [S D]]]]]]]. destruct (FOL _ _ S) as [[x [l2 [E1 E2]]]|[-> ->]].
    + exfalso. unfold valid_each_list in HL. rewrite E1, Forall_app in HL. destruct HL as [_ HL]. inversion HL as [|? ? X2 HL2 Q1]; subst x0 l0. destruct D as [[[D1 [D2 [D3 D4]]] _]|[D1 [f' [p [t [z [P1 [P2 [P3 [P4 P5]]]]]]]]]].
      * assert (NE : rest <> []). { rewrite E2. cbn. intros K. apply app_eq_nil in K. apply RSt_nonempty in X2. tauto. }
        destruct HD as [HD|HD]; [auto|]. rewrite E1, app_length in HD. cbn in HD. destruct ss; [|cbn in HD; lia]. apply D4; auto.
        rewrite EB. intros K. apply (f_equal (@length _)) in K. rewrite E1 in K. cbn in K. rewrite app_length in K. apply RSt_nonempty in X2. destruct (sb x); cbn in K; [auto|lia].
      * cbn in E2. assert (f' = sf x) by (rewrite E2 in P1; apply (EF f' ss x l2 E1); rewrite app_nil_r; exact P1). subst f'. destruct (P5 [] (sb x) (sd x) (sh x) (concat (map sb l2)) X2) as [Q _]; [rewrite app_nil_r; auto|]. rewrite E2, app_length in Q. lia.
    + destruct D as [[[D1 [D2 [D3 D4]]] [D5 D6]]|[D1 _]]; [|congruence]. subst. auto.
  - destruct T as [_ [ss [rest [S [NE P]]]]]. destruct (FOL _ _ S) as [[x [l2 [E1 E2]]]|[-> ->]]; [|auto].
    unfold valid_each_list in HL. rewrite E1, Forall_app in HL. destruct HL as [_ HL]. inversion HL as [|? ? X2 HL2 Q1]; subst x0 l0. cbn in E2. destruct P as [[P1 P2]|[f' [P1 P2]]].
    + assert (EG : sf x = SGzip) by (symmetry; rewrite E2 in P1; apply (EF _ ss x l2 E1); rewrite app_nil_r; exact P1). rewrite EG in *. rewrite E2 in P2. exact (gzip_no_panic X2 P2).
    + assert (f' = sf x) by (rewrite E2 in P1; apply (EF f' ss x l2 E1); rewrite app_nil_r; exact P1). subst f' rest. eapply (P2 [] (sb x)); [exact X2|]. rewrite app_nil_r. reflexivity.
Qed.
Lemma follow_each l : Finds env opt at_src l [] -> valid_each_list l -> src_bytes src = concat (map sb l) -> detached_src src \/ length l <= 1 ->
  match readThread env (newReader src opts) with
  | Ok r' => r_result r' = (concat (map sd l), Some (src_end src)) /\ counted (length (src_bytes src)) r' /\ headers_of (r_events r') = map sh l /\ SEvs (map sd l) EvIdle (map pre_of (r_events r')) /\ closes (r_events r') = running 0 0 (pairs l)
  | _ => False
  end.
Proof.
  intros A1 A2 A3 A4. pose proof (follow_each_d A1 A2 A3 A4) as T. destruct (readThread env (newReader src opts)); tauto.
Qed.
Lemma follow_all_d f l : o_format opt = fmt_of f -> valid_list f l -> src_bytes src = concat (map sb l) -> detached_src src \/ length l <= 1 ->
  match readThread env (newReader src opts) with
  | Ok r' => r_result r' = (concat (map sd l), Some (src_end src)) /\ counted (length (src_bytes src)) r' /\ headers_of (r_events r') = map sh l /\ SEvs (map sd l) EvIdle (map pre_of (r_events r')) /\ closes (r_events r') = running 0 0 (pairs l) /\ described l (r_events r')
  | _ => False
  end.
Proof. intros EF HL. apply follow_each_d; [eapply finds_fixed; eauto|eapply valid_each; eauto]. Qed.
Lemma follow_all f l : o_format opt = fmt_of f -> valid_list f l -> src_bytes src = concat (map sb l) -> detached_src src \/ length l <= 1 ->
  match readThread env (newReader src opts) with
  | Ok r' => r_result r' = (concat (map sd l), Some (src_end src)) /\ counted (length (src_bytes src)) r' /\ headers_of (r_events r') = map sh l /\ SEvs (map sd l) EvIdle (map pre_of (r_events r')) /\ closes (r_events r') = running 0 0 (pairs l)
  | _ => False
  end.
Proof. intros EF HL. apply follow_each; [eapply finds_fixed; eauto|eapply valid_each; eauto]. Qed.
Lemma follow_cut f l p x : o_format opt = fmt_of f -> valid_list f l -> p <> [] -> cut_of f p x -> src_bytes src = concat (map sb l) ++ p -> detached_src src \/ l = [] ->
  exists d t e, decompress env opts src = Ok (d, Some e) /\ d = concat (map sd l) ++ t /\ trunc_err (src_end src) e /\ (~ is_corrupt (src_end src) -> exists q, sd x = t ++ q).
Proof.
  intros EF HL NP [X1 [X2 [q [NQ EQ]]]] EB HD.
  assert (FOL : forall ss rest, StreamSeq (src_bytes src) ss rest -> (exists y l2, l = ss ++ y :: l2 /\ rest = concat (map sb (y :: l2)) ++ p) \/ (ss = l /\ rest = p)).
  { intros ss rest HS. rewrite EB in HS. destruct (seq_follow Hlib EF HL HS) as [[y [l2 [E1 E2]]]|[ss2 [E1 E2]]]; [left; exists y, l2; auto|]. right.
    inversion E2 as [all Q1 Q2 Q3|f' b d h all ss' rest' P R S' Q1 Q2 Q3]; [subst ss2; rewrite app_nil_r in E1; auto|]. exfalso.
    assert (f' = f) by (eapply picks_is; eauto). subst f'. destruct (@RSt_inj env Hlib opt f b d h (sb x) (sd x) (sh x) (all ++ q) [] R X2) as [Eb _].
    - rewrite app_nil_r, EQ, <- Q1, app_assoc. auto.
    - subst b. rewrite EQ in Q1. apply (f_equal (@length _)) in Q1. rewrite !app_length in Q1. destruct q; [congruence|cbn in Q1; lia]. }
  pose proof dec_facts as T. destruct (decompress env opts src) as [[d oe]|c|]; [| |contradiction].
  - destruct T as [e [ss [rest [-> [S D]]]]]. destruct (FOL _ _ S) as [[y [l2 [E1 E2]]]|[-> ->]].
    + exfalso. unfold valid_list in HL. rewrite E1, Forall_app in HL. destruct HL as [_ HL]. inversion HL as [|? ? [Y1 Y2] HL2 Q1]; subst x0 l0. destruct D as [[D1 [D2 [D3 D4]]]|[D1 [f' [p' [t [z [P1 [P2 [P3 [P4 P5]]]]]]]]]].
      * destruct HD as [HD| ->]; [|destruct ss; discriminate]. specialize (D3 HD). rewrite E2 in D3. apply app_eq_nil in D3. tauto.
      * assert (f' = f) by (eapply picks_is; eauto). subst f'. cbn in E2. rewrite <- app_assoc in E2. destruct (P5 [] (sb y) (sd y) (sh y) (concat (map sb l2) ++ p) Y2) as [Q _]; [rewrite app_nil_r; auto|]. rewrite E2, !app_length in Q. lia.
    + destruct D as [[D1 [D2 [D3 D4]]]|[D1 [f' [p' [t [z [P1 [P2 [P3 [P4 P5]]]]]]]]]].
      * exfalso. destruct HD as [HD| ->]; [auto|]. cbn in EB. subst p. apply D4; auto.
      * assert (f' = f) by (eapply picks_is; eauto). subst f'. destruct (P5 q (sb x) (sd x) (sh x) [] X2) as [Q1 [Q2 [[qq Q3] Q4]]]; [rewrite app_nil_r; auto|].
        exists d, t, e. split; auto. split; auto. split; auto. intros NC. destruct z.
        -- exfalso. destruct P4 as [a [b [c [-> HC]]]]. destruct Q2 as [Q2|[a' [b' [c' [Q2 HD']]]]].
           ++ destruct (src_end src); cbn in Q2; try discriminate. inversion Q2; subst. apply NC. red; eauto.
           ++ inversion Q2; subst c'. destruct HC as [-> | ->]; destruct HD' as [K|[K|K]]; discriminate.
        -- rewrite (Q4 eq_refl). exists qq. auto.
  - exfalso. destruct T as [_ [ss [rest [S [NE P]]]]]. destruct (FOL _ _ S) as [[y [l2 [E1 E2]]]|[-> ->]].
    + unfold valid_list in HL. rewrite E1, Forall_app in HL. destruct HL as [_ HL]. inversion HL as [|? ? [Y1 Y2] HL2 Q1]; subst x0 l0. cbn in E2. rewrite <- app_assoc in E2. destruct P as [[P1 P2]|[f' [P1 P2]]].
      * assert (EG : f = SGzip) by (symmetry; eapply picks_is; eauto). rewrite EG in *. rewrite E2 in P2. exact (gzip_no_panic Y2 P2).
      * assert (f' = f) by (eapply picks_is; eauto). subst f' rest. eapply (P2 [] (sb y)); [exact Y2|]. rewrite app_nil_r. reflexivity.
    + destruct P as [[P1 P2]|[f' [P1 P2]]].
      * assert (EG : f = SGzip) by (symmetry; eapply picks_is; eauto). rewrite EG in *. apply (@gz_panic_app p q) in P2. rewrite <- EQ, <- (app_nil_r (sb x)) in P2. exact (gzip_no_panic X2 P2).
      * assert (f' = f) by (eapply picks_is; eauto). subst f'. eapply (P2 q (sb x) _ _ []); [exact X2|]. rewrite app_nil_r. auto.
Qed.
End Dec.
