(** The Reader does not depend on how its source cuts the data (C32), and can
    be used again after Reset (C44). *)
From Verif Require Import Base SpecChecksum SpecHuffman SpecDeflate SpecFormats SpecSession SpecEvents MChecksum PChecksum MToken MCommon MWriter MReader SpecReader SpecLib PToken PHuffman PBits PActs PGram PInput POutput PDecode PDynamic PBlockDec PHeader PStream PFooter PThread PLoop PFormat PApi PInst PAccept PRead PSim PropReader.

Lemma no_fuel env opts src : rlib_ok env -> opts_ok opts -> good_src src -> readThread env (newReader src opts) <> NoFuel.
Proof. intros HL HO HG K. pose proof (@C38_reader_terminates env opts src HL HO HG) as H. unfold decompress in H. rewrite K in H. exact H. Qed.

(** ** C32 *)
Theorem C32_chunking_irrelevant :
  forall env opts src src', rlib_ok env -> opts_ok opts -> good_src src -> good_src src' -> detached_src src -> detached_src src' ->
    o_format (reffective opts) <> DefaultFormat ->
    src_bytes src = src_bytes src' -> src_end src = src_end src' ->
    decompress env opts src = decompress env opts src'.
Proof.
  intros env opts src src' HL HO HG HG' HD HD' NF EB EE.
  destruct (reffective_ok HO) as [_ Hd].
  assert (SIM : Rsim0 eq false (reffective opts) (reffective opts) (newReader src opts) (newReader src' opts)).
  { split; [split; reflexivity|]. split.
    - constructor; auto; try discriminate; [intros _; split; split; auto; [apply HG|apply HG']|apply HG].
    - constructor; cbn; auto; try congruence. constructor. }
  pose proof (@sim_thread eq (fun a b p E => f_equal (fun x => add64 x p) E) false env (rl_far HL) (reffective opts) (reffective opts) eq_refl eq_refl eq_refl Hd _ _ (fun K => match NF K with end) SIM) as S.
  pose proof (@no_fuel env opts src HL HO HG) as N1. pose proof (@no_fuel env opts src' HL HO HG') as N2. unfold decompress.
  destruct (readThread env (newReader src opts)) as [r|c|], (readThread env (newReader src' opts)) as [r'|c'|]; cbn in *; try congruence; try contradiction.
  destruct (sim_result eq_refl eq_refl S) as [R1 R2]. unfold r_result in *. cbn [snd] in R2. rewrite R1. f_equal. f_equal.
  destruct (o_err (r_out r)) as [e|], (o_err (r_out r')) as [e'|]; try contradiction; auto. destruct R2 as [->|[a [a' [b [c [-> [-> ->]]]]]]]; auto.
Qed.
(** In particular it is what one gets when all data arrives at once. *)
Corollary C32_all_at_once :
  forall env opts src, rlib_ok env -> opts_ok opts -> good_src src -> detached_src src -> o_format (reffective opts) <> DefaultFormat ->
    src_bytes src <> [] -> decompress env opts src = decompress env opts [(src_bytes src, None); ([], Some (src_end src))].
Proof.
  intros env opts src HL HO HG HD NF NE. apply C32_chunking_irrelevant; auto; try (cbn; now rewrite app_nil_r). split; [cbn; auto|cbn; rewrite app_nil_r; apply HG].
  cbn. auto.
Qed.

(** ** C44 *)
(** A Reader whose goroutine has ended, after any number of uses. *)
Inductive Ended (env : renv) : list opt -> reader -> Prop :=
| ended_new opts src r : opts_ok opts -> good_src src -> readThread env (newReader src opts) = Ok r -> Ended env opts r
| ended_again opts r src opts' r' : Ended env opts r -> opts_ok opts' -> good_src src ->
    readThread env (r_reset r src opts') = Ok r' -> Ended env (opts ++ opts') r'.
(** What a client gets from it after Reset. *)
Definition decompress_again (env : renv) (r : reader) (src : source) (opts : list opt) : res (list N * option goerr) :=
  let* r' := readThread env (r_reset r src opts) in Ok (r_result r').

Lemma populate_again l : forall o o', populateReaderDefaults o = populateReaderDefaults o' -> populateReaderDefaults (opt_apply o l) = populateReaderDefaults (opt_apply o' l).
Proof.
  unfold opt_apply. induction l as [|x l IH]; intros o o' H; cbn; auto. apply IH. destruct o as [f s c m w d t], o' as [f' s' c' m' w' d' t']. cbn in H. inversion H; subst.
  destruct x; cbn; try congruence.
Qed.
Lemma populate_idem o : populateReaderDefaults (populateReaderDefaults o) = populateReaderDefaults o.
Proof. destruct o as [f s c m w d t]. cbn. f_equal; [destruct (N.eqb_spec m 0)|destruct (N.eqb_spec w 0)]; auto; [destruct (N.eqb_spec m 0)|destruct (N.eqb_spec w 0)]; auto; congruence. Qed.
Lemma reffective_app opts opts' : reffective (opts ++ opts') = match opts' with [] => reffective opts | _ => populateReaderDefaults (opt_apply (reffective opts) opts') end.
Proof.
  assert (E : reffective (opts ++ opts') = populateReaderDefaults (opt_apply (reffective opts) opts')).
  { unfold reffective. rewrite <- (@populate_again opts' _ _ (eq_sym (populate_idem (opt_apply options_reset opts)))). unfold opt_apply. rewrite fold_left_app. auto. }
  rewrite E. destruct opts'; auto. cbn. apply populate_idem.
Qed.

Lemma ended_facts env opts r : rlib_ok env -> Ended env opts r ->
  opts_ok opts /\ r_opt r = reffective opts /\ ib (r_in r) = 0%N /\ ibl (r_in r) = 0 /\ cnt_ok (r_in r) /\ ook (dec_cap (reffective opts)) (r_out r).
Proof.
  intros HL H.
  assert (B0 : forall i, bok i -> ibl i = 0 -> ib i = 0%N). { intros i B E. unfold bok in B. rewrite E in B. cbn in B. lia. }
  induction H as [opts src r HO HG E|opts r src opts' r' H IH HO HG E].
  - destruct (reffective_ok HO) as [_ Hd]. pose proof (@readThread_spec env HL (reffective opts) Hd (fun _ => True) (fun _ _ _ _ _ => I) _ (@inv_new opts src (proj1 HG) (proj2 HG)) I eq_refl) as T. rewrite E in T.
    destruct T as [_ [[T1 T2] [T3 [T4 [T5 _]]]]]. auto 10.
  - destruct IH as [IO [I1 [I2 [I3 [I4 I5]]]]]. assert (HO2 : opts_ok (opts ++ opts')) by (apply Forall_app; auto). destruct (reffective_ok HO2) as [_ Hd].
    assert (V : inv (reffective (opts ++ opts')) (r_reset r src opts')).
    { destruct r as [o [i u] n h f ev]. unfold r_in, r_out in *. cbn in *. destruct I4 as [C1 [C2 C3]]. destruct I5 as [O1 O2 O3 O4 O5 O6 O7]. constructor; cbn; auto.
      - rewrite reffective_app. subst o. destruct opts'; auto.
      - constructor; cbn; auto; apply HG.
      - unfold bok; cbn. rewrite I2, I3. reflexivity.
      - constructor; cbn; auto; try constructor. lia. }
    pose proof (@readThread_spec env HL _ Hd (fun _ => True) (fun _ _ _ _ _ => I) _ V I) as T. rewrite E in T.
    assert (EN : o_err (r_out (r_reset r src opts')) = None) by (destruct r as [o [i u] n h f ev]; reflexivity). specialize (T EN).
    destruct T as [_ [[T1 T2] [T3 [T4 [T5 _]]]]]. auto 10.
Qed.

Lemma reset_inv env opts r src opts' : rlib_ok env -> Ended env opts r -> opts_ok opts' -> good_src src -> inv (reffective (opts ++ opts')) (r_reset r src opts') /\ o_err (r_out (r_reset r src opts')) = None.
Proof.
  intros HL HE HO HG. destruct (ended_facts HL HE) as [IO [I1 [I2 [I3 [I4 I5]]]]]. destruct r as [o [i u] n h f ev]. split; [|reflexivity]. unfold r_in, r_out in *. cbn in *. destruct I4 as [C1 [C2 C3]]. destruct I5 as [O1 O2 O3 O4 O5 O6 O7]. constructor; cbn; auto.
  - rewrite reffective_app. subst o. destruct opts'; auto.
  - constructor; cbn; auto; apply HG.
  - unfold bok; cbn. rewrite I2, I3. reflexivity.
  - constructor; cbn; auto; try constructor. lia.
Qed.

(** The used Reader behaves like a new one with the merged options; only the
    total offset inside a CorruptInputError counts on from the earlier inputs. *)
Theorem C44_reader_reusable :
  forall env opts r src opts', rlib_ok env -> Ended env opts r -> opts_ok opts' -> good_src src -> detached_src src ->
    o_format (reffective (opts ++ opts')) <> DefaultFormat ->
    match decompress env (opts ++ opts') src, decompress_again env r src opts' with
    | Ok (d, Some e), Ok (d', Some e') => d = d' /\
        (e = e' \/ exists t s p, e = CorruptInputError t s p /\ e' = CorruptInputError (add64 t (i_total (r_in r))) s p)
    | Panic c, Panic c' => c = c'
    | _, _ => False
    end.
Proof.
  intros env opts r src opts' HL HE HO HG HD NF. destruct (ended_facts HL HE) as [IO [I1 [I2 [I3 [I4 I5]]]]]. destruct (reset_inv HL HE HO HG) as [V EN].
  assert (HO2 : opts_ok (opts ++ opts')) by (apply Forall_app; auto). destruct (reffective_ok HO2) as [_ Hd].
  set (T := fun a b => b = add64 a (i_total (r_in r))).
  assert (TA : forall a b p, T a b -> T (add64 a p) (add64 b p)). { unfold T. intros a b p ->. rewrite !add64_assoc. f_equal. apply N.add_comm. }
  assert (SIM : Rsim0 T false (reffective (opts ++ opts')) (reffective (opts ++ opts')) (newReader src (opts ++ opts')) (r_reset r src opts')).
  { split; [split; [reflexivity|apply V]|]. destruct r as [o [i u] n h f ev]. unfold r_in, r_out in *. cbn in *. split.
    - constructor; cbn; auto; try (intros _; split; split; cbn; auto; apply HG); try discriminate; try apply HG. unfold T. unfold add64. rewrite N.mod_small; auto. apply I4.
    - constructor; cbn; auto; try congruence. constructor. }
  pose proof (@sim_thread T TA false env (rl_far HL) _ _ eq_refl eq_refl eq_refl Hd _ _ (fun K => match NF K with end) SIM) as S. pose proof (@no_fuel env _ src HL HO2 HG) as N1. unfold decompress, decompress_again.
  pose proof (@readThread_spec env HL _ Hd (fun _ => True) (fun _ _ _ _ _ => I) _ V I EN) as TS. pose proof (@C38_reader_terminates env (opts ++ opts') src HL HO2 HG) as T1. unfold decompress in T1.
  destruct (readThread env (newReader src (opts ++ opts'))) as [r1|c|], (readThread env (r_reset r src opts')) as [r2|c'|]; cbn in *; try congruence; try contradiction.
  destruct (sim_result eq_refl eq_refl S) as [R1 R2]. cbn in R2. destruct T1 as [e T1]. rewrite T1 in *. destruct (o_err (r_out r2)) as [e'|]; [|contradiction].
  split; auto. destruct R2 as [->|[a [a' [b [c [-> [-> ->]]]]]]]; auto. right. eauto.
Qed.

From Verif Require Import Demo PropReader3.
(** Non-trivial instances: a corrupt input, then a good one. *)
Example C44_example :
  exists r, Ended demo_renv raw_opts r /\ o_err (r_out r) <> Some EOF /\ decompress_again demo_renv r [(raw_a, None)] [] = Ok ([97]%N, Some EOF).
Proof.
  destruct (readThread demo_renv (newReader [([7]%N, None)] raw_opts)) as [r| |] eqn:E; [|vm_compute in E; discriminate|vm_compute in E; discriminate].
  exists r. split; [eapply ended_new; [| |exact E]; [repeat constructor|split; [cbn; repeat split; discriminate|repeat constructor]]|].
  vm_compute in E. injection E as <-. split; [cbn; discriminate|vm_compute; reflexivity].
Qed.
Example C32_example :
  decompress demo_renv zlib_opts [([0x78; 0x9c; 0x4b; 4; 0; 0; 0x62; 0; 0x62], None)]%N = decompress demo_renv zlib_opts [([0x78], None); ([0x9c; 0x4b; 4; 0; 0; 0x62; 0], None); ([0x62], None); ([], Some EOF)]%N.
Proof. apply C32_chunking_irrelevant; try apply demo_rlib_ok; try (split; [cbn; repeat split; discriminate|repeat constructor]); try reflexivity; try discriminate. repeat constructor. Qed.

(** ** C35: what remains true of it *)
(** Damage in a later stream never affects the streams before it: they are
    delivered first and unchanged.  (Missing for C35: data decoded after the
    damage may follow, see [C35_refuted].) *)
Theorem C35_earlier_streams_intact_partial :
  forall env opts src f l tail d e, rlib_ok env -> opts_ok opts -> good_src src -> set_to opts f ->
    Forall (valid opts f) l -> src_bytes src = concat (map fst l) ++ tail -> detached_src src ->
    decompress env opts src = Ok (d, Some e) -> exists t, d = concat (map snd l) ++ t.
Proof.
  intros env opts src f l tail d e HL HO [HP HB] HS Hl ES HD E. destruct (valid_infos HL HO HS Hl) as [ss [V1 [V2 V3]]].
  pose proof (@dec_facts env HL opts HO src HP HB) as T. rewrite E in T. destruct T as [e' [ss' [rest [[= <-] [S D]]]]]. rewrite ES, <- V2 in S.
  destruct (@seq_follow env HL _ _ f ss tail (proj1 HS) V1 _ _ S) as [[x [l2 [E1 E2]]]|[ss2 [E1 E2]]].
  - exfalso. unfold valid_list in V1. rewrite E1, Forall_app in V1. destruct V1 as [_ V1]. inversion V1 as [|? ? [X1 X2] V4 Q1]; subst x0 l0.
    destruct D as [[D1 [D2 [D3 D4]]]|[D1 [f' [p [t [z [P1 [P2 [P3 [P4 P5]]]]]]]]]].
    + specialize (D3 HD). rewrite E2 in D3. cbn in D3. apply app_eq_nil in D3. destruct D3 as [D3 _]. apply app_eq_nil in D3. destruct D3 as [D3 _].
      rewrite D3 in X2. apply (RSt_nonempty X2). auto.
    + assert (f' = f) by (eapply picks_is; eauto; apply HS). subst f'. cbn in E2. rewrite <- app_assoc in E2. destruct (P5 [] (sb x) (sd x) (sh x) (concat (map sb l2) ++ tail) X2) as [Q _]; [rewrite app_nil_r; auto|]. rewrite E2, !app_length in Q. lia.
  - subst ss'. destruct D as [[-> _]|[D1 [f' [p [t [z [P1 [-> _]]]]]]]]; rewrite map_app, concat_app, V3, <- ?app_assoc; eauto.
Qed.
