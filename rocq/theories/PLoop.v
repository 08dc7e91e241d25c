(** All streams: the decompression thread. *)
From Verif Require Import Base SpecChecksum SpecHuffman SpecDeflate SpecFormats SpecEvents MChecksum PChecksum MToken MCommon MWriter MReader SpecLib PToken PHuffman PBits PActs PGram PInput POutput PDecode PDynamic PBlockDec PHeader PStream PFooter PThread.

(** One stream of the input: format, bytes, contents, header. *)
Record sinfo := SInfo { sf : sformat; sb : list N; sd : list N; sh : header }.

Section Loop.
Variable env : renv.
Hypothesis Hlib : rlib_ok env.
Variable opt : options.
Hypothesis Hdict : bytes_ok (opt_dict opt).
Notation cap := (dec_cap opt).
Notation ook := (ook cap).
Notation RSt := (RSt env opt).
Notation inv := (inv opt).
Notation streamStep := (streamStep env).
Notation step_post := (step_post env opt).

(** The format the Reader picks for a stream when [all] is left of the input
    [Pk] is something known of the input whenever a header is read. *)
Variable Pk : ist -> Prop.
Hypothesis HPk : forall i i' w, ink i i' w -> Pk i -> Pk i'.
Definition picks (f : sformat) (all : list N) : Prop := exists i, i_all i = all /\ i_buf i <> [] /\ Pk i /\ f = selfmt env opt i.
Inductive StreamSeq : list N -> list sinfo -> list N -> Prop :=
| seq_nil all : StreamSeq all [] all
| seq_cons f b d h all ss rest : picks f (b ++ all) -> RSt f b d h -> StreamSeq all ss rest -> StreamSeq (b ++ all) (SInfo f b d h :: ss) rest.
Lemma seq_bytes all ss rest : StreamSeq all ss rest -> all = concat (map sb ss) ++ rest.
Proof. induction 1; cbn; auto. rewrite <- app_assoc. congruence. Qed.

(** A stream that is taken for gzip has an extra field that cannot be parsed. *)
Definition bad_extra (all : list N) (c : panic) : Prop := exists pre rest, all = pre ++ rest /\ picks SGzip rest /\ gz_panic rest c.
Lemma panic_ink i i' w c : ink i i' w -> bad_extra (i_all i') c -> bad_extra (i_all i) c.
Proof. intros X [pre [rest [E P]]]. rewrite (nk_all X), E, app_assoc. exists (w ++ pre), rest. auto. Qed.
Lemma streamsLoop_eq fuel r : streamsLoop env fuel r =
  match i_err (r_in r) with
  | Some _ => Ok r
  | None => match fuel with O => NoFuel | S f => let* (r, ok) := streamStep r in if ok then streamsLoop env f r else Ok r end
  end.
Proof.
  destruct fuel; cbn [streamsLoop]; destruct (i_err (r_in r)); auto. unfold PThread.streamStep, streamBody.
  destruct (readHeader env r) as [[r1 [|]]|c|]; cbn [rbind]; auto.
  destruct (blocksLoop env (S (bits_left (r_in (set_rout r1 (o_sumreset (r_out r1)))))) (set_rout r1 (o_sumreset (r_out r1)))) as [r2|c|]; cbn [rbind]; auto.
Qed.

Lemma picks_head r : inv r -> Pk (r_in r) -> i_all (r_in r) <> [] -> picks (selfmt env opt (in_head r)) (i_all (r_in r)).
Proof.
  intros V HC NE. assert (H0 : iok (i_streamreset (r_in r))) by (apply iok_streamreset; apply V).
  destruct (fill_spec H0) as [X1 [F1 [F2 F3]]]. exists (in_head r). unfold in_head. split.
  - pose proof (ix_all X1) as A. cbn in A. rewrite <- A. destruct (r_in r); auto.
  - split; [|split; auto].
    + intros E. destruct (F3 E) as [E1 _]. apply NE. destruct (r_in r); auto.
    + eapply HPk; [|exact HC]. apply streamreset_ink, ink_iext. exact X1.
Qed.

Lemma gz_nonempty all c : gz_panic all c -> all <> [].
Proof. intros [h [p [b [-> [L _]]]]] E. destruct h; [discriminate|]. discriminate. Qed.
Lemma panic_here r c : inv r -> Pk (r_in r) -> gz_panic (i_all (r_in r)) c /\ selfmt env opt (in_head r) = SGzip -> bad_extra (i_all (r_in r)) c.
Proof. intros V HC [P S]. exists [], (i_all (r_in r)). split; auto. split; auto. rewrite <- S. apply picks_head; auto. eapply gz_nonempty; eauto. Qed.
(** What happens after an error. *)
Lemma junkLoop : forall fuel r, inv r -> Pk (r_in r) -> src_left (r_in r) < fuel ->
  match streamsLoop env fuel r with
  | Ok r' => inv r' /\ (forall n, RC n r -> RC n r') /\ (exists w, ink (r_in r) (r_in r') w) /\
      exists s, o_log (r_out r') = o_log (r_out r) ++ s /\ (forall e, o_err (r_out r) = Some e -> o_err (r_out r') = Some e) /\ (i_all (r_in r) = [] -> log_data s = [])
  | Panic c => bad_extra (i_all (r_in r)) c
  | NoFuel => False
  end.
Proof.
  induction fuel as [|fu IH]; intros r V HC L; [lia|]. rewrite streamsLoop_eq.
  destruct (i_err (r_in r)) as [e|] eqn:EE.
  { split; auto. split; auto. split; [exists []; apply ink_refl; apply V|]. exists []. rewrite app_nil_r. auto. }
  pose proof (streamStep_spec Hlib Hdict V) as S. destruct (streamStep r) as [[r1 ok]|c|]; cbn [rbind]; [|apply panic_here; auto|auto].
  destruct S as [V1 [C1 [[w X1] S]]].
  assert (HC1 : Pk (r_in r1)) by (eapply HPk; eauto).
  assert (G : exists s, o_log (r_out r1) = o_log (r_out r) ++ s /\ (forall e, o_err (r_out r) = Some e -> o_err (r_out r1) = Some e) /\ (i_all (r_in r) = [] -> ok = false /\ log_data s = []) /\ (ok = true -> src_left (r_in r1) < src_left (r_in r))).
  { destruct S as [[-> [A1 [A2 [A3 [A4 _]]]]]|[NE [[-> [b [d [h [s [R1 [N1 [D1 [D2 [D3 [D4 _]]]]]]]]]]]|[e [s [p [z [D1 [D2 [D3 [D4 [D5 D6]]]]]]]]]]]].
    - destruct (log_close (o_streamreset (r_out r)) (i_end (r_in r))) as [s [S1 S2]]. rewrite A4, err_close. exists s. split; [rewrite S1; clear; destruct (r_out r); auto|].
      split; [|split; [auto|discriminate]]. intros e E. clear - E. destruct (r_out r). cbn in *. subst. auto.
    - exists s. split; auto. split; [intros; congruence|]. split; [congruence|]. intros _. rewrite (nk_left N1). apply RSt_nonempty in R1. destruct b; [congruence|cbn; lia].
    - exists s. split; auto. split; [intros e0 E; rewrite D3, E; auto|]. split; [congruence|]. intros E. specialize (D6 E). pose proof (f_equal (@length _) (nk_all X1)) as A. rewrite app_length in A.
      rewrite (nk_left X1). lia. }
  destruct G as [s [G1 [G2 [G3 G4]]]]. destruct ok.
  - specialize (IH r1 V1 HC1). specialize (G4 eq_refl). destruct (streamsLoop env fu r1) as [r2|c|].
    + destruct IH as [V2 [C2 [[w2 X2] [s2 [S1 [S2 S3]]]]]]; [lia|]. split; auto. split; auto. split; [exists (w ++ w2); eapply ink_trans; eauto|].
      exists (s ++ s2). rewrite S1, G1, app_assoc. split; auto. split; auto. intros E. destruct (G3 E). discriminate.
    + eapply panic_ink; eauto. apply IH. lia.
    + apply IH. lia.
  - split; auto. split; auto. split; [eauto|]. exists s. split; auto. split; auto. intros E. apply (G3 E).
Qed.

Definition FailT (f : sformat) (rest : list N) (iend : goerr) (p t : list N) (e : goerr) (z : bool) : Prop :=
  forall x b d h s, RSt f b d h -> rest ++ x = b ++ s ->
    length rest < length b /\ trunc_err iend e /\ (exists q, d = p ++ q) /\ (z = false -> t = p).
Definition Clean (r r' : reader) (rest : list N) (t : list outact) : Prop :=
  (detached (r_in r) -> rest = []) /\ log_data t = [] /\ ((o_err (r_out r') = None /\ i_err (r_in r') = Some (i_end (r_in r)) /\ t = []) \/ (o_err (r_out r') = Some (i_end (r_in r)) /\ i_err (r_in r') <> None /\ t = [OErr (i_end (r_in r))] /\ rest = [])).
Definition Failed (r r' : reader) (rest : list N) (t : list outact) : Prop :=
  rest <> [] /\ exists f e p (z : bool), picks f rest /\ o_err (r_out r') = Some e /\ fail_err (i_end (r_in r)) e /\ (if z then zombie e else exists junk, log_data t = p ++ junk) /\
    FailT f rest (i_end (r_in r)) p (log_data t) e z.
Definition headers_of (evs : list event) : list header := flat_map (fun e => match e_header e with Some h => [h] | None => [] end) evs.
Lemma headers_app a b : headers_of (a ++ b) = headers_of a ++ headers_of b.
Proof. apply flat_map_app. Qed.
Definition pheaders (es : list pre_event) : list header := flat_map (fun e => match p_header e with Some h => [h] | None => [] end) es.
Lemma headers_pre evs : pheaders (map pre_of evs) = headers_of evs.
Proof. unfold pheaders, headers_of. rewrite flat_map_concat_map, map_map, flat_map_concat_map. reflexivity. Qed.
Lemma SEvs_headers ds st es : SEvs ds st es -> length (pheaders es) = length ds + match st with EvIdle => 0 | _ => 1 end.
Proof.
  induction 1 as [|ds es h H IH|ds es bs fi H IH B|ds es d H IH]; auto; unfold pheaders in *; rewrite flat_map_app, app_length, IH; cbn.
  - lia.
  - assert (flat_map (fun e : pre_event => match p_header e with Some h => [h] | None => [] end) bs = []) as -> by (destruct B; auto). destruct fi; cbn; lia.
  - rewrite app_length. cbn. lia.
Qed.
Lemma one_header d h ev1 ev2 evs : pre_of ev2 = ev_header h -> SEvs [d] EvIdle (map pre_of (ev1 :: ev2 :: evs)) -> headers_of (ev1 :: ev2 :: evs) = [h].
Proof.
  intros E H. apply SEvs_headers in H. rewrite headers_pre in H. cbn in H. assert (E2 : e_header ev2 = Some h) by (apply (f_equal p_header) in E; auto).
  unfold headers_of in *. cbn in *. rewrite E2 in *. rewrite !app_length in H. cbn in H. destruct (e_header ev1); cbn in *; [lia|].
  destruct (flat_map _ evs); auto. cbn in H. lia.
Qed.

(** Totals at the end of streams. *)
Definition lastR (r : reader) : Prop :=
  exists evs e, r_events r = evs ++ [e] /\ e_type e = StreamCloseEvent /\ e_inTotal e = i_total (r_in r) /\ e_outTotal e = o_total (r_out r).
Lemma last_send r : lastR (r_sendEvent r (ev_simple StreamCloseEvent)).
Proof. unfold lastR. rewrite ev_sendEvent. unfold r_in, r_out. rewrite d_sendEvent. eexists _, _. split; [reflexivity|]. cbn. auto. Qed.
Lemma streamStep_last r r' : streamStep r = Ok (r', true) -> lastR r'.
Proof.
  unfold streamStep. destruct (readHeader env r) as [[r1 [|]]| |]; cbn [rbind]; try discriminate. unfold streamBody.
  intros H. repeat match type of H with
  | readFooter _ = _ => fail 1
  | context [let* _ := ?x in _] => destruct x as [[? ?]| |]; cbn [rbind] in H; try discriminate
  | context [if ?b then _ else _] => destruct b; try discriminate
  end.
  unfold readFooter in H. match type of H with context [let* _ := ?x in _] => destruct x as [[r2 [|]]| |]; cbn [rbind] in H; try discriminate end.
  inversion H. apply last_send.
Qed.
Definition pcloses (es : list pre_event) : nat := length (filter (fun e => match p_type e with StreamCloseEvent => true | _ => false end) es).
Lemma pcloses_app a b : pcloses (a ++ b) = pcloses a + pcloses b.
Proof. unfold pcloses. now rewrite filter_app, app_length. Qed.
Lemma closes_app a b : closes (a ++ b) = closes a ++ closes b.
Proof. apply flat_map_app. Qed.
Lemma closes_count evs : length (closes evs) = pcloses (map pre_of evs).
Proof.
  induction evs as [|e evs IH]; auto. change (e :: evs) with ([e] ++ evs). rewrite closes_app, map_app, pcloses_app, app_length, IH. f_equal.
  unfold closes, pcloses, pre_of. cbn. destruct (e_type e); reflexivity.
Qed.
Lemma SEvs_closes ds st es : SEvs ds st es -> pcloses es = length ds.
Proof.
  induction 1 as [|ds es h H IH|ds es bs fi H IH B|ds es d H IH]; auto; rewrite pcloses_app, IH; cbn.
  - lia.
  - assert (pcloses bs = 0) as -> by (destruct B; reflexivity). lia.
  - rewrite app_length. cbn. lia.
Qed.
Lemma one_close d r' evs0 evs : lastR r' -> r_events r' = evs0 ++ evs -> evs <> [] -> SEvs [d] EvIdle (map pre_of evs) ->
  closes evs = [(i_total (r_in r'), o_total (r_out r'))].
Proof.
  intros [es [e [L1 [L2 [L3 L4]]]]] E NE H. apply SEvs_closes in H. rewrite <- closes_count in H. cbn in H.
  destruct (exists_last NE) as [l [x ->]]. rewrite app_assoc, L1 in E. apply app_inj_tail in E. destruct E as [_ <-].
  rewrite closes_app in *. rewrite app_length in H. cbn in *. rewrite L2 in *. cbn in *. rewrite L3, L4. destruct (closes l); auto. cbn in H. lia.
Qed.
Definition pairs (ss : list sinfo) : list (list N * list N) := map (fun s => (sb s, sd s)) ss.
Definition reported (r : reader) (evs : list event) (ss : list sinfo) : Prop :=
  headers_of evs = map sh ss /\ (forall n, RC n r -> closes evs = running (N.of_nat (n - length (i_all (r_in r)))) (lenN (log_data (o_log (r_out r)))) (pairs ss)) /\
  exists ess, map pre_of evs = concat ess /\ Forall2 (fun s es => StE env opt (sf s) (sb s) (sd s) (sh s) es) ss ess.

(** Where a panic comes from. *)
Definition panicked (all : list N) (c : panic) : Prop :=
  bad_extra all c /\ exists ss rest, StreamSeq all ss rest /\ rest <> [] /\
    ((picks SGzip rest /\ gz_panic rest c) \/ exists f, picks f rest /\ forall x b d h s, RSt f b d h -> rest ++ x <> b ++ s).

Lemma streamsLoop_spec : forall fuel r, inv r -> Pk (r_in r) -> src_left (r_in r) < fuel -> o_err (r_out r) = None ->
  match streamsLoop env fuel r with
  | Ok r' => inv r' /\ (forall n, RC n r -> RC n r') /\ (exists w, ink (r_in r) (r_in r') w) /\
      exists ss rest s t, StreamSeq (i_all (r_in r)) ss rest /\ o_log (r_out r') = o_log (r_out r) ++ s ++ t /\ Forall is_data s /\ log_data s = concat (map sd ss) /\
        ((Clean r r' rest t /\ (i_err (r_in r) = None -> i_all (r_in r) <> [] -> ss <> []) /\ exists evs, r_events r' = r_events r ++ evs /\ reported r evs ss /\ forall ds es, SEvs ds EvIdle es -> SEvs (ds ++ map sd ss) EvIdle (es ++ map pre_of evs)) \/
         Failed r r' rest t)
  | Panic c => panicked (i_all (r_in r)) c
  | NoFuel => False
  end.
Proof.
  induction fuel as [|fu IH]; intros r V HC L ER; [lia|]. rewrite streamsLoop_eq.
  destruct (i_err (r_in r)) as [e|] eqn:EE.
  { split; auto. split; auto. split; [exists []; apply ink_refl; apply V|]. exists [], (i_all (r_in r)), [], []. split; [constructor|]. cbn [app map concat]. rewrite !app_nil_r. split; auto. split; auto. split; auto. left.
    assert (EI : i_end (r_in r) = e) by (unfold i_end; rewrite EE; auto). split.
    - split; [|split; [reflexivity|left; rewrite EI; auto]]. unfold detached, i_all. rewrite EE, app_nil_r. auto.
    - split; [congruence|]. exists []. rewrite app_nil_r. split; auto. split; [split; auto; split; auto; exists []; auto|]. intros. cbn. rewrite !app_nil_r. auto. }
  pose proof (streamStep_spec Hlib Hdict V) as S. destruct (streamStep r) as [[r1 ok]|c|] eqn:ESS; cbn [rbind]; [| |auto].
  2:{ pose proof (panic_here V HC S) as BE. split; auto. destruct S as [S1 S2]. pose proof (gz_nonempty S1) as NE. exists [], (i_all (r_in r)). split; [constructor|]. split; auto. left. split; auto. rewrite <- S2. apply picks_head; auto. }
  destruct S as [V1 [C1 [[w X1] S]]].
  assert (HC1 : Pk (r_in r1)) by (eapply HPk; eauto).
  destruct S as [[-> [A1 [A2 [A3 [A4 A5]]]]]|[NE [[-> [b [d [h [s [R1 [N1 [D1 [D2 [D3 [D4 [ev1 [ev2 [evs [E1 [E2 [E3 E4]]]]]]]]]]]]]]]]]|[e [s [p [z [D1 [D2 [D3 [D4 [D5 D6]]]]]]]]]]]].
  - split; auto. split; auto. split; [eauto|]. exists [], [], [], [OErr (i_end (r_in r))]. rewrite A1. split; [constructor|].
    assert (ERR : o_log (r_out r1) = o_log (r_out r) ++ [OErr (i_end (r_in r))] /\ o_err (r_out r1) = Some (i_end (r_in r))).
    { rewrite A4. clear - ER. destruct (r_out r). cbn in *. subst. auto. }
    destruct ERR as [R1 R2]. cbn [app map concat]. split; auto. split; auto. split; auto. left. split.
    + split; auto. split; auto. right. split; auto. split; auto. rewrite A3. discriminate.
    + split; [congruence|]. exists []. rewrite app_nil_r. split; auto. split; [split; auto; split; auto; exists []; auto|]. intros. cbn. rewrite !app_nil_r. auto.
  - assert (L1 : src_left (r_in r1) < fu). { pose proof (nk_left N1). apply RSt_nonempty in R1. destruct b; [congruence|cbn in *; lia]. }
    specialize (IH r1 V1 HC1 L1). rewrite D4 in IH. specialize (IH ER). destruct (streamsLoop env fu r1) as [r2|c|]; auto.
    2:{ destruct IH as [BE [ss [rest [Q1 [Q2 Q3]]]]]. split; [eapply panic_ink; eauto|]. exists (SInfo (selfmt env opt (in_head r)) b d h :: ss), rest. split; [|auto].
        pose proof (picks_head V HC NE) as P. rewrite (nk_all N1) in P |- *. constructor; auto. }
    destruct IH as [V2 [C2 [[w2 X2] [ss [rest [s2 [t [S1 [S2 [S3 [S4 S5]]]]]]]]]]]. split; auto. split; auto. split; [exists (w ++ w2); eapply ink_trans; eauto|].
    exists (SInfo (selfmt env opt (in_head r)) b d h :: ss), rest, (s ++ s2), t. split.
    { pose proof (picks_head V HC NE) as P. rewrite (nk_all N1) in P |- *. constructor; auto. }
    split; [rewrite S2, D1, <- !app_assoc; auto|]. split; [apply Forall_app; auto|]. split; [rewrite log_data_app, D2, S4; auto|].
    assert (EI : i_end (r_in r1) = i_end (r_in r)) by apply N1.
    destruct S5 as [[[S5 [S6 S7]] [_ [evs2 [S8 [SH S9]]]]]|[S5 [f [e [p [z [S6 [S7 [S8 [S9 S10]]]]]]]]]].
    + left. rewrite EI in S7. split; [split; [intros DT; apply S5; apply (nk_det N1); auto|split; auto]|]. split; [discriminate|].
      exists ((ev1 :: ev2 :: evs) ++ evs2). split; [rewrite S8, E1, <- app_assoc; auto|]. split.
      { destruct SH as [SH1 [SH2 [ess [SH3 SH4]]]]. split; [rewrite headers_app, SH1, (@one_header d h); auto; apply (E3 [] [] se_nil)|].
        split. 2:{ exists (map pre_of (ev1 :: ev2 :: evs) :: ess). split; [rewrite map_app, SH3; auto|]. constructor; auto. }
        intros n C. pose proof (C1 n C) as C1n. rewrite closes_app, (SH2 n C1n), (@one_close d r1 (r_events r) (ev1 :: ev2 :: evs)); auto; [|eapply streamStep_last; eauto|discriminate|apply (E3 [] [] se_nil)].
        rewrite (rc_in C1n), (rc_out C1n). cbn [pairs map sb sd running app].
        assert (K1 : N.of_nat (n - length (i_all (r_in r1))) = (N.of_nat (n - length (i_all (r_in r))) + lenN b)%N).
        { pose proof (rc_le C) as K. rewrite (nk_all N1) in K |- *. rewrite app_length in *. unfold lenN. lia. }
        assert (K2 : lenN (log_data (o_log (r_out r1))) = (lenN (log_data (o_log (r_out r))) + lenN d)%N) by (rewrite D1, log_data_app, lenN_app, D2; auto).
        rewrite K1, K2. reflexivity. }
      intros ds es HE. rewrite map_app, app_assoc. cbn [map sd].
      change (d :: map sd ss) with ([d] ++ map sd ss). rewrite (app_assoc ds). apply S9. apply E3. auto.
    + right. rewrite EI in *. split; auto. exists f, e, p, z. auto.
  - assert (FT : forall t', (i_all (r_in r1) = [] -> log_data t' = []) -> FailT (selfmt env opt (in_head r)) (i_all (r_in r)) (i_end (r_in r)) p (log_data (s ++ t')) e z).
    { intros t' HT x b d h s0 RS EA. destruct (D5 x b d h s0 RS EA) as [T1 [T2 [T3 T4]]]. split; auto. split; auto. split; auto. intros ->. rewrite log_data_app, D2, HT, app_nil_r; auto. }
    assert (ERR : o_err (r_out r1) = Some e) by (rewrite D3, ER; auto).
    destruct ok.
    + specialize (D6 eq_refl). assert (L1 : src_left (r_in r1) < fu). { pose proof (nk_left X1). pose proof (f_equal (@length _) (nk_all X1)) as A. rewrite app_length in A. lia. }
      pose proof (junkLoop V1 HC1 L1) as J. destruct (streamsLoop env fu r1) as [r2|c|]; auto.
      2:{ split; [eapply panic_ink; eauto|]. exists [], (i_all (r_in r)). split; [constructor|]. split; auto. right. exists (selfmt env opt (in_head r)). split; [apply picks_head; auto|].
          intros x b d h s0 RS EA. destruct (D5 x b d h s0 RS EA) as [_ [T2 _]]. rewrite T2 in J. destruct J as [pre [rest [E1 [_ E2]]]]. symmetry in E1. apply app_eq_nil in E1. destruct E1 as [_ ->]. apply gz_nonempty in E2. auto. }
      destruct J as [V2 [C2 [[w2 X2] [s2 [S1 [S2 S3]]]]]]. split; auto. split; auto. split; [exists (w ++ w2); eapply ink_trans; eauto|].
      exists [], (i_all (r_in r)), [], (s ++ s2). split; [constructor|]. cbn [app]. split; [rewrite S1, D1, <- app_assoc; auto|]. split; auto. split; auto. right.
      split; auto. exists (selfmt env opt (in_head r)), e, p, z. split; [apply picks_head; auto|]. split; auto. split; auto. split; [|apply FT; auto].
      destruct z; auto. exists (log_data s2). rewrite log_data_app, D2. auto.
    + split; auto. split; auto. split; [eauto|]. exists [], (i_all (r_in r)), [], (s ++ []). split; [constructor|]. cbn [app]. split; [rewrite app_nil_r; auto|]. split; auto. split; auto. right.
      split; auto. exists (selfmt env opt (in_head r)), e, p, z. split; [apply picks_head; auto|]. split; auto. split; auto. split; [|apply FT; auto].
      destruct z; auto. exists []. rewrite !app_nil_r. auto.
Qed.

(** ** The whole thread *)
Lemma inv_reset_num r : inv r -> inv (reset_num r).
Proof. intros [H1 H2 H3 H4 H5 H6]. destruct r. constructor; auto. Qed.
Definition TClean (r r' : reader) (rest : list N) (t : list outact) : Prop :=
  (detached (r_in r) -> rest = []) /\ t = [OErr (i_end (r_in r))] /\ o_err (r_out r') = Some (i_end (r_in r)).

(** The counters at the end: [n] bytes were there to be read. *)
Record counted (n : nat) (r' : reader) : Prop := Counted {
  cn_ev : EvCnt (r_events r') (N.of_nat n) (lenN (log_data (o_log (r_out r'))));
  cn_out : o_total (r_out r') = (lenN (log_data (o_log (r_out r'))) mod two64)%N;
  cn_in : exists k, k <= n /\ i_total (r_in r') = (N.of_nat k mod two64)%N }.
Definition cnt_ok (i : ist) : Prop := (i_total i < two64 /\ i_stream i < two64 /\ i_crc i < two32)%N.
Lemma readThread_spec r : inv r -> Pk (r_in r) -> o_err (r_out r) = None ->
  match readThread env r with
  | Ok r' => (forall n, RC n r -> counted n r') /\ (bok (r_in r') /\ cnt_ok (r_in r')) /\ ibl (r_in r') = 0 /\ r_opt r' = opt /\ ook (r_out r') /\ i_err (r_in r') <> None /\
      exists ss rest s t, StreamSeq (i_all (r_in r)) ss rest /\ o_log (r_out r') = o_log (r_out r) ++ s ++ t /\ Forall is_data s /\ log_data s = concat (map sd ss) /\
        ((TClean r r' rest t /\ (i_err (r_in r) = None -> i_all (r_in r) <> [] -> ss <> []) /\ exists evs, r_events r' = r_events r ++ evs /\ reported r evs ss /\ forall ds es, SEvs ds EvIdle es -> SEvs (ds ++ map sd ss) EvIdle (es ++ map pre_of evs)) \/
         Failed r r' rest t)
  | Panic c => panicked (i_all (r_in r)) c
  | NoFuel => False
  end.
Proof.
  intros V HC ER. unfold readThread. set (r0 := reset_num r). assert (V0 : inv r0) by (apply inv_reset_num; auto).
  assert (I0 : r_in r0 = r_in r) by (unfold r0; destruct r; auto). assert (U0 : r_out r0 = r_out r) by (unfold r0; destruct r; auto). assert (E0 : r_events r0 = r_events r) by (unfold r0; destruct r; auto).
  assert (C0 : forall n, RC n r -> RC n r0). { intros n [H1 H2 H3 H4]. constructor; rewrite ?I0, ?U0, ?E0; auto. }
  rewrite <- I0 in HC. clearbody r0. pose proof (@streamsLoop_spec (S (S (src_left (r_in r0)))) r0 V0 HC ltac:(lia)) as SL. rewrite U0 in SL. specialize (SL ER). rewrite I0 in *.
  destruct (streamsLoop env (S (S (src_left (r_in r)))) r0) as [r1|c|]; cbn [rbind]; auto.
  destruct SL as [V1 [C1 [[w X1] [ss [rest [s [t [S1 [S2 [S3 [S4 S5]]]]]]]]]]].
  set (r2 := match i_err (r_in r1) with None => set_rin r1 (set_ierr (r_in r1) (Some EOF)) | Some _ => r1 end).
  assert (I2 : ib (r_in r2) = ib (r_in r1) /\ ibl (r_in r2) = ibl (r_in r1) /\ i_total (r_in r2) = i_total (r_in r1) /\ i_stream (r_in r2) = i_stream (r_in r1) /\ i_crc (r_in r2) = i_crc (r_in r1)).
  { unfold r2. destruct (i_err (r_in r1)); rd; auto. destruct (r_in r1); auto. }
  assert (U2 : r_out r2 = r_out r1) by (unfold r2; destruct (i_err (r_in r1)); rd; auto).
  assert (E2 : r_events r2 = r_events r1) by (unfold r2; destruct (i_err (r_in r1)); auto; apply ev_set_rin).
  assert (O2 : r_opt r2 = opt) by (unfold r2; destruct (i_err (r_in r1)); rd; apply V1).
  assert (G2 : exists e2, i_err (r_in r2) = Some e2 /\ (forall e, i_err (r_in r1) = Some e -> e2 = e)).
  { unfold r2. destruct (i_err (r_in r1)) eqn:EE; [exists g; split; auto; congruence|]. rd. exists EOF. split; [destruct (r_in r1); auto|congruence]. }
  destruct G2 as [e2 [G2 G3]]. clearbody r2. destruct I2 as [I2a [I2b [I2c [I2d I2e]]]].
  assert (IP : r_in (r_propagate r2 false) = r_in r2) by apply in_prop. assert (EP : r_events (r_propagate r2 false) = r_events r2) by apply (keep_prop r2 false).
  assert (OP : r_opt (r_propagate r2 false) = r_opt r2) by apply (keep_prop r2 false).
  assert (UP : r_out (r_propagate r2 false) = closeWithError (r_out r1) e2).
  { rewrite <- U2. clear - G2. destruct r2 as [o [i u] n h f ev]. unfold r_propagate, propagateError, r_in, r_out in *. cbn in *. rewrite G2. destruct e2; auto. }
  rewrite IP, OP, UP.
  assert (TT : log_data (o_log (closeWithError (r_out r1) e2)) = log_data (o_log (r_out r1)) /\ o_total (closeWithError (r_out r1) e2) = o_total (r_out r1)).
  { destruct (log_close (r_out r1) e2) as [sc [L1 L2]]. rewrite L1, log_data_app, L2, app_nil_r. split; auto. clear. destruct (r_out r1) as [? ? ? [] ? ? ? ?]; auto. }
  destruct TT as [TT1 TT2].
  split. { intros n C. pose proof (C1 n (C0 n C)) as [Q1 Q2 Q3 Q4]. constructor; rewrite ?EP, ?E2, ?UP, ?TT1, ?TT2, ?IP, ?I2c; auto; [eapply ec_weaken; eauto; lia|].
    exists (n - length (i_all (r_in r1))). split; auto. lia. }
  split. { unfold bok, cnt_ok. rewrite I2a, I2b, I2c, I2d, I2e. split; [apply V1|]. destruct (v_iok V1). auto. } split; [rewrite I2b; apply V1|]. split; auto. split; [apply ook_close; apply V1|]. split; [congruence|].
  destruct S5 as [[[S5 [S6 S7]] [SN [evs [S8 [SH S9]]]]]|[S5 [f [e [p [z [S6 [S7 [S8 [S9 S10]]]]]]]]]].
  - assert (E3 : o_log (closeWithError (r_out r1) e2) = o_log (r_out r) ++ s ++ [OErr (i_end (r_in r))] /\ o_err (closeWithError (r_out r1) e2) = Some (i_end (r_in r))).
    { rewrite I0 in S7. destruct S7 as [[S7 [S10 ->]]|[S7 [S10 [-> _]]]].
      - rewrite (G3 _ S10). rewrite err_close, S7. split; auto. rewrite app_nil_r in S2. rewrite app_assoc, <- S2. clear - S7. destruct (r_out r1). cbn in *. subst. auto.
      - rewrite (first_close _ S7). auto. }
    destruct E3 as [E3 E4]. exists ss, rest, s, [OErr (i_end (r_in r))]. split; auto. split; auto. split; auto. split; auto. left. split.
    + rewrite I0 in S5. split; auto. split; auto. rewrite UP. auto.
    + split; auto. exists evs. rewrite EP, E2, S8, E0. split; auto. split; auto. destruct SH as [SH1 [SH2 SH3]]. split; auto. split; auto. intros n C. rewrite (SH2 n (C0 n C)), I0, U0. auto.
  - rewrite I0 in *. exists ss, rest, s, t. rewrite (first_close _ S7). split; auto. split; auto. split; auto. split; auto. right. split; auto. exists f, e, p, z. rewrite UP, (first_close _ S7). auto.
Qed.
End Loop.
