(** C76: what was flushed survives a power failure. *)
From Verif Require Import Base SpecChecksum SpecHuffman SpecDeflate SpecFormats SpecSession SpecEvents MChecksum PChecksum MToken MCommon MWriter MReader MSession SpecReader SpecLib PToken PHuffman PBits PActs PGram PInput POutput PDecode PDynamic PBlockDec PHeader PStream PFooter PThread PLoop PCompress PWriter PSession PInv PFormat PApi PInst PAccept PRead PWFrame PPrefix PropWriter PropReader PropReader3 PropRound PropFlushed Demo PDemo MDurable.

Section Log.
Variable env : wenv.
(** Sync errors that the Writer ignores (EINVAL: the object cannot be synced). *)
Definition syncable : Prop := forall n, e_syncw env n <> Some EINVAL.

Lemma flush_split w ft : flushImpl env w ft = (let? w := deliver env w ft in fl_tail env w).
Proof.
  rewrite flush_eq. unfold deliver. destruct (compressImpl env w true) as [[w1 []]| |]; cbn [rbind]; auto.
  destruct (if is_finish ft then _ else _) as [[w2 []]| |]; cbn [rbind]; auto.
  destruct (match w_state w2 with openStream => _ | _ => _ end) as [[w3 []]| |]; cbn [rbind]; auto.
Qed.
Lemma tail_out w : match fl_tail env w with
  | Ok (w', true) => w_out w' = w_out w /\ e_flushw env (w_flushes w) = None /\ (e_syncw env (w_syncs w) = None \/ e_syncw env (w_syncs w) = Some EINVAL)
  | Ok (w', false) => sink (w_out w') = sink (w_out w)
  | _ => False end.
Proof.
  unfold fl_tail. cbv zeta. destruct w as [a b c d o f g h i j]. cbn [w_flushes w_syncs set_calls]. destruct (e_flushw env h); [destruct o; reflexivity|].
  destruct (e_syncw env i) as [[]|]; try (destruct o; reflexivity); cbn; auto.
Qed.
Lemma keeps w : exists rest, sink (w_out w) = sink (w_out w) ++ rest.
Proof. exists []. now rewrite app_nil_r. Qed.
Lemma deliver_keeps w ft : ho (U (sink (w_out w))) (U (sink (w_out w))) (deliver env w ft).
Proof.
  set (s := sink (w_out w)). unfold deliver. pose proof (keeps w : U s w) as H0.
  eapply ho_bind; [apply x_compressImpl; exact H0|]. intros w1 H1.
  eapply ho_bind. { destruct (is_finish ft); [|exact H1]. destruct (w_state w1); try exact H1. apply x_hdr_open; auto. } intros w2 H2.
  eapply ho_bind. { destruct (w_state w2); try exact H2. apply x_guts; auto. } intros w3 H3.
  destruct (w_state w3); try exact H3. apply x_ftr_closed; auto.
Qed.
Lemma handed_eq w w' : U (sink (w_out w)) w' -> sink (w_out w') = sink (w_out w) ++ handed w w'.
Proof. intros [r E]. unfold handed. rewrite E, skipn_app, skipn_all, Nat.sub_diag. auto. Qed.

Definition writes (log : list ucall) : list N := flat_map (fun c => match c with UWrite p => p | _ => [] end) log.
Lemma writes_app a b : writes (a ++ b) = writes a ++ writes b.
Proof. apply flat_map_app. Qed.
Lemma fold_written log : forall d, d_written (fold_left ustep log d) = d_written d ++ writes log.
Proof.
  induction log as [|c log IH]; intros d; cbn [fold_left]; [now rewrite app_nil_r|]. rewrite IH. destruct c as [p|[e|]|[e|]]; cbn; auto. now rewrite app_assoc.
Qed.
(** The disk never holds more than what was flushed, and that never more than what was written; nothing synced is lost. *)
Definition dwf (d : disk) : Prop := (exists x, d_flushed d = d_synced d ++ x) /\ (exists y, d_written d = d_flushed d ++ y).
Definition dle (d d' : disk) : Prop := exists x, d_synced d' = d_synced d ++ x.
Lemma dle_refl d : dle d d.
Proof. exists []. now rewrite app_nil_r. Qed.
Lemma step_wf d c : dwf d -> dwf (ustep d c) /\ dle d (ustep d c).
Proof.
  intros [[x X] [y Y]]. unfold dle. destruct c as [p|[e|]|[e|]]; cbn.
  - split; [split; [exists x; auto|exists (y ++ p); cbn; rewrite Y, app_assoc; auto]|exists []; now rewrite app_nil_r].
  - split; [split; eauto|exists []; now rewrite app_nil_r].
  - split; [split; [exists (x ++ y); cbn; rewrite Y, X, app_assoc; auto|exists []; cbn; now rewrite app_nil_r]|exists []; now rewrite app_nil_r].
  - split; [split; eauto|exists []; now rewrite app_nil_r].
  - split; [split; [exists []; cbn; now rewrite app_nil_r|exists y; auto]|exists x; auto].
Qed.
Lemma fold_wf log : forall d, dwf d -> dwf (fold_left ustep log d) /\ dle d (fold_left ustep log d).
Proof.
  induction log as [|c log IH]; intros d H; cbn [fold_left]; [split; auto; apply dle_refl|]. destruct (step_wf c H) as [H1 [x X]]. destruct (IH _ H1) as [H2 [y Y]].
  split; auto. exists (x ++ y). now rewrite Y, X, app_assoc.
Qed.

(** The log is faithful: its Writes are what the object was given. *)
Lemma flush_writes w ft : match flushImpl env w ft with Ok (w', _) => sink (w_out w') = sink (w_out w) ++ writes (flush_log env w ft) | _ => True end.
Proof.
  rewrite flush_split. unfold flush_log. pose proof (deliver_keeps w ft) as K. destruct (deliver env w ft) as [[w4 []]| |]; cbn [rbind ho] in *; auto.
  - pose proof (tail_out w4) as T. assert (E : sink (w_out w4) = sink (w_out w) ++ writes ([UWrite (handed w w4); UFlush (e_flushw env (w_flushes w4))] ++ match e_flushw env (w_flushes w4) with None => [USync (e_syncw env (w_syncs w4))] | Some _ => [] end)).
    { rewrite writes_app. cbn [writes flat_map]. rewrite (handed_eq K). destruct (e_flushw _ _); cbn; now rewrite ?app_nil_r. }
    destruct (fl_tail env w4) as [[w' []]| |]; auto; [destruct T as [-> _]; auto|rewrite T; auto].
  - cbn [writes flat_map]. rewrite app_nil_r. apply handed_eq; auto.
Qed.
Lemma step_writes w op : match w_step env w op with Ok (w', _) => sink (w_out w') = sink (w_out w) ++ writes (step_log env w op) | _ => True end.
Proof.
  destruct op as [p|ft|h]; cbn [w_step step_log].
  - pose proof (@x_Write env (sink (w_out w)) w p (keeps w)) as K. destruct (w_Write env w p) as [[w' [n e]]| |]; cbn [rbind U1] in *; auto. cbn [writes flat_map]. rewrite app_nil_r. apply handed_eq; auto.
  - unfold w_Flush. pose proof (flush_writes w ft) as K. destruct (w_state w); try (cbn; now rewrite app_nil_r); destruct (flushImpl env w ft) as [[w' []]| |]; cbn [rbind]; auto.
  - cbn. rewrite app_nil_r. unfold w_SetHeader. destruct (Nat.eqb _ _); cbn [fst]; auto. destruct w; auto.
Qed.
Lemma run_writes ops : forall w, match w_run env w ops with Ok (w', _) => sink (w_out w') = sink (w_out w) ++ writes (run_log env w ops) | _ => True end.
Proof.
  induction ops as [|op r IH]; intros w; cbn [w_run run_log]; [now rewrite app_nil_r|]. pose proof (step_writes w op) as K. destruct (w_step env w op) as [[w1 [e|]]| |]; cbn [rbind]; auto.
  - now rewrite app_nil_r.
  - specialize (IH w1). destruct (w_run env w1 r) as [[w' oe]| |]; auto. rewrite IH, K, writes_app, app_assoc. auto.
Qed.
Lemma run_log_app a b : forall w, run_log env w (a ++ b) = run_log env w a ++ match w_run env w a with Ok (w', None) => run_log env w' b | _ => [] end.
Proof.
  induction a as [|op a IH]; intros w; cbn [app run_log w_run]; auto. destruct (w_step env w op) as [[w1 [e|]]| |]; cbn [rbind]; rewrite <- ?app_assoc, ?app_nil_r; auto. now rewrite IH.
Qed.

(** After a successful Flush everything is on the disk. *)
Lemma flush_synced w ft w' d : syncable -> flushImpl env w ft = Ok (w', true) -> d_written d = sink (w_out w) ->
  d_synced (fold_left ustep (flush_log env w ft) d) = sink (w_out w').
Proof.
  intros S E D. pose proof (flush_writes w ft) as W. rewrite E in W. rewrite flush_split in E. unfold flush_log in *. destruct (deliver env w ft) as [[w4 []]| |]; cbn [rbind] in E; try discriminate.
  pose proof (tail_out w4) as T. rewrite E in T. destruct T as [T1 [T2 [T3|T3]]]; [|destruct (S _ T3)]. rewrite T2, T3 in *. cbn in *. rewrite D. rewrite ?app_nil_r in W. auto.
Qed.
End Log.

Lemma j_run env (Hbpb : bytesPerBlock env = 4 \/ bytesPerBlock env = 8) op qb ops : forall w, J env op qb w -> match w_run env w ops with Ok (w', _) => J env op qb w' | _ => True end.
Proof.
  induction ops as [|o r IH]; intros w H; cbn [w_run]; auto.
  assert (K : match w_step env w o with Ok (w', _) => J env op qb w' | _ => True end).
  { destruct o as [p|ft|h]; cbn [w_step].
    - pose proof (j_Write Hbpb p H) as K. destruct (w_Write env w p) as [[w' [n e]]| |]; cbn [rbind]; auto.
    - apply (j_Flush Hbpb ft H).
    - apply j_SetHeader; auto. }
  destruct (w_step env w o) as [[w1 [e|]]| |]; cbn [rbind]; auto. apply IH; auto.
Qed.
Lemma flush_op_synced env (Hbpb : bytesPerBlock env = 4 \/ bytesPerBlock env = 8) op qb w ft w' d : syncable env -> J env op qb w -> w_Flush env w ft = Ok (w', None) -> d_written d = sink (w_out w) ->
  d_synced (fold_left ustep (step_log env w (OFlush ft)) d) = sink (w_out w').
Proof.
  intros S H E D. unfold w_Flush in E. cbn [step_log]. destruct (J_dead H) as [X|[X|HA]].
  - rewrite X in E. discriminate.
  - destruct H as [_ [_ H]]. rewrite X in *. destruct H as [H _]. inversion E; congruence.
  - pose proof (a_flushImpl Hbpb ft HA) as K. destruct HA as [v [L HU]]. rewrite (v_state HU) in *. destruct L as [->|[->| ->]];
      (destruct (flushImpl env w ft) as [[w1 []]| |] eqn:EF; cbn [rbind ho] in *; try discriminate;
       [inversion E; subst w1; eapply flush_synced; eauto|destruct K as [_ [_ [K _]]]; congruence]).
Qed.

Lemma synced_grows log log' : exists x, d_synced (disk_after (log ++ log')) = d_synced (disk_after log) ++ x.
Proof.
  unfold disk_after. rewrite fold_left_app. assert (W : dwf disk0) by (split; exists []; reflexivity). destruct (fold_wf log W) as [W1 _]. destruct (fold_wf log' W1) as [_ D]. exact D.
Qed.
Lemma disk_wf log : dwf (disk_after log).
Proof. apply fold_wf. split; exists []; reflexivity. Qed.
Lemma new_sink opts : sink (w_out (newWriter opts)) = [].
Proof. reflexivity. Qed.
Lemma after_run env opts ops w e : w_run env (newWriter opts) ops = Ok (w, e) -> d_written (disk_after (run_log env (newWriter opts) ops)) = sink (w_out w).
Proof. intros E. unfold disk_after. rewrite fold_written. pose proof (run_writes env ops (newWriter opts)) as K. rewrite E, new_sink in K. rewrite K. auto. Qed.
Lemma flushed_on_disk env opts ops ft w' : bytesPerBlock env = 4 \/ bytesPerBlock env = 8 -> syncable env -> w_run env (newWriter opts) (ops ++ [OFlush ft]) = Ok (w', None) ->
  d_synced (disk_after (run_log env (newWriter opts) (ops ++ [OFlush ft]))) = sink (w_out w').
Proof.
  intros B S E. rewrite run_log_app. pose proof (j_run B ops (J_new env false opts)) as HJ. rewrite w_run_app in E.
  destruct (w_run env (newWriter opts) ops) as [[w [e|]]| |] eqn:ER; cbn [rbind] in E; try discriminate. cbn [w_run w_step] in E.
  destruct (w_Flush env w ft) as [[w1 [e|]]| |] eqn:EF; cbn [rbind] in E; try discriminate. inversion E; subst w1.
  unfold disk_after. rewrite fold_left_app. cbn [run_log w_step]. rewrite EF, app_nil_r.
  eapply (@flush_op_synced env B); eauto. apply (after_run ER).
Qed.

(** ** A power failure after a Flush *)
(** [n] calls on the underlying object have been made when the power fails, the
    last of them after Flush returned nil.  What is found on the disk begins
    with everything the Writer had produced when Flush returned. *)
Theorem C76_flush_is_durable :
  forall env opts ops ft more w' n b, lib_ok env -> opts_ok opts -> syncable env ->
    w_run env (newWriter opts) (ops ++ [OFlush ft]) = Ok (w', None) ->
    length (run_log env (newWriter opts) (ops ++ [OFlush ft])) <= n ->
    survives (firstn n (run_log env (newWriter opts) ((ops ++ [OFlush ft]) ++ more))) b ->
    exists rest, b = sink (w_out w') ++ rest.
Proof.
  intros env opts ops ft more w' n b HL HO S E L [[x B] _]. rewrite run_log_app, E in B.
  rewrite firstn_app, firstn_all2 in B by exact L. destruct (synced_grows (run_log env (newWriter opts) (ops ++ [OFlush ft])) (firstn (n - length (run_log env (newWriter opts) (ops ++ [OFlush ft]))) (run_log env w' more))) as [y Y].
  rewrite Y, (flushed_on_disk (lib_bpb HL) S E), <- app_assoc in B. eauto.
Qed.
(** Hence all the data written before the Flush can be read back. *)
Theorem C76_flushed_data_survives_power_failure :
  forall wenv renv wopts ropts ops ft more w' n b src,
    lib_ok wenv -> rlib_ok renv -> opts_ok wopts -> opts_ok ropts -> Forall op_ok ops -> delivering ft -> syncable wenv ->
    w_run wenv (newWriter wopts) (ops ++ [OFlush ft]) = Ok (w', None) -> matching wopts ropts ->
    length (run_log wenv (newWriter wopts) (ops ++ [OFlush ft])) <= n ->
    survives (firstn n (run_log wenv (newWriter wopts) ((ops ++ [OFlush ft]) ++ more))) b ->
    good_src src -> detached_src src \/ ~ In (OFlush FinishFlush) ops -> src_bytes src = b ->
    match decompress renv ropts src with
    | Ok (d, oe) => exists t, d = ops_data ops ++ t
    | Panic _ => exists pre bad, b = sink (w_out w') ++ pre ++ bad /\ BadGzip bad      (* see C34 *)
    | NoFuel => False
    end.
Proof.
  intros wenv renv wopts ropts ops ft more w' n b src HL HRL HO HRO Hops Hft S E M L SV HS HD EB.
  destruct (C76_flush_is_durable HL HO S E L SV) as [rest R]. rewrite R in EB.
  pose proof (C70_flushed_data_survives HL HRL HO HRO Hops Hft E M HS HD EB) as T. destruct (decompress renv ropts src) as [[d oe]|c|]; auto.
  destruct T as [pre [bad [-> T]]]. eauto.
Qed.

(** ** A power failure after Close *)
Theorem C76_close_is_durable :
  forall env opts ops w' b, lib_ok env -> opts_ok opts -> syncable env ->
    w_session env (newWriter opts) ops = Ok (w', None) ->
    survives (session_log env (newWriter opts) ops) b -> b = sink (w_out w').
Proof.
  intros env opts ops w' b HL HO S E [[x B] [y Y]]. unfold w_session in E. unfold session_log in *. pose proof (j_run (lib_bpb HL) ops (J_new env false opts)) as HJ.
  destruct (w_run env (newWriter opts) ops) as [[w [e|]]| |] eqn:ER; cbn [rbind] in E; try discriminate.
  assert (C : d_synced (disk_after (run_log env (newWriter opts) ops ++ close_log env w)) = sink (w_out w') /\ d_written (disk_after (run_log env (newWriter opts) ops ++ close_log env w)) = sink (w_out w')).
  { unfold disk_after. rewrite fold_left_app. pose proof (after_run ER) as W0. unfold disk_after in W0. set (d := fold_left ustep (run_log env (newWriter opts) ops) disk0) in *. clearbody d.
    unfold w_Close in E. unfold close_log. destruct (J_dead HJ) as [X|[X|HA]].
    - rewrite X in E. discriminate.
    - destruct HJ as [_ [_ H]]. rewrite X in *. destruct H as [H _]. unfold close_helper in E. inversion E; congruence.
    - pose proof (a_flushImpl (lib_bpb HL) FinishFlush HA) as K. destruct HA as [v [LV HU]]. rewrite (v_state HU) in *. pose proof (flush_writes env w FinishFlush) as FW.
      destruct LV as [->|[->| ->]];
      (destruct (flushImpl env w FinishFlush) as [[w1 []]| |] eqn:EF; cbn [rbind ho] in *; try discriminate;
       [inversion E; subst w'; assert (ES : sink (w_out (w_setstate w1 closedState)) = sink (w_out w1)) by (destruct w1 as [? ? ? ? o ? ? ? ? ?]; destruct o; reflexivity); rewrite ES; split; [eapply flush_synced; eauto|rewrite fold_written, W0; auto]
       |destruct K as [_ [_ [K _]]]; unfold close_helper in E; inversion E; congruence]). }
  destruct C as [C1 C2]. rewrite C1 in B. rewrite C2 in Y. rewrite B, <- app_assoc in Y. rewrite <- app_nil_r in Y at 1. apply app_inv_head in Y. symmetry in Y. apply app_eq_nil in Y. destruct Y as [-> _]. now rewrite app_nil_r in B.
Qed.

(** ** A power failure (or a crash) at any moment *)
Lemma cut_concat (l : list (list N * list N)) : forall b y, concat (map fst l) = b ++ y ->
  exists l1 l2 p q, l = l1 ++ l2 /\ b = concat (map fst l1) ++ p /\
    ((p = [] /\ q = []) \/ exists c d l3, l2 = (c, d) :: l3 /\ c = p ++ q /\ p <> [] /\ q <> []).
Proof.
  induction l as [|[c d] l IH]; intros b y E; cbn [map concat fst] in E.
  - symmetry in E. apply app_eq_nil in E. destruct E as [-> _]. exists [], [], [], []. auto.
  - destruct (Nat.le_gt_cases (length c) (length b)) as [LE|LT].
    + assert (EB : b = c ++ skipn (length c) b).
      { apply (f_equal (firstn (length c))) in E as F. rewrite firstn_app, firstn_all, Nat.sub_diag in F. cbn in F. rewrite app_nil_r, firstn_app in F.
        replace (length c - length b) with 0 in F by lia. cbn in F. rewrite app_nil_r in F. rewrite F at 1. now rewrite firstn_skipn. }
      rewrite EB, <- app_assoc in E. apply app_inv_head in E. destruct (IH _ _ E) as [l1 [l2 [p [q [I1 [I2 I3]]]]]].
      exists ((c, d) :: l1), l2, p, q. split; [now rewrite I1|]. split; auto. cbn [map concat fst]. rewrite <- app_assoc, <- I2. auto.
    + destruct b as [|b0 b']; [exists [], ((c, d) :: l), [], []; auto|]. set (b := b0 :: b') in *.
      assert (EC : c = b ++ skipn (length b) c).
      { apply (f_equal (firstn (length b))) in E as F. rewrite firstn_app in F. replace (length b - length c) with 0 in F by lia. cbn [firstn] in F. rewrite app_nil_r, firstn_app, firstn_all, Nat.sub_diag in F. cbn [firstn] in F. rewrite app_nil_r in F.
        rewrite <- F at 1. now rewrite firstn_skipn. }
      exists [], ((c, d) :: l), b, (skipn (length b) c). split; auto. split; auto. right. exists c, d, l. repeat split; auto; [discriminate|].
      intros K. apply (f_equal (@length _)) in K. rewrite skipn_length in K. change (length (@nil N)) with 0 in K. clearbody b. lia.
Qed.
(** Any prefix of the output of a Writer, wherever it is cut, is read back as a
    prefix of the data, with io.EOF only for a whole number of streams. *)
Theorem C76_any_prefix :
  forall wenv renv wopts ropts ops w' b y src,
    lib_ok wenv -> rlib_ok renv -> opts_ok wopts -> opts_ok ropts -> Forall op_ok ops ->
    w_session wenv (newWriter wopts) ops = Ok (w', None) -> matching wopts ropts ->
    sink (w_out w') = b ++ y -> polite_src src -> detached_src src -> src_bytes src = b -> ~ is_corrupt (src_end src) ->
    exists d e rest, decompress renv ropts src = Ok (d, Some e) /\ ops_data ops = d ++ rest.
Proof.
  intros wenv renv wopts ropts ops w' b y src HL HRL HO HRO Hops E M EB HP HD ES NC. pose proof M as [M1 [M2 [M3 M4]]].
  destruct (C02_writer_output_conforms HL HO Hops E) as [a [bs [A1 [A2 [A3 A4]]]]]. pose proof (effective_ok HO) as Hw.
  destruct (good_valid HO M (session_rep A1) (session_hb A1 Hops) A3) as [V1 [V2 V3]]. set (l := combine bs (map snd (a_done (a_finish a)))) in *.
  assert (ST : set_to ropts (fmt_stream (o_format (effective wopts)))).
  { split; [rewrite M1; apply fmt_stream_of; auto|]. intros EZ. apply M4. rewrite (fmt_stream_of Hw), EZ. reflexivity. }
  assert (BB : bytes_ok (b ++ y)) by (rewrite <- EB, A2; eapply good_bytes; eauto).
  assert (GS : good_src src) by (split; auto; rewrite ES; apply bytes_ok_app in BB; tauto).
  rewrite A2, <- V2 in EB. rewrite <- A4, <- V3. clearbody l. destruct (@cut_concat l _ _ EB) as [l1 [l2 [p [q [L1 [L2 [[-> ->]|[c [d [l3 [L3 [L4 [NP NQ]]]]]]]]]]]]].
  - subst l. apply Forall_app in V1. destruct V1 as [V1 _]. exists (concat (map snd l1)), (src_end src), (concat (map snd l2)). split.
    + eapply C33_reader_concatenation; eauto. rewrite ES, L2, app_nil_r. auto.
    + now rewrite map_app, concat_app.
  - subst l l2. apply Forall_app in V1. destruct V1 as [V1 V1']. apply Forall_inv in V1' as W1. rewrite L4 in W1. pose proof (eq_trans ES L2) as ES2.
    destruct (@C29_truncation_detected renv ropts src _ l1 (p ++ q) d p q HRL HRO GS ST V1 W1 eq_refl NP NQ ES2 (or_introl HD)) as [data [e [D1 [D2 [D3 D4]]]]].
    destruct (D4 NC) as [rest R]. exists data, e, (rest ++ concat (map snd l3)). split; auto. rewrite map_app, concat_app. cbn [map concat snd]. now rewrite !app_assoc, R, <- !app_assoc.
Qed.
(** Whatever the power failure leaves of a session is such a prefix. *)
Theorem C76_survivors_are_prefixes :
  forall env opts ops w' n b, w_session env (newWriter opts) ops = Ok (w', None) ->
    survives (firstn n (session_log env (newWriter opts) ops)) b -> exists y, sink (w_out w') = b ++ y.
Proof.
  intros env opts ops w' n b E [_ [y Y]].
  assert (W : d_written (disk_after (session_log env (newWriter opts) ops)) = sink (w_out w')).
  { unfold disk_after. rewrite fold_written. cbn [d_written disk0 app]. unfold session_log, w_session in *. pose proof (run_writes env ops (newWriter opts)) as K.
    destruct (w_run env (newWriter opts) ops) as [[w [e|]]| |]; cbn [rbind] in *; try discriminate. rewrite writes_app. rewrite new_sink in K. cbn [app] in K. rewrite <- K. clear K Y.
    unfold w_Close in E. unfold close_log. pose proof (flush_writes env w FinishFlush) as FW. destruct (w_state w); try discriminate; try (unfold close_helper in E; inversion E; subst w'; rewrite app_nil_r; destruct w as [? ? ? ? o ? ? ? ? ?]; destruct o; reflexivity);
    (destruct (flushImpl env w FinishFlush) as [[w1 []]| |]; cbn [rbind] in E; try discriminate; [inversion E; subst w'; rewrite <- FW; destruct w1 as [? ? ? ? o ? ? ? ? ?]; destruct o; reflexivity|
      unfold close_helper in E; inversion E; subst w'; rewrite <- FW; destruct w1 as [? ? ? ? o ? ? ? ? ?]; destruct o; reflexivity]). }
  assert (P : exists z, d_written (disk_after (session_log env (newWriter opts) ops)) = d_written (disk_after (firstn n (session_log env (newWriter opts) ops))) ++ z).
  { unfold disk_after. rewrite !fold_written. cbn [d_written disk0 app]. exists (writes (skipn n (session_log env (newWriter opts) ops))). rewrite <- writes_app, firstn_skipn. auto. }
  destruct P as [z P]. rewrite W, Y, <- app_assoc in P. eauto.
Qed.

(** ** A concrete case *)
Definition c76_opts : list opt := [WithFormat RawFormat; WithCompressLevel 0].
Example C76_example :
  syncable demo_wenv /\ delivering SyncFlush /\ matching c76_opts raw_opts /\
  run_log demo_wenv (newWriter c76_opts) [OWrite [97; 98]%N; OFlush SyncFlush; OWrite [99]%N] =
    [UWrite []; UWrite [0; 2; 0; 253; 255; 97; 98; 0; 0; 0; 255; 255]%N; UFlush None; USync None; UWrite []] /\
  survives (run_log demo_wenv (newWriter c76_opts) [OWrite [97; 98]%N; OFlush SyncFlush; OWrite [99]%N]) [0; 2; 0; 253; 255; 97; 98; 0; 0; 0; 255; 255]%N /\
  decompress demo_renv raw_opts [([0; 2; 0; 253; 255; 97; 98; 0; 0; 0; 255; 255]%N, None)] = Ok ([97; 98]%N, Some ErrUnexpectedEOF).
Proof.
  split; [intros n; discriminate|]. split; [left; reflexivity|]. split; [repeat split; try discriminate; vm_compute; discriminate|].
  split; [vm_compute; reflexivity|]. split; [|vm_compute; reflexivity]. split; exists []; vm_compute; reflexivity.
Qed.
