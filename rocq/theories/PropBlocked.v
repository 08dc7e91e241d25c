(** Properties C66 and C67: what the first mutex of the Reader is held for. *)
From Verif Require Import Base SpecChecksum MToken MCommon MWriter MReader SpecReader SpecLib PRead PLog MSession MConc MReent PConc PConc2 PConc3 PConc4 PConc5 PConc6 Demo PropReader PropReader3 SpecSession PropConc.

(** [s] is reached by a Reader made by NewReader(src, opts), some calls of any kind
    (accessors too), some tracers, some schedule. *)
Definition rreached (may : mover -> Prop) (env : renv) (opts : list opt) (src : source) (s : rst) : Prop :=
  exists r, readThread env (newReader src opts) = Ok r /\ rruns (out_cap (reffective opts)) may (rfresh (o_log (r_out r))) s.

Record RI (s : rst) : Prop := { ri_mx : Mx (core s); ri_tr : in_tracer s = true -> thr (core s) = Some TRun }.
Lemma cstep_trun s i k j s' : Mx s -> thr s = Some TRun -> cstep s i k j = Some s' ->
  thr s' = Some TRun /\ prog s' = prog s /\ (forall m c, nth_error (cls s) m = Some c -> any_call c -> nth_error (cls s') m = Some c) /\ length (cls s') = length (cls s).
Proof.
  intros [M1 _ _ _] T H. destruct s as [m1 m2 e b sta sto es fo t pr z cl h]. cbn in M1, T. subst t. cbn in M1. cbn in H.
  destruct (nth_error cl i) as [c|] eqn:E; [|discriminate]. pose proof (cnt_in c1 E) as L1.
  assert (m1 = true) as -> by (destruct m1; cbn in M1; auto; lia). cbn in M1.
  assert (UP : forall x, ~ any_call c -> forall m d, nth_error cl m = Some d -> any_call d -> nth_error (upd cl i x) m = Some d).
  { intros x NA m d Hm Hd. rewrite nth_error_upd. destruct (Nat.eqb_spec i m) as [<-|]; auto. rewrite E in Hm. injection Hm as <-. contradiction. }
  assert (SG : forall j0 l l', signal1 j0 l = Some l' -> forall m d, nth_error l m = Some d -> any_call d -> nth_error l' m = Some d).
  { intros j0 l l' S m d Hm Hd. eapply nth_signal1; eauto. destruct Hd; reflexivity. }
  assert (LSG : forall j0 l l', signal1 j0 l = Some l' -> length l' = length l).
  { intros j0 l l' S. destruct (signal1_facts S) as [[-> _]|(n & _ & ->)]; auto. apply upd_length. }
  destruct c; cbn in H, L1; try discriminate; try lia; unfold mu_lock in H; try discriminate.
  all: try (assert (NA : ltac:(match type of E with _ = Some ?c => exact (~ any_call c) end)) by (intros K; inversion K)).
  - destruct m2; [discriminate|]. injection H as <-. cbn. rewrite upd_length. auto.
  - destruct e as [e|]; [|destruct b as [|b0 b]]; injection H as <-; cbn; rewrite upd_length; auto.
  - destruct e as [e|]; [|destruct b as [|b0 b]]; injection H as <-; cbn; rewrite upd_length; auto.
  - destruct m2; [discriminate|]. injection H as <-. cbn. rewrite upd_length. auto.
  - destruct b as [|b0 b]; [injection H as <-; cbn; rewrite upd_length; auto|].
    destruct (_ && _) in H; [|discriminate]. destruct (is_nil _).
    + injection H as <-. cbn -[firstn upd]. rewrite upd_length. auto.
    + destruct (signal1 _ _) as [cl'|] eqn:ES; [|discriminate]. injection H as <-. cbn -[firstn upd]. rewrite (LSG _ _ _ ES), upd_length. split; auto. split; auto. split; auto.
      intros m d Hm Hd. eapply SG; eauto.
Qed.
Lemma add_call_facts s c : cls (add_call s c) = cls s ++ [c] /\ thr (add_call s c) = thr s /\ mu1 (add_call s c) = mu1 s /\ prog (add_call s c) = prog s.
Proof. destruct s; auto. Qed.
Lemma done_facts ocap s s' : sched ocap s GoDone = Some s' -> cls s' = cls s /\ thr s' = thr s /\ prog s' = prog s.
Proof. destruct s as [m1 m2 e b sta sto es fo t pr z cl h]. cbn. destruct z; [discriminate|]. intros [= <-]. auto. Qed.

Section Cap.
Variable ocap : N.
Lemma ri_step s m s' : RI s -> rstep ocap s m s' -> RI s'.
Proof.
  intros [M T] H. destruct H; constructor; cbn [core in_tracer]; auto.
  - eapply mx_next; [exact M|]. apply next_step with (ocap := ocap). exists (GoClient i k j). exact H.
  - intros I. eapply cstep_trun; eauto.
  - eapply mx_next; [exact M|]. apply next_step with (ocap := ocap). exists GoDone. exact H.
  - intros I. destruct (done_facts H) as (_ & -> & _). auto.
  - eapply mx_next; [exact M|]. apply next_step. exists (GoThread k j). exact H0.
  - discriminate.
  - eapply mx_next; [exact M|]. apply next_call with (ocap := ocap). destruct H; constructor.
  - intros I. destruct (add_call_facts (core s) c) as (_ & -> & _). auto.
  - eapply mx_next; [exact M|]. apply next_call with (ocap := ocap). constructor.
  - intros I. destruct (add_call_facts (core s) (ZLock1 new)) as (_ & -> & _). auto.
Qed.
Lemma ri_runs may s s' : RI s -> rruns ocap may s s' -> RI s'.
Proof. intros I H. induction H; auto. apply IHrruns. eapply ri_step; eauto. Qed.

(** The goroutine decodes, and stays where it is: whoever has not got past the
    first mutex does not get past it. *)
Definition held_up (s s' : rst) : Prop :=
  thr (core s') = Some TRun /\ prog (core s') = prog (core s) /\
  (* calls of Read, Close and Reset that were waiting for the first mutex *)
  (forall m c, nth_error (cls (core s)) m = Some c -> any_call c -> nth_error (cls (core s')) m = Some c) /\
  (* ... and those made since *)
  length (cls (core s)) <= length (cls (core s')) /\
  (forall m c, length (cls (core s)) <= m -> nth_error (cls (core s')) m = Some c -> any_call c) /\
  (* accessors *)
  (forall m, nth_error (asks s) m = Some ALock -> nth_error (asks s') m = Some ALock) /\
  length (asks s) <= length (asks s') /\
  (forall m a, length (asks s) <= m -> nth_error (asks s') m = Some a -> a = ALock).
Lemma held_refl s : thr (core s) = Some TRun -> held_up s s.
Proof.
  intros T. split; auto. split; auto. split; auto. split; auto. split; [|split; auto; split; auto]; intros m c Hm E.
  - assert (K : nth_error (cls (core s)) m = None) by (apply nth_error_None; auto). congruence.
  - assert (K : nth_error (asks s) m = None) by (apply nth_error_None; auto). congruence.
Qed.
Lemma held_trans a b c : held_up a b -> held_up b c -> held_up a c.
Proof.
  intros (A1 & A2 & A3 & A4 & A5 & A6 & A7 & A8) (B1 & B2 & B3 & B4 & B5 & B6 & B7 & B8).
  split; auto. split; [congruence|]. split; auto. split; [lia|]. split; [|split; auto; split; [lia|]].
  - intros m x Hm E. destruct (Nat.lt_ge_cases m (length (cls (core b)))) as [L|L]; [|eauto].
    destruct (nth_error (cls (core b)) m) as [y|] eqn:Ey; [|apply nth_error_None in Ey; lia].
    specialize (A5 _ _ Hm Ey). specialize (B3 _ _ Ey A5). congruence.
  - intros m x Hm E. destruct (Nat.lt_ge_cases m (length (asks b))) as [L|L]; [|eauto].
    destruct (nth_error (asks b) m) as [y|] eqn:Ey; [|apply nth_error_None in Ey; lia].
    pose proof (A8 _ _ Hm Ey) as ->. specialize (B6 _ Ey). congruence.
Qed.
Lemma held_step s m s' : RI s -> thr (core s) = Some TRun -> m <> MGoroutine -> rstep ocap s m s' -> held_up s s' .
Proof.
  intros [M _] T N H.
  assert (MU : mu1 (core s) = true) by (pose proof (m_mu1 M) as K; rewrite T in K; cbn in K; destruct (mu1 (core s)); cbn in K; auto; lia).
  assert (SAME : forall c a tr, (thr c = Some TRun /\ prog c = prog (core s) /\ (forall m0 x, nth_error (cls (core s)) m0 = Some x -> any_call x -> nth_error (cls c) m0 = Some x) /\
      length (cls (core s)) <= length (cls c) /\ (forall m0 x, length (cls (core s)) <= m0 -> nth_error (cls c) m0 = Some x -> any_call x)) ->
      a = asks s \/ a = asks s ++ [ALock] -> held_up s (RSt c a tr)).
  { intros c a tr (C1 & C2 & C3 & C4 & C5) HA. unfold held_up. cbn [core asks]. split; auto. split; auto. split; auto. split; auto. split; auto.
    destruct HA as [->| ->].
    - split; auto. split; auto. intros m0 x Hm E. assert (K : nth_error (asks s) m0 = None) by (apply nth_error_None; auto). congruence.
    - split; [intros m0 E; rewrite nth_error_app1; auto; apply nth_error_Some; congruence|]. split; [rewrite app_length; lia|].
      intros m0 x Hm E. rewrite nth_error_app2 in E by auto. destruct (m0 - length (asks s)) as [|q]; cbn in E; [congruence|]. destruct q; discriminate. }
  assert (END : forall c, length (cls c) = length (cls (core s)) -> forall m0 x, length (cls (core s)) <= m0 -> nth_error (cls c) m0 = Some x -> any_call x).
  { intros c L m0 x Hm E. assert (K : nth_error (cls c) m0 = None) by (apply nth_error_None; lia). congruence. }
  assert (ADD : forall c, any_call c -> held_up s (RSt (add_call (core s) c) (asks s) (in_tracer s))).
  { intros c Hc. destruct (add_call_facts (core s) c) as (A & B & _ & C). apply SAME; auto. rewrite A, B, C. split; auto. split; auto. split; [|split; [rewrite app_length; lia|]].
    + intros m0 x E _. rewrite nth_error_app1; auto. apply nth_error_Some. congruence.
    + intros m0 x Hm E. rewrite nth_error_app2 in E by auto. destruct (m0 - length (cls (core s))) as [|q]; cbn in E; [congruence|]. destruct q; discriminate. }
  destruct H; try congruence.
  - destruct (cstep_trun M T H) as (A & B & C & D). apply SAME; auto. split; auto. split; auto. split; auto. split; [lia|]. apply END. auto.
  - destruct (done_facts H) as (A & B & C). apply SAME; auto. rewrite A, B, C. split; auto. split; auto. split; auto. split; auto. apply END. auto.
  - apply SAME; auto. split; auto. split; auto. split; auto. split; auto. apply END. auto.
  - apply SAME; auto. split; auto. split; auto. split; auto. split; auto. apply END. auto.
  - apply ADD. destruct H; constructor.
  - apply ADD. constructor.
Qed.
Lemma held_runs (may : mover -> Prop) s s' : RI s -> thr (core s) = Some TRun -> (forall m, may m -> m <> MGoroutine) -> rruns ocap may s s' -> held_up s s'.
Proof.
  intros I T N H. induction H as [s|s1 m s2 s3 Hm X H IH]; [apply held_refl; auto|].
  pose proof (held_step I T (N _ Hm) X) as K. eapply held_trans; [exact K|]. apply IH; [eapply ri_step; eauto|apply K].
Qed.
End Cap.
Lemma rreached_RI may env opts src s : rreached may env opts src s -> RI s.
Proof. intros (r & _ & H). eapply ri_runs; [|exact H]. constructor; [apply mx_fresh|discriminate]. Qed.

(** ** C66 *)
(** Whenever the goroutine is decoding, which includes all the time it spends in the
    Read of the underlying reader, then as long as it does not move - as long as
    that Read does not return - no call made meanwhile returns: not Read, although
    there may be data for it, not Close, not Reset, not Format; nor does one made
    before that was waiting for the first mutex. *)
Theorem C66_blocked_source_blocks_calls :
  forall env opts src s s', rreached anybody env opts src s -> thr (core s) = Some TRun ->
    rruns (out_cap (reffective opts)) goroutine_waits s s' -> held_up s s'.
Proof. intros env opts src s s' R T H. eapply held_runs; eauto using rreached_RI. intros m [K _]. exact K. Qed.

(** A state in which this matters.  300 bytes are to come; what has arrived is enough
    for 128 of them, the size of the buffers.  The first Read has returned one byte,
    127 are in the output buffer for the next one.  That the goroutine is asking for
    more input: if the underlying reader fails now the next thing it does is to report
    that; if it delivers the rest, the next thing it does is to deliver data. *)
Definition arrived : list N := ([0; 150; 0; 105; 255] ++ repeat 97 150)%N.    (* a stored block of 150 bytes *)
Definition to_come : list N := ([1; 150; 0; 105; 255] ++ repeat 97 150)%N.    (* another one, the last *)
Theorem C66_refuted :
  (exists r e l, readThread demo_renv (newReader [(arrived, None); ([], Some (IOErr 0))] small_opts) = Ok r /\ o_log (r_out r) = OData (repeat 97%N 128) :: OErr e :: l) /\
  exists p l s, rreached quiet_tracers demo_renv small_opts [(arrived, None); (to_come, None); ([], Some EOF)] s /\
    thr (core s) = Some TRun /\ prog (core s) = OData p :: l /\
    cls (core s) = [RDone [97%N] None] /\ obuf (core s) = repeat 97%N 127 /\
    (* whatever happens until the underlying reader returns: a second Read gets none of it, and Close does not return *)
    forall s', rruns (out_cap (reffective small_opts)) goroutine_waits (RSt (add_call (add_call (core s) (RLock1 10)) CLock1) [] false) s' ->
      nth_error (cls (core s')) 1 = Some (RLock1 10) /\ nth_error (cls (core s')) 2 = Some CLock1.
Proof.
  split; [eexists _, _, _; split; vm_compute; reflexivity|].
  destruct (readThread demo_renv (newReader [(arrived, None); (to_come, None); ([], Some EOF)] small_opts)) as [r| |] eqn:E; [|vm_compute in E; discriminate|vm_compute in E; discriminate].
  set (ch := repeat (GoClient 0 0 0) 2 ++ repeat (GoThread 0 0) 8 ++ [GoThread 128 0; GoThread 0 0] ++ repeat (GoClient 0 0 0) 2 ++ [GoClient 0 1 0]).
  assert (X : exists p l c, run_choices (out_cap (reffective small_opts)) (add_call (fresh (o_log (r_out r))) (RLock1 1)) ch = Some c /\ thr c = Some TRun /\ prog c = OData p :: l /\
     cls c = [RDone [97%N] None] /\ obuf c = repeat 97%N 127).
  { vm_compute in E. injection E as <-. eexists _, _, _. split; [vm_compute; reflexivity|]. split; [reflexivity|]. split; [reflexivity|]. split; reflexivity. }
  destruct X as (p & l & c & X1 & X2 & X3 & X4 & X5). exists p, l, (RSt c [] false). cbn [core].
  assert (RUN : forall ch s0 s1, run_choices (out_cap (reffective small_opts)) s0 ch = Some s1 -> rruns (out_cap (reffective small_opts)) quiet_tracers (RSt s0 [] false) (RSt s1 [] false)).
  { clear. induction ch as [|x ch IH]; intros s0 s1 H; cbn [run_choices] in H; [injection H as <-; constructor|].
    destruct (sched _ s0 x) as [s2|] eqn:S; [|discriminate]. destruct x as [i k j|k j|].
    - eapply rr_cons with (m := MCaller); [discriminate| |apply IH; eauto]. eapply (@RsClient _ (RSt s0 [] false)). exact S.
    - eapply rr_cons with (m := MGoroutine); [discriminate| |apply IH; eauto]. eapply (@RsThread _ (RSt s0 [] false)); [reflexivity|exact S].
    - eapply rr_cons with (m := MCaller); [discriminate| |apply IH; eauto]. eapply (@RsDone _ (RSt s0 [] false)). exact S. }
  assert (RR : rreached quiet_tracers demo_renv small_opts [(arrived, None); (to_come, None); ([], Some EOF)] (RSt c [] false)).
  { exists r. split; auto. eapply rr_cons with (m := MCall); [discriminate|apply RsNewCall with (c := RLock1 1); constructor|]. apply RUN with (1 := X1). }
  split; [exact RR|]. split; auto. split; auto. split; auto. split; auto.
  intros s' H. set (s2 := RSt (add_call (add_call c (RLock1 10)) CLock1) [] false) in *.
  assert (I2 : RI s2). { eapply ri_step with (ocap := 0%N); [|apply (@RsNewCall 0%N (RSt (add_call c (RLock1 10)) [] false)); constructor]. eapply ri_step with (ocap := 0%N); [|apply (@RsNewCall 0%N (RSt c [] false)); constructor]. eapply rreached_RI; eauto. }
  assert (T2 : thr (core s2) = Some TRun) by (destruct c; exact X2).
  assert (C2 : cls (core s2) = [RDone [97%N] None; RLock1 10; CLock1]) by (destruct c; cbn in *; rewrite X4; reflexivity).
  assert (K : held_up s2 s') by (eapply held_runs; eauto; intros m [Q _]; exact Q). destruct K as (_ & _ & K & _). rewrite C2 in K. split; apply K; try reflexivity; constructor.
Qed.

(** ** C67 *)
(** A tracer of a Reader that calls any of its methods waits for a mutex its own
    goroutine holds: neither that call nor any later call on the Reader returns, and
    the goroutine decodes nothing more. *)
Theorem C67_reentrant_tracer_blocks_forever :
  forall env opts src s s', rreached anybody env opts src s -> in_tracer s = true ->
    rruns (out_cap (reffective opts)) anybody s s' -> in_tracer s' = true /\ held_up s s'.
Proof.
  intros env opts src s s' R T H. apply rreached_RI in R. induction H as [s|s1 m s2 s3 Hm X H IH]; [split; auto; apply held_refl; apply R; auto|].
  assert (M : m <> MGoroutine) by (intros ->; inversion X; congruence).
  pose proof (held_step R (ri_tr R T) M X) as K. pose proof (ri_step R X) as R2.
  assert (T2 : in_tracer s2 = true).
  { destruct X; auto; try discriminate; try congruence. exfalso. pose proof (m_mu1 (ri_mx R)) as Q. rewrite (ri_tr R T), H1 in Q. cbn in Q. lia. }
  destruct (IH R2 T2) as [A B]. split; auto. eapply held_trans; eauto.
Qed.
Theorem C67_refuted :
  exists s, rreached anybody demo_renv small_opts [(raw_300, None); ([], Some EOF)] s /\ in_tracer s = true /\ cls (core s) = [RLock2 1].
Proof.
  destruct (readThread demo_renv (newReader [(raw_300, None); ([], Some EOF)] small_opts)) as [r| |] eqn:E; [|vm_compute in E; discriminate|vm_compute in E; discriminate].
  set (ocap := out_cap (reffective small_opts)).
  eexists. split; [|split].
  - exists r. split; auto. eapply rr_cons with (m := MCall); [exact I|apply RsNewCall with (c := RLock1 1); constructor|].
    eapply rr_cons with (m := MCaller); [exact I|eapply RsClient with (i := 0) (k := 0) (j := 0); reflexivity|].
    eapply rr_cons with (m := MCaller); [exact I|eapply RsClient with (i := 0) (k := 0) (j := 0); reflexivity|].
    eapply rr_cons with (m := MGoroutine); [exact I|eapply RsThread with (k := 0) (j := 0); reflexivity|].
    eapply rr_cons with (m := MTracer); [exact I|eapply RsEvent; reflexivity|]. apply rr_refl.
  - reflexivity.
  - reflexivity.
Qed.
(** What does hold when tracers do not call back (and Reset is not called, C40): the
    state of the rest is that of the Reader without accessors, so that C39 to C43
    hold; and whenever nobody in progress can move any more, all calls have returned,
    the accessors too. *)
Lemma core_reached env opts src s : rreached no_resets env opts src s -> reached env opts src (core s) /\ in_tracer s = false.
Proof.
  intros (r & E & H). enough (K : steps (next (out_cap (reffective opts)) reads_and_closes) (core (rfresh (o_log (r_out r)))) (core s) /\ in_tracer s = false) by (destruct K; split; auto; exists r; auto).
  clear E. assert (T : in_tracer (rfresh (o_log (r_out r))) = false) by reflexivity. revert H T. generalize (rfresh (o_log (r_out r))). intros s0 H T.
  induction H as [s|s1 m s2 s3 [M1 M2] X H IH]; [split; auto; constructor|].
  destruct X; try congruence; cbn [core in_tracer] in *; destruct (IH ltac:(auto)) as [K1 K2]; split; auto; try exact K1.
  - econstructor; [|exact K1]. apply next_step. exists (GoClient i k j). exact H0.
  - econstructor; [|exact K1]. apply next_step. exists GoDone. exact H0.
  - econstructor; [|exact K1]. apply next_step. exists (GoThread k j). exact H1.
  - econstructor; [|exact K1]. apply next_call. auto.
Qed.
Lemma end_mu1 ocap s : (0 < ocap)%N -> PConc.Inv ocap s -> (forall s', ~ step ocap s s') -> mu1 s = false.
Proof.
  intros Hc I N.
  assert (NC : forall i c, nth_error (cls s) i = Some c -> ~ ready s c) by (intros i c E R; destruct (@ready_step ocap s i c E R) as [s' X]; exact (N s' X)).
  assert (NT : forall c, thr s = Some c -> ~ tready s c) by (intros c E R; destruct (@tready_step ocap s c I E R) as [s' X]; exact (N s' X)).
  pose proof (i_mu1 I) as M1. pose proof (i_mu2 I) as M2. pose proof (i_noz I) as Z.
  assert (NoZ : forall i c, nth_error (cls s) i = Some c -> cz c = 0) by (intros i c E; pose proof (cnt_in cz E); lia).
  assert (m2 : mu2 s = false).
  { destruct (mu2 s) eqn:EM; auto. exfalso. cbn in M2. destruct (t2 (thr s)) eqn:ET.
    - destruct (@cnt_pos c2 (cls s)) as (i & c & E & P); [lia|]. apply (NC _ _ E). pose proof (NoZ _ _ E). destruct c; cbn in *; auto; lia.
    - destruct (thr s) as [c|] eqn:E; [|discriminate]. apply (NT c eq_refl). destruct c; cbn in *; auto; discriminate. }
  destruct (mu1 s) eqn:EM; auto. exfalso. cbn in M1. destruct (t1 (thr s)) eqn:ET.
  - destruct (@cnt_pos c1 (cls s)) as (i & c & E & P); [lia|]. apply (NC _ _ E). pose proof (NoZ _ _ E). destruct c; cbn in *; auto; lia.
  - destruct (thr s) as [c|] eqn:E; [|discriminate]. apply (NT c eq_refl). destruct c; cbn in *; auto; discriminate.
Qed.
Theorem C67_calls_return_partial :
  forall env opts src s, rreached no_resets env opts src s ->
    (forall m s', in_progress m -> ~ rstep (out_cap (reffective opts)) s m s') ->
    Forall returned (cls (core s)) /\ Forall (eq ADone) (asks s).
Proof.
  intros env opts src s R N. destruct (core_reached R) as [RC TR].
  assert (NS : forall s'', ~ step (out_cap (reffective opts)) (core s) s'').
  { intros s'' [c H]. destruct c as [i k j|k j|].
    - apply (N MCaller (RSt s'' (asks s) (in_tracer s))); [left; auto|]. eapply RsClient. exact H.
    - apply (N MGoroutine (RSt s'' (asks s) false)); [right; left; auto|]. eapply RsThread; [exact TR|exact H].
    - apply (N MCaller (RSt s'' (asks s) (in_tracer s))); [left; auto|]. eapply RsDone. exact H. }
  split; [apply (proj2 (C40_no_lost_wakeup RC) (core s) (steps_refl _ _) NS)|].
  destruct (reached_inv RC) as (_ & _ & _ & _ & _ & I & _). pose proof (end_mu1 (out_cap_pos _) I NS) as F.
  apply Forall_forall. intros a H. apply In_nth_error in H as [i E]. destruct a; auto. exfalso.
  eapply (N MAccessor); [right; right; auto|]. eapply RsAsk; eauto.
Qed.
