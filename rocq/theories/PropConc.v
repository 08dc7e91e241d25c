(** Theorems about the concurrent Reader: any number of Read, Close and Reset
    calls made from any goroutines, under every schedule. *)
From Coq Require Import Permutation.
From Verif Require Import Base SpecChecksum MToken MCommon MWriter MReader SpecReader SpecLib PRead PLog MSession MConc PConc PConc2 PConc3 PConc4 PConc5 PConc6 Demo PropReader PropReader3 SpecSession.

(** [s] is a state reached by a Reader created by NewReader(src, opts), by some
    schedule, with any number of Read and Close calls started at any time. *)
Definition reached (env : renv) (opts : list opt) (src : source) (s : st) : Prop :=
  exists r, readThread env (newReader src opts) = Ok r /\
    steps (next (out_cap (reffective opts)) reads_and_closes) (fresh (o_log (r_out r))) s.
(** All bytes in a list of Read results, in order. *)
Definition bytes_of (h : list (list N * option goerr)) : list N := flat_map fst h.

Lemma out_cap_pos o : (0 < out_cap o)%N.
Proof. unfold out_cap. pose proof (N.pow_nonzero 2 (o_mlevel o + 6)). lia. Qed.
Lemma log_of env opts src r : readThread env (newReader src opts) = Ok r ->
  exists e a b, decompress env opts src = Ok (log_data (a ++ OErr e :: b), Some e) /\ o_log (r_out r) = a ++ OErr e :: b /\
    data_only a /\ data_only b /\ (e = EOF -> b = []).
Proof.
  intros E. assert (L : lgr (newReader src opts)) by constructor.
  pose proof (@lgr_thread env _ L) as S. rewrite E in S. destruct S as (e & a & b & S1 & S2 & S3 & S4 & S5).
  exists e, a, b. unfold decompress. rewrite E. cbn. unfold r_result. rewrite S1, S2. auto.
Qed.
Lemma has_err_mid a e b : has_err (a ++ OErr e :: b) = true.
Proof. unfold has_err. rewrite existsb_app. cbn. apply orb_true_r. Qed.
Lemma reached_inv env opts src s : reached env opts src s ->
  exists e a b, decompress env opts src = Ok (log_data (a ++ OErr e :: b), Some e) /\ (e = EOF -> b = []) /\
    PConc.Inv (out_cap (reffective opts)) s /\ Dat (log_data (a ++ OErr e :: b)) s /\ Er a b e s /\ Permutation (results (cls s)) (hist s).
Proof.
  intros (r & E & H). destruct (log_of E) as (e & a & b & D & L & Ha & Hb & He). exists e, a, b.
  rewrite L in H. pose proof (out_cap_pos (reffective opts)) as Hc.
  assert (I0 : PConc.Inv (out_cap (reffective opts)) (fresh (a ++ OErr e :: b))) by (apply (inv_fresh Hc); apply has_err_mid).
  assert (D0 : Dat (log_data (a ++ OErr e :: b)) (fresh (a ++ OErr e :: b))) by (apply dat_fresh; auto).
  split; auto. split; auto. split; [|split; [|split]].
  - exact (inv_steps Hc I0 H).
  - exact (dat_steps Hc I0 D0 H).
  - eapply er_steps with (ocap := out_cap (reffective opts)); eauto. exact (er_fresh Hc b e Ha).
  - apply (results_steps rc_any H). constructor.
Qed.

(** ** C39: the results of the Reads, in the order in which they complete, give
    the decompressed data in order, nothing twice, nothing left out before
    io.EOF. *)
Theorem C39_reads_deliver_in_order :
  forall env opts src s, reached env opts src s ->
    exists d e, decompress env opts src = Ok (d, Some e) /\
      Permutation (results (cls s)) (hist s) /\
      (exists rest, bytes_of (hist s) ++ rest = d) /\
      (forall before p after, hist s = before ++ (p, Some EOF) :: after -> p = [] /\ bytes_of before = d).
Proof.
  intros env opts src s R. destruct (reached_inv R) as (e & a & b & E & EO & I & D & Er & P).
  exists (log_data (a ++ OErr e :: b)), e. split; auto. split; auto. destruct (d_pre D) as [rest PR]. split.
  - exists (obuf s ++ rest). exact PR.
  - intros h1 p h2 H. destruct (e_hist Er H) as [-> [X|[X [r G]]]]; [discriminate|]. split; auto. subst e.
    rewrite (EO eq_refl) in *. rewrite log_data_cons_err in *. cbn [log_data flat_map] in *. rewrite app_nil_r in *.
    change (bytes_of h1) with (got h1). rewrite G in *. rewrite H, got_app in PR.
    rewrite G, <- !app_assoc in PR. rewrite <- (app_nil_r (log_data a)) in PR at 2. apply app_inv_head in PR.
    apply app_eq_nil in PR as [-> _]. apply app_nil_r.
Qed.

(** ** C40: whatever calls are in progress, an execution that cannot go on has
    returned from all of them, and no execution goes on for ever without new
    calls.  So every call in progress returns. *)
Theorem C40_no_lost_wakeup :
  forall env opts src s, reached env opts src s ->
    Acc (fun later now => step (out_cap (reffective opts)) now later) s /\
    forall s', steps (step (out_cap (reffective opts))) s s' -> (forall s'', ~ step (out_cap (reffective opts)) s' s'') -> Forall returned (cls s').
Proof.
  intros env opts src s R. destruct (reached_inv R) as (e & a & b & E & EO & I & _).
  pose proof (out_cap_pos (reffective opts)) as Hc. split; [eapply terminates; eauto|].
  intros s' H N. eapply no_deadlock; eauto. clear N R. induction H; auto. apply IHsteps. eapply inv_step; eauto.
Qed.

(** ** C42: a Close call that finds the goroutine running (it holds the first
    mutex, and the goroutine has been started and has not ended): when it
    returns the goroutine has ended, and from then on every Read returns
    context.Canceled and no data. *)
Theorem C42_close_stops_and_cancels :
  forall env opts src s1 i, reached env opts src s1 ->
    nth_error (cls s1) i = Some CTest -> started s1 = true -> stopped s1 = false ->
    forall s2, steps (next (out_cap (reffective opts)) reads_and_closes) s1 s2 -> nth_error (cls s2) i = Some CDone ->
      thr s2 = None /\ zombies s2 = 0 /\
      forall s3, steps (next (out_cap (reffective opts)) reads_and_closes) s2 s3 ->
        thr s3 = None /\ zombies s3 = 0 /\ exists n, hist s3 = hist s2 ++ repeat ([], Some Canceled) n.
Proof.
  intros env opts src s1 i R E S1 S2 s2 H12 E2. destruct (reached_inv R) as (e & a & b & _ & _ & I & _).
  pose proof (out_cap_pos (reffective opts)) as Hc.
  assert (K1 : closing i s1) by (unfold closing; rewrite E; auto).
  pose proof (closing_steps Hc I K1 H12) as K2. pose proof (inv_steps Hc I H12) as I2.
  pose proof K2 as K2'. unfold closing in K2'. rewrite E2 in K2'. destruct K2' as (T & C & A & B). split; auto. split; auto.
  intros s3 H23. pose proof (closing_steps Hc I2 K2 H23) as K3. destruct (canceled_steps Hc I2 C H23) as [_ X].
  unfold closing in K3. rewrite (returned_steps H23 E2 Logic.I) in K3. tauto.
Qed.

(** ** C41 *)
(** the same, with Reset calls too *)
Definition reached_any (env : renv) (opts : list opt) (src : source) (s : st) : Prop :=
  exists r, readThread env (newReader src opts) = Ok r /\
    steps (next (out_cap (reffective opts)) any_call) (fresh (o_log (r_out r))) s.
(** A Reset call that has locked the two mutexes while the goroutine is running
    never returns; nor does any other call that has not returned yet, nor any
    call made later; and nobody gets any more data. *)
Theorem C41_reset_while_running_never_returns :
  forall env opts src s i new, reached_any env opts src s ->
    nth_error (cls s) i = Some (ZTest new) -> started s = true -> stopped s = false ->
    forall s', steps (next (out_cap (reffective opts)) any_call) s s' ->
      hist s' = hist s /\
      (exists c, nth_error (cls s') i = Some c /\ ~ returned c) /\
      (forall j c, nth_error (cls s) j = Some c -> ~ returned c -> exists c', nth_error (cls s') j = Some c' /\ ~ returned c').
Proof.
  intros env opts src s i new (r & _ & H) E S1 S2 s' H'.
  pose proof (mx_steps (mx_fresh _) H) as M.
  assert (F : Frozen i s). { constructor; auto; [eauto|apply (m_thr M); auto]. }
  destruct (frozen_steps F H') as (F' & Hh & P). split; auto. split; auto.
  apply (P i (ZTest new)); auto.
Qed.
(** When the goroutine has not been started or has ended, and no other call is
    in progress, Reset returns, under every schedule, and the Reader is as new. *)
Theorem C41_reset_when_idle :
  forall ocap s new, mu1 s = false -> mu2 s = false -> thr s = None -> started s && negb (stopped s) = false -> Forall returned (cls s) ->
    forall s', steps (step ocap) (add_call s (ZLock1 new)) s' -> (forall s'', ~ step ocap s' s'') ->
      cls s' = cls s ++ [ZDone] /\ hist s' = hist s /\
      mu1 s' = false /\ mu2 s' = false /\ thr s' = None /\ oerr s' = None /\ obuf s' = [] /\ started s' = false /\ stopped s' = false /\
      errset s' = false /\ forced s' = false /\ prog s' = new.
Proof.
  intros ocap s new M1 M2 T NS R s' H N.
  assert (K : resetting (length (cls s)) new s s').
  { assert (K0 : resetting (length (cls s)) new s (add_call s (ZLock1 new))).
    { destruct s; cbn in *; subst. unfold resetting; cbn. repeat split; auto. left. eauto 10. }
    clear N. revert K0. generalize (add_call s (ZLock1 new)) H. clear H. intros s0 H K0. induction H; auto. apply IHsteps. eapply resetting_step; eauto. }
  destruct K as (_ & T' & Hh & [(c & C & NS' & K)|K]); [|tauto].
  exfalso. destruct s' as [m1 m2 e b sta sto es fo t pr z cl h]. cbn in *. subst cl.
  assert (X : exists s'', cstep (St m1 m2 e b sta sto es fo t pr z (cls s ++ [c]) h) (length (cls s)) 0 0 = Some s'').
  { cbn. rewrite nth_last. destruct K as [(-> & -> & ->)|[(-> & ->)| ->]]; cbn; eauto. rewrite NS'. eauto. }
  destruct X as [s'' X]. apply (N s''). exists (GoClient (length (cls s)) 0 0). exact X.
Qed.

(** The situation of C41 does arise: a Reader with MemoryLevel 1, of which one
    byte of 300 has been read.  The goroutine waits for room in the output
    buffer; Reset is then called by the same client. *)
Definition raw_300 : list N := ([1; 44; 1; 211; 254] ++ repeat 97 300)%N.
Definition small_opts : list opt := [WithFormat RawFormat; WithMemoryLevel 1].
Definition one_byte : list choice :=
  repeat (GoClient 0 0 0) 2 ++ repeat (GoThread 0 0) 8 ++ [GoThread 128 0] ++ repeat (GoThread 0 0) 5 ++ repeat (GoClient 0 0 0) 2 ++ [GoClient 0 1 0].
Theorem C41_refuted :
  exists s, reached demo_renv small_opts [(raw_300, None); ([], Some EOF)] s /\
    (* one Read call was made and has returned one byte *)
    hist s = [([97%N], None)] /\ cls s = [RDone [97%N] None] /\
    (* whatever happens after a call of Reset, it does not return *)
    forall new s', steps (step (out_cap (reffective small_opts))) (add_call s (ZLock1 new)) s' ->
      exists c, cls s' = [RDone [97%N] None; c] /\ ~ returned c.
Proof.
  destruct (readThread demo_renv (newReader [(raw_300, None); ([], Some EOF)] small_opts)) as [r| |] eqn:E; [|vm_compute in E; discriminate|vm_compute in E; discriminate].
  set (s1 := run_choices (out_cap (reffective small_opts)) (add_call (fresh (o_log (r_out r))) (RLock1 1)) one_byte).
  assert (X : exists s, s1 = Some s /\ hist s = [([97%N], None)] /\ cls s = [RDone [97%N] None] /\ asleep s).
  { unfold s1. vm_compute in E. injection E as <-. eexists. split; [vm_compute; reflexivity|]. split; [reflexivity|]. split; [reflexivity|]. split; [eexists; reflexivity|]. repeat split. }
  destruct X as (s & S1 & S2 & S3 & S4). exists s. split; [|split; [auto|split; [auto|]]].
  - exists r. split; auto. econstructor; [apply next_call; constructor|]. eapply run_steps. exact S1.
  - intros new s' H. assert (R : Forall returned (cls s)) by (rewrite S3; repeat constructor).
    destruct (asleep_reset R S4 H) as (_ & _ & c & C & N). exists c. rewrite C, S3. auto.
Qed.

(** ** C43 *)
(** What is true: an error comes alone; it is io.EOF after all the data, the
    error of the input, or context.Canceled; and no data comes after io.EOF, nor
    after context.Canceled (unless that is the error of the source). *)
Definition cancel_last (s : st) : Prop :=
  forall h1 p h2, hist s = h1 ++ (p, Some Canceled) :: h2 -> canceled s /\ bytes_of h2 = [].
Lemma app_snoc_cases {A} (h h1 h2 t : list A) x : h ++ t = h1 ++ x :: h2 ->
  (exists h3, h = h1 ++ x :: h3 /\ h2 = h3 ++ t) \/ (exists t1, h1 = h ++ t1 /\ t = t1 ++ x :: h2).
Proof.
  revert h1. induction h as [|a h IH]; intros h1 E; cbn in E.
  - right. exists h1. auto.
  - destruct h1 as [|b h1]; cbn in E; injection E as -> E.
    + left. exists h. auto.
    + destruct (IH _ E) as [(h3 & -> & ->)|(t1 & -> & ->)]; [left; exists h3|right; exists t1]; auto.
Qed.
Lemma bytes_canceled n : bytes_of (repeat ([], Some Canceled) n) = [].
Proof. induction n; auto. Qed.
Lemma hist_grows ocap s s' : next ocap reads_and_closes s s' -> PConc.Inv ocap s ->
  hist s' = hist s \/ (exists p, hist s' = hist s ++ [(p, None)]) \/
  (obuf s = [] /\ hist s' = hist s ++ [([], oerr s)] /\ (canceled s -> canceled s')).
Proof.
  intros [x [c H]|c Hc] I; [|left; destruct s; auto].
  pose proof (i_noz I) as NZ.
  destruct s as [m1 m2 e b sta sto es fo t pr z cl h]. cbn in NZ |- *. destruct c as [i k j|k j|]; cbn in H.
  - destruct (nth_error cl i) as [c|] eqn:E; [|discriminate]. pose proof (cnt_in cz E) as LZ.
    destruct c; cbn in H, LZ; try discriminate; try lia; unfold mu_lock in H;
      try (destruct m1; [discriminate|]); try (destruct m2; [discriminate|]); try (injection H as <-; cbn; auto; fail).
    + destruct e as [e|]; [|destruct b as [|b0 b]]; injection H as <-; cbn; auto.
    + destruct e as [e|]; [|destruct b as [|b0 b]]; injection H as <-; cbn; auto.
    + destruct b as [|b0 b].
      * injection H as <-. cbn. right. right. repeat split; auto. intros [C|C]; [left; exact C|right]. cbn in *.
        pose proof (cnt_upd cf (RDone [] e) E). cbn in H. lia.
      * destruct (_ && _) in H; [|discriminate]. destruct (is_nil _); [injection H as <-; cbn -[firstn]; eauto|].
        destruct (signal1 _ _) as [cl'|] eqn:ES; [|discriminate]. injection H as <-. cbn -[firstn]. eauto.
    + destruct t; [discriminate|]. destruct z; [|discriminate]. injection H as <-. cbn. auto.
  - destruct t as [tc|]; [|discriminate].
    destruct tc; cbn in H; try discriminate; unfold mu_lock in H; try (destruct m1; [discriminate|]); try (destruct m2; [discriminate|]);
      try (injection H as <-; cbn; auto; fail).
    + destruct pr as [|[]]; injection H as <-; cbn; auto.
    + destruct p; injection H as <-; cbn; auto.
    + destruct (_ =? 0); [injection H as <-; cbn; auto|]. destruct (_ && _) in H; [|discriminate].
      destruct (signal1 _ _) as [cl'|] eqn:ES; [|discriminate]. injection H as <-. cbn. auto.
  - destruct z as [|z]; [discriminate|]. injection H as <-. auto.
Qed.
Lemma cancel_last_next ocap a b e s s' : (0 < ocap)%N -> e <> Canceled -> PConc.Inv ocap s -> Er a b e s -> cancel_last s ->
  next ocap reads_and_closes s s' -> cancel_last s'.
Proof.
  intros Hc N I Er L X h1 p h2 E.
  assert (Known : forall h3, hist s = h1 ++ (p, Some Canceled) :: h3 -> canceled s' /\ bytes_of h2 = []).
  { intros h3 E3. destruct (L _ _ _ E3) as [C B]. destruct (canceled_step Hc I C X) as [C' [n G]]. split; auto.
    rewrite E3, <- app_assoc in G. cbn in G. rewrite G in E. apply app_inv_head in E. injection E as <-.
    unfold bytes_of in *. rewrite flat_map_app, B. apply bytes_canceled. }
  destruct (hist_grows X I) as [G|[[q G]|(OB & G & C)]]; rewrite G in E.
  - eauto.
  - destruct (app_snoc_cases E) as [(h3 & E3 & _)|([|? [|? ?]] & _ & E3)]; eauto; discriminate.
  - destruct (app_snoc_cases E) as [(h3 & E3 & _)|([|? [|? ?]] & _ & E3)]; eauto; try discriminate.
    injection E3 as <- EO <-. destruct (e_set Er EO) as [K|[K _]]; [auto|congruence].
Qed.
Lemma reached_cancel env opts src s d e : reached env opts src s -> decompress env opts src = Ok (d, Some e) -> e <> Canceled -> cancel_last s.
Proof.
  intros (r & E & H) D N. destruct (log_of E) as (e' & a & b & D' & L & Ha & Hb & He). rewrite D in D'. injection D' as -> <-.
  rewrite L in H. pose proof (out_cap_pos (reffective opts)) as Hc.
  assert (I0 : PConc.Inv (out_cap (reffective opts)) (fresh (a ++ OErr e :: b))) by (apply (inv_fresh Hc); apply has_err_mid).
  assert (D0 : Dat (log_data (a ++ OErr e :: b)) (fresh (a ++ OErr e :: b))) by (apply dat_fresh; auto).
  pose proof (er_fresh Hc b e Ha) as E0.
  assert (L0 : cancel_last (fresh (a ++ OErr e :: b))) by (intros [|? ?] q h2 X; discriminate).
  revert I0 D0 E0 L0. clear L D E. generalize dependent (fresh (a ++ OErr e :: b)). intros s0 H I0 D0 E0 L0.
  induction H as [|s1 s2 s3 X H IH]; auto.
  apply IH; [eapply inv_next; eauto| |eapply er_next; eauto|eapply cancel_last_next; eauto].
  destruct X; eauto using dat_step, dat_call.
Qed.
Theorem C43_error_order_partial :
  forall env opts src s d e, reached env opts src s -> decompress env opts src = Ok (d, Some e) ->
    forall before p x after, hist s = before ++ (p, Some x) :: after ->
      p = [] /\ (x = e \/ x = Canceled) /\
      (x = EOF -> bytes_of before = d /\ bytes_of after = []) /\
      (e <> Canceled -> x = Canceled -> bytes_of after = []).
Proof.
  intros env opts src s d e R D h1 p x h2 H.
  destruct (reached_inv R) as (e' & a & b & D' & EO & I & Da & Er & P). rewrite D in D'. injection D' as -> <-.
  destruct (e_hist Er H) as [-> X]. split; auto. split; [tauto|]. split.
  - intros ->. destruct (C39_reads_deliver_in_order R) as (d' & e' & D2 & _ & (rest & PR) & EF). rewrite D in D2. injection D2 as <- <-.
    destruct (EF _ _ _ H) as [_ G]. split; auto. unfold bytes_of in *. rewrite H, flat_map_app, G in PR. cbn in PR.
    rewrite <- app_assoc in PR. rewrite <- (app_nil_r (log_data (a ++ OErr e :: b))) in PR at 2. apply app_inv_head in PR.
    apply app_eq_nil in PR. tauto.
  - intros N ->. destruct (reached_cancel R D N H) as [_ B]. exact B.
Qed.

(** What is not true: the error of a damaged stream is visible before the data
    decoded just before it has been handed over.  A client that reads until the
    first error loses that data; one that reads on gets it after the error. *)
Definition cut_short : list N := [0x4b; 4]%N.     (* raw_a without its last byte *)
Theorem C43_refuted :
  exists s e, reached demo_renv raw_opts [(cut_short, None); ([], Some EOF)] s /\
    hist s = [([], Some e); ([97%N], None)] /\ cls s = [RDone [] (Some e); RDone [97%N] None].
Proof.
  destruct (readThread demo_renv (newReader [(cut_short, None); ([], Some EOF)] raw_opts)) as [r| |] eqn:E; [|vm_compute in E; discriminate|vm_compute in E; discriminate].
  assert (X : exists s1 s e, run_choices (out_cap (reffective raw_opts)) (add_call (fresh (o_log (r_out r))) (RLock1 10))
      (repeat (GoClient 0 0 0) 2 ++ repeat (GoThread 0 0) 4 ++ repeat (GoClient 0 0 0) 3) = Some s1 /\
    run_choices (out_cap (reffective raw_opts)) (add_call s1 (RLock1 10))
      (repeat (GoThread 0 0) 7 ++ [GoThread 1 0] ++ repeat (GoThread 0 0) 2 ++ repeat (GoClient 1 0 0) 4 ++ [GoClient 1 1 0]) = Some s /\
    hist s = [([], Some e); ([97%N], None)] /\ cls s = [RDone [] (Some e); RDone [97%N] None]).
  { vm_compute in E. injection E as <-. eexists _, _, _. split; [vm_compute; reflexivity|]. split; [vm_compute; reflexivity|]. split; reflexivity. }
  destruct X as (s1 & s & e & X1 & X2 & X3 & X4). exists s, e. split; [|auto].
  exists r. split; auto. econstructor; [apply next_call; constructor|]. eapply steps_trans; [eapply run_steps; exact X1|].
  econstructor; [apply next_call; constructor|]. eapply run_steps; exact X2.
Qed.

(** C40 does not extend to Reset calls made concurrently with Read: here Reset
    comes between the two halves of a Read call, which then waits for a
    goroutine that nobody has started. *)
Theorem C40_refuted_with_reset :
  exists s, reached_any demo_renv raw_opts [(raw_a, None); ([], Some EOF)] s /\
    cls s = [RWait 10; ZDone] /\ forall s', ~ step (out_cap (reffective raw_opts)) s s'.
Proof.
  destruct (readThread demo_renv (newReader [(raw_a, None); ([], Some EOF)] raw_opts)) as [r| |] eqn:E; [|vm_compute in E; discriminate|vm_compute in E; discriminate].
  assert (X : exists s1 s, run_choices (out_cap (reffective raw_opts)) (add_call (fresh (o_log (r_out r))) (RLock1 10))
      (repeat (GoClient 0 0 0) 2 ++ repeat (GoThread 0 0) 8 ++ [GoThread 1 0] ++ repeat (GoThread 0 0) 5 ++ [GoDone]) = Some s1 /\
    run_choices (out_cap (reffective raw_opts)) (add_call s1 (ZLock1 []))
      (repeat (GoClient 1 0 0) 3 ++ repeat (GoClient 0 0 0) 3) = Some s /\
    cls s = [RWait 10; ZDone] /\ thr s = None /\ zombies s = 0).
  { vm_compute in E. injection E as <-. eexists _, _. split; [vm_compute; reflexivity|]. split; [vm_compute; reflexivity|]. repeat split. }
  destruct X as (s1 & s & X1 & X2 & X3 & X4 & X5). exists s. split; [|split; auto].
  - exists r. split; auto. econstructor; [apply next_call; constructor|]. eapply steps_trans; [eapply run_steps; exact X1|].
    econstructor; [apply next_call; apply (any_reset [])|]. eapply run_steps; exact X2.
  - clear X1 X2 E r s1. intros s' [c H]. revert H. generalize (out_cap (reffective raw_opts)). intros cap H. destruct s as [m1 m2 e b sta sto es fo t pr z cl h]. cbn in X3, X4, X5. subst. destruct c as [i k j|k j|]; cbn in H; try discriminate.
    destruct i as [|[|i]]; cbn in H; try discriminate. destruct i; discriminate.
Qed.

(** ** C51: what the goroutine hands over before it reads more input.
    A Writer has written "hello" and called Flush(SyncFlush); [sent] is what it
    has sent.  If more input comes (the end of the stream) the first thing the
    goroutine does is to hand over "hello"; if none comes and the source then
    fails, the first thing it does is to report the error.  As the goroutine
    cannot know which it will be before it asks for more input, it has handed
    over nothing when it does, and Read waits for input. *)
Definition sent : list N :=
  match w_run demo_wenv (newWriter [WithFormat RawFormat; WithMemoryLevel 7]) [OWrite [104; 101; 108; 108; 111]%N; OFlush SyncFlush] with
  | Ok (w, _) => sink (w_out w) | _ => [] end.
Theorem C51_refuted :
  (exists w, w_run demo_wenv (newWriter [WithFormat RawFormat; WithMemoryLevel 7]) [OWrite [104; 101; 108; 108; 111]%N; OFlush SyncFlush] = Ok (w, None) /\
     sink (w_out w) = sent) /\
  (exists r e rest, readThread demo_renv (newReader [(sent, None); ([], Some (IOErr 0))] raw_opts) = Ok r /\ o_log (r_out r) = OErr e :: rest) /\
  (exists r rest, readThread demo_renv (newReader [(sent, None); ([3; 0]%N, None); ([], Some EOF)] raw_opts) = Ok r /\
     o_log (r_out r) = OData [104; 101; 108; 108; 111]%N :: rest).
Proof.
  split; [|split].
  - eexists. split; vm_compute; reflexivity.
  - eexists _, _, _. split; vm_compute; reflexivity.
  - eexists _, _. split; vm_compute; reflexivity.
Qed.

(** ** The hypotheses above are met: a run in which two Reads share the data and
    a third one gets io.EOF, and one in which Close finds the goroutine running. *)
Example reached_eof : exists s, reached demo_renv raw_opts [(raw_a, None); ([], Some EOF)] s /\ hist s = [([97%N], None); ([], Some EOF)].
Proof.
  destruct (readThread demo_renv (newReader [(raw_a, None); ([], Some EOF)] raw_opts)) as [r| |] eqn:E; [|vm_compute in E; discriminate|vm_compute in E; discriminate].
  assert (X : exists s1 s, run_choices (out_cap (reffective raw_opts)) (add_call (fresh (o_log (r_out r))) (RLock1 10))
      (repeat (GoClient 0 0 0) 2 ++ repeat (GoThread 0 0) 8 ++ [GoThread 1 0] ++ repeat (GoThread 0 0) 5 ++ repeat (GoClient 0 0 0) 2 ++ [GoClient 0 1 0]) = Some s1 /\
    run_choices (out_cap (reffective raw_opts)) (add_call s1 (RLock1 10)) (repeat (GoClient 1 0 0) 5) = Some s /\ hist s = [([97%N], None); ([], Some EOF)]).
  { vm_compute in E. injection E as <-. eexists _, _. split; [vm_compute; reflexivity|]. split; [vm_compute; reflexivity|]. reflexivity. }
  destruct X as (s1 & s & X1 & X2 & X3). exists s. split; [|auto].
  exists r. split; auto. econstructor; [apply next_call; constructor|]. eapply steps_trans; [eapply run_steps; exact X1|].
  econstructor; [apply next_call; constructor|]. eapply run_steps; exact X2.
Qed.
Example reached_close : exists s, reached demo_renv small_opts [(raw_300, None); ([], Some EOF)] s /\
  nth_error (cls s) 1 = Some CTest /\ started s = true /\ stopped s = false /\
  exists s2, steps (next (out_cap (reffective small_opts)) reads_and_closes) s s2 /\ nth_error (cls s2) 1 = Some CDone.
Proof.
  destruct (readThread demo_renv (newReader [(raw_300, None); ([], Some EOF)] small_opts)) as [r| |] eqn:E; [|vm_compute in E; discriminate|vm_compute in E; discriminate].
  assert (X : exists s1 s s2, run_choices (out_cap (reffective small_opts)) (add_call (fresh (o_log (r_out r))) (RLock1 1)) one_byte = Some s1 /\
    run_choices (out_cap (reffective small_opts)) (add_call s1 CLock1) [GoClient 1 0 0] = Some s /\
    nth_error (cls s) 1 = Some CTest /\ started s = true /\ stopped s = false /\
    run_choices (out_cap (reffective small_opts)) s (repeat (GoClient 1 0 0) 4 ++ repeat (GoThread 0 0) 7 ++ [GoDone] ++ repeat (GoClient 1 0 0) 3) = Some s2 /\
    nth_error (cls s2) 1 = Some CDone).
  { vm_compute in E. injection E as <-. eexists _, _, _. split; [vm_compute; reflexivity|]. split; [vm_compute; reflexivity|]. split; [reflexivity|]. split; [reflexivity|].
    split; [reflexivity|]. split; [vm_compute; reflexivity|]. reflexivity. }
  destruct X as (s1 & s & s2 & X1 & X2 & X3 & X4 & X5 & X6 & X7). exists s. split; [|split; [auto|split; [auto|split; [auto|]]]].
  - exists r. split; auto. econstructor; [apply next_call; constructor|]. eapply steps_trans; [eapply run_steps; exact X1|].
    econstructor; [apply next_call; exact call_close|]. eapply run_steps; exact X2.
  - exists s2. split; auto. eapply run_steps. exact X6.
Qed.
