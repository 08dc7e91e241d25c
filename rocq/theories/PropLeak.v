(** C78: whether a goroutine is left behind when the client has read to the end
    (without calling Close). *)
From Coq Require Import Permutation.
From Verif Require Import Base SpecChecksum MToken MCommon MWriter MReader SpecReader SpecLib PRead PLog MSession MConc PConc PConc2 PConc3 PConc4 PConc5 PConc6 Demo PropReader PropReader3 SpecSession PropConc PropMemory PropBlocked.

(** Nothing can move any more: all calls have returned, the goroutine has ended or waits. *)
Definition quiescent (ocap : N) (s : st) : Prop := forall s', ~ step ocap s s'.

Lemma thread_rest ocap s : PConc.Inv ocap s -> quiescent ocap s -> zombies s = 0 /\ (thr s = None \/ exists p, thr s = Some (TWait p)).
Proof.
  intros I N.
  assert (NC : forall i c, nth_error (cls s) i = Some c -> ~ ready s c) by (intros i c E R; destruct (@ready_step ocap s i c E R) as [s' X]; exact (N s' X)).
  assert (NT : forall c, thr s = Some c -> ~ tready s c) by (intros c E R; destruct (@tready_step ocap s c I E R) as [s' X]; exact (N s' X)).
  assert (NZ : zombies s = 0).
  { destruct s as [m1 m2 e b sta sto es fo t pr [|z] cl h]; auto. exfalso. eapply N. exists GoDone. reflexivity. }
  split; auto.
  pose proof (i_mu1 I) as M1. pose proof (i_mu2 I) as M2. pose proof (i_noz I) as Z.
  assert (NoZ : forall i c, nth_error (cls s) i = Some c -> cz c = 0) by (intros i c E; pose proof (cnt_in cz E); lia).
  assert (m2 : mu2 s = false).
  { destruct (mu2 s) eqn:EM; auto. exfalso. cbn in M2. destruct (t2 (thr s)) eqn:ET.
    - destruct (@cnt_pos c2 (cls s)) as (i & c & E & P); [lia|]. apply (NC _ _ E). pose proof (NoZ _ _ E). destruct c; cbn in *; auto; lia.
    - destruct (thr s) as [c|] eqn:E; [|discriminate]. apply (NT c eq_refl). destruct c; cbn in *; auto; discriminate. }
  assert (m1 : mu1 s = false).
  { destruct (mu1 s) eqn:EM; auto. exfalso. cbn in M1. destruct (t1 (thr s)) eqn:ET.
    - destruct (@cnt_pos c1 (cls s)) as (i & c & E & P); [lia|]. apply (NC _ _ E). pose proof (NoZ _ _ E). destruct c; cbn in *; auto; lia.
    - destruct (thr s) as [c|] eqn:E; [|discriminate]. apply (NT c eq_refl). destruct c; cbn in *; auto; discriminate. }
  destruct (thr s) as [c|] eqn:E; auto. right. specialize (NT c eq_refl). destruct c; cbn in *; eauto; exfalso; auto.
Qed.

(** When everything has come to rest, a goroutine is left only if part of the
    decompressed data has not been read. *)
Theorem C78_left_only_with_unread_data :
  forall env opts src s, reached env opts src s -> quiescent (out_cap (reffective opts)) s ->
    Forall returned (cls s) /\ zombies s = 0 /\
    (thr s = None \/ exists unread e, unread <> [] /\ decompress env opts src = Ok (bytes_of (hist s) ++ unread, Some e)).
Proof.
  intros env opts src s R N. destruct (reached_inv R) as (e & a & b & E & EO & I & D & Er & P).
  destruct (thread_rest I N) as [Z T]. split; [apply (proj2 (C40_no_lost_wakeup R) s (steps_refl _ s) N)|]. split; auto. destruct T as [T|[p T]]; auto. right.
  assert (NB : obuf s <> []) by (apply (i_twait I); rewrite T; reflexivity).
  destruct (d_all D) as [[C|C]|C]; [destruct (i_cancel I C); congruence|destruct (i_cancel2 I C); congruence|].
  exists (obuf s ++ pend (thr s) ++ log_data (prog s)), e. split; [destruct (obuf s); [congruence|discriminate]|]. rewrite E, <- C. reflexivity.
Qed.
(** A client that reads until io.EOF leaves no goroutine behind: whatever the
    schedule, and whatever Read and Close calls follow, when everything has come
    to rest it has ended. *)
Theorem C78_no_goroutine_left_after_eof :
  forall env opts src s s', reached env opts src s -> In ([], Some EOF) (hist s) ->
    steps (next (out_cap (reffective opts)) reads_and_closes) s s' -> quiescent (out_cap (reffective opts)) s' ->
    thr s' = None /\ zombies s' = 0.
Proof.
  intros env opts src s s' R H S N.
  assert (R' : reached env opts src s') by (destruct R as [r [R1 R2]]; exists r; split; auto; eapply steps_trans; eauto).
  assert (H' : In ([], Some EOF) (hist s')).
  { clear N R'. induction S as [|s1 s2 s3 X Y IH]; auto. destruct (reached_inv R) as (_ & _ & _ & _ & _ & I & _).
    apply IH; [destruct R as [r [R1 R2]]; exists r; split; auto; eapply steps_trans; [exact R2|econstructor; [exact X|constructor]]|].
    destruct (hist_grows X I) as [G|[[q G]|(_ & G & _)]]; rewrite G; auto; apply in_or_app; auto. }
  destruct (C78_left_only_with_unread_data R' N) as [_ [Z [T|[u [e [NU D]]]]]]; auto. exfalso.
  apply in_split in H'. destruct H' as [h1 [h2 H']]. destruct (C39_reads_deliver_in_order R') as [d [e' [D' [_ [[rest Q] K]]]]]. rewrite D in D'. injection D' as D' _.
  destruct (K h1 [] h2 H') as [_ K1]. rewrite H' in D'. unfold bytes_of in *. rewrite flat_map_app in D'. cbn [flat_map fst app] in D'. rewrite <- K1, <- app_assoc in D'.
  rewrite <- app_nil_r in D'. apply app_inv_head in D'. apply app_eq_nil in D'. destruct D' as [_ D']. congruence.
Qed.

(** It is not so after another error.  This stream is damaged (its first byte is
    an undecodable block header); the goroutine reports the damage, goes on
    decoding what follows, and blocks for ever on the data nobody wants: the
    client has got its error and no call is in progress.  (Close would end the
    goroutine: C42.) *)
Definition damaged_300 : list N := 7%N :: raw_300.
Theorem C78_refuted :
  exists s o x c, reached demo_renv small_opts [(damaged_300, None); ([], Some EOF)] s /\
    hist s = [([], Some (CorruptInputError o x c))] /\ cls s = [RDone [] (Some (CorruptInputError o x c))] /\
    quiescent (out_cap (reffective small_opts)) s /\ thr s <> None.
Proof.
  destruct (readThread demo_renv (newReader [(damaged_300, None); ([], Some EOF)] small_opts)) as [r| |] eqn:E; [|vm_compute in E; discriminate|vm_compute in E; discriminate].
  assert (X : exists s p o x c, run_choices (out_cap (reffective small_opts)) (add_call (fresh (o_log (r_out r))) (RLock1 10))
      (repeat (GoClient 0 0 0) 2 ++ repeat (GoThread 0 0) 4 ++ repeat (GoClient 0 0 0) 3 ++ repeat (GoThread 128 0) 13) = Some s /\
    thr s = Some (TWait p) /\ zombies s = 0 /\ hist s = [([], Some (CorruptInputError o x c))] /\ cls s = [RDone [] (Some (CorruptInputError o x c))]).
  { vm_compute in E. injection E as <-. eexists _, _, _, _, _. split; [vm_compute; reflexivity|]. repeat split. }
  destruct X as (s & p & o & x & c0 & X1 & X2 & X3 & X4 & X5). exists s, o, x, c0.
  split; [exists r; split; auto; econstructor; [apply next_call; constructor|]; eapply run_steps; exact X1|].
  split; auto. split; auto. split; [|rewrite X2; discriminate].
  clear X1 E r. intros s' [c H]. revert H. generalize (out_cap (reffective small_opts)). intros cap H.
  destruct s as [m1 m2 e0 b sta sto es fo t pr z cl h]. cbn in X2, X3, X4, X5. subst. destruct c as [i k j|k j|]; cbn in H; try discriminate.
  destruct i as [|i]; cbn in H; try discriminate. destruct i; discriminate.
Qed.

(** The hypotheses of [C78_no_goroutine_left_after_eof] are met: a client reads "a",
    then io.EOF, and everything has come to rest. *)
Theorem C78_met : exists s, reached demo_renv raw_opts [(raw_a, None); ([], Some EOF)] s /\
  In ([], Some EOF) (hist s) /\ quiescent (out_cap (reffective raw_opts)) s.
Proof.
  destruct (readThread demo_renv (newReader [(raw_a, None); ([], Some EOF)] raw_opts)) as [r| |] eqn:E; [|vm_compute in E; discriminate|vm_compute in E; discriminate].
  assert (X : exists s1 s, run_choices (out_cap (reffective raw_opts)) (add_call (fresh (o_log (r_out r))) (RLock1 10))
      (repeat (GoClient 0 0 0) 2 ++ repeat (GoThread 0 0) 8 ++ [GoThread 1 0] ++ repeat (GoThread 0 0) 5 ++ [GoDone] ++ repeat (GoClient 0 0 0) 2 ++ [GoClient 0 1 0]) = Some s1 /\
    run_choices (out_cap (reffective raw_opts)) (add_call s1 (RLock1 10)) (repeat (GoClient 1 0 0) 5) = Some s /\ hist s = [([97%N], None); ([], Some EOF)] /\
    thr s = None /\ zombies s = 0 /\ cls s = [RDone [97%N] None; RDone [] (Some EOF)]).
  { vm_compute in E. injection E as <-. eexists _, _. split; [vm_compute; reflexivity|]. split; [vm_compute; reflexivity|]. repeat split. }
  destruct X as (s1 & s & X1 & X2 & X3 & X4 & X5 & X6). exists s. split; [|split].
  - exists r. split; auto. econstructor; [apply next_call; constructor|]. eapply steps_trans; [eapply run_steps; exact X1|].
    econstructor; [apply next_call; constructor|]. eapply run_steps; exact X2.
  - rewrite X3. right. left. reflexivity.
  - clear X1 X2 E r s1. intros s' [c H]. revert H. generalize (out_cap (reffective raw_opts)). intros cap H.
    destruct s as [m1 m2 e0 b sta sto es fo t pr z cl h]. cbn in X3, X4, X5, X6. subst. destruct c as [i k j|k j|]; cbn in H; try discriminate.
    destruct i as [|[|i]]; cbn in H; try discriminate. destruct i; discriminate.
Qed.
