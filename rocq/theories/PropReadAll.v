(** C58: Read obeys the io.Reader contract, and reading until an error gives
    the whole of the data.  For every input, every schedule. *)
From Coq Require Import Permutation.
From Verif Require Import Base SpecChecksum MToken MCommon MWriter MReader SpecReader SpecLib PRead PLog MSession MConc PConc PConc2 PConc3 PConc4 PConc5 PConc6 PConc7 Demo PDemo PropReader PropReader3 SpecSession PropConc.

Lemma bundle env opts src r : readThread env (newReader src opts) = Ok r ->
  exists d e a b, decompress env opts src = Ok (d, Some e) /\ d = log_data (a ++ OErr e :: b) /\ data_only b /\
  let s := fresh (o_log (r_out r)) in
  PConc.Inv (out_cap (reffective opts)) s /\ Dat d s /\ Er a b e s.
Proof.
  intros E. destruct (log_of E) as (e & a & b & D & L & Ha & Hb & He). pose proof (out_cap_pos (reffective opts)) as Hc.
  exists (log_data (a ++ OErr e :: b)), e, a, b. split; auto. split; auto. split; auto. rewrite L. cbn zeta. split; [|split].
  - apply (inv_fresh Hc). apply has_err_mid.
  - apply dat_fresh; auto.
  - exact (er_fresh Hc b e Ha).
Qed.
Lemma bundle_next ocap a b e s s' : (0 < ocap)%N -> data_only b -> PConc.Inv ocap s -> Dat (log_data (a ++ OErr e :: b)) s -> Er a b e s ->
  next ocap reads_and_closes s s' -> PConc.Inv ocap s' /\ Dat (log_data (a ++ OErr e :: b)) s' /\ Er a b e s'.
Proof.
  intros Hc Hb I D E X. split; [eapply inv_next; eauto|]. split; [|eapply er_next; eauto]. destruct X; eauto using dat_step, dat_call.
Qed.

(** ** The contract of one call *)
(** A Read(p) with [length p = n], among any number of concurrent Read and Close
    calls: it returns at most [n] bytes; no bytes with an error; and neither
    bytes nor error only if [n = 0]. *)
Theorem C58_read_contract :
  forall env opts src s1 i n s2 p e, reached env opts src s1 ->
    nth_error (cls s1) i = Some (RLock1 n) ->                                                     (* a call of Read(p), len(p) = n ... *)
    steps (next (out_cap (reffective opts)) reads_and_closes) s1 s2 ->
    nth_error (cls s2) i = Some (RDone p e) ->                                                    (* ... and its result *)
    length p <= n /\ (e <> None -> p = []) /\ (p = [] -> e = None -> n = 0).
Proof.
  intros env opts src s1 i n s2 p e (r & ET & H1) C1 H2 C2.
  destruct (bundle ET) as (d & e0 & a & b & _ & -> & Hb & I0 & D0 & E0). pose proof (out_cap_pos (reffective opts)) as Hc.
  assert (B1 : PConc.Inv (out_cap (reffective opts)) s1 /\ Dat (log_data (a ++ OErr e0 :: b)) s1 /\ Er a b e0 s1).
  { clear - Hc Hb I0 D0 E0 H1. induction H1 as [|x y z X H IH]; auto. destruct (bundle_next Hc Hb I0 D0 E0 X) as (I & D & E). auto. }
  clear I0 D0 E0 H1 ET. destruct B1 as (I & D & E).
  assert (K : exists c, nth_error (cls s2) i = Some c /\ rd n c).
  { assert (K1 : exists c, nth_error (cls s1) i = Some c /\ rd n c) by (exists (RLock1 n); cbn; auto). clear C1 C2.
    induction H2 as [|x y z X H IH]; auto. destruct (bundle_next Hc Hb I D E X) as (I' & D' & E'). apply IH; auto.
    destruct K1 as (c & K1 & K2). destruct X as [y X|c' X]; [eapply (keeps_step (e_take E) X); eauto|eapply keeps_call; eauto]. }
  destruct K as (c & K1 & K2). rewrite C2 in K1. injection K1 as <-. exact K2.
Qed.
Print Assumptions C58_read_contract.

(** ** Reading until an error *)
(** A client that calls Read(p) with [length p = n] again and again, each time
    after the previous call has returned without an error: [s] is a state after
    [k] such calls, which have returned [acc] in all.  Meanwhile the goroutine
    of the Reader runs as it likes. *)
Inductive reading (ocap : N) (n : nat) (s0 : st) : nat -> list N -> st -> Prop :=
| reading_none : reading ocap n s0 0 [] s0
| reading_more k acc s s' p : reading ocap n s0 k acc s ->
    steps (step ocap) (add_call s (RLock1 n)) s' ->
    nth_error (cls s') (length (cls s)) = Some (RDone p None) ->
    reading ocap n s0 (S k) (acc ++ p) s'.

Lemma call_steps ocap s c s' : reads_only c -> steps (step ocap) (add_call s c) s' -> steps (next ocap reads_only) s s'.
Proof.
  intros Hc H. econstructor; [apply next_call; exact Hc|]. revert H. apply steps_mono. intros. apply next_step; auto.
Qed.

Lemma cls_length ocap s s' : step ocap s s' -> length (cls s') = length (cls s).
Proof.
  intros [c H]. destruct s as [m1 m2 e b sta sto es fo t pr z cl h]. cbn. destruct c as [q k j|k j|]; cbn in H.
  - destruct (nth_error cl q) as [c|] eqn:E; [|discriminate].
    destruct c; cbn in H; try discriminate; unfold mu_lock in H;
      try (destruct m1; [discriminate|]); try (destruct m2; [discriminate|]);
      try (injection H as <-; cbn; rewrite ?upd_length, ?map_length; auto; fail).
    + destruct e as [e|]; [|destruct b as [|b0 b]]; injection H as <-; cbn; apply upd_length.
    + destruct e as [e|]; [|destruct b as [|b0 b]]; injection H as <-; cbn; apply upd_length.
    + destruct b as [|b0 b]; [injection H as <-; cbn; apply upd_length|]. destruct (_ && _) in H; [|discriminate].
      destruct (is_nil _); [injection H as <-; cbn -[firstn]; apply upd_length|].
      destruct (signal1 _ _) as [cl'|] eqn:ES; [|discriminate]. injection H as <-. cbn -[firstn].
      destruct (signal1_facts ES) as [[-> _]|(m & X & ->)]; rewrite ?upd_length; auto.
    + destruct t; [discriminate|]. destruct z; [|discriminate]. injection H as <-. cbn. apply upd_length.
    + destruct (sta && negb sto); injection H as <-; cbn; apply upd_length.
  - destruct t as [tc|]; [|discriminate].
    destruct tc; cbn in H; try discriminate; unfold mu_lock in H; try (destruct m1; [discriminate|]); try (destruct m2; [discriminate|]);
      try (injection H as <-; cbn; rewrite ?map_length; auto; fail).
    + destruct pr as [|[]]; injection H as <-; cbn; auto.
    + destruct p; injection H as <-; cbn; auto.
    + destruct (_ =? 0); [injection H as <-; cbn; auto|]. destruct (_ && _) in H; [|discriminate].
      destruct (signal1 _ _) as [cl'|] eqn:ES; [|discriminate]. injection H as <-. cbn.
      destruct (signal1_facts ES) as [[-> _]|(m & X & ->)]; rewrite ?upd_length; auto.
  - destruct z as [|z]; [discriminate|]. injection H as <-. auto.
Qed.
Lemma cls_length_steps ocap s s' : steps (step ocap) s s' -> length (cls s') = length (cls s).
Proof. induction 1 as [|x y z X H IH]; auto. rewrite IH. eapply cls_length; eauto. Qed.

(** The history of the results grows by the result of the one call. *)
Lemma hist_prefix ocap s s' : step ocap s s' -> exists l, hist s' = hist s ++ l.
Proof.
  intros [c H]. destruct s as [m1 m2 e b sta sto es fo t pr z cl h]. cbn. destruct c as [q k j|k j|]; cbn in H.
  - destruct (nth_error cl q) as [c|] eqn:E; [|discriminate].
    destruct c; cbn in H; try discriminate; unfold mu_lock in H;
      try (destruct m1; [discriminate|]); try (destruct m2; [discriminate|]);
      try (injection H as <-; exists []; cbn; rewrite app_nil_r; auto; fail).
    + destruct e as [e|]; [|destruct b as [|b0 b]]; injection H as <-; exists []; cbn; rewrite app_nil_r; auto.
    + destruct e as [e|]; [|destruct b as [|b0 b]]; injection H as <-; exists []; cbn; rewrite app_nil_r; auto.
    + destruct b as [|b0 b]; [injection H as <-; cbn; eauto|]. destruct (_ && _) in H; [|discriminate].
      destruct (is_nil _); [injection H as <-; cbn -[firstn]; eauto|].
      destruct (signal1 _ _) as [cl'|] eqn:ES; [|discriminate]. injection H as <-. cbn -[firstn]. eauto.
    + destruct t; [discriminate|]. destruct z; [|discriminate]. injection H as <-. exists []; cbn; rewrite app_nil_r; auto.
    + destruct (sta && negb sto); injection H as <-; exists []; cbn; rewrite app_nil_r; auto.
  - destruct t as [tc|]; [|discriminate]. exists []. rewrite app_nil_r.
    destruct tc; cbn in H; try discriminate; unfold mu_lock in H; try (destruct m1; [discriminate|]); try (destruct m2; [discriminate|]);
      try (injection H as <-; cbn; auto; fail).
    + destruct pr as [|[]]; injection H as <-; cbn; auto.
    + destruct p; injection H as <-; cbn; auto.
    + destruct (_ =? 0); [injection H as <-; cbn; auto|]. destruct (_ && _) in H; [|discriminate].
      destruct (signal1 _ _) as [cl'|] eqn:ES; [|discriminate]. injection H as <-. cbn. auto.
  - destruct z as [|z]; [discriminate|]. injection H as <-. exists []; cbn; rewrite app_nil_r; auto.
Qed.
Lemma hist_prefix_steps ocap s s' : steps (step ocap) s s' -> exists l, hist s' = hist s ++ l.
Proof.
  induction 1 as [s|x y z X H [l IH]]; [exists []; now rewrite app_nil_r|]. destruct (hist_prefix X) as [l' E]. exists (l' ++ l). rewrite IH, E. now rewrite app_assoc.
Qed.

Record calm (ocap : N) (a b : list outact) (e : goerr) (s : st) : Prop := {
  z_inv : PConc.Inv ocap s; z_dat : Dat (log_data (a ++ OErr e :: b)) s; z_er : Er a b e s; z_quiet : quiet e s;
  z_res : Permutation (results (cls s)) (hist s) }.
Lemma calm_step ocap a b e s s' : (0 < ocap)%N -> data_only b -> calm ocap a b e s -> next ocap reads_only s s' -> calm ocap a b e s'.
Proof.
  intros Hc Hb [I D E Q R] X. destruct (@bundle_next ocap a b e s s' Hc Hb I D E (next_mono ro_rc X)) as (I' & D' & E').
  assert (Q' : quiet e s') by exact (quiet_next E Q X).
  assert (X' : next ocap any_call s s') by (revert X; apply next_mono; intros c []; constructor).
  pose proof (results_next X' R) as R'. constructor; auto.
Qed.
Lemma calm_steps ocap a b e s s' : (0 < ocap)%N -> data_only b -> calm ocap a b e s -> steps (next ocap reads_only) s s' -> calm ocap a b e s'.
Proof. intros Hc Hb C H. induction H; auto. apply IHsteps. eapply calm_step; eauto. Qed.

Lemma list_ext {A} (l l' : list A) : (forall i, nth_error l i = nth_error l' i) -> l = l'.
Proof.
  revert l'. induction l as [|x l IH]; intros [|y l'] H; auto.
  - specialize (H 0). discriminate.
  - specialize (H 0). discriminate.
  - pose proof (H 0) as H0. cbn in H0. injection H0 as ->. f_equal. apply IH. intros i. apply (H (S i)).
Qed.
(** one more call *)
Lemma one_call ocap a b e s n s' p x : (0 < ocap)%N -> data_only b -> calm ocap a b e s -> Forall returned (cls s) ->
  steps (step ocap) (add_call s (RLock1 n)) s' -> nth_error (cls s') (length (cls s)) = Some (RDone p x) ->
  calm ocap a b e s' /\ cls s' = cls s ++ [RDone p x] /\ hist s' = hist s ++ [(p, x)].
Proof.
  intros Hc Hb C R H N. pose proof (calm_steps Hc Hb C (call_steps (only_read n) H)) as C'. split; auto.
  assert (EC : cls s' = cls s ++ [RDone p x]).
  { assert (L : length (cls s') = S (length (cls s))).
    { rewrite (cls_length_steps H). destruct s. cbn. rewrite app_length. cbn. lia. }
    assert (K : forall i c, nth_error (cls s) i = Some c -> nth_error (cls s') i = Some c).
    { intros i c E. eapply (@returned_steps ocap reads_only (add_call s (RLock1 n))).
      - revert H. apply steps_mono. intros. apply next_step; auto.
      - destruct s. cbn in *. rewrite nth_error_app1; auto. apply nth_error_Some. congruence.
      - apply nth_error_In in E. rewrite Forall_forall in R. auto. }
    clear - L K N. apply list_ext. intros i. destruct (Nat.lt_trichotomy i (length (cls s))) as [Li|[->|Li]].
    - rewrite nth_error_app1 by auto. destruct (nth_error (cls s) i) as [c|] eqn:E; [auto|]. apply nth_error_None in E. lia.
    - rewrite N, nth_error_app2 by auto. now rewrite Nat.sub_diag.
    - rewrite (proj2 (nth_error_None _ _)) by lia. rewrite (proj2 (nth_error_None _ _)); auto. rewrite app_length. cbn. lia. }
  split; auto. destruct (hist_prefix_steps H) as [l EH]. assert (E0 : hist (add_call s (RLock1 n)) = hist s) by (destruct s; auto). rewrite E0 in EH.
  pose proof (z_res C) as P1. pose proof (z_res C') as P2. rewrite EC, results_app, EH in P2. cbn [results flat_map result_of app] in P2.
  assert (P3 : Permutation (hist s ++ [(p, x)]) (hist s ++ l)) by (rewrite <- P2; apply Permutation_app_tail; symmetry; exact P1).
  apply Permutation_app_inv_l in P3. apply Permutation_length_1_inv in P3. rewrite EH, P3. auto.
Qed.

Lemma call_result ocap a b e s n s' : (0 < ocap)%N -> data_only b -> calm ocap a b e s -> steps (step ocap) (add_call s (RLock1 n)) s' ->
  exists c, nth_error (cls s') (length (cls s)) = Some c /\ rd n c.
Proof.
  intros Hc Hb C H.
  assert (Ca : calm ocap a b e (add_call s (RLock1 n))) by (eapply calm_step; eauto; apply next_call; constructor).
  assert (K1 : exists c, nth_error (cls (add_call s (RLock1 n))) (length (cls s)) = Some c /\ rd n c).
  { exists (RLock1 n). destruct s; cbn. rewrite nth_error_app2 by auto. rewrite Nat.sub_diag. cbn; auto. }
  clear - H Ca K1 Hc Hb. revert Ca K1. generalize (length (cls s)). intros i Ca K1. induction H as [|x y z X H IH]; auto.
  apply IH; [eapply calm_step; eauto; apply next_step; eauto|]. destruct K1 as (c & K1 & K2).
  eapply (keeps_step (e_take (z_er Ca)) X); eauto.
Qed.
Lemma reading_calm ocap a b e n s0 k acc s : (0 < ocap)%N -> data_only b -> 0 < n -> calm ocap a b e s0 -> cls s0 = [] -> hist s0 = [] ->
  reading ocap n s0 k acc s -> calm ocap a b e s /\ Forall returned (cls s) /\ bytes_of (hist s) = acc /\ k <= length acc /\
    steps (next ocap reads_only) s0 s.
Proof.
  intros Hc Hb Hn C0 E0 H0. induction 1 as [|k acc s s' p HR (C & R & B & L & S0) H N].
  - split; auto. rewrite E0, H0. cbn. repeat split; auto; constructor.
  - destruct (one_call Hc Hb C R H N) as (C' & EC & EH).
    assert (NE : p <> []).
    { intros ->. assert (K : exists c, nth_error (cls s') (length (cls s)) = Some c /\ rd n c) by (eapply call_result; eauto).
      destruct K as (c & K1 & K2). rewrite N in K1. injection K1 as <-. destruct K2 as (_ & _ & K2). specialize (K2 eq_refl eq_refl). lia. }
    split; auto. split; [rewrite EC; apply Forall_app; split; auto; repeat constructor|].
    split; [rewrite EH; unfold bytes_of in *; rewrite flat_map_app, B; cbn; now rewrite app_nil_r|].
    split; [rewrite app_length; destruct p; [congruence|cbn; lia]|].
    eapply steps_trans; [exact S0|]. apply (call_steps (only_read n)). exact H.
Qed.

(** Such a client: what it has got is a prefix of the data, after at most one
    call per byte; its next call returns, whatever the schedule; that call
    returns more data or the error with which the decompression ends; and if
    that error is io.EOF, the client has got all of the data. *)
Theorem C58_read_all :
  forall env opts src n d e r k acc s, 0 < n ->
    readThread env (newReader src opts) = Ok r -> decompress env opts src = Ok (d, Some e) ->
    reading (out_cap (reffective opts)) n (fresh (o_log (r_out r))) k acc s ->
    (exists rest, acc ++ rest = d) /\ k <= length d /\
    (* the next call returns ... *)
    Acc (fun later now => step (out_cap (reffective opts)) now later) (add_call s (RLock1 n)) /\
    (forall s', steps (step (out_cap (reffective opts))) (add_call s (RLock1 n)) s' -> (forall s'', ~ step (out_cap (reffective opts)) s' s'') ->
       exists p x, nth_error (cls s') (length (cls s)) = Some (RDone p x)) /\
    (* ... and its result *)
    (forall s' p x, steps (step (out_cap (reffective opts))) (add_call s (RLock1 n)) s' -> nth_error (cls s') (length (cls s)) = Some (RDone p x) ->
       match x with
       | None => p <> [] /\ exists rest, acc ++ p ++ rest = d
       | Some y => p = [] /\ y = e /\ (e = EOF -> acc = d)
       end).
Proof.
  intros env opts src n d e r k acc s Hn ET ED HR.
  destruct (bundle ET) as (d' & e' & a & b & ED' & Ed & Hb & I0 & D0 & E0). rewrite ED in ED'. injection ED' as <- <-.
  pose proof (out_cap_pos (reffective opts)) as Hc. set (ocap := out_cap (reffective opts)) in *.
  assert (HRE : forall s1, steps (next ocap reads_only) (fresh (o_log (r_out r))) s1 -> reached env opts src s1).
  { intros s1 H. exists r. split; auto. revert H. apply steps_mono. intros x y. apply next_mono. apply ro_rc. }
  clearbody ocap.
  assert (C0 : calm ocap a b e (fresh (o_log (r_out r)))).
  { subst d. constructor; auto; constructor; cbn; auto. }
  destruct (reading_calm Hc Hb Hn C0 eq_refl eq_refl HR) as (C & R & B & L & SR).
  assert (PR : forall s1, calm ocap a b e s1 -> exists rest, bytes_of (hist s1) ++ rest = d).
  { intros s1 C1. destruct (d_pre (z_dat C1)) as [rest P]. subst d. exists (obuf s1 ++ rest). exact P. }
  destruct (PR s C) as [rest PRs]. rewrite B in PRs.
  assert (Ca : calm ocap a b e (add_call s (RLock1 n))) by (eapply calm_step; eauto; apply next_call; constructor).
  split; [eauto|]. split; [rewrite <- PRs, app_length; lia|]. split; [eapply terminates; eauto; apply (z_inv Ca)|]. split.
  - intros s' H N.
    assert (C' : calm ocap a b e s') by exact (calm_steps Hc Hb C (call_steps (only_read n) H)).
    pose proof (no_deadlock Hc (z_inv C') N) as RR.
    assert (Li : length (cls s) < length (cls s')).
    { rewrite (cls_length_steps H). destruct s. cbn. rewrite app_length. cbn. lia. }
    destruct (nth_error (cls s') (length (cls s))) as [c|] eqn:EN; [|apply nth_error_None in EN; lia].
    assert (K : is_read c /\ returned c).
    { apply nth_error_In in EN. split; [pose proof (q_reads (z_quiet C')) as Q; rewrite Forall_forall in Q; auto|rewrite Forall_forall in RR; auto]. }
    destruct K as [K1 K2]. destruct c; cbn in K1, K2; try contradiction. eauto.
  - intros s' p x H N. destruct (one_call Hc Hb C R H N) as (C' & EC & EH). destruct x as [y|].
    + destruct (e_hist (z_er C') EH) as [-> K]. split; auto.
      pose proof (q_hist (z_quiet C')) as Q. rewrite EH in Q. apply Forall_app in Q as [_ Q]. inversion Q as [|? ? Q1 _]; subst. cbn in Q1.
      destruct Q1 as [Q1|Q1]; [discriminate|]. injection Q1 as ->. split; auto. intros ->.
      assert (HR' : reached env opts src s') by (apply HRE; eapply steps_trans; [exact SR|]; apply (call_steps (only_read n)); exact H).
      destruct (C39_reads_deliver_in_order HR') as (d' & e' & ED' & _ & _ & F). rewrite ED in ED'. injection ED' as <-.
      destruct (F _ _ _ EH) as [_ G]. congruence.
    + assert (HR' : reading ocap n (fresh (o_log (r_out r))) (S k) (acc ++ p) s') by (econstructor; eauto).
      destruct (reading_calm Hc Hb Hn C0 eq_refl eq_refl HR') as (_ & _ & B' & _).
      destruct (PR s' C') as [rest' PRs']. rewrite B', <- app_assoc in PRs'. split; [|eauto].
      intros ->. assert (K : exists c, nth_error (cls s') (length (cls s)) = Some c /\ rd n c).
      { eapply call_result; eauto. }
      destruct K as (c & K1 & K2). rewrite N in K1. injection K1 as <-. destruct K2 as (_ & _ & K2). specialize (K2 eq_refl eq_refl). lia.
Qed.
Print Assumptions C58_read_all.

(** A client that has read one byte of 300. *)
Example C58_example : exists r d s, readThread demo_renv (newReader [(raw_300, None); ([], Some EOF)] small_opts) = Ok r /\
  decompress demo_renv small_opts [(raw_300, None); ([], Some EOF)] = Ok (d, Some EOF) /\
  reading (out_cap (reffective small_opts)) 1 (fresh (o_log (r_out r))) 1 [97%N] s.
Proof.
  destruct (readThread demo_renv (newReader [(raw_300, None); ([], Some EOF)] small_opts)) as [r| |] eqn:E; [|vm_compute in E; discriminate|vm_compute in E; discriminate].
  destruct (decompress demo_renv small_opts [(raw_300, None); ([], Some EOF)]) as [[d x]| |] eqn:ED; [|vm_compute in ED; discriminate|vm_compute in ED; discriminate].
  assert (EX : match decompress demo_renv small_opts [(raw_300, None); ([], Some EOF)] with Ok (_, y) => y | _ => None end = Some EOF) by (vm_compute; reflexivity).
  rewrite ED in EX. subst x.
  assert (X : exists s, run_choices (out_cap (reffective small_opts)) (add_call (fresh (o_log (r_out r))) (RLock1 1)) one_byte = Some s /\ cls s = [RDone [97%N] None]).
  { clear ED. vm_compute in E. injection E as <-. eexists. split; [vm_compute; reflexivity|reflexivity]. }
  destruct X as (s & S1 & S2). exists r, d, s. split; auto. split; auto.
  change [97%N] with ([] ++ [97%N]). econstructor; [constructor| |rewrite S2; reflexivity].
  clear - S1. revert S1. generalize (add_call (fresh (o_log (r_out r))) (RLock1 1)). generalize one_byte.
  induction l as [|c l IH]; cbn [run_choices]; intros s0 H; [injection H as <-; constructor|].
  destruct (sched (out_cap (reffective small_opts)) s0 c) as [s1|] eqn:Es; [|discriminate]. econstructor; [exists c; exact Es|auto].
Qed.
