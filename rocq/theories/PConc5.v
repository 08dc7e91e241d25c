(** Order of data and errors, and the goroutine after Close, for the concurrent Reader. *)
From Coq Require Import Permutation.
From Verif Require Import Base MCommon MReader MConc PConc PConc2 PConc4 PLog.

(** ** The results of the calls that have returned are those in [hist] *)
Definition result_of (c : cpc) : list (list N * option goerr) := match c with RDone p e => [(p, e)] | _ => [] end.
Definition results (l : list cpc) : list (list N * option goerr) := flat_map result_of l.
Lemma results_app a b : results (a ++ b) = results a ++ results b. Proof. apply flat_map_app. Qed.
Lemma results_upd l i c c' : nth_error l i = Some c -> result_of c = [] -> Permutation (results (upd l i c')) (results l ++ result_of c').
Proof.
  revert i; induction l as [|a l IH]; intros [|i] H Z; cbn in *; try discriminate.
  - injection H as ->. rewrite Z. cbn. apply Permutation_app_comm.
  - rewrite <- app_assoc. apply Permutation_app_head. apply IH; auto.
Qed.
Lemma results_upd0 l i c c' : nth_error l i = Some c -> result_of c = [] -> result_of c' = [] -> results (upd l i c') = results l.
Proof.
  revert i; induction l as [|a l IH]; intros [|i] H Z Y; cbn in *; try discriminate.
  - injection H as ->. rewrite Z, Y. auto.
  - f_equal. apply IH; auto.
Qed.
Lemma results_wake l : results (map wake l) = results l.
Proof. induction l as [|a l IH]; auto. unfold results in *. cbn. rewrite IH. destruct a; auto. Qed.
Arguments results : simpl never.
Lemma results_signal1 j l l' : signal1 j l = Some l' -> results l' = results l.
Proof. intros H. destruct (signal1_facts H) as [[-> _]|(n & E & ->)]; auto. eapply results_upd0; eauto. Qed.

Lemma results_cstep s i k j s' : cstep s i k j = Some s' -> Permutation (results (cls s)) (hist s) -> Permutation (results (cls s')) (hist s').
Proof.
  intros H P. destruct s as [m1 m2 e b sta sto es fo t pr z cl h]. cbn in H, P.
  destruct (nth_error cl i) as [c|] eqn:E; [|discriminate].
  assert (U : forall c', result_of c = [] -> result_of c' = [] -> Permutation (results (upd cl i c')) h) by (intros; erewrite results_upd0; eauto).
  assert (D : forall p e, result_of c = [] -> Permutation (results (upd cl i (RDone p e))) (h ++ [(p, e)])).
  { intros p x R. rewrite (@results_upd cl i c (RDone p x) E R). apply Permutation_app_tail; auto. }
  destruct c; cbn in H; try discriminate; unfold mu_lock in H;
    try (destruct m1; [discriminate|]; injection H as <-; cbn; apply U; reflexivity);
    try (destruct m2; [discriminate|]; injection H as <-; cbn; apply U; reflexivity);
    try (injection H as <-; cbn; apply U; reflexivity).
  - destruct e as [e|]; [|destruct b as [|b0 b]]; injection H as <-; cbn; apply U; reflexivity.
  - destruct e as [e|]; [|destruct b as [|b0 b]]; injection H as <-; cbn; apply U; reflexivity.
  - destruct b as [|b0 b]; [injection H as <-; cbn; apply D; reflexivity|].
    destruct (_ && _) in H; [|discriminate]. destruct (is_nil _); [injection H as <-; cbn -[firstn]; apply D; reflexivity|].
    destruct (signal1 _ _) as [cl'|] eqn:ES; [|discriminate]. injection H as <-. cbn -[firstn].
    rewrite (results_signal1 ES). apply D; reflexivity.
  - injection H as <-; cbn. destruct (sta && negb sto); apply U; reflexivity.
  - injection H as <-; cbn. assert (E' : nth_error (map wake cl) i = Some CSet) by (apply nth_wake; auto).
    rewrite (@results_upd0 _ _ CSet CFlags E'), results_wake; auto.
  - destruct t; [discriminate|]. destruct z; [|discriminate]. injection H as <-. cbn. apply U; reflexivity.
  - destruct (sta && negb sto); injection H as <-; cbn; apply U; reflexivity.
  - destruct m2; [discriminate|]. injection H as <-. cbn. auto.
Qed.
Lemma results_tstep ocap s k j s' : tstep ocap s k j = Some s' -> Permutation (results (cls s)) (hist s) -> Permutation (results (cls s')) (hist s').
Proof.
  intros H P. destruct s as [m1 m2 e b sta sto es fo t pr z cl h]. cbn in H, P.
  destruct t as [c|]; [|discriminate]. destruct c; cbn in H; try discriminate; unfold mu_lock in H;
    try (destruct m1; [discriminate|]; injection H as <-; cbn; auto; fail);
    try (destruct m2; [discriminate|]; injection H as <-; cbn; auto; fail);
    try (injection H as <-; cbn; auto; fail).
  - destruct pr as [|[p|x] r]; injection H as <-; cbn; auto.
  - injection H as <-. cbn. rewrite results_wake. auto.
  - destruct p; injection H as <-; cbn; auto.
  - destruct (_ =? 0); [injection H as <-; cbn; auto|]. destruct (_ && _) in H; [|discriminate].
    destruct (signal1 _ _) as [cl'|] eqn:ES; [|discriminate]. injection H as <-. cbn. rewrite (results_signal1 ES). auto.
Qed.
Lemma results_next ocap s s' : next ocap any_call s s' -> Permutation (results (cls s)) (hist s) -> Permutation (results (cls s')) (hist s').
Proof.
  intros [x [c H]|c Hc] P.
  - destruct c; cbn in H; eauto using results_cstep, results_tstep.
    destruct s as [m1 m2 e b sta sto es fo t pr [|z] cl h]; [discriminate|]. injection H as <-. exact P.
  - destruct s; cbn in *. rewrite results_app. destruct Hc; cbn; rewrite app_nil_r; auto.
Qed.
Lemma rc_any c : reads_and_closes c -> any_call c. Proof. intros []; constructor. Qed.
Lemma results_steps ocap (calls : cpc -> Prop) s s' : (forall c, calls c -> any_call c) -> steps (next ocap calls) s s' -> Permutation (results (cls s)) (hist s) -> Permutation (results (cls s')) (hist s').
Proof.
  intros Hc H; induction H as [|s1 s2 s3 X H IH]; intros; auto. apply IH. eapply results_next; [|eassumption].
  destruct X; [eapply next_step; eauto|eapply next_call; eauto].
Qed.

(** ** Errors *)
Definition crt c := match c with RTake _ => 1 | _ => 0 end.
Lemma crt_c2 l : cnt crt l <= cnt c2 l. Proof. induction l as [|a l IH]; cbn; auto. destruct a; cbn; lia. Qed.

Section Err.
Variable ocap : N.
Hypothesis Hcap : (0 < ocap)%N.
Variables (a b : list outact) (e : goerr).
Hypothesis Hb : data_only b.
Notation Inv := (PConc.Inv ocap).
Notation A := (log_data a).
Notation D := (log_data (a ++ OErr e :: b)).

(** every error in the history: [Canceled], or the error of the input, and then
    everything before the error has been delivered before *)
Definition ordered (h : list (list N * option goerr)) : Prop :=
  forall h1 p x h2, h = h1 ++ (p, Some x) :: h2 -> p = [] /\ (x = Canceled \/ x = e /\ exists r, got h1 = A ++ r).

Lemma ordered_snoc h p x : ordered h ->
  match x with None => True | Some x => p = [] /\ (x = Canceled \/ x = e /\ exists r, got h = A ++ r) end -> ordered (h ++ [(p, x)]).
Proof.
  intros O N h1 q y h2 EQ. destruct h2 as [|z h2] using rev_ind; [|clear IHh2].
  - apply app_inj_tail in EQ as [-> EQ]. injection EQ as -> ->. exact N.
  - rewrite app_comm_cons, app_assoc in EQ. apply app_inj_tail in EQ as [-> _]. eapply O; eauto.
Qed.

Record Er (s : st) : Prop := {
  e_prog : errset s = false -> erring (thr s) = false -> exists a', prog s = a' ++ OErr e :: b /\ data_only a';
  e_erring : forall x, thr s = Some (TErr x) \/ thr s = Some (TErrSet x) -> x = e /\ prog s = b /\ errset s = false;
  e_set : forall x, oerr s = Some x -> canceled s \/ x = e /\ exists r, got (hist s) ++ obuf s = A ++ r;
  e_take : 0 < cnt crt (cls s) -> oerr s <> None \/ obuf s <> [];
  e_hist : ordered (hist s) }.

Lemma er_fresh : data_only a -> Er (fresh (a ++ OErr e :: b)).
Proof.
  intros Ha. constructor; cbn; try discriminate; try lia; eauto.
  - intros x [X|X]; discriminate.
  - intros [|? h1] q x h2 EQ; discriminate.
Qed.
Lemma er_call s c : reads_and_closes c -> Er s -> Er (add_call s c).
Proof.
  intros Hc [E1 E2 E3 E4 E5]. destruct s. constructor; cbn in *; auto.
  - intros x X. destruct (E3 x X) as [[C|C]|C]; auto; left; [left; auto|right]. cbn in *. rewrite cnt_app. lia.
  - rewrite cnt_app. destruct Hc; cbn; rewrite Nat.add_0_r; auto.
Qed.

Lemma er_cstep s i k j s' : Inv s -> Er s -> cstep s i k j = Some s' -> Er s'.
Proof.
  intros I [E1 E2 E3 E4 E5] H. pose proof (i_mu1 I) as M1. pose proof (i_mu2 I) as M2. pose proof (i_noz I) as NZ.
  pose proof (i_start I) as IS. pose proof (i_forced I) as IF.
  destruct s as [m1 m2 oe ob sta sto es fo t pr z cl h]. cbn in E1, E2, E3, E4, E5, H, M1, M2, NZ, IS, IF.
  destruct (nth_error cl i) as [c|] eqn:E; [|discriminate].
  assert (CU : forall m1' m2' e' b' sta' sto' es' t' pr' z' h' c', cf c = 0 ->
    canceled (St m1 m2 oe ob sta sto es fo t pr z cl h) -> canceled (St m1' m2' e' b' sta' sto' es' fo t' pr' z' (upd cl i c') h')).
  { intros. eapply canceled_upd with (s := St m1 m2 oe ob sta sto es fo t pr z cl h); cbn; eauto. }
  pose proof (cnt_in cz E) as LZ. pose proof (cnt_in c1 E) as L1. pose proof (cnt_in c2 E) as L2.
  assert (CR : forall c', crt c' = 0 -> 0 < cnt crt (upd cl i c') -> oe <> None \/ ob <> []).
  { intros c' Z X. apply E4. pose proof (cnt_upd crt c' E). lia. }
  assert (SG : forall t', t' = signal2 t -> (forall x, t' = Some (TErr x) \/ t' = Some (TErrSet x) -> t = Some (TErr x) \/ t = Some (TErrSet x))).
  { intros t' -> x. destruct t as [[]|]; cbn; intros [X|X]; try discriminate; auto. }
  destruct c; cbn in H; try discriminate; unfold mu_lock in H; cbn in CU, LZ, L1, L2; try lia.
  - destruct m1; [discriminate|]. injection H as <-. constructor; cbn; eauto; try (apply CR; reflexivity). intros x X. destruct (E3 x X); eauto.
  - injection H as <-. destruct sta.
    + constructor; cbn; eauto; try (apply CR; reflexivity). intros x X. destruct (E3 x X); eauto.
    + destruct (IS eq_refl) as (_ & -> & _ & _ & -> & -> & -> & ->). constructor; cbn; eauto; try discriminate; try (apply CR; reflexivity).
      intros x [X|X]; discriminate.
  - destruct m2; [discriminate|]. injection H as <-. constructor; cbn; eauto; try (apply CR; reflexivity). intros x X. destruct (E3 x X); eauto.
  - destruct oe as [oe|]; [|destruct ob as [|b0 ob]]; injection H as <-; constructor; cbn; rewrite ?erring_signal2; eauto; try (apply CR; reflexivity);
      try (intros x X; destruct (E3 x X); eauto; fail); try (left; discriminate); try (right; discriminate).
  - destruct oe as [oe|]; [|destruct ob as [|b0 ob]]; injection H as <-; constructor; cbn; eauto; try (apply CR; reflexivity);
      try (intros x X; destruct (E3 x X); eauto; fail); try (left; discriminate); try (right; discriminate).
  - destruct m2; [discriminate|]. injection H as <-. constructor; cbn; eauto; try (apply CR; reflexivity). intros x X. destruct (E3 x X); eauto.
  - assert (R : forall c' : cpc, crt c' = 0 -> cnt crt (upd cl i c') = 0).
    { intros c' Z. pose proof (cnt_upd crt c' E). pose proof (crt_c2 (upd cl i c')). pose proof (cnt_upd c2 c' E). pose proof (cnt_in crt E). pose proof (crt_c2 cl).
      destruct m2; cbn in *; lia. }
    destruct ob as [|b0 ob].
    + injection H as <-. assert (G : forall x, got (h ++ [([], x)]) = got h) by (intros; rewrite got_app; apply app_nil_r).
      constructor; cbn; eauto; try (apply CR; reflexivity).
      * intros x X. rewrite G. destruct (E3 x X); eauto.
      * apply ordered_snoc; auto. destruct oe as [x|]; auto. split; auto. destruct (E3 x eq_refl) as [C|[-> [r C]]].
        -- left. destruct C as [C|C]; [destruct (i_cancel I C) as [_ C2]|destruct (i_cancel2 I C) as [_ C2]]; cbn in C2; congruence.
        -- right. split; auto. exists r. rewrite app_nil_r in C. auto.
    + remember (b0 :: ob) as bb. clear Heqbb b0 ob. destruct (_ && _) in H; [|discriminate].
      assert (G : got (h ++ [(firstn k bb, None)]) ++ skipn k bb = got h ++ bb).
      { rewrite got_app. change (got [(firstn k bb, None)]) with (firstn k bb ++ []). rewrite app_nil_r, <- app_assoc. f_equal. apply firstn_skipn. }
      assert (OS : ordered (h ++ [(firstn k bb, None)])) by (apply ordered_snoc; auto).
      destruct (is_nil _).
      * injection H as <-. constructor; cbn -[firstn skipn]; rewrite ?erring_signal2; eauto.
        -- intros x X. rewrite G. destruct (E3 x X); eauto.
        -- rewrite R by reflexivity. lia.
      * destruct (signal1 _ _) as [cl'|] eqn:ES; [|discriminate]. injection H as <-.
        constructor; cbn -[firstn skipn]; eauto.
        -- intros x X. rewrite G. destruct (E3 x X) as [[C|C]|C]; auto; left; [left; exact C|right].
           cbn in *. rewrite (signal1_cnt (f:=cf) ES) by auto. pose proof (cnt_upd cf (RDone (firstn k bb) None) E). cbn in H. lia.
        -- rewrite (signal1_cnt (f:=crt) ES) by auto. rewrite R by reflexivity. lia.
  - destruct m1; [discriminate|]. injection H as <-. constructor; cbn; eauto; try (apply CR; reflexivity). intros x X. destruct (E3 x X); eauto.
  - injection H as <-. constructor; cbn; eauto; try (apply CR; reflexivity). { intros x X. destruct (E3 x X); eauto. } apply CR. destruct (sta && negb sto); reflexivity.
  - destruct m2; [discriminate|]. injection H as <-. constructor; cbn; eauto; try (apply CR; reflexivity). intros x X. destruct (E3 x X); eauto.
  - injection H as <-. constructor; cbn; rewrite ?erring_signal2; eauto; try (apply CR; reflexivity); try (left; discriminate).
    intros x X. left. right. cbn. assert (E' : nth_error (map wake cl) i = Some CSet) by (apply nth_wake; auto).
    pose proof (cnt_upd cf CFlags E'). cbn in H. lia.
  - injection H as <-. constructor; cbn; eauto; try discriminate; try (apply CR; reflexivity).
    + intros x [X|X]; subst t; cbn in M1; destruct m1; cbn in M1; lia.
    + intros x X. left. left. reflexivity.
  - destruct t; [discriminate|]. destruct z; [|discriminate]. injection H as <-. constructor; cbn; eauto; try (apply CR; reflexivity). intros x X. destruct (E3 x X); eauto.
  - destruct m1; [discriminate|]. injection H as <-. constructor; cbn; eauto; try (apply CR; reflexivity). intros x X. destruct (E3 x X); eauto.
  - injection H as <-. constructor; cbn; eauto; try (apply CR; reflexivity). intros x X. destruct (E3 x X); eauto.
Qed.

Lemma log_data_cons_err l x r : log_data (l ++ OErr x :: r) = log_data l ++ log_data r.
Proof. unfold log_data. rewrite flat_map_app. reflexivity. Qed.

Lemma er_tstep s k j s' : Inv s -> Dat D s -> Er s -> tstep ocap s k j = Some s' -> Er s'.
Proof.
  intros I Da [E1 E2 E3 E4 E5] H. pose proof (i_mu1 I) as M1. pose proof (i_mu2 I) as M2. pose proof (pushing_not_canceled I) as PN.
  pose proof (i_forced I) as IF. pose proof (d_all Da) as DA.
  destruct s as [m1 m2 oe ob sta sto es fo t pr z cl h]. cbn in E1, E2, E3, E4, E5, H, M1, M2, IF, PN, DA.
  assert (CC : forall m1' m2' e' b' sta' sto' es' t' pr' z' h',
    canceled (St m1 m2 oe ob sta sto es fo t pr z cl h) -> canceled (St m1' m2' e' b' sta' sto' es' fo t' pr' z' cl h')) by (intros; assumption).
  pose proof (crt_c2 cl) as CR2.
  destruct t as [c|]; [|discriminate].
  destruct c; cbn in H; try discriminate; unfold mu_lock in H; cbn in E1, PN, M1, M2, DA;
    try (destruct m1; [discriminate|]; injection H as <-; constructor; cbn; eauto; intros x [X|X]; discriminate; fail);
    try (destruct m2; [discriminate|]; injection H as <-; constructor; cbn; eauto; intros x [X|X]; discriminate; fail);
    try (injection H as <-; constructor; cbn; eauto; intros x [X|X]; discriminate; fail).
  - (* TRun *)
    assert (ES : forall t' pr' m1' z' sto', es = true -> erring t' = false -> Er (St m1' m2 oe ob sta sto' es fo t' pr' z' cl h)).
    { intros t' pr' m1' z' sto' -> X. constructor; cbn; eauto; try discriminate.
      - intros x [Y|Y]; subst t'; discriminate. }
    destruct es.
    { destruct pr as [|[p|x] r]; injection H as <-; apply ES; auto. destruct fo; auto. }
    clear ES. destruct (E1 eq_refl eq_refl) as (a' & -> & Ha'). destruct a' as [|[p|x] a']; cbn in H.
    + injection H as <-. constructor; cbn; eauto; try discriminate.
      * intros x [X|X]; [injection X as <-; auto|discriminate].
    + injection H as <-. inversion Ha'; subst. constructor; cbn; eauto.
      * intros x [X|X]; destruct fo; discriminate.
    + inversion Ha' as [|? ? [p Hp]]; discriminate.
  - (* TErr *) destruct m2; [discriminate|]. injection H as <-. constructor; cbn; eauto; try discriminate.
    + intros x [X|X]; try discriminate. injection X as <-. eauto.
  - (* TErrSet *) injection H as <-. destruct (E2 e0 (or_intror eq_refl)) as (-> & -> & ->). constructor; cbn; eauto; try discriminate; try (left; discriminate).
    + intros x [X|X]; discriminate.
    + intros x X. injection X as <-. right. split; auto. destruct DA as [C|DA]; [exfalso; exact (PN eq_refl C)|].
      rewrite log_data_cons_err in DA. rewrite app_assoc in DA. cbn in DA. exists []. rewrite app_nil_r.
      apply app_inv_tail in DA. exact DA.
  - (* TFlush *) destruct p; injection H as <-; constructor; cbn; eauto; intros x [X|X]; discriminate.
  - (* TF2 *) injection H as <-. destruct (_ <=? _)%N; constructor; cbn; eauto; intros x [X|X]; discriminate.
  - (* TF4 *) injection H as <-. constructor; cbn; eauto.
    + intros x [X|X]; destruct fo; discriminate.
  - (* TF6 *) destruct (_ =? 0) eqn:F0. { injection H as <-; constructor; cbn; eauto; intros x [X|X]; discriminate. }
    destruct (_ && _) eqn:EK in H; [|discriminate].
    destruct (signal1 j cl) as [cl'|] eqn:ES; [|discriminate]. injection H as <-.
    constructor; cbn; eauto.
    + intros x [X|X]; discriminate.
    + intros x X. destruct (E3 x X) as [C|[-> [r C]]]; [exfalso; exact (PN eq_refl C)|]. right. split; auto.
      exists (r ++ firstn k p). rewrite app_assoc, C, app_assoc. reflexivity.
    + rewrite (signal1_cnt (f:=crt) ES) by auto. intros X. destruct m2; cbn in M2; lia.
Qed.
Lemma er_next s s' : Inv s -> Dat D s -> Er s -> next ocap reads_and_closes s s' -> Er s'.
Proof.
  intros I Da J [x [c H]|c Hc]; [|apply er_call; auto]. destruct c as [i k j|k j|]; cbn in H.
  - eapply er_cstep; eauto.
  - eapply er_tstep; eauto.
  - destruct s as [m1 m2 oe ob sta sto es fo t pr [|z] cl h]; [discriminate|]. injection H as <-. destruct J; constructor; auto.
Qed.
Lemma er_steps s s' : Inv s -> Dat D s -> Er s -> steps (next ocap reads_and_closes) s s' -> Er s'.
Proof.
  intros I Da J H; induction H as [|s1 s2 s3 X H IH]; auto.
  apply IH; [eapply inv_next; eauto| |eapply er_next; eauto].
  destruct X; eauto using dat_step, dat_call.
Qed.
End Err.
