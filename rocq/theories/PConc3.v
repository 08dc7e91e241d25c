(** Absence of deadlock and termination of the concurrent Reader. *)
From Verif Require Import Base MCommon MReader MConc PConc PConc2.

Section Inv.
Variable ocap : N.
Hypothesis Hcap : (0 < ocap)%N.
Notation Inv := (PConc.Inv ocap).

(** When can a client move? *)
Definition ready (s : st) (c : cpc) : Prop :=
  match c with
  | RWait _ | RDone _ _ | CDone | ZDone => False
  | RLock1 _ | CLock1 | CRelock | ZLock1 _ => mu1 s = false
  | RLock2 _ | RWake _ | CLock2 | ZLock2 _ | ZAgain _ => mu2 s = false
  | CJoin => thr s = None /\ zombies s = 0
  | _ => True
  end.
Lemma ready_step s i c : nth_error (cls s) i = Some c -> ready s c -> exists s', step ocap s s'.
Proof.
  intros E R. destruct s as [m1 m2 e b sta sto es fo t pr z cl h]. cbn in E.
  assert (G : exists k j s', cstep (St m1 m2 e b sta sto es fo t pr z cl h) i k j = Some s').
  { destruct c; cbn in R; try contradiction; try (match type of R with _ /\ _ => destruct R | _ => idtac end; subst); cbn; rewrite E; unfold mu_lock;
      try (exists 0, 0; eauto; fail).
    - exists 0, 0. destruct e, b; eauto.
    - exists 0, 0. destruct e, b; eauto.
    - destruct b as [|b0 b]; [exists 0, 0; eauto|].
      destruct n as [|n].
      + destruct (signal1_ok (upd cl i (RDone [] None))) as (j & l' & SJ). exists 0, j. cbn. rewrite SJ. eauto.
      + destruct (signal1_ok (upd cl i (RDone [b0] None))) as (j & l' & SJ). exists 1, j. cbn. destruct b; cbn; eauto. rewrite SJ. eauto.
    - exists 0, 0. destruct (sta && negb sto); eauto. }
  destruct G as (k & j & s' & G). exists s', (GoClient i k j). exact G.
Qed.
Definition tready (s : st) (c : tpc) : Prop :=
  match c with
  | TWait _ => False
  | TLock1 | TF3 _ => mu1 s = false
  | TErr _ | TF1 _ | TWake _ | TF5 _ => mu2 s = false
  | _ => True
  end.
Lemma tready_step s c : Inv s -> thr s = Some c -> tready s c -> exists s', step ocap s s'.
Proof.
  intros I E R. pose proof (i_pend I) as HP. destruct s as [m1 m2 e b sta sto es fo t pr z cl h]. cbn in E. subst t. cbn in HP.
  assert (G : exists k j s', tstep ocap (St m1 m2 e b sta sto es fo (Some c) pr z cl h) k j = Some s').
  { destruct c; cbn in R; try contradiction; try subst; cbn in *; unfold mu_lock;
      try (exists 0, 0; eauto; fail).
    - exists 0, 0. destruct pr as [|[]]; eauto.
    - exists 0, 0. destruct p; eauto.
    - specialize (HP eq_refl). destruct (signal1_ok cl) as (j & l' & SJ). exists 1, j.
      destruct (_ =? 0)%nat eqn:F; eauto. apply Nat.eqb_neq in F.
      destruct p as [|p0 p]; [congruence|]. cbn. destruct (N.to_nat (ocap - lenN b)); [congruence|]. cbn.
      rewrite SJ. eauto. }
  destruct G as (k & j & s' & G). exists s', (GoThread k j). exact G.
Qed.

(** If nothing can move, every call has returned. *)
Lemma no_deadlock s : Inv s -> (forall s', ~ step ocap s s') -> Forall returned (cls s).
Proof.
  intros I N.
  assert (NC : forall i c, nth_error (cls s) i = Some c -> ~ ready s c) by (intros i c E R; destruct (@ready_step s i c E R) as [s' X]; exact (N s' X)).
  assert (NT : forall c, thr s = Some c -> ~ tready s c) by (intros c E R; destruct (@tready_step s c I E R) as [s' X]; exact (N s' X)).
  assert (NZ : zombies s = 0).
  { destruct s as [m1 m2 e b sta sto es fo t pr [|z] cl h]; auto. exfalso. eapply N. exists GoDone. reflexivity. }
  pose proof (i_mu1 I) as M1. pose proof (i_mu2 I) as M2. pose proof (i_noz I) as Z.
  assert (NoZ : forall i c, nth_error (cls s) i = Some c -> cz c = 0) by (intros i c E; pose proof (cnt_in cz E); lia).
  assert (m2 : mu2 s = false).
  { destruct (mu2 s) eqn:EM; auto. exfalso. cbn in M2. destruct (t2 (thr s)) eqn:ET.
    - destruct (@cnt_pos c2 (cls s)) as (i & c & E & P); [lia|]. apply (NC _ _ E). pose proof (NoZ _ _ E).
      destruct c; cbn in *; auto; lia.
    - destruct (thr s) as [c|] eqn:E; [|discriminate]. apply (NT c eq_refl). destruct c; cbn in *; auto; discriminate. }
  assert (m1 : mu1 s = false).
  { destruct (mu1 s) eqn:EM; auto. exfalso. cbn in M1. destruct (t1 (thr s)) eqn:ET.
    - destruct (@cnt_pos c1 (cls s)) as (i & c & E & P); [lia|]. apply (NC _ _ E). pose proof (NoZ _ _ E).
      destruct c; cbn in *; auto; lia.
    - destruct (thr s) as [c|] eqn:E; [|discriminate]. apply (NT c eq_refl). destruct c; cbn in *; auto; discriminate. }
  assert (TT : thr s = None \/ is_TWait (thr s) = true).
  { destruct (thr s) as [c|] eqn:E; auto. right. specialize (NT c eq_refl). destruct c; cbn in *; auto; exfalso; auto. }
  assert (A0 : cnt ca (cls s) = 0).
  { destruct (cnt ca (cls s)) eqn:EA; auto. exfalso. destruct (@cnt_pos ca (cls s)) as (i & c & E & P); [lia|].
    apply (NC _ _ E). destruct c; cbn in *; auto; lia. }
  apply Forall_forall. intros c H. apply In_nth_error in H as [i E].
  pose proof (NC _ _ E) as R. pose proof (NoZ _ _ E) as Z'.
  destruct c; cbn in R, Z' |- *; auto; try congruence; try discriminate.
  - (* a waiting Read *)
    pose proof (cnt_in cw E) as W. pose proof (cnt_in cs E) as S1. cbn in W, S1.
    assert (SS : started s = true) by (destruct (started s) eqn:X; auto; destruct (i_start I X); lia).
    destruct TT as [T|T].
    + assert (stopped s = true) by (apply (i_thr I SS); auto).
      pose proof (i_errset I (i_stopped I H)) as OE. pose proof (i_wait I OE). lia.
    + pose proof (i_active I (i_twait I T) ltac:(lia)). lia.
  - (* a waiting Close *)
    pose proof (cnt_in cj E) as W. cbn in W. pose proof (i_join I ltac:(lia)) as F.
    destruct (i_cancel I F) as [B _].
    destruct TT as [T|T]; [apply R; auto|]. exfalso. apply (i_twait I T). exact B.
Qed.

(** *** Termination *)
Definition wp (K : nat) (a : outact) : nat := match a with OErr _ => 3 * K + 10 | OData p => 10 + 20 * length p end.
Fixpoint wpr (K : nat) (l : list outact) : nat := match l with [] => 0 | a :: r => wp K a + wpr K r end.
Definition wcl (K : nat) (c : cpc) : nat :=
  match c with
  | RLock1 _ => 13 | RStart _ => 12 | RLock2 _ => 11 | RTest _ => 10 | RLoop _ => 7 | RWait _ => 5 | RWake _ => 8 | RTake _ => 6
  | CLock1 => 3 * K + 23 | CTest => 3 * K + 22 | CLock2 => 3 * K + 21 | CSet => 3 * K + 20
  | CFlags => 10 | CJoin => 9 | CRelock => 8 | CEnd => 7
  | _ => 0
  end.
Definition wt (K : nat) (sta : bool) (t : option tpc) (pr : list outact) : nat :=
  wpr K pr + match t with
  | None => if sta then 0 else 4
  | Some TLock1 => 3
  | Some TRun => 2
  | Some (TErr _) => 3 * K + 8
  | Some (TErrSet _) => 3 * K + 7
  | Some (TFlush p) => 20 * length p + 3
  | Some (TF1 p) | Some (TWake p) => 20 * length p + 2
  | Some (TF2 p) => 20 * length p + 1
  | Some (TWait p) | Some (TF3 p) => 20 * length p
  | Some (TF4 p) => 20 * length p - 1
  | Some (TF5 p) => 20 * length p - 2
  | Some (TF6 p) => 20 * length p - 3
  end.
Definition weight (s : st) : nat :=
  cnt (wcl (length (cls s))) (cls s) + wt (length (cls s)) (started s) (thr s) (prog s) + zombies s.

Lemma wt_signal2 K sta t pr : wt K sta (signal2 t) pr <= wt K sta t pr + 2.
Proof. destruct t as [[]|]; unfold wt, signal2; lia. Qed.
Lemma cnt_wake_wcl K l : cnt (wcl K) (map wake l) <= cnt (wcl K) l + 3 * length l.
Proof. induction l as [|a l IH]; cbn [map cnt length]; auto. destruct a; cbn [wake wcl]; lia. Qed.
Lemma cnt_signal1_wcl K j l l' : signal1 j l = Some l' -> cnt (wcl K) l' <= cnt (wcl K) l + 3 /\ length l' = length l.
Proof.
  intros H. destruct (signal1_facts H) as [[-> _]|(n & E & ->)]; [lia|].
  pose proof (cnt_upd (wcl K) (RWake n) E). rewrite upd_length. cbn in H0. lia.
Qed.

Lemma step_weight s s' : Inv s -> step ocap s s' -> weight s' < weight s.
Proof.
  intros I [c H]. unfold weight. destruct c as [i k j|k j|]; cbn in H.
  - destruct s as [m1 m2 e b sta sto es fo t pr z cl h]. cbn in H.
    destruct (nth_error cl i) as [c|] eqn:E; [|discriminate].
    set (K := length cl).
    assert (U : forall c', cnt (wcl K) (upd cl i c') + wcl K c = cnt (wcl K) cl + wcl K c') by (intros; apply cnt_upd; auto).
    pose proof (wt_signal2 K sta t pr) as S2.
    pose proof (i_noz I) as NZ. cbn in NZ. pose proof (cnt_in cz E) as LZ.
    Ltac fin := cbn [cls started thr prog zombies]; rewrite ?upd_length, ?map_length.
    destruct c; cbn in H; try discriminate; unfold mu_lock in H; try (cbn in LZ; lia).
    + destruct m1; [discriminate|]. injection H as <-. fin. fold K. specialize (U (RStart n)). cbn [wcl] in U. lia.
    + injection H as <-. fin. fold K. specialize (U (RLock2 n)). cbn [wcl] in U.
      destruct sta; [lia|]. destruct (i_start I eq_refl) as (_ & T & _). cbn in T. subst t. cbn [wt]. unfold wt. lia.
    + destruct m2; [discriminate|]. injection H as <-. fin. fold K. specialize (U (RTest n)). cbn [wcl] in U. lia.
    + destruct e as [e|]; [|destruct b as [|b0 b]]; injection H as <-; fin; fold K.
      * specialize (U (RTake n)). cbn [wcl] in U. lia.
      * specialize (U (RLoop n)). cbn [wcl] in U. lia.
      * specialize (U (RTake n)). cbn [wcl] in U. lia.
    + destruct e as [e|]; [|destruct b as [|b0 b]]; injection H as <-; fin; fold K.
      * specialize (U (RTake n)). cbn [wcl] in U. lia.
      * specialize (U (RWait n)). cbn [wcl] in U. lia.
      * specialize (U (RTake n)). cbn [wcl] in U. lia.
    + destruct m2; [discriminate|]. injection H as <-. fin. fold K. specialize (U (RLoop n)). cbn [wcl] in U. lia.
    + destruct b as [|b0 b].
      * injection H as <-. fin. fold K. specialize (U (RDone [] e)). cbn [wcl] in U. lia.
      * destruct (_ && _) in H; [|discriminate]. set (x := skipn k (b0 :: b)) in *. set (y := firstn k (b0 :: b)) in *. clearbody x y.
        specialize (U (RDone y None)). cbn [wcl] in U.
        destruct (is_nil x).
        -- injection H as <-. fin. fold K. lia.
        -- destruct (signal1 j (upd cl i (RDone y None))) as [cl'|] eqn:ES; [|discriminate]. injection H as <-. fin.
           pose proof (cnt_signal1_wcl K ES) as [X Y]. rewrite upd_length in Y. rewrite Y. fold K. lia.
    + destruct m1; [discriminate|]. injection H as <-. fin. fold K. specialize (U CTest). cbn [wcl] in U. lia.
    + injection H as <-. fin. fold K. destruct (sta && negb sto); [specialize (U CLock2)|specialize (U CEnd)]; cbn [wcl] in U; lia.
    + destruct m2; [discriminate|]. injection H as <-. fin. fold K. specialize (U CSet). cbn [wcl] in U. lia.
    + injection H as <-. fin. fold K.
      assert (E' : nth_error (map wake cl) i = Some CSet) by (apply nth_wake; auto).
      pose proof (cnt_upd (wcl K) CFlags E') as U'. cbn [wcl] in U'. pose proof (cnt_wake_wcl K cl). fold K in H. lia.
    + injection H as <-. fin. fold K. specialize (U CJoin). cbn [wcl] in U. lia.
    + destruct t; [discriminate|]. destruct z; [|discriminate]. injection H as <-. fin. fold K. specialize (U CRelock). cbn [wcl] in U. lia.
    + destruct m1; [discriminate|]. injection H as <-. fin. fold K. specialize (U CEnd). cbn [wcl] in U. lia.
    + injection H as <-. fin. fold K. specialize (U CDone). cbn [wcl] in U. lia.
  - pose proof (i_pend I) as PN. pose proof (i_room I) as RM.
    destruct s as [m1 m2 e b sta sto es fo t pr z cl h]. cbn in H, PN, RM. destruct t as [c|]; [|discriminate].
    set (K := length cl).
    assert (LN : forall p : list N, p <> [] -> 1 <= length p) by (intros [|]; cbn; [congruence|lia]).
    destruct c; cbn in H; try discriminate; unfold mu_lock in H; cbn in PN, RM; try specialize (PN eq_refl); try specialize (RM eq_refl);
      try (match type of PN with _ <> _ => apply LN in PN end).
    + destruct m1; [discriminate|]. injection H as <-. fin. fold K. unfold wt. lia.
    + destruct pr as [|[p|x] r]; injection H as <-; fin; fold K; unfold wt; cbn [wpr wp].
      * destruct sta; [lia|]. destruct (i_start I eq_refl) as (_ & T & _). discriminate.
      * destruct fo; lia.
      * destruct es; lia.
    + destruct m2; [discriminate|]. injection H as <-. fin. fold K. unfold wt. lia.
    + injection H as <-. fin. fold K. pose proof (cnt_wake_wcl K cl). fold K in H. unfold wt. lia.
    + destruct p as [|p0 p]; injection H as <-; fin; fold K; unfold wt; cbn [length]; lia.
    + destruct m2; [discriminate|]. injection H as <-. fin. fold K. unfold wt. lia.
    + injection H as <-. fin. fold K. unfold wt. destruct (ocap <=? lenN b)%N; lia.
    + destruct m2; [discriminate|]. injection H as <-. fin. fold K. unfold wt. lia.
    + destruct m1; [discriminate|]. injection H as <-. fin. fold K. unfold wt. lia.
    + injection H as <-. fin. fold K. unfold wt. destruct fo; lia.
    + destruct m2; [discriminate|]. injection H as <-. fin. fold K. unfold wt. lia.
    + destruct (_ =? 0) eqn:F0; [apply Nat.eqb_eq in F0; exfalso; lia|].
      destruct (_ && _) eqn:EK in H; [|discriminate].
      destruct (signal1 j cl) as [cl'|] eqn:ES; [|discriminate]. injection H as <-. fin.
      pose proof (cnt_signal1_wcl K ES) as [X Y]. rewrite Y. fold K. unfold wt. rewrite skipn_length.
      apply andb_prop in EK as [EK _]. apply andb_prop in EK as [EK EK2]. apply Nat.leb_le in EK2. destruct k; [discriminate|]. lia.
  - destruct s as [m1 m2 e b sta sto es fo t pr [|z] cl h]; [discriminate|]. injection H as <-. cbn. lia.
Qed.

Lemma terminates s : Inv s -> Acc (fun y x => step ocap x y) s.
Proof.
  remember (weight s) as w eqn:E. revert s E. induction w as [w IH] using lt_wf_ind. intros s E I.
  constructor. intros s' H. pose proof (step_weight I H). eapply IH; [|reflexivity|eapply inv_step; eauto]. lia.
Qed.
End Inv.
