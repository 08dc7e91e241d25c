(** Close waits for the goroutine; Reset in the middle of a stream blocks. *)
From Verif Require Import Base MCommon MReader MConc PConc PConc2 PConc4.

(** ** How far the Close call number [i] is *)
Definition closing (i : nat) (s : st) : Prop :=
  match nth_error (cls s) i with
  | Some CTest => started s = true /\ stopped s = false
  | Some (CLock2 | CSet) => started s = true
  | Some (CFlags | CJoin) => started s = true /\ canceled s
  | Some (CRelock | CEnd | CDone) => started s = true /\ canceled s /\ thr s = None /\ zombies s = 0
  | _ => False
  end.
Lemma nth_signal1 j l l' i c : signal1 j l = Some l' -> nth_error l i = Some c -> is_wait c = false -> nth_error l' i = Some c.
Proof.
  intros H E W. destruct (signal1_facts H) as [[-> _]|(n & X & ->)]; auto. rewrite nth_error_upd.
  destruct (Nat.eqb_spec j i); auto. subst. rewrite E in X. injection X as ->. discriminate.
Qed.

Section C.
Variable ocap : N.
Hypothesis Hcap : (0 < ocap)%N.
Notation Inv := (PConc.Inv ocap).

Definition isC (c : cpc) : bool := match c with CTest | CLock2 | CSet | CFlags | CJoin | CRelock | CEnd | CDone => true | _ => false end.
Lemma closing_isC i s : closing i s -> exists c, nth_error (cls s) i = Some c /\ isC c = true.
Proof. unfold closing. destruct (nth_error (cls s) i) as [[]|]; intros; try contradiction; eauto. Qed.

(** other clients do not move call [i], nor the fields it depends on *)
Lemma other_step s i0 k j s' i c : Inv s -> cstep s i0 k j = Some s' -> i <> i0 -> nth_error (cls s) i = Some c -> isC c = true ->
  nth_error (cls s') i = Some c /\ (started s = true -> started s' = true /\ stopped s' = stopped s /\ zombies s' = zombies s /\ (thr s = None -> thr s' = None)).
Proof.
  intros I H N E C. pose proof (i_noz I) as NZ. destruct s as [m1 m2 e b sta sto es fo t pr z cl h]. cbn in H, E, NZ.
  assert (U : forall x, nth_error (upd cl i0 x) i = Some c) by (intros; rewrite nth_error_upd; destruct (Nat.eqb_spec i0 i); congruence).
  assert (W : is_wait c = false) by (destruct c; auto; discriminate).
  destruct (nth_error cl i0) as [c0|] eqn:E0; [|discriminate].
  pose proof (cnt_in cz E0) as LZ.
  destruct c0; cbn in H; try discriminate; unfold mu_lock in H; cbn in LZ; try lia;
    try (destruct m1; [discriminate|]); try (destruct m2; [discriminate|]);
    try (injection H as <-; cbn; split; [apply U|auto]; fail).
  - injection H as <-; cbn. split; [apply U|]. intros ->. auto.
  - destruct e as [e|]; [|destruct b as [|b0 b]]; injection H as <-; cbn; (split; [apply U|]); auto. intros X. repeat split; auto. intros ->; auto.
  - destruct e as [e|]; [|destruct b as [|b0 b]]; injection H as <-; cbn; (split; [apply U|]); auto.
  - destruct b as [|b0 b]; [injection H as <-; cbn; split; [apply U|auto]|].
    destruct (_ && _) in H; [|discriminate]. destruct (is_nil _).
    + injection H as <-. cbn -[firstn]. split; [apply U|]. intros X. repeat split; auto. intros ->; auto.
    + destruct (signal1 _ _) as [cl'|] eqn:ES; [|discriminate]. injection H as <-. cbn -[firstn]. split; auto. eapply nth_signal1; eauto.
  - injection H as <-. cbn. split; [|intros X; repeat split; auto; intros ->; auto].
    rewrite nth_error_upd. destruct (Nat.eqb_spec i0 i); [congruence|]. apply nth_wake; auto.
  - destruct t; [discriminate|]. destruct z; [|discriminate]. injection H as <-. cbn. split; [apply U|auto].
Qed.

Lemma closing_next i s s' : Inv s -> closing i s -> next ocap reads_and_closes s s' -> closing i s'.
Proof.
  intros I K X. pose proof (inv_next Hcap I X) as I'.
  assert (CS : canceled s -> canceled s') by (intros C; exact (proj1 (canceled_step Hcap I C X))).
  destruct (closing_isC K) as (c & E & C).
  destruct X as [s' [ch H]|c' Hc].
  2:{ unfold closing in *. destruct s as [m1 m2 e b sta sto es fo t pr z cl h]. cbn in *.
      rewrite nth_error_app1 by (apply nth_error_Some; congruence). rewrite E in *.
      destruct c; try discriminate; auto; intuition. }
  destruct ch as [i0 k j|k j|]; cbn in H.
  - destruct (Nat.eq_dec i i0) as [->|N].
    + pose proof (i_mu1 I) as M1. unfold closing in *. rewrite E in K.
      destruct s as [m1 m2 e b sta sto es fo t pr z cl h]. cbn in *. rewrite E in H.
      assert (U : forall (l : list cpc) x, length l = length cl -> nth_error (upd l i0 x) i0 = Some x).
      { intros l x L. rewrite nth_error_upd, Nat.eqb_refl. destruct (nth_error l i0) eqn:Y; auto. apply nth_error_None in Y.
        assert (i0 < length cl) by (apply nth_error_Some; congruence). lia. }
      destruct c; cbn in H; try discriminate; unfold mu_lock in H.
      * injection H as <-. cbn. rewrite U by auto. destruct K as [-> ->]. cbn. auto.
      * destruct m2; [discriminate|]. injection H as <-. cbn. rewrite U by auto. auto.
      * injection H as <-. cbn. rewrite U by apply map_length. split; auto. right. cbn.
        assert (E' : nth_error (map wake cl) i0 = Some CSet) by (apply nth_wake; auto). pose proof (cnt_upd cf CFlags E'). cbn in H. lia.
      * injection H as <-. cbn. rewrite U by auto. split; [tauto|]. left; auto.
      * destruct t; [discriminate|]. destruct z; [|discriminate]. injection H as <-. cbn. rewrite U by auto. intuition.
      * destruct m1; [discriminate|]. injection H as <-. cbn. rewrite U by auto. intuition.
      * injection H as <-. cbn. rewrite U by auto. intuition.
    + destruct (@other_step s i0 k j s' i c I H N E C) as [E' F]. unfold closing in *. rewrite E in K. rewrite E'.
      destruct c; try discriminate; intuition congruence.
  - (* the goroutine *)
    assert (E' : nth_error (cls s') i = Some c /\ started s' = started s /\ (stopped s' = stopped s \/ t1 (thr s) = 1) /\ thr s <> None).
    { destruct s as [m1 m2 e b sta sto es fo t pr z cl h]. cbn in H, E |- *.
      assert (W : is_wait c = false) by (destruct c; auto; discriminate).
      destruct t as [tc|]; [|discriminate]. cbn.
      destruct tc; cbn in H; try discriminate; unfold mu_lock in H; try (destruct m1; [discriminate|]); try (destruct m2; [discriminate|]);
        try (injection H as <-; cbn; repeat split; auto; discriminate).
      - destruct pr as [|[]]; injection H as <-; cbn; repeat split; auto; discriminate.
      - injection H as <-; cbn. repeat split; auto; try discriminate. apply nth_wake; auto.
      - destruct p; injection H as <-; cbn; repeat split; auto; discriminate.
      - destruct (_ =? 0); [injection H as <-; cbn; repeat split; auto; discriminate|]. destruct (_ && _) in H; [|discriminate].
        destruct (signal1 _ _) as [cl'|] eqn:ES; [|discriminate]. injection H as <-. cbn. repeat split; auto; try discriminate. eapply nth_signal1; eauto. }
    destruct E' as (E' & F1 & F2 & F3). unfold closing in *. rewrite E in K. rewrite E'.
    pose proof (i_mu1 I) as M1. pose proof (cnt_in c1 E) as L1.
    destruct c; try discriminate; cbn in L1; rewrite ?F1; try (intuition; fail).
    destruct F2 as [F2|F2]; [rewrite F2; auto|]. destruct (mu1 s); cbn in M1; lia.
  - destruct s as [m1 m2 e b sta sto es fo t pr [|z] cl h]; [discriminate|]. injection H as <-.
    unfold closing in *. cbn in *. rewrite E in *. destruct c; try discriminate; auto; intuition; discriminate.
Qed.
Lemma closing_steps i s s' : Inv s -> closing i s -> steps (next ocap reads_and_closes) s s' -> closing i s'.
Proof.
  intros I K H; induction H as [|s1 s2 s3 X H IH]; auto. apply IH; [eapply inv_next; eauto|eapply closing_next; eauto].
Qed.
Lemma canceled_steps s s' : Inv s -> canceled s -> steps (next ocap reads_and_closes) s s' ->
  canceled s' /\ exists n, hist s' = hist s ++ repeat ([], Some Canceled) n.
Proof.
  intros I K H; induction H as [|s1 s2 s3 X H IH]; [split; [auto|exists 0; cbn; rewrite app_nil_r; auto]|].
  destruct (canceled_step Hcap I K X) as [C [n E]]. destruct IH as [C' [m E']]; [eapply inv_next; eauto|auto|].
  split; auto. exists (n + m). rewrite E', E, <- app_assoc, repeat_app. reflexivity.
Qed.
End C.

(** ** Mutual exclusion with Reset calls *)
Record Mx (s : st) : Prop := {
  m_mu1 : cnt c1 (cls s) + t1 (thr s) = b2n (mu1 s);
  m_mu2 : cnt c2 (cls s) + t2 (thr s) = b2n (mu2 s);
  m_thr : thr s <> None <-> started s = true /\ stopped s = false;
  m_st : started s = false -> stopped s = false }.
Lemma mx_fresh pr : Mx (fresh pr).
Proof. constructor; cbn; auto. split; [congruence|intros [? _]; discriminate]. Qed.
Ltac upd12 := match goal with U1 : forall c', cnt c1 _ + _ = _, U2 : forall c', cnt c2 _ + _ = _ |- context [upd _ _ ?q] => specialize (U1 q); specialize (U2 q); cbn in *; lia end.
Lemma mx_next ocap s s' : Mx s -> next ocap any_call s s' -> Mx s'.
Proof.
  intros [M1 M2 M3 M4] X. destruct X as [s' [ch H]|c' Hc].
  2:{ destruct s. cbn in *. destruct Hc; constructor; cbn; rewrite ?cnt_app; cbn; rewrite ?Nat.add_0_r; auto. }
  destruct s as [m1 m2 e b sta sto es fo t pr z cl h]. cbn in M1, M2, M3, M4. destruct ch as [i k j|k j|]; cbn in H.
  - destruct (nth_error cl i) as [c|] eqn:E; [|discriminate].
    assert (U1 : forall c', cnt c1 (upd cl i c') + c1 c = cnt c1 cl + c1 c') by (intros; apply cnt_upd; auto).
    assert (U2 : forall c', cnt c2 (upd cl i c') + c2 c = cnt c2 cl + c2 c') by (intros; apply cnt_upd; auto).
    assert (S3 : signal2 t <> None <-> t <> None) by (rewrite none_signal2; tauto).
    destruct c; cbn in H; try discriminate; unfold mu_lock in H; cbn in U1, U2.
    all: try (destruct m1; [discriminate|]; injection H as <-; constructor; cbn; auto;
       upd12; fail).
    all: try (destruct m2; [discriminate|]; injection H as <-; constructor; cbn; auto;
       upd12; fail).
    + injection H as <-. specialize (U1 (RLock2 n)). specialize (U2 (RLock2 n)). cbn in *.
      destruct m1; cbn in *; [|lia]. destruct sta.
      * constructor; cbn; try lia; auto.
      * assert (t = None) as -> by (destruct t; auto; assert (false = true) by (apply M3; discriminate); discriminate).
        cbn in *. constructor; cbn; try lia; try discriminate. split; [auto|discriminate].
    + destruct e as [e|]; [|destruct b as [|b0 b]]; injection H as <-; constructor; cbn; rewrite ?t1_signal2, ?t2_signal2, ?S3; auto;
       first [specialize (U1 (RTake n)); specialize (U2 (RTake n)); cbn in *; lia | specialize (U1 (RLoop n)); specialize (U2 (RLoop n)); cbn in *; lia].
    + pose proof (cnt_in c2 E) as L2. cbn in L2. destruct m2; cbn in *; [|lia].
      destruct e as [e|]; [|destruct b as [|b0 b]]; injection H as <-; constructor; cbn; auto;
       first [specialize (U1 (RTake n)); specialize (U2 (RTake n)); cbn in *; lia | specialize (U1 (RWait n)); specialize (U2 (RWait n)); cbn in *; lia].
    + pose proof (cnt_in c2 E) as L2. cbn in L2. destruct m2; cbn in *; [|lia].
      destruct b as [|b0 b].
      { injection H as <-. constructor; cbn; auto; specialize (U1 (RDone [] e)); specialize (U2 (RDone [] e)); cbn in *; lia. }
      destruct (_ && _) in H; [|discriminate].
      specialize (U1 (RDone (firstn k (b0 :: b)) None)). specialize (U2 (RDone (firstn k (b0 :: b)) None)). cbn -[firstn upd] in U1, U2.
      destruct (is_nil _).
      * injection H as <-. constructor; cbn -[firstn upd]; rewrite ?t1_signal2, ?t2_signal2, ?S3; auto; lia.
      * destruct (signal1 _ _) as [cl'|] eqn:ES; [|discriminate]. injection H as <-.
        constructor; cbn -[firstn upd]; auto; rewrite (signal1_cnt ES) by auto; lia.
    + injection H as <-. constructor; cbn; auto; destruct (sta && negb sto);
        first [specialize (U1 CLock2); specialize (U2 CLock2); cbn in *; lia | specialize (U1 CEnd); specialize (U2 CEnd); cbn in *; lia].
    + pose proof (cnt_in c2 E) as L2. cbn in L2. destruct m2; cbn in *; [|lia]. injection H as <-.
      assert (E' : nth_error (map wake cl) i = Some CSet) by (apply nth_wake; auto).
      pose proof (cnt_upd c1 CFlags E') as V1. pose proof (cnt_upd c2 CFlags E') as V2. rewrite !(@cnt_wake c1), !(@cnt_wake c2) in * by auto. cbn in V1, V2.
      constructor; cbn; rewrite ?t1_signal2, ?t2_signal2, ?S3; auto; lia.
    + pose proof (cnt_in c1 E) as L1. cbn in L1. destruct m1; cbn in *; [|lia]. injection H as <-.
      constructor; cbn; auto; specialize (U1 CJoin); specialize (U2 CJoin); cbn in *; lia.
    + destruct t; [discriminate|]. destruct z; [|discriminate]. injection H as <-.
      constructor; cbn; auto; specialize (U1 CRelock); specialize (U2 CRelock); cbn in *; lia.
    + pose proof (cnt_in c1 E) as L1. cbn in L1. destruct m1; cbn in *; [|lia]. injection H as <-.
      constructor; cbn; auto; specialize (U1 CDone); specialize (U2 CDone); cbn in *; lia.
    + pose proof (cnt_in c1 E) as L1. pose proof (cnt_in c2 E) as L2. cbn in L1, L2. destruct m1, m2; cbn in *; try lia.
      destruct (sta && negb sto) eqn:ST; injection H as <-.
      * constructor; cbn; auto; specialize (U1 (ZAgain new)); specialize (U2 (ZAgain new)); cbn in *; lia.
      * assert (t = None) as ->. { destruct t; auto. destruct (proj1 M3 ltac:(discriminate)) as [-> ->]. discriminate. }
        specialize (U1 ZDone). specialize (U2 ZDone). cbn in *. constructor; cbn; try lia. split; [congruence|intros [? _]; discriminate].
  - destruct t as [c|]; [|discriminate]. assert (M3' := proj1 M3 ltac:(discriminate)). destruct M3' as [-> ->].
    assert (TT : forall x : tpc, Some x <> None <-> true = true /\ false = false) by (intros; split; auto; discriminate).
    destruct c; cbn in H; try discriminate; unfold mu_lock in H; cbn in M1, M2.
    all: try (destruct m1; [discriminate|]; injection H as <-; constructor; cbn in *; try lia; auto; fail).
    all: try (destruct m2; [discriminate|]; injection H as <-; constructor; cbn in *; try lia; auto; fail).
    all: try (injection H as <-; constructor; cbn in *; try lia; auto; fail).
    all: try (destruct m2; [|cbn in M2; lia]; injection H as <-; constructor; cbn in *; try lia; auto; fail).
    + destruct m1; [|cbn in M1; lia]. destruct pr as [|[p|x] r]; injection H as <-; [|destruct fo|destruct es]; constructor; cbn in *; try lia; auto.
      * split; [congruence|intros [_ ?]; discriminate].
    + destruct m2; [|cbn in M2; lia]. injection H as <-. constructor; cbn; auto; rewrite (@cnt_wake _ cl) by auto; cbn in *; lia.
    + destruct m1; [|cbn in M1; lia]. destruct p; injection H as <-; constructor; cbn in *; try lia; auto.
    + destruct m2; [|cbn in M2; lia]. injection H as <-; constructor; cbn in *; auto; destruct (_ <=? _)%N; cbn; lia.
    + injection H as <-; constructor; cbn in *; auto; destruct fo; cbn; lia.
    + destruct m2; [|cbn in M2; lia]. destruct (_ =? 0); [injection H as <-; constructor; cbn in *; try lia; auto|]. destruct (_ && _) in H; [|discriminate].
      destruct (signal1 _ _) as [cl'|] eqn:ES; [|discriminate]. injection H as <-. constructor; cbn in *; auto; rewrite (signal1_cnt ES) by auto; lia.
  - destruct z as [|z]; [discriminate|]. injection H as <-. constructor; auto.
Qed.
Lemma mx_steps ocap s s' : Mx s -> steps (next ocap any_call) s s' -> Mx s'.
Proof. intros M H; induction H; eauto using mx_next. Qed.

(** ** A Reset call that finds the goroutine running holds both mutexes and
    waits for the second of them: nothing moves any more *)
Record Frozen (i : nat) (s : st) : Prop := {
  f_mx : Mx s; f_pc : exists new, nth_error (cls s) i = Some (ZAgain new) \/ nth_error (cls s) i = Some (ZTest new);
  f_thr : thr s <> None }.
Definition pending_stay (s s' : st) : Prop := forall j c, nth_error (cls s) j = Some c -> ~ returned c ->
  exists c', nth_error (cls s') j = Some c' /\ ~ returned c'.
Lemma frozen_step ocap i s s' : Frozen i s -> step ocap s s' ->
  thr s' = thr s /\ (exists new, nth_error (cls s') i = Some (ZAgain new) \/ nth_error (cls s') i = Some (ZTest new)) /\
  hist s' = hist s /\ pending_stay s s'.
Proof.
  intros [[M1 M2 M3 M4] [new P] T] [ch H]. destruct s as [m1 m2 e b sta sto es fo t pr z cl h]. cbn in M1, M2, M3, M4, P, T.
  assert (LL : 1 <= cnt c1 cl /\ 1 <= cnt c2 cl).
  { destruct P as [P|P]; split; first [apply (cnt_in c1 P)|apply (cnt_in c2 P)]. }
  assert (O : forall j x, j <> i -> nth_error cl j = Some x -> c1 x = 0 /\ c2 x = 0).
  { intros j x N X. destruct P as [P|P].
    - pose proof (cnt_upd c1 ZDone P) as U1. pose proof (cnt_upd c2 ZDone P) as U2. cbn in U1, U2.
      assert (X' : nth_error (upd cl i ZDone) j = Some x) by (rewrite nth_error_upd; destruct (Nat.eqb_spec i j); congruence).
      pose proof (cnt_in c1 X'). pose proof (cnt_in c2 X'). destruct m1, m2; cbn in *; lia.
    - pose proof (cnt_upd c1 ZDone P) as U1. pose proof (cnt_upd c2 ZDone P) as U2. cbn in U1, U2.
      assert (X' : nth_error (upd cl i ZDone) j = Some x) by (rewrite nth_error_upd; destruct (Nat.eqb_spec i j); congruence).
      pose proof (cnt_in c1 X'). pose proof (cnt_in c2 X'). destruct m1, m2; cbn in *; lia. }
  assert (m1 = true) as -> by (destruct m1; cbn in *; auto; lia).
  assert (m2 = true) as -> by (destruct m2; cbn in *; auto; lia).
  cbn in M1, M2.
  destruct ch as [j k l|k l|]; cbn in H.
  - destruct (nth_error cl j) as [c|] eqn:E; [|discriminate].
    destruct (Nat.eq_dec j i) as [->|N].
    + destruct P as [P|P]; rewrite E in P; injection P as ->; cbn in H; [discriminate|].
      destruct (proj1 M3 T) as [-> ->]. cbn in H. injection H as <-. cbn. repeat split; auto.
      * exists new. left. rewrite nth_error_upd, Nat.eqb_refl, E. auto.
      * intros j c X R. cbn in *. rewrite nth_error_upd. destruct (Nat.eqb_spec i j); [|eauto]. subst. rewrite X. exists (ZAgain new). auto.
    + destruct (O j c N E) as [O1 O2]. destruct c; cbn in H, O1, O2; try discriminate. destruct t; [discriminate|congruence].
  - destruct t as [c|]; [|congruence]. destruct c; cbn in H, M1, M2; try discriminate; lia.
  - destruct z as [|z]; [discriminate|]. injection H as <-. cbn. repeat split; eauto. intros j c X R. eauto.
Qed.
Lemma frozen_next ocap i s s' : Frozen i s -> next ocap any_call s s' -> Frozen i s' /\ hist s' = hist s /\ pending_stay s s'.
Proof.
  intros F X. pose proof (mx_next (f_mx F) X) as M. destruct X as [s' H|c Hc].
  - destruct (frozen_step F H) as (A & B & C & D). split; [|split; auto]. constructor; auto. rewrite A. exact (f_thr F).
  - assert (P : pending_stay s (add_call s c)).
    { intros j x E R. exists x. split; auto. destruct s; cbn in *. rewrite nth_error_app1; auto. apply nth_error_Some; congruence. }
    split; [|split; auto; destruct s; reflexivity]. constructor; auto.
    + destruct (f_pc F) as [new [E|E]]; exists new; [left|right]; destruct s; cbn in *; rewrite nth_error_app1; auto; apply nth_error_Some; congruence.
    + pose proof (f_thr F). destruct s; auto.
Qed.
Lemma frozen_steps ocap i s s' : Frozen i s -> steps (next ocap any_call) s s' -> Frozen i s' /\ hist s' = hist s /\ pending_stay s s'.
Proof.
  intros F H. induction H as [|s1 s2 s3 X H IH].
  - split; [auto|]. split; [auto|]. intros j c E R. eauto.
  - destruct (frozen_next F X) as (F2 & E2 & P2). destruct (IH F2) as (F3 & E3 & P3). split; auto. split; [congruence|].
    intros j c E R. destruct (P2 j c E R) as (c' & E' & R'). eauto.
Qed.

(** ** A Reset call when the goroutine is not running and no other call is in progress *)
Definition idle (s : st) : Prop := mu1 s = false /\ mu2 s = false /\ thr s = None /\ Forall returned (cls s).
(** the states it goes through *)
Definition resetting (i : nat) (new : list outact) (s0 s : st) : Prop :=
  length (cls s0) = i /\ thr s = None /\ hist s = hist s0 /\
  ((exists c, cls s = cls s0 ++ [c] /\ started s && negb (stopped s) = false /\
     ((c = ZLock1 new /\ mu1 s = false /\ mu2 s = false) \/ (c = ZLock2 new /\ mu2 s = false) \/ c = ZTest new)) \/
   (cls s = cls s0 ++ [ZDone] /\ mu1 s = false /\ mu2 s = false /\ oerr s = None /\ obuf s = [] /\ started s = false /\ stopped s = false /\
    errset s = false /\ forced s = false /\ prog s = new)).
Lemma upd_last {A} (l : list A) x y : upd (l ++ [x]) (length l) y = l ++ [y].
Proof. induction l; cbn; congruence. Qed.
Lemma nth_last {A} (l : list A) x : nth_error (l ++ [x]) (length l) = Some x.
Proof. rewrite nth_error_app2, Nat.sub_diag; auto. Qed.
Lemma returned_stuck l i c : Forall returned l -> nth_error l i = Some c -> returned c.
Proof. intros F E. eapply Forall_forall; eauto using nth_error_In. Qed.
Lemma resetting_step ocap i new s0 s s' : Forall returned (cls s0) -> resetting i new s0 s -> step ocap s s' -> resetting i new s0 s'.
Proof.
  intros R0 (L & T & HH & K) [ch H]. destruct s as [m1 m2 e b sta sto es fo t pr z cl h]. cbn in T, HH, K. subst t h.
  destruct ch as [j k l|k l|]; cbn in H; [|discriminate|].
  - destruct (nth_error cl j) as [c|] eqn:E; [|discriminate].
    assert (Old : j < length (cls s0) -> exists c, nth_error (cls s0) j = Some c).
    { intros X. destruct (nth_error (cls s0) j) eqn:Y; eauto. apply nth_error_None in Y. lia. }
    assert (RC : forall c', cl = cls s0 ++ [c'] -> c <> c' -> returned c).
    { intros c' -> N. destruct (lt_dec j (length (cls s0))) as [X|X].
      - rewrite nth_error_app1 in E by auto. eapply returned_stuck; eauto.
      - rewrite nth_error_app2 in E by lia. destruct (j - length (cls s0)) as [|[|?]]; cbn in E; congruence. }
    assert (NR : ~ returned c) by (destruct c; cbn in H; try discriminate; cbn; tauto).
    destruct K as [(c' & -> & NS & K)|(-> & K)].
    2:{ exfalso. apply NR. apply (RC ZDone eq_refl). intros ->. apply NR. exact Logic.I. }
    destruct (lt_dec j (length (cls s0))) as [X|X].
    { exfalso. apply NR. rewrite nth_error_app1 in E by auto. eapply returned_stuck; eauto. }
    assert (j = length (cls s0)) as -> by (rewrite nth_error_app2 in E by lia; destruct (j - length (cls s0)) as [|[|?]] eqn:Y; cbn in E; try discriminate; lia).
    rewrite nth_last in E. injection E as <-. split; auto.
    destruct K as [(-> & -> & ->)|[(-> & ->)| ->]]; cbn in H.
    + injection H as <-. cbn. repeat split; auto. left. exists (ZLock2 new). rewrite upd_last. repeat split; auto.
    + injection H as <-. cbn. repeat split; auto. left. exists (ZTest new). rewrite upd_last. repeat split; auto.
    + rewrite NS in H. injection H as <-. cbn. repeat split; auto. right. rewrite upd_last. repeat split; auto.
  - destruct z as [|z]; [discriminate|]. injection H as <-. repeat split; auto.
Qed.

(** ** A call that has returned stays as it is *)
Lemma returned_next ocap calls s s' i c : next ocap calls s s' -> nth_error (cls s) i = Some c -> returned c -> nth_error (cls s') i = Some c.
Proof.
  intros X E R. assert (W : is_wait c = false) by (destruct c; cbn in R; try contradiction; auto).
  destruct X as [s' [ch H]|c' Hc].
  2:{ destruct s; cbn in *. rewrite nth_error_app1; auto. apply nth_error_Some; congruence. }
  destruct s as [m1 m2 e b sta sto es fo t pr z cl h]. cbn in E. destruct ch as [i0 k j|k j|]; cbn in H.
  - destruct (nth_error cl i0) as [c0|] eqn:E0; [|discriminate].
    destruct (Nat.eq_dec i i0) as [->|N].
    { rewrite E in E0. injection E0 as <-. destruct c; cbn in R; try contradiction; discriminate. }
    assert (U : forall x, nth_error (upd cl i0 x) i = Some c) by (intros; rewrite nth_error_upd; destruct (Nat.eqb_spec i0 i); congruence).
    destruct c0; cbn in H; try discriminate; unfold mu_lock in H;
      try (destruct m1; [discriminate|]; injection H as <-; cbn; apply U);
      try (destruct m2; [discriminate|]; injection H as <-; cbn; auto; apply U);
      try (injection H as <-; cbn; apply U).
    + destruct e as [e|]; [|destruct b as [|b0 b]]; injection H as <-; cbn; apply U.
    + destruct e as [e|]; [|destruct b as [|b0 b]]; injection H as <-; cbn; apply U.
    + destruct b as [|b0 b]; [injection H as <-; cbn; apply U|].
      destruct (_ && _) in H; [|discriminate]. destruct (is_nil _); [injection H as <-; cbn -[firstn]; apply U|].
      destruct (signal1 _ _) as [cl'|] eqn:ES; [|discriminate]. injection H as <-. cbn -[firstn]. eapply nth_signal1; eauto.
    + injection H as <-. cbn. rewrite nth_error_upd. destruct (Nat.eqb_spec i0 i); [congruence|]. apply nth_wake; auto.
    + destruct t; [discriminate|]. destruct z; [|discriminate]. injection H as <-. cbn. apply U.
    + destruct (sta && negb sto); injection H as <-; cbn; apply U.
  - destruct t as [tc|]; [|discriminate].
    destruct tc; cbn in H; try discriminate; unfold mu_lock in H;
      try (destruct m1; [discriminate|]; injection H as <-; cbn; auto; fail); try (destruct m2; [discriminate|]; injection H as <-; cbn; auto; fail);
      try (injection H as <-; cbn; auto; fail).
    + destruct pr as [|[]]; injection H as <-; cbn; auto.
    + injection H as <-; cbn. apply nth_wake; auto.
    + destruct p; injection H as <-; cbn; auto.
    + destruct (_ =? 0); [injection H as <-; cbn; auto|]. destruct (_ && _) in H; [|discriminate].
      destruct (signal1 _ _) as [cl'|] eqn:ES; [|discriminate]. injection H as <-. cbn. eapply nth_signal1; eauto.
  - destruct z as [|z]; [discriminate|]. injection H as <-. auto.
Qed.
Lemma returned_steps ocap calls s s' i c : steps (next ocap calls) s s' -> nth_error (cls s) i = Some c -> returned c -> nth_error (cls s') i = Some c.
Proof. intros H; induction H; eauto using returned_next. Qed.

Lemma steps_trans R s1 s2 s3 : steps R s1 s2 -> steps R s2 s3 -> steps R s1 s3.
Proof. intros H; induction H; auto. intros. econstructor; eauto. Qed.
Lemma run_steps ocap calls l : forall s s', run_choices ocap s l = Some s' -> steps (next ocap calls) s s'.
Proof.
  induction l as [|c l IH]; cbn; intros s s' H; [injection H as <-; constructor|].
  destruct (sched ocap s c) as [s1|] eqn:E; [|discriminate]. econstructor; [apply next_step; exists c; exact E|auto].
Qed.

(** ** Reset while the goroutine sleeps for want of room *)
Definition asleep (s : st) : Prop :=
  (exists p, thr s = Some (TWait p)) /\ started s = true /\ stopped s = false /\ zombies s = 0.
Lemma asleep_reset ocap new s0 s : Forall returned (cls s0) -> asleep s0 -> steps (step ocap) (add_call s0 (ZLock1 new)) s ->
  asleep s /\ hist s = hist s0 /\ exists c, cls s = cls s0 ++ [c] /\ ~ returned c.
Proof.
  intros R A H.
  assert (G : forall s1 s, steps (step ocap) s1 s ->
    asleep s1 -> hist s1 = hist s0 -> (exists c, cls s1 = cls s0 ++ [c] /\ (c = ZLock1 new \/ c = ZLock2 new \/ c = ZTest new \/ c = ZAgain new)) ->
    asleep s /\ hist s = hist s0 /\ exists c, cls s = cls s0 ++ [c] /\ ~ returned c).
  { clear H s. intros s1 s H. induction H as [s|s1 s2 s3 [ch X] H IH]; intros A1 H1 (c & C & K).
    - split; auto. split; auto. exists c. split; auto. destruct K as [->|[->|[->| ->]]]; cbn; auto.
    - destruct A1 as ((p & T) & S1 & S2 & Z). destruct s1 as [m1 m2 e b sta sto es fo t pr z cl h]. cbn in *. subst.
      destruct ch as [j k l|k l|]; cbn in X; try discriminate.
      destruct (nth_error (cls s0 ++ [c]) j) as [x|] eqn:E; [|discriminate].
      destruct (lt_dec j (length (cls s0))) as [L|L].
      { rewrite nth_error_app1 in E by auto. pose proof (returned_stuck R E) as Q. destruct x; cbn in Q; try contradiction; discriminate. }
      assert (j = length (cls s0)) as -> by (rewrite nth_error_app2 in E by lia; destruct (j - length (cls s0)) as [|[|?]] eqn:Y; cbn in E; try discriminate; lia).
      rewrite nth_last in E. injection E as <-. unfold mu_lock in X.
      assert (AS : forall m1 m2 cl', asleep (St m1 m2 e b true false es fo (Some (TWait p)) pr 0 cl' (hist s0))) by (repeat split; cbn; eauto).
      destruct K as [->|[->|[->| ->]]]; cbn in X.
      + destruct m1; [discriminate|]. injection X as <-. apply IH; [apply AS|reflexivity|]. cbn. rewrite upd_last. eauto 6.
      + destruct m2; [discriminate|]. injection X as <-. apply IH; [apply AS|reflexivity|]. cbn. rewrite upd_last. eauto 6.
      + injection X as <-. apply IH; [apply AS|reflexivity|]. cbn. rewrite upd_last. eauto 6.
      + destruct m2; [discriminate|]. injection X as <-. apply IH; [apply AS|reflexivity|]. cbn. eauto 6. }
  eapply G; eauto; destruct s0; cbn in *; auto. eauto.
Qed.
