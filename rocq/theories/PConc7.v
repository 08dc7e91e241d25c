(** One Read call at a time: what a Read returns, and a client that reads until an error. *)
From Coq Require Import Permutation.
From Verif Require Import Base MCommon MReader MConc PConc PConc2 PConc3 PConc4 PConc5 PConc6.

(** What a Read of at most [n] bytes may return. *)
Definition read_result (n : nat) (p : list N) (e : option goerr) : Prop :=
  length p <= n /\ (e <> None -> p = []) /\ (p = [] -> e = None -> n = 0).
(** A Read call of at most [n] bytes, at any point. *)
Definition rd (n : nat) (c : cpc) : Prop :=
  match c with
  | RLock1 m | RStart m | RLock2 m | RTest m | RLoop m | RWait m | RWake m | RTake m => m = n
  | RDone p e => read_result n p e
  | _ => False
  end.
Lemma rd_wake n c : rd n c -> rd n (wake c). Proof. destruct c; auto. Qed.
Definition keeps (n i : nat) (l l' : list cpc) : Prop :=
  forall c, nth_error l i = Some c -> rd n c -> exists c', nth_error l' i = Some c' /\ rd n c'.
Lemma keeps_refl n i l : keeps n i l l. Proof. intros c; eauto. Qed.
Lemma keeps_trans n i l1 l2 l3 : keeps n i l1 l2 -> keeps n i l2 l3 -> keeps n i l1 l3.
Proof. intros H1 H2 c E R. destruct (H1 c E R) as (c' & E' & R'). eauto. Qed.
Lemma keeps_wake n i l : keeps n i l (map wake l).
Proof. intros c E R. exists (wake c). rewrite nth_error_map, E. split; auto using rd_wake. Qed.
Lemma keeps_upd n i l j x y : nth_error l j = Some x -> (rd n x -> rd n y) -> keeps n i l (upd l j y).
Proof.
  intros EJ H c E R. rewrite nth_error_upd. destruct (Nat.eqb_spec j i) as [->|NE].
  - rewrite E. rewrite EJ in E. injection E as ->. eauto.
  - eauto.
Qed.
Lemma keeps_upd' n i l j x y : nth_error l j = Some x -> (forall m, rd m x -> rd m y) -> keeps n i l (upd l j y).
Proof. intros E H. eapply keeps_upd; eauto. Qed.
Lemma keeps_signal n i j l l' : signal1 j l = Some l' -> keeps n i l l'.
Proof.
  intros H. destruct (signal1_facts H) as [[-> _]|(m & E & ->)]; [apply keeps_refl|]. eapply keeps_upd; eauto.
Qed.

Lemma keeps_step ocap s s' n i : (0 < cnt crt (cls s) -> oerr s <> None \/ obuf s <> []) -> step ocap s s' -> keeps n i (cls s) (cls s').
Proof.
  intros HT [c H]. destruct s as [m1 m2 e b sta sto es fo t pr z cl h]. cbn in HT |- *. destruct c as [q k j|k j|]; cbn in H.
  - destruct (nth_error cl q) as [c|] eqn:E; [|discriminate]. pose proof (cnt_in crt E) as LT.
    destruct c; cbn in H, LT; try discriminate; unfold mu_lock in H;
      try (destruct m1; [discriminate|]); try (destruct m2; [discriminate|]);
      try (injection H as <-; cbn; eapply keeps_upd'; [exact E|cbn; tauto]).
    + destruct e as [e|]; [|destruct b as [|b0 b]]; injection H as <-; cbn; (eapply keeps_upd'; [exact E|cbn; tauto]).
    + destruct e as [e|]; [|destruct b as [|b0 b]]; injection H as <-; cbn; (eapply keeps_upd'; [exact E|cbn; tauto]).
    + destruct b as [|b0 b].
      * injection H as <-. cbn. eapply keeps_upd'; [exact E|]. cbn. intros m ->. split; [cbn; lia|]. split; auto.
        intros _ ->. exfalso. destruct HT as [HT|HT]; [lia|congruence|congruence].
      * destruct (_ && _) eqn:EQ in H; [|discriminate]. apply andb_prop in EQ as [EQ1 EQ3]. apply andb_prop in EQ1 as [EQ1 EQ2].
        apply Nat.leb_le in EQ1. apply Nat.leb_le in EQ2.
        assert (K : keeps n i cl (upd cl q (RDone (firstn k (b0 :: b)) None))).
        { eapply keeps_upd'; [exact E|]. cbn [rd]. intros m ->. split; [rewrite firstn_length; lia|]. split; [congruence|].
          intros X _. destruct k; [|discriminate]. cbn in EQ3. apply Nat.eqb_eq in EQ3. auto. }
        destruct (is_nil _); [injection H as <-; cbn -[firstn]; exact K|].
        destruct (signal1 _ _) as [cl'|] eqn:ES; [|discriminate]. injection H as <-. cbn -[firstn].
        eapply keeps_trans; [exact K|]. eapply keeps_signal; eauto.
    + injection H as <-. cbn. eapply keeps_trans; [apply keeps_wake|]. eapply keeps_upd'; [eapply nth_wake; [exact E|reflexivity]|cbn; tauto].
    + destruct t; [discriminate|]. destruct z; [|discriminate]. injection H as <-. cbn. eapply keeps_upd'; [exact E|cbn; tauto].
    + destruct (sta && negb sto); injection H as <-; cbn; (eapply keeps_upd'; [exact E|cbn; tauto]).
    + injection H as <-. apply keeps_refl.
  - destruct t as [tc|]; [|discriminate].
    destruct tc; cbn in H; try discriminate; unfold mu_lock in H; try (destruct m1; [discriminate|]); try (destruct m2; [discriminate|]);
      try (injection H as <-; cbn; first [apply keeps_refl|apply keeps_wake]; fail).
    + destruct pr as [|[]]; injection H as <-; cbn; apply keeps_refl.
    + destruct p; injection H as <-; cbn; apply keeps_refl.
    + destruct (_ =? 0); [injection H as <-; cbn; apply keeps_refl|]. destruct (_ && _) in H; [|discriminate].
      destruct (signal1 _ _) as [cl'|] eqn:ES; [|discriminate]. injection H as <-. cbn. eapply keeps_signal; eauto.
  - destruct z as [|z]; [discriminate|]. injection H as <-. apply keeps_refl.
Qed.
Lemma keeps_call n i s c : keeps n i (cls s) (cls (add_call s c)).
Proof.
  intros x E R. exists x. split; auto. destruct s. cbn in *. rewrite nth_error_app1; auto. apply nth_error_Some. congruence.
Qed.

(** ** Executions without Close *)
Inductive reads_only : cpc -> Prop := only_read n : reads_only (RLock1 n).
Lemma ro_rc c : reads_only c -> reads_and_closes c. Proof. intros []. constructor. Qed.
Lemma next_mono ocap (P Q : cpc -> Prop) s s' : (forall c, P c -> Q c) -> next ocap P s s' -> next ocap Q s s'.
Proof. intros H [x X|c C]; [apply next_step; auto|apply next_call; auto]. Qed.
Lemma steps_mono (P Q : st -> st -> Prop) s s' : (forall a b, P a b -> Q a b) -> steps P s s' -> steps Q s s'.
Proof. intros H X; induction X; econstructor; eauto. Qed.

Definition is_read (c : cpc) : Prop := match c with CLock1 | CTest | CLock2 | CSet | CFlags | CJoin | CRelock | CEnd | CDone | ZLock1 _ | ZLock2 _ | ZTest _ | ZAgain _ | ZDone => False | _ => True end.
Record quiet (e : goerr) (s : st) : Prop := {
  q_reads : Forall is_read (cls s);
  q_forced : forced s = false;
  q_hist : Forall (fun r => snd r = None \/ snd r = Some e) (hist s) }.
Lemma is_read_upd l i c : Forall is_read l -> is_read c -> Forall is_read (upd l i c).
Proof. intros H Hc. revert i. induction H; intros [|i]; cbn; constructor; auto. Qed.
Lemma is_read_signal j l l' : signal1 j l = Some l' -> Forall is_read l -> Forall is_read l'.
Proof. intros H F. destruct (signal1_facts H) as [[-> _]|(m & E & ->)]; auto. apply is_read_upd; cbn; auto. Qed.
Lemma is_read_wake l : Forall is_read l -> Forall is_read (map wake l).
Proof. induction 1 as [|c l H F IH]; cbn; constructor; auto. destruct c; auto. Qed.
Lemma quiet_not_canceled e s : quiet e s -> ~ canceled s.
Proof.
  intros [A B _] [C|C]; [congruence|]. destruct (cnt_pos C) as (i & c & E & F).
  apply nth_error_In in E. rewrite Forall_forall in A. specialize (A c E). destruct c; cbn in *; lia.
Qed.

Lemma quiet_step ocap a b e s s' : Er a b e s -> quiet e s -> step ocap s s' -> quiet e s'.
Proof.
  intros HE HQ [c H]. pose proof (quiet_not_canceled HQ) as NC. destruct HQ as [A B C]. pose proof (e_set HE) as SE.
  assert (SE' : forall x, oerr s = Some x -> x = e) by (intros x X; destruct (SE x X) as [K|[K _]]; [contradiction|auto]).
  clear SE NC HE. destruct s as [m1 m2 oe ob sta sto es fo t pr z cl h]. cbn in A, B, C, SE'. subst fo. destruct c as [q k j|k j|]; cbn in H.
  - destruct (nth_error cl q) as [c|] eqn:E; [|discriminate].
    assert (RC : is_read c) by (apply nth_error_In in E; rewrite Forall_forall in A; auto).
    destruct c; cbn in H, RC; try discriminate; try contradiction; unfold mu_lock in H;
      try (destruct m1; [discriminate|]); try (destruct m2; [discriminate|]);
      try (injection H as <-; constructor; cbn; auto; apply is_read_upd; cbn; auto; fail).
    + destruct oe as [oe|]; [|destruct ob as [|b0 ob]]; injection H as <-; constructor; cbn; auto; apply is_read_upd; cbn; auto.
    + destruct oe as [oe|]; [|destruct ob as [|b0 ob]]; injection H as <-; constructor; cbn; auto; apply is_read_upd; cbn; auto.
    + destruct ob as [|b0 ob].
      * injection H as <-. constructor; cbn; auto; [apply is_read_upd; cbn; auto|]. apply Forall_app. split; auto. constructor; auto. cbn.
        destruct oe as [x|]; auto. right. f_equal. auto.
      * destruct (_ && _) in H; [|discriminate].
        assert (K : Forall is_read (upd cl q (RDone (firstn k (b0 :: ob)) None))) by (apply is_read_upd; cbn; auto).
        assert (K2 : Forall (fun r : list N * option goerr => snd r = None \/ snd r = Some e) (h ++ [(firstn k (b0 :: ob), None)])).
        { apply Forall_app. split; auto. }
        destruct (is_nil _); [injection H as <-; constructor; cbn -[firstn]; auto|].
        destruct (signal1 _ _) as [cl'|] eqn:ES; [|discriminate]. injection H as <-. constructor; cbn -[firstn]; auto. eapply is_read_signal; eauto.
  - destruct t as [tc|]; [|discriminate].
    destruct tc; cbn in H; try discriminate; unfold mu_lock in H; try (destruct m1; [discriminate|]); try (destruct m2; [discriminate|]);
      try (injection H as <-; constructor; cbn; auto using is_read_wake; fail).
    + destruct pr as [|[]]; injection H as <-; constructor; cbn; auto.
    + destruct p; injection H as <-; constructor; cbn; auto.
    + destruct (_ =? 0); [injection H as <-; constructor; cbn; auto|]. destruct (_ && _) in H; [|discriminate].
      destruct (signal1 _ _) as [cl'|] eqn:ES; [|discriminate]. injection H as <-. constructor; cbn; auto. eapply is_read_signal; eauto.
  - destruct z as [|z]; [discriminate|]. injection H as <-. constructor; auto.
Qed.
Lemma quiet_next ocap a b e s s' : Er a b e s -> quiet e s -> next ocap reads_only s s' -> quiet e s'.
Proof.
  intros HE HQ [x X|c []]; [eapply quiet_step; eauto|]. destruct HQ as [A B C]. destruct s. constructor; cbn in *; auto.
  apply Forall_app. split; auto. repeat constructor.
Qed.
