(** Invariants of the concurrent Reader of MConc.v. *)
From Verif Require Import Base MCommon MReader MConc.

Fixpoint cnt (f : cpc -> nat) (l : list cpc) : nat :=
  match l with [] => 0 | c :: r => f c + cnt f r end.
Lemma cnt_upd f l i c c' : nth_error l i = Some c -> cnt f (upd l i c') + f c = cnt f l + f c'.
Proof.
  revert i; induction l as [|a l IH]; intros [|i] H; cbn in *; try discriminate.
  - injection H as ->. lia.
  - specialize (IH _ H). lia.
Qed.
Lemma cnt_in f l i c : nth_error l i = Some c -> f c <= cnt f l.
Proof.
  revert i; induction l as [|a l IH]; intros [|i] H; cbn in *; try discriminate.
  - injection H as ->. lia.
  - specialize (IH _ H). lia.
Qed.
Lemma cnt_app f l c : cnt f (l ++ [c]) = cnt f l + f c.
Proof. induction l; cbn in *; lia. Qed.
Lemma cnt_pos f l : 0 < cnt f l -> exists i c, nth_error l i = Some c /\ 0 < f c.
Proof.
  induction l as [|a l IH]; cbn; intros H; [lia|].
  destruct (f a) eqn:E.
  - destruct IH as (i & c & A & B); [lia|]. exists (S i), c; auto.
  - exists 0, a; cbn; split; [auto|lia].
Qed.
Lemma upd_length {A} (l : list A) i x : length (upd l i x) = length l.
Proof. revert i; induction l; intros [|i]; cbn; auto. Qed.
Lemma nth_error_upd {A} (l : list A) i j x : nth_error (upd l i x) j =
  if (i =? j)%nat then match nth_error l j with Some _ => Some x | None => None end else nth_error l j.
Proof.
  revert i j; induction l as [|a l IH]; intros [|i] [|j]; cbn; auto;
    try (destruct (i =? j)%nat; auto; fail).
Qed.

(** classes of program counters *)
Definition c1 c := match c with RStart _ | CTest | CLock2 | CSet | CFlags | CEnd | ZLock2 _ | ZTest _ | ZAgain _ => 1 | _ => 0 end.
Definition c2 c := match c with RTest _ | RLoop _ | RTake _ | CSet | ZTest _ | ZAgain _ => 1 | _ => 0 end.
Definition cw c := match c with RWait _ => 1 | _ => 0 end.
Definition ca c := match c with RWake _ | RLoop _ | RTake _ => 1 | _ => 0 end.
Definition cf c := match c with CFlags => 1 | _ => 0 end.
Definition cj c := match c with CJoin => 1 | _ => 0 end.
Definition cs c := match c with RLock2 _ | RTest _ | RLoop _ | RWait _ | RWake _ | RTake _ | RDone _ _
                              | CLock2 | CSet | CFlags | CJoin => 1 | _ => 0 end.
Definition cc c := match c with CLock2 | CSet => 1 | _ => 0 end.
Definition cz c := match c with ZLock1 _ | ZLock2 _ | ZTest _ | ZAgain _ | ZDone => 1 | _ => 0 end.
Definition t1 t := match t with Some (TRun | TErr _ | TErrSet _ | TFlush _ | TF4 _ | TF5 _ | TF6 _) => 1 | _ => 0 end.
Definition t2 t := match t with Some (TErrSet _ | TF2 _ | TF6 _) => 1 | _ => 0 end.
Definition b2n (b : bool) : nat := if b then 1 else 0.
Definition pend (t : option tpc) : list N :=
  match t with
  | Some (TFlush p | TF1 p | TF2 p | TWait p | TWake p | TF3 p | TF4 p | TF5 p | TF6 p) => p
  | _ => [] end.
Definition flushing (t : option tpc) : bool :=
  match t with Some (TF1 _ | TF2 _ | TWait _ | TWake _ | TF3 _ | TF4 _ | TF5 _ | TF6 _) => true | _ => false end.
Definition has_err (l : list outact) : bool := existsb (fun a => match a with OErr _ => true | _ => false end) l.
Definition erring (t : option tpc) : bool := match t with Some (TErr _ | TErrSet _) => true | _ => false end.
Definition is_TWait (t : option tpc) : bool := match t with Some (TWait _) => true | _ => false end.
Definition checked (t : option tpc) : bool := match t with Some (TF3 _ | TF4 _ | TF5 _ | TF6 _) => true | _ => false end.
Definition pushing (t : option tpc) : bool := match t with Some (TErr _ | TErrSet _ | TFlush _ | TF5 _ | TF6 _) => true | _ => false end.

Lemma cnt_wake f l : (forall n, f (RWait n) = f (RWake n)) -> cnt f (map wake l) = cnt f l.
Proof.
  intros H; induction l as [|a l IH]; cbn; auto. rewrite IH. f_equal.
  destruct a; cbn; auto.
Qed.
Lemma cnt_wake_w l : cnt cw (map wake l) = 0.
Proof. induction l as [|a l IH]; cbn; auto. rewrite IH. destruct a; auto. Qed.
Lemma cnt_wake_a l : cnt ca (map wake l) = cnt ca l + cnt cw l.
Proof. induction l as [|a l IH]; cbn; auto. rewrite IH. destruct a; cbn; lia. Qed.
Lemma nth_wake l i c : nth_error l i = Some c -> is_wait c = false -> nth_error (map wake l) i = Some c.
Proof. intros H E. rewrite nth_error_map, H. cbn. destruct c; try discriminate; auto. Qed.
Lemma existsb_wait l : existsb is_wait l = false -> cnt cw l = 0.
Proof.
  induction l as [|a l IH]; cbn; auto. destruct a; cbn; try discriminate; intros; rewrite IH; auto.
Qed.
Lemma signal1_facts j l l' : signal1 j l = Some l' ->
  (l' = l /\ cnt cw l = 0) \/
  (exists n, nth_error l j = Some (RWait n) /\ l' = upd l j (RWake n)).
Proof.
  unfold signal1. intros H.
  destruct (nth_error l j) as [c|] eqn:E.
  - destruct c; try (destruct (existsb is_wait l) eqn:X; try discriminate; injection H as <-; left; split; auto using existsb_wait; fail).
    injection H as <-. right. eauto.
  - destruct (existsb is_wait l) eqn:X; try discriminate; injection H as <-; left; split; auto using existsb_wait.
Qed.
Lemma signal1_cnt f j l l' : signal1 j l = Some l' -> (forall n, f (RWait n) = f (RWake n)) -> cnt f l' = cnt f l.
Proof.
  intros H Hf. destruct (signal1_facts H) as [[-> _]|(n & E & ->)]; auto.
  pose proof (cnt_upd f (RWake n) E). rewrite Hf in H0. lia.
Qed.
Lemma signal1_wa j l l' : signal1 j l = Some l' ->
  (cnt cw l = 0 /\ cnt cw l' = 0 /\ cnt ca l' = cnt ca l) \/ (cnt cw l' + 1 = cnt cw l /\ cnt ca l' = cnt ca l + 1).
Proof.
  intros H. destruct (signal1_facts H) as [[-> ?]|(n & E & ->)]; auto.
  right. pose proof (cnt_upd cw (RWake n) E). pose proof (cnt_upd ca (RWake n) E). cbn in *. lia.
Qed.
Lemma signal1_ok l : exists j l', signal1 j l = Some l'.
Proof.
  destruct (existsb is_wait l) eqn:E.
  - apply existsb_exists in E as (c & I & W). apply In_nth_error in I as [j I].
    destruct c; try discriminate. exists j. unfold signal1. rewrite I. eauto.
  - exists (length l). unfold signal1. rewrite (proj2 (nth_error_None l (length l))); auto. rewrite E. eauto.
Qed.
Lemma t1_signal2 t : t1 (signal2 t) = t1 t. Proof. destruct t as [[]|]; reflexivity. Qed.
Lemma t2_signal2 t : t2 (signal2 t) = t2 t. Proof. destruct t as [[]|]; reflexivity. Qed.
Lemma pend_signal2 t : pend (signal2 t) = pend t. Proof. destruct t as [[]|]; reflexivity. Qed.
Lemma flushing_signal2 t : flushing (signal2 t) = flushing t. Proof. destruct t as [[]|]; reflexivity. Qed.
Lemma erring_signal2 t : erring (signal2 t) = erring t. Proof. destruct t as [[]|]; reflexivity. Qed.
Lemma checked_signal2 t : checked (signal2 t) = checked t. Proof. destruct t as [[]|]; reflexivity. Qed.
Lemma pushing_signal2 t : pushing (signal2 t) = pushing t. Proof. destruct t as [[]|]; reflexivity. Qed.
Lemma wait_signal2 t : is_TWait (signal2 t) = false. Proof. destruct t as [[]|]; reflexivity. Qed.
Lemma none_signal2 t : signal2 t = None <-> t = None. Proof. destruct t as [[]|]; split; intros; try discriminate; auto. Qed.

Lemma t1_pushing t : t1 t = 0 -> pushing t = false.
Proof. destruct t as [[]|]; cbn; auto; discriminate. Qed.

Ltac cu f c' E := let H := fresh "K" in pose proof (cnt_upd f c' E) as H; cbn [c1 c2 cw ca cf cj cs cc cz] in H;
  rewrite ?Nat.add_0_r in H; try (apply Nat.add_cancel_r in H).
Ltac counts c' E := cu c1 c' E; cu c2 c' E; cu cw c' E; cu ca c' E; cu cf c' E; cu cj c' E; cu cs c' E; cu cc c' E; cu cz c' E.
Ltac fwd := repeat match goal with
  | H : _ /\ _ |- _ => destruct H
  | H : ?P -> _ |- _ =>
      let X := fresh in
      match P with
      | _ < _ => assert (X : P) by lia
      | _ = _ => assert (X : P) by (assumption || reflexivity)
      | _ <> _ => assert (X : P) by (assumption || discriminate)
      end; specialize (H X); clear X
  end.
Ltac boom := rewrite ?t1_signal2, ?t2_signal2, ?none_signal2, ?pend_signal2, ?flushing_signal2, ?erring_signal2,
     ?checked_signal2, ?pushing_signal2, ?wait_signal2; intros;
  first [assumption | congruence | lia | solve [auto] |
   (fwd; repeat match goal with |- _ /\ _ => split | |- _ <-> _ => split; intros end; fwd;
    first [assumption | congruence | lia | solve [auto] | (exfalso; congruence) | idtac])].

Ltac go := constructor; cbn -[has_err]; repeat match goal with K : cnt _ (upd _ _ _) = cnt _ _ |- _ => rewrite K; clear K end;
  cbn -[has_err] in *; boom.


Section Inv.
Variable ocap : N.
Hypothesis Hcap : (0 < ocap)%N.

Record Inv (s : st) : Prop := {
  i_mu1 : cnt c1 (cls s) + t1 (thr s) = b2n (mu1 s);
  i_mu2 : cnt c2 (cls s) + t2 (thr s) = b2n (mu2 s);
  i_noz : cnt cz (cls s) = 0;
  i_start : started s = false -> cnt cs (cls s) = 0 /\ thr s = None /\ stopped s = false /\ zombies s = 0 /\
      oerr s = None /\ obuf s = [] /\ errset s = false /\ forced s = false;
  i_thr : started s = true -> (stopped s = true <-> thr s = None);
  i_stopped : stopped s = true -> errset s = true;
  i_wait : oerr s <> None -> cnt cw (cls s) = 0;
  i_errset : errset s = true -> oerr s <> None;
  i_err : errset s = false -> has_err (prog s) = true \/ erring (thr s) = true;
  i_active : obuf s <> [] -> 0 < cnt cw (cls s) -> 0 < cnt ca (cls s);
  i_twait : is_TWait (thr s) = true -> obuf s <> [];
  i_cancel : forced s = true -> obuf s = [] /\ oerr s = Some Canceled;
  i_cancel2 : 0 < cnt cf (cls s) -> obuf s = [] /\ oerr s = Some Canceled;
  i_forced : forced s = true -> errset s = true /\ pushing (thr s) = false;
  i_join : 0 < cnt cj (cls s) -> forced s = true;
  i_close : 0 < cnt cc (cls s) + cnt cf (cls s) -> stopped s = false;
  i_room : checked (thr s) = true -> (lenN (obuf s) < ocap)%N;
  i_pend : flushing (thr s) = true -> pend (thr s) <> [] }.

Lemma inv_fresh prog0 : has_err prog0 = true -> Inv (fresh prog0).
Proof. intros Herr. constructor; cbn; intuition (try congruence; try lia; auto). Qed.

Lemma inv_call s c : reads_and_closes c -> Inv s -> Inv (add_call s c).
Proof.
  intros Hc I. destruct s. destruct I. cbn in *.
  destruct Hc; constructor; cbn; rewrite ?cnt_app; cbn; rewrite ?Nat.add_0_r; auto.
Qed.

Lemma inv_cstep s i k j s' : Inv s -> cstep s i k j = Some s' -> Inv s'.
Proof.
  intros I H. destruct s as [m1 m2 e b sta sto es fo t pr z cl h]. cbn in H.
  destruct (nth_error cl i) as [c|] eqn:E; [|discriminate].
  destruct I as [J1 J2 J3 J4 J5 J6 J7 J8 J9 J10 J11 J12 J12' J13 J14 J15 J16 J17].
  cbn -[has_err] in J1, J2, J3, J4, J5, J6, J7, J8, J9, J10, J11, J12, J12', J13, J14, J15, J16, J17.
  destruct c; cbn in H; try discriminate; unfold mu_lock in H.
  - destruct m1; [discriminate|]. injection H as <-. counts (RStart n) E. go.
  - injection H as <-. destruct sta; [|destruct (J4 eq_refl) as (X1 & -> & -> & -> & -> & -> & -> & ->)];
      destruct m1; cbn -[has_err] in *; counts (RLock2 n) E; go.
  - destruct m2; [discriminate|]. injection H as <-. counts (RTest n) E. go.
  - destruct e as [e|]; [|destruct b as [|b0 b]]; injection H as <-.
    + counts (RTake n) E. go.
    + counts (RLoop n) E. go.
    + counts (RTake n) E. go.
  - destruct e as [e|]; [|destruct b as [|b0 b]]; injection H as <-.
    + counts (RTake n) E. go.
    + destruct m2; cbn -[has_err] in *; counts (RWait n) E; go.
    + counts (RTake n) E. go.
  - destruct m2; [discriminate|]. injection H as <-. counts (RLoop n) E. go.
  - destruct m2; [|pose proof (cnt_in c2 E); cbn in *; lia]. destruct b as [|b0 b].
    + injection H as <-. counts (RDone [] e) E. go.
    + remember (b0 :: b) as bb. assert (bb <> []) by congruence. clear Heqbb b0 b.
      destruct (_ && _) in H; [|discriminate].
      destruct (is_nil (skipn k bb)) eqn:EN.
      * injection H as <-. destruct (skipn k bb); [|discriminate].
        counts (RDone (firstn k bb) None) E. go.
      * set (c' := RDone (firstn k bb) None) in *.
        destruct (signal1 j (upd cl i c')) as [cl'|] eqn:ES; [|discriminate]. injection H as <-.
        pose proof (signal1_wa ES) as SW.
        assert (LB : (lenN (skipn k bb) <= lenN bb)%N) by (unfold lenN; rewrite skipn_length; lia).
        assert (NN : skipn k bb <> []) by (destruct (skipn k bb); [discriminate|congruence]).
        unfold c' in *; counts (RDone (firstn k bb) None) E; 
        pose proof (signal1_cnt (f:=c1) ES ltac:(auto)). pose proof (signal1_cnt (f:=c2) ES ltac:(auto)).
        pose proof (signal1_cnt (f:=cf) ES ltac:(auto)). pose proof (signal1_cnt (f:=cj) ES ltac:(auto)).
        pose proof (signal1_cnt (f:=cs) ES ltac:(auto)). pose proof (signal1_cnt (f:=cc) ES ltac:(auto)).
        pose proof (signal1_cnt (f:=cz) ES ltac:(auto)). cbn in J2.
        constructor; cbn -[has_err];
        repeat match goal with K : cnt _ cl' = cnt _ _ |- _ => rewrite K; clear K end;
        repeat match goal with K : cnt _ (upd _ _ _) = cnt _ _ |- _ => rewrite K; clear K end; boom.
  - destruct m1; [discriminate|]. injection H as <-. counts CTest E. go.
  - injection H as <-. destruct (sta && negb sto) eqn:ST.
    + apply andb_prop in ST as [-> ST]. apply negb_true_iff in ST as ->. counts CLock2 E. go.
    + counts CEnd E. go.
  - destruct m2; [discriminate|]. injection H as <-. counts CSet E. go.
  - injection H as <-. assert (E' : nth_error (map wake cl) i = Some CSet) by (apply nth_wake; auto).
    assert (m2 = true) as -> by (destruct m2; auto; pose proof (cnt_in c2 E); cbn in *; lia).
    pose proof (cnt_in c1 E) as L1. pose proof (cnt_in cc E) as L2. pose proof (cnt_in cs E) as L3. cbn in L1, L2, L3.
    counts CFlags E'.
    rewrite !(@cnt_wake c1), !(@cnt_wake c2), !(@cnt_wake cf), !(@cnt_wake cj), !(@cnt_wake cs), !(@cnt_wake cc), !(@cnt_wake cz), ?cnt_wake_w, ?cnt_wake_a in * by reflexivity. go.
  - injection H as <-. pose proof (cnt_in cf E) as L2. pose proof (cnt_in c1 E) as L1. pose proof (cnt_in cs E) as L3. cbn in L1, L2, L3.
    assert (m1 = true) as -> by (destruct m1; auto; cbn in *; lia).
    assert (pushing t = false) by (apply t1_pushing; cbn in J1; lia).
    counts CJoin E. go.
  - destruct t; [discriminate|]. destruct z; [|discriminate]. injection H as <-. counts CRelock E. go.
  - destruct m1; [discriminate|]. injection H as <-. counts CEnd E. go.
  - injection H as <-. pose proof (cnt_in c1 E) as L1. cbn in L1.
    assert (m1 = true) as -> by (destruct m1; auto; cbn in *; lia). counts CDone E. go.
  - pose proof (cnt_in cz E) as L. cbn in L. lia.
  - pose proof (cnt_in cz E) as L. cbn in L. lia.
  - pose proof (cnt_in cz E) as L. cbn in L. lia.
  - pose proof (cnt_in cz E) as L. cbn in L. lia.
Qed.
End Inv.
