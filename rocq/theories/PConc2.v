(** The steps of the goroutine preserve the invariant; absence of deadlock;
    termination. *)
From Verif Require Import Base MCommon MReader MConc PConc.

Section Inv.
Variable ocap : N.
Hypothesis Hcap : (0 < ocap)%N.
Notation Inv := (PConc.Inv ocap).

Lemma inv_tstep s k j s' : Inv s -> tstep ocap s k j = Some s' -> Inv s'.
Proof.
  intros I H. destruct s as [m1 m2 e b sta sto es fo t pr z cl h]. cbn in H.
  destruct t as [c|]; [|discriminate].
  destruct I as [J1 J2 J3 J4 J5 J6 J7 J8 J9 J10 J11 J12 J12' J13 J14 J15 J16 J17].
  cbn -[has_err] in J1, J2, J3, J4, J5, J6, J7, J8, J9, J10, J11, J12, J12', J13, J14, J15, J16, J17.
  assert (sta = true) as -> by (destruct sta; auto; destruct (J4 eq_refl) as (_ & X & _); discriminate).
  assert (sto = false) as -> by (destruct sto; auto; destruct J5 as [X _]; auto; specialize (X eq_refl); discriminate).
  specialize (J5 eq_refl). destruct J5 as [J5 J5'].
  assert (T1 : t1 (Some c) = 1 -> cnt cf cl = 0 /\ cnt cc cl = 0 /\ cnt c1 cl = 0 /\ m1 = true).
  { intros X. cbn in X. rewrite X in J1.
    assert (cnt c1 cl = 0) by (destruct m1; cbn in J1; lia).
    assert (forall l, cnt cf l + cnt cc l <= cnt c1 l) by (induction l as [|a l IH]; cbn; auto; destruct a; cbn; lia).
    specialize (H1 cl). destruct m1; cbn in J1; repeat split; auto; lia. }
  assert (T2 : t2 (Some c) = 1 -> m2 = true) by (intros X; cbn in X; rewrite X in J2; destruct m2; cbn in J2; auto; lia).
  assert (BN : forall x, b2n x <= 1) by (intros []; cbn; lia).
  destruct c; cbn in H; try discriminate; unfold mu_lock in H; cbn -[has_err] in *; fwd; subst.
  - destruct m1; [discriminate|]. injection H as <-. constructor; cbn -[has_err] in *; boom.
  - destruct pr as [|[p|x] r]; injection H as <-.
    + destruct es; [|destruct (J9 eq_refl); discriminate]. constructor; cbn -[has_err] in *; boom.
    + destruct fo; constructor; cbn -[has_err] in *; boom.
    + destruct es; constructor; cbn -[has_err] in *; boom.
  - destruct m2; [discriminate|]. injection H as <-. constructor; cbn -[has_err] in *; boom.
  - injection H as <-. constructor; cbn -[has_err] in *;
      rewrite ?(@cnt_wake c1), ?(@cnt_wake c2), ?(@cnt_wake cf), ?(@cnt_wake cj), ?(@cnt_wake cs), ?(@cnt_wake cc), ?(@cnt_wake cz), ?cnt_wake_w, ?cnt_wake_a in * by reflexivity; boom.
  - destruct p as [|p0 p]; injection H as <-; constructor; cbn -[has_err] in *; boom.
  - destruct m2; [discriminate|]. injection H as <-. constructor; cbn -[has_err] in *; boom.
  - injection H as <-. destruct (ocap <=? lenN b)%N eqn:EF.
    + assert (b <> []) by (intros ->; apply N.leb_le in EF; cbn in EF; lia). constructor; cbn -[has_err] in *; boom.
    + apply N.leb_gt in EF. constructor; cbn -[has_err] in *; boom.
  - destruct m2; [discriminate|]. injection H as <-. constructor; cbn -[has_err] in *; boom.
  - destruct m1; [discriminate|]. injection H as <-. constructor; cbn -[has_err] in *; boom.
  - injection H as <-. destruct fo; constructor; cbn -[has_err] in *; boom.
  - destruct m2; [discriminate|]. injection H as <-. constructor; cbn -[has_err] in *; boom.
  - destruct (_ =? 0) eqn:F0; [apply Nat.eqb_eq in F0; exfalso; lia|].
    destruct (_ && _) eqn:EK in H; [|discriminate].
    destruct (signal1 j cl) as [cl'|] eqn:ES; [|discriminate]. injection H as <-.
    pose proof (signal1_wa ES) as SW.
    pose proof (signal1_cnt (f:=c1) ES ltac:(auto)). pose proof (signal1_cnt (f:=c2) ES ltac:(auto)).
    pose proof (signal1_cnt (f:=cf) ES ltac:(auto)). pose proof (signal1_cnt (f:=cj) ES ltac:(auto)).
    pose proof (signal1_cnt (f:=cs) ES ltac:(auto)). pose proof (signal1_cnt (f:=cc) ES ltac:(auto)).
    pose proof (signal1_cnt (f:=cz) ES ltac:(auto)).
    constructor; cbn -[has_err] in *; 
    repeat match goal with K : cnt _ cl' = cnt _ _ |- _ => rewrite K; clear K end; boom.
Qed.

Lemma inv_step s s' : Inv s -> step ocap s s' -> Inv s'.
Proof.
  intros I [c H]. destruct c as [i k j|k j|]; cbn in H.
  - eapply inv_cstep; eauto.
  - eapply inv_tstep; eauto.
  - destruct s as [m1 m2 e b sta sto es fo t pr [|z] cl h]; [discriminate|]. injection H as <-.
    destruct I as [J1 J2 J3 J4 J5 J6 J7 J8 J9 J10 J11 J12 J12' J13 J14 J15 J16 J17].
    constructor; cbn -[has_err] in *; auto. intros X; destruct (J4 X) as (? & ? & ? & ? & ?); discriminate.
Qed.
Lemma inv_next s s' : Inv s -> next ocap reads_and_closes s s' -> Inv s'.
Proof. intros I []; eauto using inv_step, inv_call. Qed.
Lemma inv_steps s s' : Inv s -> steps (next ocap reads_and_closes) s s' -> Inv s'.
Proof. intros I H; induction H; eauto using inv_next. Qed.

End Inv.
