(** C61, C62: a Writer used from several goroutines. *)
From Coq Require Import Permutation.
From Verif Require Import Base MToken MCommon MWriter MCalls MWConc.

(** ** What "as if made one after the other" means *)
(** i comes before j *)
Definition before {A} (l : list A) (i j : A) : Prop := exists a b c, l = a ++ i :: b ++ j :: c.
(** call j was made after call i had returned *)
Definition follows (tr : list wseen) (i j : nat) : Prop :=
  exists a b r c, tr = a ++ Returned i r :: b /\ In (Called j c) b.
(** The calls seen in [tr] and what they returned are explained by making the
    calls [lin] (number, call, result) one after the other, and that leaves the
    Writer as [w']: every call that has returned is among them with the result it
    returned; the others have been made; and a call made after another had
    returned comes after it. *)
Record Explains (env : wenv) (w : writer) (tr : list wseen) (w' : writer) (lin : list (nat * wcall * wreply)) : Prop := {
  ex_once : NoDup (map (fun x => fst (fst x)) lin);
  ex_run : one_by_one env w (map (fun x => snd (fst x)) lin) = Ok (w', map snd lin);
  ex_all : forall i r, In (Returned i r) tr -> exists c, In (i, c, r) lin /\ In (Called i c) tr;
  ex_made : forall i c r, In (i, c, r) lin -> In (Called i c) tr;
  ex_order : forall i j, follows tr i j -> In j (map (fun x => fst (fst x)) lin) -> before (map (fun x => fst (fst x)) lin) i j }.

(** ** Lists *)
Lemma wupd_len l i x : length (wupd l i x) = length l.
Proof. revert i; induction l; intros [|i]; cbn; auto. Qed.
Lemma wupd_same l i x y : nth_error l i = Some y -> nth_error (wupd l i x) i = Some x.
Proof. revert i; induction l; intros [|i]; cbn; auto; discriminate. Qed.
Lemma wupd_other l i j x : i <> j -> nth_error (wupd l i x) j = nth_error l j.
Proof. revert i j; induction l; intros [|i] [|j] H; cbn; auto; congruence. Qed.
Lemma obo_app env cs1 : forall w cs2 w1 r1, one_by_one env w cs1 = Ok (w1, r1) ->
  one_by_one env w (cs1 ++ cs2) = let* (w2, r2) := one_by_one env w1 cs2 in Ok (w2, r1 ++ r2).
Proof.
  induction cs1 as [|c cs1 IH]; intros w cs2 w1 r1 H; cbn [one_by_one app] in *.
  - injection H as <- <-. destruct (one_by_one env w cs2) as [[w2 r2]| |]; reflexivity.
  - destruct (alone env w c) as [[wa x]| |]; cbn [rbind] in *; try discriminate.
    destruct (one_by_one env wa cs1) as [[wb xs]| |] eqn:E; cbn [rbind] in *; try discriminate. injection H as <- <-.
    rewrite (IH _ cs2 _ _ E). destruct (one_by_one env wb cs2) as [[w2 r2]| |]; reflexivity.
Qed.
Lemma before_app {A} (l : list A) i j k : before l i j -> before (l ++ [k]) i j.
Proof. intros (a & b & c & ->). exists a, b, (c ++ [k]). rewrite <- !app_assoc. cbn. rewrite <- !app_assoc. reflexivity. Qed.
Lemma before_last {A} (l : list A) i j : In i l -> before (l ++ [j]) i j.
Proof. intros H. apply in_split in H. destruct H as (a & b & ->). exists a, b, []. rewrite <- !app_assoc. reflexivity. Qed.

Definition holds (p : wpc) : bool := match p with WLocked _ | WTracer _ | WBody _ _ | WStored _ => true | _ => false end.
(** has taken effect *)
Definition result_of (p : wpc) : option wreply := match p with WStored r | WUnlocked r | WDone r => Some r | _ => None end.
Definition call_of (p : wpc) : option wcall := match p with WStart c | WLocked c | WTracer c | WBody c _ => Some c | _ => None end.
Notation ids lin := (map (fun x : nat * wcall * wreply => fst (fst x)) lin).

Section Lin.
Variable env : wenv.
Variable w0 : writer.

Record Cinv (s : wst) (lin : list (nat * wcall * wreply)) : Prop := {
  c_mu : forall i p, nth_error (wpcs s) i = Some p -> holds p = true -> wmu s = true;
  c_one : forall i j p q, nth_error (wpcs s) i = Some p -> nth_error (wpcs s) j = Some q -> holds p = true -> holds q = true -> i = j;
  c_held : wmu s = true -> exists i p, nth_error (wpcs s) i = Some p /\ holds p = true;
  c_body : forall i c w, nth_error (wpcs s) i = Some (WBody c w) -> w = wsh s;
  c_run : one_by_one env w0 (map (fun x => snd (fst x)) lin) = Ok (wsh s, map snd lin);
  c_nodup : NoDup (ids lin);
  c_lin : forall i c r, In (i, c, r) lin -> In (Called i c) (wtrace s) /\ exists p, nth_error (wpcs s) i = Some p /\ result_of p = Some r;
  c_res : forall i p r, nth_error (wpcs s) i = Some p -> result_of p = Some r -> exists c, In (i, c, r) lin;
  c_called : forall i p c, nth_error (wpcs s) i = Some p -> call_of p = Some c -> In (Called i c) (wtrace s);
  c_ret : forall i r, In (Returned i r) (wtrace s) -> nth_error (wpcs s) i = Some (WDone r);
  c_fresh : forall i c, In (Called i c) (wtrace s) -> i < length (wpcs s);
  c_order : forall i j, follows (wtrace s) i j -> In j (ids lin) -> before (ids lin) i j }.

Lemma in_ids i lin : In i (ids lin) -> exists c r, In (i, c, r) lin.
Proof. intros H. apply in_map_iff in H. destruct H as ([[a c] r] & E & H). cbn in E. subst. eauto. Qed.

Lemma cinv_fresh : Cinv (wfresh w0) [].
Proof.
  constructor; cbn [wfresh wmu wsh wpcs wtrace map In]; try tauto; try discriminate; try reflexivity; try (intros [|i]; discriminate); try constructor.
Qed.

(** the three kinds of step *)
(** a step that neither takes effect nor returns *)
Lemma cinv_quiet s lin i p p' mu' : Cinv s lin -> nth_error (wpcs s) i = Some p ->
  result_of p' = result_of p -> (forall r, p <> WDone r) -> (forall c, call_of p' = Some c -> call_of p = Some c) ->
  (forall c w, p' = WBody c w -> w = wsh s) ->
  (holds p' = holds p /\ mu' = wmu s \/ holds p = false /\ holds p' = true /\ wmu s = false /\ mu' = true \/ holds p = true /\ holds p' = false /\ mu' = false) ->
  wdead s = None ->
  Cinv (WSt mu' (wsh s) (wupd (wpcs s) i p') (wtrace s) None) lin.
Proof.
  intros I E R ND CO BO HO D. pose proof (@wupd_same (wpcs s) i p' _ E) as ES.
  assert (EO : forall j, i <> j -> nth_error (wupd (wpcs s) i p') j = nth_error (wpcs s) j) by (intros; apply wupd_other; auto).
  assert (NH : holds p = false -> wmu s = false -> forall j q, nth_error (wpcs s) j = Some q -> holds q = true -> False).
  { intros _ M j q Q HQ. pose proof (c_mu I Q HQ). congruence. }
  constructor; cbn [wmu wsh wpcs wtrace].
  - intros j q Q HQ. destruct (Nat.eq_dec i j) as [<-|N].
    + rewrite ES in Q. injection Q as <-. destruct HO as [[H1 ->]|[[H1 [H2 [H3 ->]]]|[H1 [H2 ->]]]]; try congruence.
      eapply c_mu; eauto; congruence.
    + rewrite EO in Q by auto. destruct HO as [[H1 ->]|[[H1 [H2 [H3 ->]]]|[H1 [H2 ->]]]]; auto.
      * eapply c_mu; eauto.
      * exfalso. apply N. eapply c_one; eauto.
  - intros j k q q' Q Q' HQ HQ'. destruct (Nat.eq_dec i j) as [<-|N]; destruct (Nat.eq_dec i k) as [<-|N']; auto.
    + rewrite ES in Q. injection Q as <-. rewrite EO in Q' by auto.
      destruct HO as [[H1 _]|[[H1 [H2 [H3 _]]]|[H1 [H2 _]]]]; try congruence.
      * eapply c_one; eauto; congruence.
      * exfalso. eapply NH; eauto.
    + rewrite ES in Q'. injection Q' as <-. rewrite EO in Q by auto.
      destruct HO as [[H1 _]|[[H1 [H2 [H3 _]]]|[H1 [H2 _]]]]; try congruence.
      * eapply c_one; eauto; congruence.
      * exfalso. eapply NH; eauto.
    + rewrite EO in Q by auto. rewrite EO in Q' by auto. eapply c_one; eauto.
  - intros M. destruct HO as [[H1 H2]|[[H1 [H2 [H3 _]]]|[H1 [H2 H3]]]]; [|exists i, p'; auto|congruence].
    rewrite H2 in M. destruct (c_held I M) as (j & q & Q & HQ). destruct (Nat.eq_dec i j) as [<-|N].
    + exists i, p'. split; auto. congruence.
    + exists j, q. rewrite EO; auto.
  - intros j c w Q. destruct (Nat.eq_dec i j) as [<-|N].
    + rewrite ES in Q. injection Q as Q. eauto.
    + rewrite EO in Q by auto. eapply c_body; eauto.
  - apply (c_run I).
  - apply (c_nodup I).
  - intros j c r H. destruct (c_lin I H) as (H1 & q & Q & HQ). split; auto. destruct (Nat.eq_dec i j) as [<-|N].
    + exists p'. split; auto. congruence.
    + exists q. rewrite EO; auto.
  - intros j q r Q HQ. destruct (Nat.eq_dec i j) as [<-|N].
    + rewrite ES in Q. injection Q as <-. eapply c_res; eauto; congruence.
    + rewrite EO in Q by auto. eapply c_res; eauto.
  - intros j q c Q HQ. destruct (Nat.eq_dec i j) as [<-|N].
    + rewrite ES in Q. injection Q as <-. eapply c_called; eauto.
    + rewrite EO in Q by auto. eapply c_called; eauto.
  - intros j r H. pose proof (c_ret I H) as Q. destruct (Nat.eq_dec i j) as [<-|N].
    + exfalso. rewrite E in Q. injection Q as ->. eapply ND; eauto.
    + rewrite EO; auto.
  - intros j c H. rewrite wupd_len. eapply c_fresh; eauto.
  - apply (c_order I).
Qed.

(** a call takes effect *)
Lemma cinv_effect s lin i p p' c r w' : Cinv s lin -> nth_error (wpcs s) i = Some p ->
  call_of p = Some c -> result_of p' = Some r -> holds p' = holds p -> (forall c w, p' <> WBody c w) -> (forall x, p' <> WDone x) ->
  alone env (wsh s) c = Ok (w', r) -> (holds p = true \/ w' = wsh s) ->
  Cinv (WSt (wmu s) w' (wupd (wpcs s) i p') (wtrace s) None) (lin ++ [(i, c, r)]).
Proof.
  intros I E C R H NB ND A HW. pose proof (@wupd_same (wpcs s) i p' _ E) as ES.
  assert (EO : forall j, i <> j -> nth_error (wupd (wpcs s) i p') j = nth_error (wpcs s) j) by (intros; apply wupd_other; auto).
  assert (NI : ~ In i (ids lin)).
  { intros K. destruct (in_ids K) as (c' & r' & K'). destruct (c_lin I K') as (_ & q & Q & HQ). rewrite E in Q. injection Q as <-. destruct p; discriminate. }
  constructor; cbn [wmu wsh wpcs wtrace].
  - intros j q Q HQ. destruct (Nat.eq_dec i j) as [<-|N].
    + rewrite ES in Q. injection Q as <-. eapply c_mu; eauto; congruence.
    + rewrite EO in Q by auto. eapply c_mu; eauto.
  - intros j k q q' Q Q' HQ HQ'. destruct (Nat.eq_dec i j) as [<-|N]; destruct (Nat.eq_dec i k) as [<-|N']; auto.
    + rewrite ES in Q. injection Q as <-. rewrite EO in Q' by auto. eapply c_one; eauto; congruence.
    + rewrite ES in Q'. injection Q' as <-. rewrite EO in Q by auto. eapply c_one; eauto; congruence.
    + rewrite EO in Q by auto. rewrite EO in Q' by auto. eapply c_one; eauto.
  - intros M. destruct (c_held I M) as (j & q & Q & HQ). destruct (Nat.eq_dec i j) as [<-|N].
    + exists i, p'. split; auto. congruence.
    + exists j, q. rewrite EO; auto.
  - intros j c' w Q. destruct (Nat.eq_dec i j) as [<-|N].
    + rewrite ES in Q. injection Q as Q. exfalso. eapply NB; eauto.
    + rewrite EO in Q by auto. rewrite (c_body I Q). destruct HW as [HW|HW]; auto.
      exfalso. apply N. eapply c_one; eauto.
  - rewrite !map_app. cbn [map]. rewrite (obo_app _ (c_run I)). cbn [one_by_one rbind fst snd]. rewrite A. reflexivity.
  - rewrite map_app. apply (@Permutation_NoDup _ (i :: ids lin)); [apply Permutation_cons_append|]. constructor; [exact NI|exact (c_nodup I)].
  - intros j c' r' K. apply in_app_or in K. destruct K as [K|[K|[]]].
    + destruct (c_lin I K) as (H1 & q & Q & HQ). split; auto. destruct (Nat.eq_dec i j) as [<-|N].
      * exfalso. apply NI. apply in_map_iff. exists (i, c', r'). auto.
      * exists q. rewrite EO; auto.
    + injection K as <- <- <-. split; [eapply c_called; eauto|]. eauto.
  - intros j q r' Q HQ. destruct (Nat.eq_dec i j) as [<-|N].
    + rewrite ES in Q. injection Q as <-. exists c. apply in_or_app. right. left. congruence.
    + rewrite EO in Q by auto. destruct (c_res I Q HQ) as [c' K]. exists c'. apply in_or_app; auto.
  - intros j q c' Q HQ. destruct (Nat.eq_dec i j) as [<-|N].
    + rewrite ES in Q. injection Q as <-. destruct p'; discriminate.
    + rewrite EO in Q by auto. eapply c_called; eauto.
  - intros j r' K. pose proof (c_ret I K) as Q. destruct (Nat.eq_dec i j) as [<-|N].
    + rewrite E in Q. injection Q as ->. discriminate.
    + rewrite EO; auto.
  - intros j c' K. rewrite wupd_len. eapply c_fresh; eauto.
  - intros a b F K. rewrite map_app in *. cbn [map fst] in *. apply in_app_or in K. destruct K as [K|[<-|[]]].
    + apply before_app. apply (c_order I); auto.
    + apply before_last. destruct F as (x & y & r' & c' & T & _).
      assert (RT : In (Returned a r') (wtrace s)) by (rewrite T; apply in_or_app; right; left; auto).
      destruct (c_res I (c_ret I RT) eq_refl) as [c2 K2]. apply in_map_iff. exists (a, c2, r'). auto.
Qed.
Lemma follows_call tr i j k c : follows (tr ++ [Called k c]) i j -> follows tr i j \/ j = k.
Proof.
  intros (a & b & r & c' & T & H). destruct (@exists_last _ b) as [b' [x ->]]; [destruct b; [destruct H|discriminate]|].
  rewrite app_comm_cons, app_assoc in T. apply app_inj_tail in T. destruct T as [T <-].
  apply in_app_or in H. destruct H as [H|[H|[]]]; [left|right; congruence].
  exists a, b', r, c'. auto.
Qed.
Lemma follows_ret tr i j k r : follows (tr ++ [Returned k r]) i j -> follows tr i j.
Proof.
  intros (a & b & r' & c' & T & H). destruct b as [|b0 b]; [destruct H|].
  destruct (@exists_last _ (b0 :: b)) as [b' [x EB]]; [discriminate|]. rewrite EB in *.
  rewrite app_comm_cons, app_assoc in T. apply app_inj_tail in T. destruct T as [T <-].
  apply in_app_or in H. destruct H as [H|[H|[]]]; [|discriminate].
  exists a, b', r', c'. auto.
Qed.

Lemma cinv_return s lin i r : Cinv s lin -> nth_error (wpcs s) i = Some (WUnlocked r) ->
  Cinv (WSt (wmu s) (wsh s) (wupd (wpcs s) i (WDone r)) (wtrace s ++ [Returned i r]) None) lin.
Proof.
  intros I E. pose proof (@wupd_same (wpcs s) i (WDone r) _ E) as ES.
  assert (EO : forall j, i <> j -> nth_error (wupd (wpcs s) i (WDone r)) j = nth_error (wpcs s) j) by (intros; apply wupd_other; auto).
  constructor; cbn [wmu wsh wpcs wtrace].
  - intros j q Q HQ. destruct (Nat.eq_dec i j) as [<-|N]; [rewrite ES in Q; injection Q as <-; discriminate|]. rewrite EO in Q by auto. eapply c_mu; eauto.
  - intros j k q q' Q Q' HQ HQ'. destruct (Nat.eq_dec i j) as [<-|N]; [rewrite ES in Q; injection Q as <-; discriminate|].
    destruct (Nat.eq_dec i k) as [<-|N']; [rewrite ES in Q'; injection Q' as <-; discriminate|].
    rewrite EO in Q by auto. rewrite EO in Q' by auto. eapply c_one; eauto.
  - intros M. destruct (c_held I M) as (j & q & Q & HQ). exists j, q. rewrite EO; auto. intros <-. rewrite E in Q. injection Q as <-. discriminate.
  - intros j c w Q. destruct (Nat.eq_dec i j) as [<-|N]; [rewrite ES in Q; discriminate|]. rewrite EO in Q by auto. eapply c_body; eauto.
  - apply (c_run I).
  - apply (c_nodup I).
  - intros j c r' H. destruct (c_lin I H) as (H1 & q & Q & HQ). split; [apply in_or_app; auto|]. destruct (Nat.eq_dec i j) as [<-|N].
    + exists (WDone r). rewrite E in Q. injection Q as <-. auto.
    + exists q. rewrite EO; auto.
  - intros j q r' Q HQ. destruct (Nat.eq_dec i j) as [<-|N].
    + rewrite ES in Q. injection Q as <-. exact (c_res I E HQ).
    + rewrite EO in Q by auto. eapply c_res; eauto.
  - intros j q c Q HQ. apply in_or_app. left. destruct (Nat.eq_dec i j) as [<-|N]; [rewrite ES in Q; injection Q as <-; discriminate|].
    rewrite EO in Q by auto. eapply c_called; eauto.
  - intros j r' H. apply in_app_or in H. destruct H as [H|[H|[]]].
    + pose proof (c_ret I H) as Q. rewrite EO; auto. intros <-. congruence.
    + injection H as <- <-. exact ES.
  - intros j c H. rewrite wupd_len. apply in_app_or in H. destruct H as [H|[H|[]]]; [|discriminate]. eapply c_fresh; eauto.
  - intros a b F. apply follows_ret in F. apply (c_order I); auto.
Qed.

Lemma nth_app_lt {A} (l : list A) x i p : nth_error (l ++ [x]) i = Some p -> nth_error l i = Some p \/ i = length l /\ p = x.
Proof.
  intros H. destruct (Nat.lt_ge_cases i (length l)) as [L|L].
  - rewrite nth_error_app1 in H by auto. auto.
  - rewrite nth_error_app2 in H by auto. destruct (i - length l) as [|[|k]] eqn:D; try discriminate. injection H as <-. right. split; auto. lia.
Qed.
Lemma cinv_call s lin c : Cinv s lin -> Cinv (wstart s c) lin.
Proof.
  intros I. destruct s as [mu w l tr d]. cbn [wstart].
  pose proof I as [I1 I2 I3 I4 I5 I6 I7 I8 I9 I10 I11 I12]. cbn [wmu wsh wpcs wtrace] in *.
  assert (UP : forall i p, nth_error l i = Some p -> nth_error (l ++ [WStart c]) i = Some p).
  { intros i p H. rewrite nth_error_app1; auto. apply nth_error_Some. congruence. }
  constructor; cbn [wmu wsh wpcs wtrace]; auto.
  - intros i p Q HQ. apply nth_app_lt in Q. destruct Q as [Q|[_ ->]]; [eauto|discriminate].
  - intros i j p q Q Q' HQ HQ'. apply nth_app_lt in Q. apply nth_app_lt in Q'. destruct Q as [Q|[_ ->]]; [|discriminate]. destruct Q' as [Q'|[_ ->]]; [|discriminate]. eauto.
  - intros M. destruct (I3 M) as (i & p & Q & HQ). eauto.
  - intros i c' w' Q. apply nth_app_lt in Q. destruct Q as [Q|[_ Q]]; [eauto|discriminate].
  - intros i c' r H. destruct (I7 _ _ _ H) as (H1 & p & Q & HQ). split; [apply in_or_app; auto|eauto].
  - intros i p r Q HQ. apply nth_app_lt in Q. destruct Q as [Q|[_ ->]]; [eauto|discriminate].
  - intros i p c' Q HQ. apply in_or_app. apply nth_app_lt in Q. destruct Q as [Q|[-> ->]]; [eauto|]. injection HQ as <-. right. left. auto.
  - intros i r H. apply in_app_or in H. destruct H as [H|[H|[]]]; [|discriminate]. auto.
  - intros i c' H. rewrite app_length. cbn [length]. apply in_app_or in H. destruct H as [H|[H|[]]].
    + pose proof (I11 _ _ H). lia.
    + injection H as <- _. lia.
  - intros i j F K. apply follows_call in F. destruct F as [F| ->]; [auto|].
    exfalso. destruct (in_ids K) as (c' & r & K'). destruct (I7 _ _ _ K') as (H1 & _). pose proof (I11 _ _ H1). lia.
Qed.

Lemma rejected_alone w c : rejected c = true -> alone env w c = Ok (w, WR (RHeader false)).
Proof.
  destruct c as [[p|ft|h| |o]|g]; try discriminate. intros H. apply negb_true_iff in H.
  unfold alone, w_call. cbv zeta. unfold w_SetHeader. rewrite H. reflexivity.
Qed.

Lemma cinv_explains s lin : Cinv s lin -> Explains env w0 (wtrace s) (wsh s) lin.
Proof.
  intros I. constructor.
  - apply (c_nodup I).
  - apply (c_run I).
  - intros i r H. destruct (c_res I (c_ret I H) eq_refl) as [c K]. exists c. split; auto. apply (c_lin I K).
  - intros i c r H. apply (c_lin I H).
  - apply (c_order I).
Qed.
Variable reentrant : writer -> wcall -> bool.
Lemma cinv_step s lin i s' : Cinv s lin -> wstep reentrant env s i = Some s' ->
  (wdead s' = None /\ exists lin', Cinv s' lin') \/
  (exists c p, s' = WSt (wmu s) (wsh s) (wpcs s) (wtrace s) (Some (i, p)) /\ In (Called i c) (wtrace s) /\ alone env (wsh s) c = Panic p).
Proof.
  intros I H. pose proof (@cinv_quiet s lin i) as CQ. pose proof (@cinv_effect s lin i) as CE. pose proof (@cinv_return s lin i) as CR.
  pose proof (c_body I (i:=i)) as CB. pose proof (c_called I (i:=i)) as CC.
  destruct s as [mu w l tr [d|]]; [discriminate|]. cbn [wmu wsh wpcs wtrace wdead] in *. cbn [wstep] in H.
  destruct (nth_error l i) as [[c|c|c|c v|r|r|r]|] eqn:E; try discriminate.
  - destruct (rejected c) eqn:RJ.
    + injection H as <-. left. split; [reflexivity|]. eexists.
      refine (CE (WStart c) (WUnlocked (WR (RHeader false))) c _ w I eq_refl eq_refl eq_refl eq_refl _ _ (@rejected_alone w c RJ) (or_intror eq_refl)); discriminate.
    + destruct mu; [discriminate|]. injection H as <-. left. split; [reflexivity|]. exists lin.
      refine (CQ (WStart c) (WLocked c) true I eq_refl eq_refl _ _ _ _ eq_refl); try discriminate; auto. right; left; auto.
  - injection H as <-. left. split; [reflexivity|]. exists lin. destruct (reentrant w c).
    + refine (CQ (WLocked c) (WTracer c) mu I eq_refl eq_refl _ _ _ _ eq_refl); try discriminate; auto.
    + refine (CQ (WLocked c) (WBody c w) mu I eq_refl eq_refl _ _ _ _ eq_refl); try discriminate; auto. intros c' w' K. injection K as _ <-. auto.
  - destruct mu; [discriminate|]. injection H as <-. left. split; [reflexivity|]. exists lin.
    refine (CQ (WTracer c) (WBody c w) false I eq_refl eq_refl _ _ _ _ eq_refl); try discriminate; auto. intros c' w' K. injection K as _ <-. auto.
  - pose proof (CB c v eq_refl) as ->. destruct (alone env w c) as [[w' r]|p|] eqn:A; [| |discriminate].
    + injection H as <-. left. split; [reflexivity|]. eexists.
      refine (CE (WBody c w) (WStored r) c r w' I eq_refl eq_refl eq_refl eq_refl _ _ A (or_introl eq_refl)); discriminate.
    + injection H as <-. right. exists c, p. split; auto. split; auto. eapply CC; reflexivity.
  - injection H as <-. left. split; [reflexivity|]. exists lin.
    refine (CQ (WStored r) (WUnlocked r) false I eq_refl eq_refl _ _ _ _ eq_refl); try discriminate; auto.
  - injection H as <-. left. split; [reflexivity|]. exists lin. apply CR; auto.
Qed.
End Lin.

(** ** C61 *)
(** Any number of calls made at any time from any goroutines, in every schedule. *)
Definition written_by (reentrant : writer -> wcall -> bool) (env : wenv) (opts : list opt) (s : wst) : Prop :=
  wruns reentrant env (wfresh (newWriter opts)) s.
Lemma runs_inv reentrant env w0 s : wruns reentrant env (wfresh w0) s ->
  match wdead s with
  | None => exists lin, Cinv env w0 s lin
  | Some (i, p) => exists s' lin c, Cinv env w0 s' lin /\ wsh s = wsh s' /\ wtrace s = wtrace s' /\ In (Called i c) (wtrace s) /\ alone env (wsh s) c = Panic p
  end.
Proof.
  intros H. remember (wfresh w0) as s0. induction H as [s|s1 s2 s3 H IH X]; subst.
  - exists []. apply cinv_fresh.
  - specialize (IH eq_refl). destruct X as [s c D|s s' i X].
    + rewrite D in IH. destruct IH as [lin I]. destruct s as [mu w l tr d]. cbn in D. subst d. exists lin. apply (@cinv_call env w0 _ lin c I).
    + destruct s as [mu w l tr [d|]] eqn:ES; [discriminate|]. cbn [wdead] in IH. destruct IH as [lin I]. rewrite <- ES in *.
      destruct (cinv_step I X) as [[D [lin' I']]|(c & p & -> & C & A)].
      * rewrite D. eauto.
      * cbn [wdead]. exists s, lin, c. auto.
Qed.
Theorem C61_concurrent_calls :
  forall reentrant env opts s, written_by reentrant env opts s ->
    exists lin, Explains env (newWriter opts) (wtrace s) (wsh s) lin /\
      match wdead s with
      | None => True
      | Some (i, p) => exists c, In (Called i c) (wtrace s) /\ alone env (wsh s) c = Panic p       (* as it would have done alone *)
      end.
Proof.
  intros reentrant env opts s H. pose proof (runs_inv H) as K. destruct (wdead s) as [[i p]|].
  - destruct K as (s' & lin & c & I & -> & -> & C & A). exists lin. split; [apply cinv_explains; auto|eauto].
  - destruct K as [lin I]. exists lin. split; [apply cinv_explains; auto|auto].
Qed.

(** *** Progress *)
Definition done (p : wpc) : bool := match p with WDone _ => true | _ => false end.
Definition waiting (s : wst) : nat := length (filter (fun p => negb (done p)) (wpcs s)).
Definition left_of (p : wpc) : nat := match p with WStart _ => 5 | WLocked _ => 4 | WTracer _ => 4 | WBody _ _ => 3 | WStored _ => 2 | WUnlocked _ => 1 | WDone _ => 0 end.
Fixpoint total (l : list wpc) : nat := match l with [] => 0 | p :: r => left_of p + total r end.
Lemma total_upd l i p p' : nth_error l i = Some p -> left_of p' < left_of p -> total (wupd l i p') < total l.
Proof. revert i. induction l as [|q l IH]; intros [|i] E L; cbn in *; try discriminate; [injection E as ->; lia|]. specialize (IH _ E L). lia. Qed.
Lemma total_waiting l : total l <= 5 * length (filter (fun p => negb (done p)) l).
Proof. induction l as [|p l IH]; cbn; [lia|]. destruct p; cbn; lia. Qed.
Section Progress.
Variable env : wenv.
Let nr : writer -> wcall -> bool := fun _ _ => false.
Inductive nsteps : nat -> wst -> wst -> Prop :=
| ns_0 s : nsteps 0 s s
| ns_S n s1 s2 s3 i : wstep nr env s1 i = Some s2 -> nsteps n s2 s3 -> nsteps (S n) s1 s3.
Lemma step_less s i s' : (forall j c, nth_error (wpcs s) j <> Some (WTracer c)) -> wstep nr env s i = Some s' ->
  (wdead s' <> None \/ total (wpcs s') < total (wpcs s)) /\ (forall j c, nth_error (wpcs s') j <> Some (WTracer c)).
Proof.
  intros NT H. destruct s as [mu w l tr [d|]]; [discriminate|]. cbn [wstep] in H. cbn [wpcs] in *.
  assert (U : forall p p', nth_error l i = Some p -> left_of p' < left_of p -> (forall c, p' <> WTracer c) ->
    total (wupd l i p') < total l /\ forall j c, nth_error (wupd l i p') j <> Some (WTracer c)).
  { intros p p' E L N. split; [eapply total_upd; eauto|]. intros j c K. destruct (Nat.eq_dec i j) as [<-|D].
    - rewrite (@wupd_same l i p' p E) in K. injection K as K. eapply N; eauto.
    - rewrite wupd_other in K by auto. eapply NT; eauto. }
  destruct (nth_error l i) as [[c|c|c|c v|r|r|r]|] eqn:E; try discriminate.
  - destruct (rejected c); [|destruct mu; [discriminate|]]; injection H as <-; cbn [wpcs wdead];
      match goal with |- context [wupd l i ?p'] => destruct (U _ p' eq_refl) as [U1 U2]; [cbn; lia|discriminate|auto] end.
  - injection H as <-. cbn [wpcs wdead]. destruct (U _ (WBody c w) eq_refl) as [U1 U2]; [cbn; lia|discriminate|auto].
  - exfalso. eapply NT; eauto.
  - destruct (alone env v c) as [[w' r]|p|]; [| |discriminate]; injection H as <-; cbn [wpcs wdead].
    + destruct (U _ (WStored r) eq_refl) as [U1 U2]; [cbn; lia|discriminate|auto].
    + split; auto. left; discriminate.
  - injection H as <-. cbn [wpcs wdead]. destruct (U _ (WUnlocked r) eq_refl) as [U1 U2]; [cbn; lia|discriminate|auto].
  - injection H as <-. cbn [wpcs wdead]. destruct (U _ (WDone r) eq_refl) as [U1 U2]; [cbn; lia|discriminate|auto].
Qed.
Lemma runs_no_tracer w0 s : wruns nr env (wfresh w0) s -> forall j c, nth_error (wpcs s) j <> Some (WTracer c).
Proof.
  intros H. remember (wfresh w0) as s0. induction H as [s|s1 s2 s3 H IH X]; subst.
  - intros [|j] c; discriminate.
  - specialize (IH eq_refl). destruct X as [s c D|s s' i X].
    + destruct s as [mu w l tr d]. cbn. intros j c' K. apply nth_app_lt in K. destruct K as [K|[_ K]]; [eapply IH; eauto|discriminate].
    + eapply step_less; eauto.
Qed.
Lemma total_bound n : forall s s', (forall j c, nth_error (wpcs s) j <> Some (WTracer c)) -> nsteps n s s' -> n <= total (wpcs s) + 1.
Proof.
  induction n; intros s s' NT H; [lia|]. inversion H; subst. destruct (step_less NT H1) as [[D|D] NT'].
  - destruct s2 as [mu w l tr [d|]]; [|exfalso; apply D; reflexivity]. inversion H2; subst; [lia|discriminate].
  - specialize (IHn _ _ NT' H2). lia.
Qed.
End Progress.
(** When no tracer calls back, calls do not wait for each other forever: the
    goroutines can take only boundedly many steps before all calls have returned,
    and can take one as long as one has not - unless the program has panicked. *)
Theorem C61_no_deadlock :
  forall env opts s, written_by (fun _ _ => false) env opts s ->
    (forall n s', nsteps env n s s' -> n <= 5 * waiting s + 1) /\
    (wdead s = None -> (forall c, alone env (wsh s) c <> NoFuel) -> waiting s = 0 \/ exists i s', wstep (fun _ _ => false) env s i = Some s').
Proof.
  intros env opts s R. pose proof (runs_no_tracer R) as NT. split.
  - intros n s' H. pose proof (total_bound NT H). pose proof (total_waiting (wpcs s)). unfold waiting. lia.
  - intros D NF. pose proof (runs_inv R) as K. rewrite D in K. destruct K as [lin I].
    destruct (wmu s) eqn:M.
    + right. destruct (c_held I M) as (i & p & E & HP). pose proof (c_body I (i:=i)) as CB.
      destruct s as [mu w l tr d]. cbn in *. subst mu d. exists i. cbn [wstep]. rewrite E.
      destruct p as [c|c|c|c v|r|r|r]; try discriminate; eauto.
      * exfalso. eapply NT; eauto.
      * rewrite (CB c v E). specialize (NF c). destruct (alone env w c) as [[w' r]|q|]; eauto. congruence.
    + destruct s as [mu w l tr d]. cbn in *. subst mu d. unfold waiting. cbn [wpcs].
      destruct (filter (fun p => negb (done p)) l) as [|p q] eqn:F; [left; reflexivity|right].
      assert (P : In p (filter (fun p => negb (done p)) l)) by (rewrite F; left; auto).
      apply filter_In in P. destruct P as [P PD]. apply In_nth_error in P. destruct P as [i E]. exists i.
      assert (NH : holds p = false). { destruct (holds p) eqn:HP; auto. pose proof (c_mu I E HP) as K. discriminate K. }
      rewrite E. destruct p; try discriminate; eauto. destruct (rejected c); eauto.
Qed.
