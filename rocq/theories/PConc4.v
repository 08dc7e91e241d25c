(** Data flow of the concurrent Reader: what Read calls return. *)
From Verif Require Import Base MCommon MReader MConc PConc PConc2.

Definition got (h : list (list N * option goerr)) : list N := flat_map fst h.
Lemma got_app a b : got (a ++ b) = got a ++ got b.
Proof. apply flat_map_app. Qed.
Arguments got : simpl never.
Definition canceled (s : st) : Prop := forced s = true \/ 0 < cnt cf (cls s).

(** a goroutine that holds mu1 and has found stopIsForced unset is not cancelled *)
Lemma pushing_not_canceled ocap s : PConc.Inv ocap s -> pushing (thr s) = true -> ~ canceled s.
Proof.
  intros I P [F|F].
  - destruct (i_forced I F). congruence.
  - pose proof (i_mu1 I) as M.
    assert (forall l, cnt cf l <= cnt c1 l) by (induction l as [|a l IH]; cbn; auto; destruct a; cbn; lia).
    specialize (H (cls s)). destruct (thr s) as [[]|]; try discriminate; cbn in M; destruct (mu1 s); cbn in M; lia.
Qed.

Section Data.
Variable ocap : N.
Hypothesis Hcap : (0 < ocap)%N.
Variable D : list N.
Notation Inv := (PConc.Inv ocap).

Record Dat (s : st) : Prop := {
  d_pre : exists rest, got (hist s) ++ obuf s ++ rest = D;
  d_all : canceled s \/ got (hist s) ++ obuf s ++ pend (thr s) ++ log_data (prog s) = D }.

Lemma dat_fresh pr : D = log_data pr -> Dat (fresh pr).
Proof. intros H. constructor; cbn; [exists (log_data pr)|right]; symmetry; exact H. Qed.
Lemma dat_call s c : reads_and_closes c -> Dat s -> Dat (add_call s c).
Proof.
  intros Hc [A B]. destruct s. constructor; cbn in *; auto. destruct B as [[B|B]|B]; auto.
  - left; left; auto.
  - left; right; cbn in *. rewrite cnt_app. lia.
Qed.

Lemma canceled_upd s s' i c' c : forced s' = forced s -> nth_error (cls s) i = Some c -> cls s' = upd (cls s) i c' -> cf c = 0 -> canceled s -> canceled s'.
Proof.
  intros F E C Z [X|X]; [left; congruence|right]. rewrite C. pose proof (cnt_upd cf c' E). lia.
Qed.

(** Only TF6, RTake and CSet touch the data. *)
Lemma dat_cstep s i k j s' : Inv s -> Dat s -> cstep s i k j = Some s' -> Dat s'.
Proof.
  intros I [[rest A] B] H. destruct s as [m1 m2 e b sta sto es fo t pr z cl h]. cbn in A, B, H.
  destruct (nth_error cl i) as [c|] eqn:E; [|discriminate].
  assert (CU : forall m1' m2' e' b' sta' sto' es' t' pr' z' h' c', cf c = 0 ->
    canceled (St m1 m2 e b sta sto es fo t pr z cl h) -> canceled (St m1' m2' e' b' sta' sto' es' fo t' pr' z' (upd cl i c') h')).
  { intros. eapply canceled_upd with (s := St m1 m2 e b sta sto es fo t pr z cl h); cbn; eauto. }
  destruct c; cbn in H; try discriminate; unfold mu_lock in H; cbn [cf] in CU.
  - destruct m1; [discriminate|]. injection H as <-. constructor; cbn; eauto; destruct B; eauto.
  - injection H as <-. constructor; cbn; eauto. destruct B as [B|B]; [left; apply CU; auto|].
    destruct sta; auto. destruct (i_start I eq_refl) as (_ & T & _). cbn in T. subst t. auto.
  - destruct m2; [discriminate|]. injection H as <-. constructor; cbn; eauto; destruct B; eauto.
  - destruct e as [e|]; [|destruct b as [|b0 b]]; injection H as <-; constructor; cbn; rewrite ?pend_signal2; eauto; destruct B; eauto.
  - destruct e as [e|]; [|destruct b as [|b0 b]]; injection H as <-; constructor; cbn; eauto; destruct B; eauto.
  - destruct m2; [discriminate|]. injection H as <-. constructor; cbn; eauto; destruct B; eauto.
  - destruct b as [|b0 b].
    + injection H as <-. assert (G : forall x, got (h ++ [([], x)]) = got h) by (intros; rewrite got_app; apply app_nil_r).
      constructor; cbn; rewrite G; cbn in *; eauto. destruct B; eauto.
    + remember (b0 :: b) as bb. clear Heqbb b0 b.
      destruct (_ && _) in H; [|discriminate].
      assert (G : forall r, got (h ++ [(firstn k bb, None)]) ++ skipn k bb ++ r = got h ++ bb ++ r).
      { intros r. rewrite got_app. change (got [(firstn k bb, None)]) with (firstn k bb ++ []). rewrite app_nil_r, <- app_assoc. f_equal. rewrite app_assoc, firstn_skipn. reflexivity. }
      destruct (is_nil _).
      * injection H as <-. constructor; cbn; [exists rest; rewrite G; auto|]. rewrite pend_signal2, G. destruct B; eauto.
      * destruct (signal1 _ _) as [cl'|] eqn:ES; [|discriminate]. injection H as <-.
        constructor; cbn; [exists rest; rewrite G; auto|]. rewrite G. destruct B as [[B|B]|B]; auto.
        -- left; left; auto.
        -- left; right. cbn in *. rewrite (signal1_cnt (f:=cf) ES) by auto. pose proof (cnt_upd cf (RDone (firstn k bb) None) E). cbn in H. lia.
  - destruct m1; [discriminate|]. injection H as <-. constructor; cbn; eauto; destruct B; eauto.
  - injection H as <-. constructor; cbn; eauto; destruct B; eauto.
  - destruct m2; [discriminate|]. injection H as <-. constructor; cbn; eauto; destruct B; eauto.
  - injection H as <-. constructor; cbn; eauto. left. right. cbn.
    assert (E' : nth_error (map wake cl) i = Some CSet) by (apply nth_wake; auto).
    pose proof (cnt_upd cf CFlags E'). cbn in H. lia.
  - injection H as <-. constructor; cbn; eauto. left. left. reflexivity.
  - destruct t; [discriminate|]. destruct z; [|discriminate]. injection H as <-. constructor; cbn; eauto; destruct B; eauto.
  - destruct m1; [discriminate|]. injection H as <-. constructor; cbn; eauto; destruct B; eauto.
  - injection H as <-. constructor; cbn; eauto; destruct B; eauto.
  - pose proof (i_noz I) as Z. pose proof (cnt_in cz E) as L. cbn in *. lia.
  - pose proof (i_noz I) as Z. pose proof (cnt_in cz E) as L. cbn in *. lia.
  - pose proof (i_noz I) as Z. pose proof (cnt_in cz E) as L. cbn in *. lia.
  - pose proof (i_noz I) as Z. pose proof (cnt_in cz E) as L. cbn in *. lia.
Qed.

Lemma dat_tstep s k j s' : Inv s -> Dat s -> tstep ocap s k j = Some s' -> Dat s'.
Proof.
  intros I [[rest A] B] H. pose proof (pushing_not_canceled I) as PN.
  destruct s as [m1 m2 e b sta sto es fo t pr z cl h]. cbn in A, B, H, PN.
  assert (CC : forall m1' m2' e' b' sta' sto' es' t' pr' z' h',
    canceled (St m1 m2 e b sta sto es fo t pr z cl h) -> canceled (St m1' m2' e' b' sta' sto' es' fo t' pr' z' cl h')) by (intros; assumption).
  assert (CF : fo = true -> canceled (St m1 m2 e b sta sto es fo t pr z cl h)) by (left; auto).
  destruct t as [c|]; [|discriminate].
  destruct c; cbn in H; try discriminate; unfold mu_lock in H; cbn in B, PN.
  - destruct m1; [discriminate|]. injection H as <-. constructor; cbn; eauto; destruct B; eauto.
  - destruct pr as [|[p|x] r]; injection H as <-; constructor; cbn; eauto; destruct B as [B|B]; eauto.
    + destruct fo; eauto.
    + destruct es; auto.
  - destruct m2; [discriminate|]. injection H as <-. constructor; cbn; eauto; destruct B; eauto.
  - injection H as <-. constructor; cbn; eauto; destruct B as [B|B]; [exfalso; exact (PN eq_refl B)|auto].
  - destruct p as [|p0 p]; injection H as <-; constructor; cbn; eauto; destruct B; eauto.
  - destruct m2; [discriminate|]. injection H as <-. constructor; cbn; eauto; destruct B; eauto.
  - injection H as <-. destruct (ocap <=? lenN b)%N; constructor; cbn; eauto; destruct B; eauto.
  - destruct m2; [discriminate|]. injection H as <-. constructor; cbn; eauto; destruct B; eauto.
  - destruct m1; [discriminate|]. injection H as <-. constructor; cbn; eauto; destruct B; eauto.
  - injection H as <-. destruct fo; constructor; cbn; eauto; destruct B; eauto.
  - destruct m2; [discriminate|]. injection H as <-. constructor; cbn; eauto; destruct B; eauto.
  - destruct (_ =? 0) eqn:F0; [injection H as <-; constructor; cbn; eauto; destruct B; eauto|].
    destruct (_ && _) eqn:EK in H; [|discriminate].
    destruct (signal1 j cl) as [cl'|] eqn:ES; [|discriminate]. injection H as <-.
    destruct B as [B|B]; [exfalso; exact (PN eq_refl B)|].
    assert (G : got h ++ (b ++ firstn k p) ++ skipn k p ++ log_data pr = D).
    { rewrite <- B, <- !app_assoc. do 2 f_equal. rewrite app_assoc, firstn_skipn. reflexivity. }
    constructor; cbn; eauto.
Qed.
Lemma dat_step s s' : Inv s -> Dat s -> step ocap s s' -> Dat s'.
Proof.
  intros I J [c H]. destruct c as [i k j|k j|]; cbn in H.
  - eapply dat_cstep; eauto.
  - eapply dat_tstep; eauto.
  - destruct s as [m1 m2 e b sta sto es fo t pr [|z] cl h]; [discriminate|]. injection H as <-. destruct J; constructor; auto.
Qed.
Lemma dat_steps s s' : Inv s -> Dat s -> steps (next ocap reads_and_closes) s s' -> Dat s'.
Proof.
  intros I J H; induction H as [|s1 s2 s3 X H IH]; auto. apply IH; [eapply inv_next; eauto|].
  destruct X; eauto using dat_step, dat_call.
Qed.
End Data.

(** After a Close has stopped the goroutine, Reads return only [Canceled]. *)
Lemma canceled_step ocap s s' : (0 < ocap)%N -> PConc.Inv ocap s -> canceled s -> next ocap reads_and_closes s s' ->
  canceled s' /\ exists n, hist s' = hist s ++ repeat ([], Some Canceled) n.
Proof.
  intros Hcap I C X. assert (Z : hist s = hist s ++ repeat ([], Some Canceled) 0) by (cbn; rewrite app_nil_r; auto).
  destruct X as [s' [c H]|c Hc].
  2:{ split; [|exists 0; destruct s; cbn in *; auto]. destruct s; destruct C as [C|C]; [left; auto|right]. cbn in *. rewrite cnt_app. lia. }
  assert (BE : obuf s = [] /\ oerr s = Some Canceled) by (destruct C as [C|C]; [apply (i_cancel I C)|apply (i_cancel2 I C)]).
  destruct BE as [B0 E0]. pose proof (pushing_not_canceled I) as PN.
  destruct c as [i k j|k j|]; cbn in H.
  - destruct s as [m1 m2 e b sta sto es fo t pr z cl h]. cbn in B0, E0, H, Z. subst e b.
    destruct (nth_error cl i) as [c|] eqn:E; [|discriminate].
    assert (CU : forall m1' m2' e' b' sta' sto' es' t' pr' z' h' c', cf c = 0 ->
      canceled (St m1' m2' e' b' sta' sto' es' fo t' pr' z' (upd cl i c') h')).
    { intros. eapply canceled_upd with (s := St m1 m2 (Some Canceled) [] sta sto es fo t pr z cl h); cbn; eauto. }
    pose proof (i_noz I) as NZ. pose proof (cnt_in cz E) as LZ. cbn in NZ.
    destruct c; cbn in H; try discriminate; unfold mu_lock in H; cbn in CU; try (cbn in LZ; lia);
      try (destruct m1; [discriminate|]; injection H as <-; cbn; split; [apply CU; auto | exists 0; auto]; fail);
      try (destruct m2; [discriminate|]; injection H as <-; cbn; split; [apply CU; auto | exists 0; auto]; fail);
      try (injection H as <-; cbn; split; [apply CU; auto | exists 0; auto]; fail).
    + injection H as <-. cbn. split; [apply CU; auto | exists 1; auto].
    + injection H as <-. cbn. split; [|exists 0; auto]. right. cbn. assert (E' : nth_error (map wake cl) i = Some CSet) by (apply nth_wake; auto).
      pose proof (cnt_upd cf CFlags E'). cbn in H. lia.
    + injection H as <-. cbn. split; [|exists 0; auto]. left. reflexivity.
    + destruct t; [discriminate|]. destruct z; [|discriminate]. injection H as <-. cbn. split; [apply CU; auto | exists 0; auto].
  - destruct s as [m1 m2 e b sta sto es fo t pr z cl h]. cbn in B0, E0, H, Z, PN. subst e b.
    assert (CC : forall m1' m2' e' b' sta' sto' es' t' pr' z' h',
      canceled (St m1' m2' e' b' sta' sto' es' fo t' pr' z' cl h')) by (intros; exact C).
    assert (CW : forall m1' m2' e' b' sta' sto' es' t' pr' z' h',
      canceled (St m1' m2' e' b' sta' sto' es' fo t' pr' z' (map wake cl) h')).
    { intros. destruct C as [C|C]; [left; exact C|right]. cbn in *. rewrite (@cnt_wake cf); auto. }
    destruct t as [c|]; [|discriminate].
    destruct c; cbn in H; try discriminate; unfold mu_lock in H; cbn in PN;
      try (exfalso; exact (PN eq_refl C));
      try (destruct m1; [discriminate|]; injection H as <-; cbn; split; [apply CC; auto | exists 0; auto]; fail);
      try (destruct m2; [discriminate|]; injection H as <-; cbn; split; [apply CC; auto | exists 0; auto]; fail);
      try (injection H as <-; cbn; split; [apply CC; auto | exists 0; auto]; fail).
    destruct pr as [|[p|x] r]; injection H as <-; cbn; (split; [apply CC | exists 0; auto]).
  - destruct s as [m1 m2 e b sta sto es fo t pr [|z] cl h]; [discriminate|]. injection H as <-. cbn. split; [exact C|exists 0; auto].
Qed.
