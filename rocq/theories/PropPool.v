(** Property C65: Writers used at the same time do not disturb each other through
    the pool of token slices they share. *)
From Verif Require Import Base MToken MPool.

(** What a goroutine reads when its variables are simply lists of its own. *)
Fixpoint alone (v : nat -> list token) (m : option (list token)) (ops : list pop) : list (option token) :=
  match ops with
  | [] => []
  | Take x :: r => alone (set v x []) m r
  | AppWrite x t :: r => alone v (Some (match m with Some l => l | None => v x end ++ [t])) r
  | AppStore x :: r => alone (set v x (match m with Some l => l | None => v x end)) None r
  | Look x i :: r => nth_error (v x) i :: alone v m r
  | Cut x :: r => alone (set v x []) m r
  | Put _ :: r => alone v m r
  end.

(** Uses of a variable are between the Take and the Cut and Put, and what append
    has returned is stored before anything else is done. *)
Inductive held := Free | Held | IsCut.
Fixpoint disc (h : nat -> held) (mid : option nat) (ops : list pop) : Prop :=
  match ops with
  | [] => True
  | Take x :: r => h x = Free /\ mid = None /\ disc (set h x Held) None r
  | AppWrite x _ :: r => h x = Held /\ (mid = None \/ mid = Some x) /\ disc h (Some x) r
  | AppStore x :: r => h x = Held /\ (mid = None \/ mid = Some x) /\ disc h None r
  | Look x _ :: r => h x = Held /\ mid = None /\ disc h None r
  | Cut x :: r => h x = Held /\ mid = None /\ disc (set h x IsCut) None r
  | Put x :: r => h x = IsCut /\ mid = None /\ disc (set h x Free) None r
  end.
Definition nothing_held : nat -> held := fun _ => Free.
Definition disciplined (ops : list pop) : Prop := disc nothing_held None ops.

Lemma set_same {A} (f : nat -> A) k v : set f k v k = v.
Proof. unfold set. now rewrite Nat.eqb_refl. Qed.
Lemma set_other {A} (f : nat -> A) k v i : i <> k -> set f k v i = f i.
Proof. intros H. unfold set. destruct (Nat.eqb_spec i k); congruence. Qed.

(** What a slice holds. *)
Definition holds (m : nat -> list token) (s : slice) (l : list token) : Prop :=
  length l = s_len s /\ firstn (s_len s) (m (s_arr s)) = l.
Lemma at_holds m s l i : holds m s l -> at_ m s i = nth_error l i.
Proof.
  intros [H1 H2]. unfold at_. destruct (Nat.ltb_spec i (s_len s)) as [H|H].
  - rewrite <- H2. clear H1 H2. revert i H. generalize (m (s_arr s)). induction (s_len s) as [|n IH]; intros l0 i H; [lia|].
    destruct l0; [now destruct i|]. destruct i; cbn; auto. apply IH. lia.
  - symmetry. apply nth_error_None. lia.
Qed.

(** The proof's own record of a goroutine. *)
Record ghost := Gh { h_ : nat -> held; mid_ : option nat; v_ : nat -> list token; m_ : option (list token) }.
Section Inv.
Variable progs : nat -> list pop.
Record gok (s : pst) (k : nat) (G : ghost) : Prop := {
  go_disc : disc (h_ G) (mid_ G) (g_rest (gors s k));
  go_log : g_log (gors s k) ++ alone (v_ G) (m_ G) (g_rest (gors s k)) = alone (fun _ => []) None (progs k);
  go_var : forall x, h_ G x <> Free -> exists p, g_var (gors s k) x = Some p /\ p < nbox s /\ ~ In p (pool s) /\
             (mid_ G <> Some x -> holds (mem s) (box s p) (v_ G x)) /\ (h_ G x = IsCut -> s_len (box s p) = 0);
  go_inj : forall x y p, h_ G x <> Free -> h_ G y <> Free -> g_var (gors s k) x = Some p -> g_var (gors s k) y = Some p -> x = y;
  go_mid : match mid_ G with
           | None => g_mid (gors s k) = None /\ m_ G = None
           | Some x => exists sl l p, g_mid (gors s k) = Some sl /\ m_ G = Some l /\ holds (mem s) sl l /\ h_ G x = Held /\
                       g_var (gors s k) x = Some p /\ s_arr sl < narr s /\ (forall q, q < nbox s -> q <> p -> s_arr (box s q) <> s_arr sl)
           end }.
Record inv (s : pst) (G : nat -> ghost) : Prop := {
  i_gor : forall k, gok s k (G k);
  i_pool : NoDup (pool s);
  i_pooled : forall p, In p (pool s) -> p < nbox s /\ s_len (box s p) = 0;
  i_arr : forall p, p < nbox s -> s_arr (box s p) < narr s;
  i_inj : forall p q, p < nbox s -> q < nbox s -> s_arr (box s p) = s_arr (box s q) -> p = q;
  i_own : forall k l x y p, k <> l -> h_ (G k) x <> Free -> h_ (G l) y <> Free -> g_var (gors s k) x = Some p -> g_var (gors s l) y = Some p -> False;
  i_mids : forall k l a b, k <> l -> g_mid (gors s k) = Some a -> g_mid (gors s l) = Some b -> s_arr a <> s_arr b }.

Lemma gok_frame s s' k G : gok s k G -> gors s' k = gors s k -> nbox s <= nbox s' -> narr s <= narr s' ->
  (forall x p, h_ G x <> Free -> g_var (gors s k) x = Some p -> ~ In p (pool s') /\ box s' p = box s p /\ mem s' (s_arr (box s p)) = mem s (s_arr (box s p))) ->
  (forall sl, g_mid (gors s k) = Some sl -> mem s' (s_arr sl) = mem s (s_arr sl)) ->
  (forall sl q x p, g_mid (gors s k) = Some sl -> mid_ G = Some x -> h_ G x <> Free -> g_var (gors s k) x = Some p -> q < nbox s' -> q <> p -> s_arr (box s' q) <> s_arr sl) ->
  gok s' k G.
Proof.
  intros [D L V I M] EG EB EA HV HM HQ. constructor; rewrite ?EG; auto.
  - intros x Hx. destruct (V x Hx) as (p & P1 & P2 & P3 & P4 & P5). destruct (HV x p Hx P1) as (A & B & C). exists p.
    split; auto. split; [lia|]. split; auto. rewrite B. split; auto. intros K. destruct (P4 K) as [Q1 Q2]. split; auto. congruence.
  - destruct (mid_ G) as [x|] eqn:Em; auto. destruct M as (sl & l & p & M1 & M2 & [M3 M3'] & M4 & M5 & M6 & M7).
    exists sl, l, p. split; auto. split; auto. split; [split; auto; now rewrite HM|]. split; auto. split; auto. split; [lia|].
    intros q Hq Hn. eapply HQ; eauto. congruence.
Qed.


(** A step of goroutine [k]: what has to be shown. *)
Definition theirs (s : pst) (G : nat -> ghost) (k : nat) (p : nat) : Prop :=
  exists k' x, k' <> k /\ h_ (G k') x <> Free /\ g_var (gors s k') x = Some p.
Definition their_mid (s : pst) (k : nat) (sl : slice) : Prop := exists k', k' <> k /\ g_mid (gors s k') = Some sl.
Lemma theirs_facts s G k p : inv s G -> theirs s G k p -> p < nbox s /\ ~ In p (pool s).
Proof. intros H (k' & x & N & Hx & E). destruct (go_var (i_gor H k') Hx) as (p' & P1 & P2 & P3 & _). replace p with p' by congruence. auto. Qed.
Lemma their_mid_facts s G k sl : inv s G -> their_mid s k sl -> s_arr sl < narr s /\
  (forall q, q < nbox s -> ~ theirs s G k q -> s_arr (box s q) <> s_arr sl).
Proof.
  intros H (k' & N & E). pose proof (go_mid (i_gor H k')) as M. destruct (mid_ (G k')) as [x|]; [|destruct M; congruence].
  destruct M as (sl' & l & p & M1 & _ & _ & M2 & M3 & M4 & M5). replace sl with sl' by congruence. split; auto.
  intros q Hq T. apply M5; auto. intros ->. apply T. exists k', x. split; auto. split; auto. congruence.
Qed.

Lemma inv_upd s G k s' g' gh' : inv s G -> gors s' = set (gors s) k g' -> nbox s <= nbox s' -> narr s <= narr s' ->
  gok s' k gh' ->
  (forall p, theirs s G k p -> ~ In p (pool s') /\ box s' p = box s p /\ mem s' (s_arr (box s p)) = mem s (s_arr (box s p))) ->
  (forall sl, their_mid s k sl -> mem s' (s_arr sl) = mem s (s_arr sl) /\
     (forall q, q < nbox s' -> ~ theirs s G k q -> s_arr (box s' q) <> s_arr sl)) ->
  NoDup (pool s') -> (forall p, In p (pool s') -> p < nbox s' /\ s_len (box s' p) = 0) ->
  (forall p, p < nbox s' -> s_arr (box s' p) < narr s') ->
  (forall p q, p < nbox s' -> q < nbox s' -> s_arr (box s' p) = s_arr (box s' q) -> p = q) ->
  (forall x p, h_ gh' x <> Free -> g_var g' x = Some p -> ~ theirs s G k p) ->
  (forall sl, g_mid g' = Some sl -> forall sl', their_mid s k sl' -> s_arr sl <> s_arr sl') ->
  inv s' (set G k gh').
Proof.
  intros H EG EB EA HK HT HM P1 P2 P3 P4 HO HMM. constructor; auto.
  - intros k'. destruct (Nat.eq_dec k' k) as [->|N]; [now rewrite set_same|]. rewrite set_other by auto.
    apply gok_frame with (s := s); auto.
    + apply H.
    + rewrite EG, set_other; auto.
    + intros x p Hx E. apply HT. exists k', x. auto.
    + intros sl E. apply HM. exists k'. auto.
    + intros sl q x p E1 E2 E3 E4 E5 E6. assert (TM : their_mid s k sl) by (exists k'; auto).
      destruct (HM sl TM) as [_ K]. destruct (Nat.lt_ge_cases q (nbox s)) as [Hq|Hq].
      * (* an old box: either theirs, and then unchanged, or not *)
        intros C. apply (K q E5); auto. intros T. destruct (HT q T) as (_ & B & _). rewrite B in C.
        pose proof (go_mid (i_gor H k')) as M. rewrite E2 in M. destruct M as (sl' & l' & p'' & M3 & _ & _ & _ & M4 & _ & M5).
        apply (M5 q); auto; congruence.
      * apply K; auto. intros T. apply theirs_facts in T; auto. lia.
  - intros k1 k2 x y p N. rewrite EG. destruct (Nat.eq_dec k1 k) as [->|N1].
    + rewrite !set_same, !set_other by auto. intros A B C D. apply (HO x p A C). exists k2, y. auto.
    + rewrite !(set_other (gors s) _ N1), !(set_other G _ N1). destruct (Nat.eq_dec k2 k) as [->|N2].
      * rewrite !set_same. intros A B C D. apply (HO y p B D). exists k1, x. auto.
      * rewrite !set_other by auto. apply (i_own H). auto.
  - intros k1 k2 a b N. rewrite EG. destruct (Nat.eq_dec k1 k) as [->|N1].
    + rewrite set_same, set_other by auto. intros A B. apply (HMM a A). exists k2. auto.
    + rewrite (set_other (gors s) _ N1). destruct (Nat.eq_dec k2 k) as [->|N2].
      * rewrite set_same. intros A B C. apply (HMM b B a); auto. exists k1. auto.
      * rewrite set_other by auto. apply (i_mids H). auto.
Qed.

Lemma firstn_poke l n t : n <= length l -> firstn (S n) (poke l n t) = firstn n l ++ [t].
Proof.
  intros H. unfold poke. rewrite firstn_app, firstn_firstn, firstn_length_le by auto. replace (Nat.min (S n) n) with n by lia. replace (S n - n) with 1 by lia. reflexivity.
Qed.
Lemma holds_len m s l : holds m s l -> s_len s <= length (m (s_arr s)).
Proof. intros [H1 H2]. rewrite <- H1, <- H2 at 1. rewrite firstn_length. lia. Qed.

(** What goroutine [k] has is nobody else's. *)
Lemma mine s G k x p : inv s G -> h_ (G k) x <> Free -> g_var (gors s k) x = Some p -> ~ theirs s G k p.
Proof. intros H A B (k' & y & N & C & D). apply (i_own H (not_eq_sym N) A C B D). Qed.
Lemma my_mid s G k sl sl' : inv s G -> g_mid (gors s k) = Some sl -> their_mid s k sl' -> s_arr sl <> s_arr sl'.
Proof. intros H A (k' & N & B). apply (i_mids H (not_eq_sym N) A B). Qed.
(** ... and so is the array of the slice an append is given. *)
Lemma cur_mine s G k x p q : inv s G -> h_ (G k) x = Held -> mid_ (G k) = None \/ mid_ (G k) = Some x -> g_var (gors s k) x = Some p -> q < nbox s -> q <> p ->
  s_arr (box s q) <> s_arr (cur s (gors s k) p).
Proof.
  intros H A B C D E. unfold cur. pose proof (go_mid (i_gor H k)) as M. destruct B as [B|B]; rewrite B in M.
  - destruct M as [-> _]. intros K. assert (A' : h_ (G k) x <> Free) by congruence. destruct (go_var (i_gor H k) A') as (p' & P1 & P2 & _). replace p' with p in P2 by congruence. apply E. apply (i_inj H); auto.
  - destruct M as (sl' & l' & p'' & -> & _ & _ & _ & M4 & _ & M5). apply M5; auto. congruence.
Qed.
Lemma cur_mid s G k x p sl' : inv s G -> h_ (G k) x = Held -> g_var (gors s k) x = Some p -> their_mid s k sl' ->
  s_arr (cur s (gors s k) p) <> s_arr sl'.
Proof.
  intros H A C T. unfold cur. destruct (g_mid (gors s k)) as [sl|] eqn:E; [apply (my_mid H E T)|].
  destruct (their_mid_facts H T) as [_ K]. assert (A' : h_ (G k) x <> Free) by congruence. destruct (go_var (i_gor H k) A') as (p' & P1 & P2 & _). replace p' with p in P2 by congruence. apply K; auto. eapply mine; eauto.
Qed.
Lemma cur_holds s G k x p : inv s G -> h_ (G k) x = Held -> mid_ (G k) = None \/ mid_ (G k) = Some x -> g_var (gors s k) x = Some p ->
  holds (mem s) (cur s (gors s k) p) (match m_ (G k) with Some l => l | None => v_ (G k) x end) /\ s_arr (cur s (gors s k) p) < narr s.
Proof.
  intros H A B C. unfold cur. pose proof (go_mid (i_gor H k)) as M. destruct B as [B|B]; rewrite B in M.
  - destruct M as [-> ->]. assert (A' : h_ (G k) x <> Free) by congruence. destruct (go_var (i_gor H k) A') as (p' & P1 & P2 & _ & P4 & _). replace p' with p in * by congruence. split; [apply P4; congruence|apply (i_arr H); auto].
  - destruct M as (sl' & l' & p'' & -> & -> & M1 & _ & M4 & M3 & M5). auto.
Qed.

Ltac fields := cbn [box mem nbox narr pool gors h_ mid_ v_ m_ with_gor next bind midway logs g_rest g_var g_mid g_log].

Lemma inv_get s G k x ops p l r : inv s G -> g_rest (gors s k) = Take x :: ops -> pool s = l ++ p :: r ->
  inv (PSt (box s) (mem s) (nbox s) (narr s) (l ++ r) (set (gors s) k (bind (next (gors s k) ops) x (Some p))))
      (set G k (Gh (set (h_ (G k)) x Held) None (set (v_ (G k)) x []) None)).
Proof.
  intros H E EP. pose proof (i_gor H k) as [D L V I M]. rewrite E in D, L. cbn [disc alone] in D, L. destruct D as (D1 & D2 & D3). rewrite D2 in M. destruct M as [M1 M2]. rewrite M2 in L.
  assert (PIN : In p (pool s)) by (rewrite EP, in_app_iff; cbn; auto).
  assert (SUB : forall q, In q (l ++ r) -> In q (pool s) /\ q <> p).
  { intros q Hq. pose proof (i_pool H) as IP. rewrite EP in *. split; [rewrite in_app_iff in *; cbn; tauto|]. intros ->. apply NoDup_remove_2 in IP. auto. }
  assert (NP : forall y, h_ (G k) y <> Free -> g_var (gors s k) y <> Some p).
  { intros y Hy K. destruct (V _ Hy) as (p' & P1 & _ & P3 & _). congruence. }
  eapply inv_upd; [exact H|reflexivity|..]; fields; auto.
  - constructor; fields; rewrite ?set_same; fields; auto.
    + intros y Hy. destruct (Nat.eq_dec y x) as [->|Ny].
      * rewrite !set_same. exists p. destruct (i_pooled H PIN) as [P1 P2]. split; auto. split; auto. split; [intros K; destruct (SUB _ K); auto|]. split; [|auto].
        intros _. split; cbn; rewrite P2; auto.
      * rewrite !set_other in * by auto. destruct (V y Hy) as (p' & P1 & P2 & P3 & P4 & P5). exists p'. split; auto. split; auto. split; [intros K; destruct (SUB _ K); auto|]. split; auto.
        intros _. apply P4. congruence.
    + intros y z q Hy Hz. destruct (Nat.eq_dec y x) as [->|Ny], (Nat.eq_dec z x) as [->|Nz]; auto; rewrite ?set_same, ?set_other in * by auto.
      * intros [= <-] K. destruct (NP z Hz K).
      * intros K [= <-]. destruct (NP y Hy K).
      * apply I; auto.
  - intros q T. destruct (theirs_facts H T) as [_ Q]. split; auto. intros K. destruct (SUB _ K); auto.
  - intros sl T. split; auto. intros q. apply their_mid_facts with (2 := T). auto.
  - pose proof (i_pool H) as IP. rewrite EP in IP. apply NoDup_remove_1 in IP. exact IP.
  - intros q Hq. apply (i_pooled H). apply SUB. auto.
  - apply (i_arr H).
  - apply (i_inj H).
  - intros y q Hy Hq. destruct (Nat.eq_dec y x) as [->|Ny]; rewrite ?set_same, ?set_other in * by auto.
    + injection Hq as <-. intros T. destruct (theirs_facts H T). auto.
    + eapply mine; eauto.
  - intros sl K. congruence.
Qed.

Lemma inv_new s G k x ops : inv s G -> g_rest (gors s k) = Take x :: ops ->
  inv (PSt (set (box s) (nbox s) (Slice (narr s) 0 256)) (set (mem s) (narr s) []) (S (nbox s)) (S (narr s)) (pool s)
           (set (gors s) k (bind (next (gors s k) ops) x (Some (nbox s)))))
      (set G k (Gh (set (h_ (G k)) x Held) None (set (v_ (G k)) x []) None)).
Proof.
  intros H E. pose proof (i_gor H k) as [D L V I M]. rewrite E in D, L. cbn [disc alone] in D, L. destruct D as (D1 & D2 & D3). rewrite D2 in M. destruct M as [M1 M2]. rewrite M2 in L.
  assert (OLD : forall q, q < nbox s -> q <> nbox s /\ s_arr (box s q) <> narr s) by (intros q Hq; pose proof (i_arr H Hq); lia).
  eapply inv_upd; [exact H|reflexivity|..]; fields; auto.
  - constructor; fields; rewrite ?set_same; fields; auto.
    + intros y Hy. destruct (Nat.eq_dec y x) as [->|Ny].
      * rewrite !set_same. exists (nbox s). rewrite !set_same. split; auto. split; [lia|]. split; [intros K; apply (i_pooled H) in K; lia|]. split; [|auto].
        intros _. split; cbn; auto.
      * rewrite !(set_other _ _ Ny) in *. destruct (V y Hy) as (p' & P1 & P2 & P3 & P4 & P5). destruct (OLD _ P2). exists p'. rewrite !set_other by auto. split; auto. split; [lia|]. split; auto. split; auto.
        intros _. unfold holds. rewrite !set_other by auto. apply P4. congruence.
    + intros y z q Hy Hz. destruct (Nat.eq_dec y x) as [->|Ny], (Nat.eq_dec z x) as [->|Nz]; auto; rewrite ?set_same, ?set_other in * by auto.
      * intros [= <-] K. destruct (V z Hz) as (p' & P1 & P2 & _). replace p' with (nbox s) in P2 by congruence. lia.
      * intros K [= <-]. destruct (V y Hy) as (p' & P1 & P2 & _). replace p' with (nbox s) in P2 by congruence. lia.
      * apply I; auto.
  - intros q T. destruct (theirs_facts H T) as [Q1 Q2]. destruct (OLD _ Q1). rewrite !set_other by auto. auto.
  - intros sl T. destruct (their_mid_facts H T) as [Q1 Q2]. split; [rewrite set_other; auto; lia|]. intros q Hq NT. destruct (Nat.eq_dec q (nbox s)) as [->|Nq]; [rewrite set_same; cbn; lia|]. rewrite set_other by auto. apply Q2; auto. lia.
  - apply H.
  - intros q Hq. destruct (i_pooled H Hq). rewrite set_other by lia. split; auto.
  - intros q Hq. destruct (Nat.eq_dec q (nbox s)) as [->|Nq]; [rewrite set_same; cbn; lia|]. rewrite set_other by auto. assert (q < nbox s) as Hq' by lia. pose proof (i_arr H Hq'). lia.
  - intros a b Ha Hb. destruct (Nat.eq_dec a (nbox s)) as [->|Na], (Nat.eq_dec b (nbox s)) as [->|Nb]; auto; rewrite ?set_same, ?set_other by auto; cbn.
    + intros K. destruct (OLD b); [lia|]. congruence.
    + intros K. destruct (OLD a); [lia|]. congruence.
    + apply (i_inj H); lia.
  - intros y q Hy Hq. destruct (Nat.eq_dec y x) as [->|Ny]; rewrite ?set_same, ?set_other in * by auto.
    + injection Hq as <-. intros T. destruct (theirs_facts H T). lia.
    + eapply mine; eauto.
  - intros sl K. congruence.
Qed.

(** append: writes into an array that is nobody else's, or into a new one. *)
Lemma inv_write s G k x t ops p a new c : inv s G -> g_rest (gors s k) = AppWrite x t :: ops -> g_var (gors s k) x = Some p ->
  let sl := cur s (gors s k) p in
  (a = s_arr sl /\ new = poke (mem s a) (s_len sl) t \/ narr s = a /\ new = firstn (s_len sl) (mem s (s_arr sl)) ++ [t]) ->
  forall narr', narr s <= narr' -> a < narr' ->
  inv (PSt (box s) (set (mem s) a new) (nbox s) narr' (pool s) (set (gors s) k (midway (next (gors s k) ops) (Some (Slice a (S (s_len sl)) c)))))
      (set G k (Gh (h_ (G k)) (Some x) (v_ (G k)) (Some (match m_ (G k) with Some l => l | None => v_ (G k) x end ++ [t])))).
Proof.
  intros H E EV sl CASE narr' HN HA. pose proof (i_gor H k) as [D L V I M]. rewrite E in D, L. cbn [disc alone] in D, L. destruct D as (D1 & D2 & D3).
  destruct (cur_holds H D1 D2 EV) as [CH CA]. fold sl in CH, CA. assert (D1' : h_ (G k) x <> Free) by congruence.
  assert (PB : p < nbox s) by (destruct (V x D1') as (p' & P1 & P2 & _); congruence).
  assert (FA : forall q, q < nbox s -> q <> p -> s_arr (box s q) <> a).
  { intros q Hq Nq. destruct CASE as [[-> _]|[<- _]]; [apply (cur_mine H D1 D2 EV Hq Nq)|]. pose proof (i_arr H Hq). lia. }
  assert (FM : forall sl', their_mid s k sl' -> a <> s_arr sl').
  { intros sl' T. destruct CASE as [[-> _]|[<- _]]; [apply (cur_mid H D1 EV T)|]. destruct (their_mid_facts H T). lia. }
  assert (NEW : firstn (S (s_len sl)) new = firstn (s_len sl) (mem s (s_arr sl)) ++ [t]).
  { pose proof (holds_len CH) as HL. destruct CASE as [[-> ->]|[_ ->]]; [now apply firstn_poke|].
    rewrite firstn_all2; auto. rewrite app_length, firstn_length. cbn. lia. }
  eapply inv_upd; [exact H|reflexivity|..]; fields; auto.
  - constructor; fields; rewrite ?set_same; fields; auto.
    + intros y Hy. destruct (V y Hy) as (p' & P1 & P2 & P3 & P4 & P5). exists p'. split; auto. split; auto. split; auto. split; auto.
      intros N. assert (y <> x) by congruence. assert (p' <> p) by (intros ->; apply H0; eapply I; eauto). unfold holds. rewrite set_other by (apply FA; auto). apply P4.
      destruct D2 as [D2|D2]; rewrite D2; congruence.
    + exists (Slice a (S (s_len sl)) c), (match m_ (G k) with Some l => l | None => v_ (G k) x end ++ [t]), p. split; auto. split; auto. split.
      { destruct CH as [C1 C2]. split; cbn [s_len s_arr]; [rewrite app_length; cbn; lia|]. rewrite set_same, NEW, C2. reflexivity. }
      split; auto.
  - intros q T. destruct (theirs_facts H T) as [Q1 Q2]. split; auto. split; auto. rewrite set_other; auto. apply FA; auto. intros ->. apply (mine H D1' EV T).
  - intros sl' T. split; [rewrite set_other; auto; specialize (FM _ T); auto|]. intros q. apply their_mid_facts with (2 := T). auto.
  - apply H.
  - apply (i_pooled H).
  - intros q Hq. pose proof (i_arr H Hq). lia.
  - apply (i_inj H).
  - intros y q Hy Hq. eapply mine; eauto.
  - intros sl' [= <-] sl'' T. cbn. auto.
Qed.

Lemma inv_store s G k x ops p : inv s G -> g_rest (gors s k) = AppStore x :: ops -> g_var (gors s k) x = Some p ->
  inv (PSt (set (box s) p (cur s (gors s k) p)) (mem s) (nbox s) (narr s) (pool s) (set (gors s) k (midway (next (gors s k) ops) None)))
      (set G k (Gh (h_ (G k)) None (set (v_ (G k)) x (match m_ (G k) with Some l => l | None => v_ (G k) x end)) None)).
Proof.
  intros H E EV. pose proof (i_gor H k) as [D L V I M]. rewrite E in D, L. cbn [disc alone] in D, L. destruct D as (D1 & D2 & D3).
  destruct (cur_holds H D1 D2 EV) as [CH CA]. assert (D1' : h_ (G k) x <> Free) by congruence.
  assert (PB : p < nbox s /\ ~ In p (pool s)) by (destruct (V x D1') as (p' & P1 & P2 & P3 & _); replace p with p' by congruence; auto). destruct PB as [PB PI].
  eapply inv_upd; [exact H|reflexivity|..]; fields; auto.
  - constructor; fields; rewrite ?set_same; fields; auto.
    intros y Hy. destruct (V y Hy) as (p' & P1 & P2 & P3 & P4 & P5). destruct (Nat.eq_dec y x) as [->|Ny].
    + exists p. rewrite !set_same. split; auto. split; auto. split; auto. split; auto. congruence.
    + assert (p' <> p) by (intros ->; apply Ny; eapply I; eauto). exists p'. rewrite !set_other by auto. split; auto. split; auto. split; auto. split; auto.
      intros _. apply P4. destruct D2 as [D2|D2]; rewrite D2; congruence.
  - intros q T. destruct (theirs_facts H T) as [Q1 Q2]. assert (q <> p) by (intros ->; apply (mine H D1' EV T)). rewrite set_other by auto. auto.
  - intros sl' T. split; auto. intros q Hq NT. destruct (Nat.eq_dec q p) as [->|Nq]; [rewrite set_same; apply (cur_mid H D1 EV T)|]. rewrite set_other by auto.
    destruct (their_mid_facts H T) as [_ K]; apply K; auto.
  - apply H.
  - intros q Hq. assert (q <> p) by congruence. rewrite set_other by auto. apply (i_pooled H); auto.
  - intros q Hq. destruct (Nat.eq_dec q p) as [->|Nq]; [now rewrite set_same|rewrite set_other by auto; apply (i_arr H); auto].
  - intros a b Ha Hb. destruct (Nat.eq_dec a p) as [->|Na], (Nat.eq_dec b p) as [->|Nb]; auto; rewrite ?set_same, ?set_other by auto; intros K.
    + symmetry in K. destruct (cur_mine H D1 D2 EV Hb Nb K).
    + destruct (cur_mine H D1 D2 EV Ha Na K).
    + apply (i_inj H); auto.
  - intros y q Hy Hq. eapply mine; eauto.
  - intros sl' K. congruence.
Qed.

Lemma inv_look s G k x i ops p : inv s G -> g_rest (gors s k) = Look x i :: ops -> g_var (gors s k) x = Some p ->
  inv (with_gor s k (logs (next (gors s k) ops) (at_ (mem s) (box s p) i))) (set G k (Gh (h_ (G k)) None (v_ (G k)) None)).
Proof.
  intros H E EV. pose proof (i_gor H k) as [D L V I M]. rewrite E in D, L. cbn [disc alone] in D, L. destruct D as (D1 & D2 & D3). rewrite D2 in M. destruct M as [M1 M2]. rewrite M2 in L.
  assert (D1' : h_ (G k) x <> Free) by congruence.
  eapply inv_upd; [exact H|reflexivity|..]; fields; auto.
  - constructor; fields; rewrite ?set_same; fields; auto.
    + destruct (V x D1') as (p' & P1 & _ & _ & P4 & _). replace p' with p in * by congruence. rewrite (at_holds i (P4 ltac:(congruence))), <- app_assoc. exact L.
    + intros y Hy. destruct (V y Hy) as (p' & P1 & P2 & P3 & P4 & P5). exists p'. split; auto. split; auto. split; auto. split; auto. intros _. apply P4. congruence.
  - intros q T. destruct (theirs_facts H T). auto.
  - intros sl' T. split; auto. intros q. apply their_mid_facts with (2 := T). auto.
  - apply H.
  - apply (i_pooled H).
  - apply (i_arr H).
  - apply (i_inj H).
  - intros y q Hy Hq. eapply mine; eauto.
  - intros sl' K. congruence.
Qed.

Lemma inv_cut s G k x ops p : inv s G -> g_rest (gors s k) = Cut x :: ops -> g_var (gors s k) x = Some p ->
  inv (PSt (set (box s) p (Slice (s_arr (box s p)) 0 (s_cap (box s p)))) (mem s) (nbox s) (narr s) (pool s) (set (gors s) k (next (gors s k) ops)))
      (set G k (Gh (set (h_ (G k)) x IsCut) None (set (v_ (G k)) x []) None)).
Proof.
  intros H E EV. pose proof (i_gor H k) as [D L V I M]. rewrite E in D, L. cbn [disc alone] in D, L. destruct D as (D1 & D2 & D3). rewrite D2 in M. destruct M as [M1 M2]. rewrite M2 in L.
  assert (D1' : h_ (G k) x <> Free) by congruence.
  assert (PB : p < nbox s /\ ~ In p (pool s)) by (destruct (V x D1') as (p' & P1 & P2 & P3 & _); replace p with p' by congruence; auto). destruct PB as [PB PI].
  assert (HF : forall y, set (h_ (G k)) x IsCut y <> Free -> h_ (G k) y <> Free) by (intros y; destruct (Nat.eq_dec y x) as [->|Ny]; rewrite ?set_same, ?set_other by auto; auto).
  assert (ARR : forall q, s_arr (set (box s) p (Slice (s_arr (box s p)) 0 (s_cap (box s p))) q) = s_arr (box s q)) by (intros q; destruct (Nat.eq_dec q p) as [->|Nq]; rewrite ?set_same, ?set_other by auto; auto).
  eapply inv_upd; [exact H|reflexivity|..]; fields; auto.
  - constructor; fields; rewrite ?set_same; fields; auto.
    + intros y Hy. destruct (V y (HF _ Hy)) as (p' & P1 & P2 & P3 & P4 & P5). destruct (Nat.eq_dec y x) as [->|Ny].
      * exists p. rewrite !set_same. split; auto. split; auto. split; auto. split; auto. intros _. split; auto.
      * assert (p' <> p) by (intros ->; apply Ny; eapply I; eauto). exists p'. rewrite !set_other in * by auto. split; auto. split; auto. split; auto. split; auto.
        intros _. apply P4. congruence.
    + intros y z q Hy Hz. apply I; auto.
  - intros q T. destruct (theirs_facts H T) as [Q1 Q2]. assert (q <> p) by (intros ->; apply (mine H D1' EV T)). rewrite set_other by auto. auto.
  - intros sl' T. split; auto. intros q. rewrite ARR. apply their_mid_facts with (2 := T). auto.
  - apply H.
  - intros q Hq. assert (q <> p) by congruence. rewrite set_other by auto. apply (i_pooled H); auto.
  - intros q Hq. rewrite ARR. apply (i_arr H); auto.
  - intros a b Ha Hb. rewrite !ARR. apply (i_inj H); auto.
  - intros y q Hy Hq. exact (mine H (HF _ Hy) Hq).
  - intros sl' K. congruence.
Qed.

Lemma inv_put s G k x ops p : inv s G -> g_rest (gors s k) = Put x :: ops -> g_var (gors s k) x = Some p ->
  inv (PSt (box s) (mem s) (nbox s) (narr s) (p :: pool s) (set (gors s) k (next (gors s k) ops)))
      (set G k (Gh (set (h_ (G k)) x Free) None (v_ (G k)) None)).
Proof.
  intros H E EV. pose proof (i_gor H k) as [D L V I M]. rewrite E in D, L. cbn [disc alone] in D, L. destruct D as (D1 & D2 & D3). rewrite D2 in M. destruct M as [M1 M2]. rewrite M2 in L.
  assert (D1' : h_ (G k) x <> Free) by congruence.
  assert (PB : p < nbox s /\ ~ In p (pool s) /\ s_len (box s p) = 0) by (destruct (V x D1') as (p' & P1 & P2 & P3 & _ & P4); replace p with p' by congruence; auto). destruct PB as (PB & PI & PL).
  assert (HF : forall y, set (h_ (G k)) x Free y <> Free -> y <> x /\ h_ (G k) y <> Free) by (intros y; destruct (Nat.eq_dec y x) as [->|Ny]; rewrite ?set_same, ?set_other by auto; intuition congruence).
  eapply inv_upd; [exact H|reflexivity|..]; fields; auto.
  - constructor; fields; rewrite ?set_same; fields; auto.
    + intros y Hy. destruct (HF _ Hy) as [Ny Hy']. destruct (V y Hy') as (p' & P1 & P2 & P3 & P4 & P5).
      assert (p' <> p) by (intros ->; apply Ny; eapply I; eauto). exists p'. rewrite !set_other in * by auto. split; auto. split; auto. split; [intros [K|K]; auto|]. split; auto.
      intros _. apply P4. congruence.
    + intros y z q Hy Hz. destruct (HF _ Hy), (HF _ Hz). apply I; auto.
  - intros q T. destruct (theirs_facts H T) as [Q1 Q2]. assert (q <> p) by (intros ->; apply (mine H D1' EV T)). split; auto. intros [K|K]; auto.
  - intros sl' T. split; auto. intros q. apply their_mid_facts with (2 := T). auto.
  - constructor; auto. apply H.
  - intros q [<-|Hq]; auto. apply (i_pooled H); auto.
  - apply (i_arr H).
  - apply (i_inj H).
  - intros y q Hy Hq. destruct (HF _ Hy). eapply mine; eauto.
  - intros sl' K. congruence.
Qed.

Lemma inv_drop s G p l r : inv s G -> pool s = l ++ p :: r -> inv (PSt (box s) (mem s) (nbox s) (narr s) (l ++ r) (gors s)) G.
Proof.
  intros [IG IP IPd IA II IO IM] EP.
  assert (SUB : forall q, In q (l ++ r) -> In q (pool s)) by (intros q Hq; rewrite EP, in_app_iff in *; cbn; tauto).
  constructor; fields; auto.
  - intros k. destruct (IG k) as [D L V I M]. constructor; fields; auto. intros y Hy. destruct (V y Hy) as (p' & P1 & P2 & P3 & P4). exists p'. split; auto. split; auto.
  - rewrite EP in IP. apply NoDup_remove_1 in IP. exact IP.
Qed.

Lemma inv_step s G k s' : inv s G -> pstep s k s' -> exists G', inv s' G'.
Proof.
  intros H T. destruct T.
  - eexists. eapply inv_get; eauto.
  - eexists. eapply inv_new; eauto.
  - eexists. eapply (@inv_write s G k x t ops p); eauto. pose proof (i_gor H k) as [D L V I M]. unfold g in *. rewrite H0 in D. destruct D as (D1 & D2 & _). destruct (cur_holds H D1 D2 H1). auto.
  - eexists. eapply (@inv_write s G k x t ops p); eauto.
  - eexists. eapply inv_store; eauto.
  - eexists. eapply inv_look; eauto.
  - eexists. eapply inv_cut; eauto.
  - eexists. eapply inv_put; eauto.
  - eexists. eapply inv_drop; eauto.
Qed.
Lemma inv_runs s : (forall k, disciplined (progs k)) -> pruns progs s -> exists G, inv s G.
Proof.
  intros HD R. induction R as [|s k s' R [G IH] T]; [|eapply inv_step; eauto].
  exists (fun _ => Gh nothing_held None (fun _ => []) None). constructor; cbn; try lia; try discriminate; try tauto; auto; try constructor; cbn; auto; try tauto; try congruence.
  apply HD.
Qed.
End Inv.

(** ** The code keeps to the discipline *)
Lemma set_ext {A} (f g : nat -> A) k v : (forall y, f y = g y) -> forall y, set f k v y = set g k v y.
Proof. intros E y. unfold set. destruct (Nat.eqb y k); auto. Qed.
Lemma disc_ext ops : forall h h' m, (forall x, h x = h' x) -> disc h m ops -> disc h' m ops.
Proof.
  induction ops as [|[x|x t|x|x i|x|x] r IH]; intros h h' m E D; cbn [disc] in *; auto; destruct D as (D1 & D2 & D3); rewrite <- E; split; auto; split; auto; eapply IH; try eassumption; try apply set_ext; auto.
Qed.
Lemma alone_ext ops : forall v v' m, (forall x, v x = v' x) -> alone v m ops = alone v' m ops.
Proof.
  induction ops as [|[x|x t|x|x i|x|x] r IH]; intros v v' m E; cbn [alone]; auto; rewrite <- ?E; try (apply IH; try apply set_ext; auto); try (f_equal; apply IH; auto).
Qed.
Definition pre (h : nat -> held) (a r : list pop) : Prop := disc h None r -> disc h None (a ++ r).
Lemma disc_fill h x ts r : h x = Held -> pre h (p_fill x ts) r.
Proof. intros H D. unfold p_fill. induction ts as [|t ts IH]; cbn [flat_map p_append app disc]; auto 10. Qed.
Lemma disc_encode h x ts r : h x = Held -> pre h (p_encode x ts) r.
Proof.
  intros H D. unfold p_encode. rewrite <- app_assoc. cbn [app]. assert (K : forall m, m = None \/ m = Some x -> disc h m (map (AppWrite x) ts ++ AppStore x :: r)); [|auto].
  induction ts as [|t ts IH]; intros m Hm; cbn [map app disc]; auto.
Qed.
Lemma disc_loop h x n r : h x = Held -> pre h (p_loop x n) r.
Proof. intros H D. unfold p_loop. induction (seq 0 n) as [|i l IH]; cbn [map app disc]; auto. Qed.
Lemma disc_dynamic h d r : h 0 = Held -> h 1 = Free -> pre h (p_dynamic d) r.
Proof.
  intros H0 H1 D. destruct d as [d|]; [|exact D]. cbn [p_dynamic app disc]. split; auto. split; auto. repeat rewrite <- app_assoc.
  repeat first [apply disc_encode|apply disc_loop]; try reflexivity; auto. cbn [p_give app disc]. split; [reflexivity|]. split; auto. split; [reflexivity|]. split; auto.
  eapply disc_ext; [|exact D]. intros y. unfold set. destruct (Nat.eqb_spec y 1) as [->|]; auto.
Qed.
Lemma disc_compress c r : disciplined r -> disciplined (p_compress c ++ r).
Proof.
  intros D. unfold disciplined, p_compress. cbn [app disc]. split; auto. split; auto. repeat rewrite <- app_assoc.
  repeat first [apply disc_fill|apply disc_loop|apply disc_dynamic]; try reflexivity. cbn [p_give app disc]. split; [reflexivity|]. split; auto. split; [reflexivity|]. split; auto.
  eapply disc_ext; [|exact D]. intros y. unfold set. destruct (Nat.eqb_spec y 0) as [->|]; auto.
Qed.
Lemma disc_writer cs : disciplined (p_writer cs).
Proof. unfold p_writer. induction cs as [|c cs IH]; cbn [flat_map]; [exact I|]. now apply disc_compress. Qed.

(** ** What it is to read: its own tokens, and no others *)
Definition dyn_reads (toks : list token) (d : option dyn) : list token :=
  match d with
  | None => []
  | Some d => d_xts d ++ firstn (d_read d) (d_xts d) ++ firstn (d_outer d) toks
  end.
Definition comp_reads (c : comp) : list token :=
  c_toks c ++ dyn_reads (c_toks c) (c_count c) ++ c_toks c ++ dyn_reads (c_toks c) (c_out c) ++ firstn (c_last c) (c_toks c).
(** The loops run over elements that there are. *)
Definition dyn_ok (toks : list token) (d : option dyn) : Prop :=
  match d with None => True | Some d => d_read d <= length (d_xts d) /\ d_outer d <= length toks end.
Definition comp_ok (c : comp) : Prop := dyn_ok (c_toks c) (c_count c) /\ dyn_ok (c_toks c) (c_out c) /\ c_last c <= length (c_toks c).

Lemma alone_fill x ts r : forall v l, v x = l -> alone v None (p_fill x ts ++ r) = alone (set v x (l ++ ts)) None r.
Proof.
  unfold p_fill. induction ts as [|t ts IH]; intros v l E; cbn [flat_map p_append app alone].
  - rewrite app_nil_r. apply alone_ext. intros y. unfold set. destruct (Nat.eqb_spec y x) as [->|]; auto.
  - rewrite E. rewrite (IH _ (l ++ [t])) by apply set_same. rewrite <- app_assoc. cbn [app]. apply alone_ext. intros y. unfold set. destruct (Nat.eqb y x); auto.
Qed.
Lemma alone_encode x ts r : forall v l, v x = l -> alone v None (p_encode x ts ++ r) = alone (set v x (l ++ ts)) None r.
Proof.
  intros v l E. unfold p_encode. rewrite <- app_assoc. cbn [app].
  assert (K : forall ts m, match m with Some k => k | None => v x end = l -> alone v m (map (AppWrite x) ts ++ AppStore x :: r) = alone (set v x (l ++ ts)) None r); [|auto].
  clear ts. intros ts. revert l E. induction ts as [|t ts IH]; intros l E m Em; cbn [map app alone].
  - now rewrite Em, app_nil_r.
  - rewrite Em. assert (W : forall ts' m l', m = Some l' -> alone v m (map (AppWrite x) ts' ++ AppStore x :: r) = alone (set v x (l' ++ ts')) None r).
    { clear. induction ts' as [|t ts' IH]; intros m l' ->; cbn [map app alone]; [now rewrite app_nil_r|]. rewrite (IH _ (l' ++ [t])) by auto. now rewrite <- app_assoc. }
    rewrite (W _ _ (l ++ [t])) by auto. now rewrite <- app_assoc.
Qed.
Lemma alone_loop x n r v : n <= length (v x) -> alone v None (p_loop x n ++ r) = map Some (firstn n (v x)) ++ alone v None r.
Proof.
  unfold p_loop. intros H. enough (K : forall k, k + n <= length (v x) -> alone v None (map (Look x) (seq k n) ++ r) = map Some (firstn n (skipn k (v x))) ++ alone v None r) by (apply (K 0); auto).
  clear H. induction n as [|n IH]; intros k H; cbn [seq map app alone firstn]; auto. rewrite IH by lia.
  destruct (nth_error (v x) k) as [t|] eqn:E; [|apply nth_error_None in E; lia].
  assert (SK : skipn k (v x) = t :: skipn (S k) (v x)). { clear -E. revert k E. induction (v x) as [|a l IH]; intros [|k] E; cbn in *; try discriminate; [congruence|]. now apply IH. }
  rewrite SK. reflexivity.
Qed.
Lemma alone_dynamic v d r : dyn_ok (v 0) d -> alone v None (p_dynamic d ++ r) = map Some (dyn_reads (v 0) d) ++ alone (match d with Some _ => set v 1 [] | None => v end) None r.
Proof.
  intros H. destruct d as [d|]; [|reflexivity]. destruct H as [H1 H2]. cbn [p_dynamic dyn_reads app alone]. repeat rewrite <- app_assoc.
  rewrite (@alone_encode _ _ _ _ []) by apply set_same. rewrite (@alone_encode _ _ _ _ (d_ll d)) by (rewrite set_same; reflexivity). fold (d_xts d).
  set (v' := set _ 1 (d_xts d)). assert (E1 : v' 1 = d_xts d) by apply set_same. assert (E0 : v' 0 = v 0) by reflexivity.
  rewrite alone_loop by (rewrite E1; auto). rewrite alone_loop by (rewrite E1; auto). rewrite alone_loop by (rewrite E0; auto). rewrite E1, E0, firstn_all, !map_app, <- !app_assoc.
  do 3 f_equal. cbn [p_give app alone]. apply alone_ext. intros y. unfold v', set. destruct (Nat.eqb y 1); auto.
Qed.
Lemma alone_compress v c r : comp_ok c -> alone v None (p_compress c ++ r) = map Some (comp_reads c) ++
  alone (set (match c_count c, c_out c with None, None => v | _, _ => set v 1 [] end) 0 []) None r.
Proof.
  intros (H1 & H2 & H3). unfold p_compress, comp_reads. cbn [app alone]. repeat rewrite <- app_assoc.
  rewrite (@alone_fill _ _ _ _ []) by apply set_same. cbn [app]. set (v0 := set _ 0 (c_toks c)). assert (E0 : v0 0 = c_toks c) by apply set_same.
  rewrite alone_loop, E0, firstn_all by (rewrite E0; auto). rewrite alone_dynamic, E0 by (rewrite E0; auto).
  set (v1 := match c_count c with Some _ => _ | None => _ end). assert (E1 : v1 0 = c_toks c) by (unfold v1; destruct (c_count c); auto).
  rewrite alone_loop, E1, firstn_all by (rewrite E1; auto). rewrite alone_dynamic, E1 by (rewrite E1; auto).
  set (v2 := match c_out c with Some _ => _ | None => _ end). assert (E2 : v2 0 = c_toks c) by (unfold v2; destruct (c_out c); auto).
  rewrite alone_loop, E2 by (rewrite E2; auto). rewrite !map_app, <- !app_assoc. do 5 f_equal. cbn [p_give app alone]. apply alone_ext. intros y.
  unfold v2, v1, v0, set. destruct (c_count c), (c_out c), (Nat.eqb_spec y 0), (Nat.eqb_spec y 1); auto.
Qed.
Lemma alone_writer cs : Forall comp_ok cs -> forall v, alone v None (p_writer cs) = map Some (flat_map comp_reads cs).
Proof.
  unfold p_writer. induction 1 as [|c cs H Hcs IH]; intros v; cbn [flat_map alone map]; auto. rewrite alone_compress by auto. rewrite IH, map_app. reflexivity.
Qed.

(** ** C65 *)
(** Whatever the goroutines do and however they are interleaved, whatever sync.Pool
    hands out and drops: what each one reads are the tokens it has put in itself. *)
Theorem C65_own_tokens :
  forall (cs : nat -> list comp) s, (forall k, Forall comp_ok (cs k)) -> pruns (fun k => p_writer (cs k)) s ->
    forall k, (exists later, g_log (gors s k) ++ later = map Some (flat_map comp_reads (cs k))) /\
              (g_rest (gors s k) = [] -> g_log (gors s k) = map Some (flat_map comp_reads (cs k))).
Proof.
  intros cs s HC R k. destruct (inv_runs (fun k => disc_writer (cs k)) R) as [G H]. pose proof (go_log (i_gor H k)) as L. cbv beta in L; rewrite (alone_writer (HC k)) in L.
  split; [eexists; exact L|]. intros E. rewrite E in L. cbn [alone] in L. now rewrite app_nil_r in L.
Qed.

(** No two goroutines are ever about to touch the same memory. *)
Theorem C65_no_race :
  forall (cs : nat -> list comp) s k l a, pruns (fun k => p_writer (cs k)) s -> k <> l -> In a (touches s k) -> ~ In a (touches s l).
Proof.
  intros cs s k l a R N. destruct (inv_runs (fun k => disc_writer (cs k)) R) as [G H].
  (* what a goroutine is about to touch is its own *)
  assert (T : forall k a, In a (touches s k) -> exists x p, h_ (G k) x = Held /\ (mid_ (G k) = None \/ mid_ (G k) = Some x) /\ g_var (gors s k) x = Some p /\ p < nbox s /\
                (a = MPool.Box p \/ a = Array (s_arr (cur s (gors s k) p)))).
  { clear - H. intros k a T. unfold touches in T. pose proof (go_disc (i_gor H k)) as D. pose proof (go_mid (i_gor H k)) as M.
    destruct (g_rest (gors s k)) as [|[x|x t|x|x i|x|x] ops]; try contradiction; cbn [disc] in D; destruct D as (D1 & D2 & _);
      (assert (D1' : h_ (G k) x <> Free) by congruence; destruct (go_var (i_gor H k) D1') as (p & P1 & P2 & _); exists x, p; rewrite P1 in T; split; auto; split; auto; split; auto; split; auto).
    - unfold cur. destruct (g_mid (gors s k)) as [sl|]; cbn in T; intuition.
    - cbn in T. intuition.
    - rewrite D2 in M. destruct M as [M _]. unfold cur. rewrite M. cbn in T. intuition.
    - cbn in T. intuition. }
  intros A B. destruct (T _ _ A) as (x & p & X1 & X2 & X3 & X4 & X5). destruct (T _ _ B) as (y & q & Y1 & Y2 & Y3 & Y4 & Y5).
  assert (X1' : h_ (G k) x <> Free) by congruence. assert (Y1' : h_ (G l) y <> Free) by congruence.
  assert (PQ : p <> q) by (intros <-; exact (i_own H N X1' Y1' X3 Y3)).
  destruct X5 as [->|X5], Y5 as [Y5|Y5]; try congruence. rewrite X5 in Y5. injection Y5 as Y5.
  revert Y5. unfold cur. destruct (g_mid (gors s k)) as [sl|] eqn:M1, (g_mid (gors s l)) as [sl'|] eqn:M2.
  - apply (i_mids H N M1 M2).
  - intros K. symmetry in K. revert K. assert (Z := cur_mine H X1 X2 X3 Y4 (not_eq_sym PQ)). unfold cur in Z. rewrite M1 in Z. exact Z.
  - assert (Z := cur_mine H Y1 Y2 Y3 X4 PQ). unfold cur in Z. rewrite M2 in Z. exact Z.
  - intros K. apply PQ. apply (i_inj H); auto.
Qed.

(** Nobody ever waits for anybody: a goroutine that is not done can take its next step. *)
Theorem C65_no_waiting :
  forall (cs : nat -> list comp) s k, pruns (fun k => p_writer (cs k)) s -> g_rest (gors s k) <> [] ->
    exists s', pstep s k s' /\ length (g_rest (gors s k)) = S (length (g_rest (gors s' k))).
Proof.
  intros cs s k R NE. destruct (inv_runs (fun k => disc_writer (cs k)) R) as [G H]. pose proof (go_disc (i_gor H k)) as D.
  destruct (g_rest (gors s k)) as [|op ops] eqn:E; [congruence|].
  assert (V : forall x, h_ (G k) x <> Free -> exists p, g_var (gors s k) x = Some p) by (intros x Hx; destruct (go_var (i_gor H k) Hx) as (p & P & _); eauto).
  destruct op as [x|x t|x|x i|x|x]; cbn [disc] in D; destruct D as (D1 & D2 & _).
  1: { eexists. split; [eapply PNew; eauto|]. cbn [gors]. rewrite set_same. reflexivity. }
  all: (assert (D1' : h_ (G k) x <> Free) by congruence; destruct (V x D1') as [p P]).
  - destruct (Nat.lt_ge_cases (s_len (cur s (gors s k) p)) (s_cap (cur s (gors s k) p))) as [C|C].
    + eexists. split; [eapply PInPlace; eauto|]. cbn [gors]. rewrite set_same. reflexivity.
    + eexists. split; [eapply PGrow with (c := S (s_len (cur s (gors s k) p))); eauto|]. cbn [gors]. rewrite set_same. reflexivity.
  - eexists. split; [eapply PStore; eauto|]. cbn [gors]. rewrite set_same. reflexivity.
  - eexists. split; [eapply PLook; eauto|]. cbn [with_gor gors]. rewrite set_same. reflexivity.
  - eexists. split; [eapply PCut; eauto|]. cbn [gors]. rewrite set_same. reflexivity.
  - eexists. split; [eapply PPut; eauto|]. cbn [gors]. rewrite set_same. reflexivity.
Qed.

(** A run by a schedule, with a sync.Pool that hands out what it has got last. *)
Definition exec (s : pst) (k : nat) : option pst :=
  let g := gors s k in
  match g_rest g with
  | [] => None
  | Take x :: ops =>
      match pool s with
      | p :: r => Some (PSt (box s) (mem s) (nbox s) (narr s) r (set (gors s) k (bind (next g ops) x (Some p))))
      | [] => Some (PSt (set (box s) (nbox s) (Slice (narr s) 0 256)) (set (mem s) (narr s) []) (S (nbox s)) (S (narr s)) (pool s) (set (gors s) k (bind (next g ops) x (Some (nbox s)))))
      end
  | AppWrite x t :: ops =>
      match g_var g x with
      | Some p => let sl := cur s g p in
          if s_len sl <? s_cap sl then
            Some (PSt (box s) (set (mem s) (s_arr sl) (poke (mem s (s_arr sl)) (s_len sl) t)) (nbox s) (narr s) (pool s) (set (gors s) k (midway (next g ops) (Some (Slice (s_arr sl) (S (s_len sl)) (s_cap sl))))))
          else Some (PSt (box s) (set (mem s) (narr s) (firstn (s_len sl) (mem s (s_arr sl)) ++ [t])) (nbox s) (S (narr s)) (pool s) (set (gors s) k (midway (next g ops) (Some (Slice (narr s) (S (s_len sl)) (2 * S (s_len sl)))))))
      | None => None end
  | AppStore x :: ops => match g_var g x with Some p => Some (PSt (set (box s) p (cur s g p)) (mem s) (nbox s) (narr s) (pool s) (set (gors s) k (midway (next g ops) None))) | None => None end
  | Look x i :: ops => match g_var g x with Some p => Some (with_gor s k (logs (next g ops) (at_ (mem s) (box s p) i))) | None => None end
  | Cut x :: ops => match g_var g x with Some p => Some (PSt (set (box s) p (Slice (s_arr (box s p)) 0 (s_cap (box s p)))) (mem s) (nbox s) (narr s) (pool s) (set (gors s) k (next g ops))) | None => None end
  | Put x :: ops => match g_var g x with Some p => Some (PSt (box s) (mem s) (nbox s) (narr s) (p :: pool s) (set (gors s) k (next g ops))) | None => None end
  end.
Lemma exec_sound s k s' : exec s k = Some s' -> pstep s k s'.
Proof.
  unfold exec. destruct (g_rest (gors s k)) as [|[x|x t|x|x i|x|x] ops] eqn:E; try discriminate.
  - destruct (pool s) as [|p r] eqn:EP; intros [= <-]; [rewrite <- EP; eapply PNew; eauto|]. eapply (@PGet s k x ops p [] r); eauto.
  - destruct (g_var (gors s k) x) as [p|] eqn:EV; [|discriminate]. cbv zeta. destruct (Nat.ltb_spec (s_len (cur s (gors s k) p)) (s_cap (cur s (gors s k) p))); intros [= <-].
    + eapply PInPlace; eauto.
    + eapply PGrow; eauto. lia.
  - destruct (g_var (gors s k) x) as [p|] eqn:EV; [|discriminate]. intros [= <-]. eapply PStore; eauto.
  - destruct (g_var (gors s k) x) as [p|] eqn:EV; [|discriminate]. intros [= <-]. eapply PLook; eauto.
  - destruct (g_var (gors s k) x) as [p|] eqn:EV; [|discriminate]. intros [= <-]. eapply PCut; eauto.
  - destruct (g_var (gors s k) x) as [p|] eqn:EV; [|discriminate]. intros [= <-]. eapply PPut; eauto.
Qed.
Fixpoint sched (s : pst) (ks : list nat) : option pst :=
  match ks with [] => Some s | k :: r => match exec s k with Some s' => sched s' r | None => None end end.
Lemma sched_sound progs ks : forall s s', pruns progs s -> sched s ks = Some s' -> pruns progs s'.
Proof.
  induction ks as [|k ks IH]; intros s s' R E; cbn in E; [injection E as <-; auto|]. destruct (exec s k) as [s1|] eqn:X; [|discriminate].
  eapply IH; [|exact E]. eapply pr_step; [exact R|]. apply exec_sound. exact X.
Qed.

(** Three goroutines: the third has finished and its boxes have come to the first
    two, which take turns. *)
Definition C65_comp (a b : N) (n : nat) : comp :=
  Comp (repeat (Token a 0) n) (Some (Dyn [Token b 1; Token b 2] [Token b 3] 3 n)) (Some (Dyn [Token b 1; Token b 2] [Token b 3] 1 0)) 0.
Definition C65_work (k : nat) : list comp :=
  match k with 0 => [C65_comp 97 3 4; C65_comp 98 4 2] | 1 => [C65_comp 99 5 3] | 2 => [C65_comp 100 6 5] | _ => [] end.
Definition C65_schedule : list nat :=
  repeat 2 (length (p_writer (C65_work 2))) ++ flat_map (fun _ => [0; 1]) (seq 0 (length (p_writer (C65_work 1)))) ++
  repeat 0 (length (p_writer (C65_work 0)) - length (p_writer (C65_work 1))).
Example C65_met :
  (forall k, Forall comp_ok (C65_work k)) /\
  exists s, pruns (fun k => p_writer (C65_work k)) s /\ (forall k, k < 3 -> g_rest (gors s k) = []) /\
    length (g_log (gors s 0)) = 38 /\ nbox s = 4 /\ length (pool s) = 4.
Proof.
  split.
  - intros [|[|[|k]]]; cbn [C65_work]; repeat constructor; cbn; lia.
  - assert (K : match sched (pinit (fun k => p_writer (C65_work k))) C65_schedule with
                | Some s => (g_rest (gors s 0), g_rest (gors s 1), g_rest (gors s 2), length (g_log (gors s 0)), nbox s, length (pool s))
                | None => ([], [], [], 0, 0, 0) end = ([], [], [], 38, 4, 4)) by (vm_compute; reflexivity).
    destruct (sched (pinit (fun k => p_writer (C65_work k))) C65_schedule) as [s|] eqn:E; [|discriminate].
    injection K as K0 K1 K2 K3 K4 K5. exists s. split; [eapply sched_sound; [apply pr_init|exact E]|]. split; auto.
    intros [|[|[|k]]] Hk; auto. lia.
Qed.
(** The discipline is what it takes: a goroutine that reads after it has given the
    slice back reads what another one has written there. *)
Example C65_use_after_give :
  let progs := fun k => match k with 0 => [Take 0; AppWrite 0 (Token 97 0); AppStore 0; Cut 0; Put 0; Look 0 0] | 1 => [Take 0; AppWrite 0 (Token 98 0); AppStore 0] | _ => [] end in
  exists s, pruns progs s /\ g_log (gors s 0) = [Some (Token 98 0)].
Proof.
  intros progs. destruct (sched (pinit progs) [0;0;0;0;0;1;1;1;0]) as [s|] eqn:E.
  - exists s. split; [eapply sched_sound; [apply pr_init|exact E]|].
    assert (K : match sched (pinit progs) [0;0;0;0;0;1;1;1;0] with Some s => g_log (gors s 0) | None => [] end = [Some (Token 98 0)]) by (vm_compute; reflexivity). rewrite E in K. exact K.
  - exfalso. assert (K : match sched (pinit progs) [0;0;0;0;0;1;1;1;0] with Some s => g_log (gors s 0) | None => [] end = [Some (Token 98 0)]) by (vm_compute; reflexivity). rewrite E in K. discriminate.
Qed.
