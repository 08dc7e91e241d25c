(** Two Readers whose sources agree up to a point, where one of them fails: they
    behave alike until that point, and the one that failed decodes nothing more
    (used for C85). *)
From Verif Require Import Base MCommon MToken MWriter MReader SpecReader PInput PLog PGrow.

(** Results related when both are there. *)
Definition crel {A B} (R : A -> B -> Prop) (x : res A) (y : res B) : Prop :=
  match x, y with Ok a, Ok b => R a b | _, _ => True end.
Lemma crel_l {A B} (R : A -> B -> Prop) y : crel R NoFuel y. Proof. exact I. Qed.
Lemma crel_lp {A B} (R : A -> B -> Prop) c y : crel R (Panic c) y. Proof. exact I. Qed.
Lemma crel_r {A B} (R : A -> B -> Prop) x : crel R x NoFuel. Proof. destruct x; exact I. Qed.
Lemma crel_rp {A B} (R : A -> B -> Prop) x c : crel R x (Panic c). Proof. destruct x; exact I. Qed.
#[local] Hint Resolve crel_l crel_lp crel_r crel_rp : core.
Lemma crel_bind {A B A' B'} (R : A -> B -> Prop) (R' : A' -> B' -> Prop) x y f g :
  crel R x y -> (forall a b, R a b -> crel R' (f a) (g b)) -> crel R' (rbind x f) (rbind y g).
Proof. destruct x, y; cbn [rbind]; auto. Qed.
Lemma crel_any {A B} (R : A -> B -> Prop) x b : (forall a, R a b) -> crel R x (Ok b).
Proof. destruct x; cbn; auto. Qed.
Lemma crel_weak {A B} (R R' : A -> B -> Prop) x y : (forall a b, R a b -> R' a b) -> crel R x y -> crel R' x y.
Proof. destruct x, y; cbn; auto. Qed.

Section Caus.
(** what one source delivers after the point where the other one fails with [stop] *)
Variable rest : list (list N * option goerr).
Variable stop : goerr.
Record S (i j : ist) : Prop := MkS {
  s_src : exists c, i_src i = c ++ rest /\ i_src j = c ++ [([], Some stop)];
  s_buf : i_buf i = i_buf j; s_err : i_err i = i_err j; s_ib : ib i = ib j; s_ibl : ibl i = ibl j;
  s_total : i_total i = i_total j; s_stream : i_stream i = i_stream j; s_crc : i_crc i = i_crc j }.
(** nothing left and the error is known *)
Definition dead (j : ist) : Prop := i_buf j = [] /\ i_err j <> None.

Lemma S_set_ib i j b l : S i j -> S (set_ib i b l) (set_ib j b l).
Proof. intros []. destruct i, j. constructor; auto. Qed.
Lemma S_set_buf i j p : S i j -> S (set_buf i p) (set_buf j p).
Proof. intros []. destruct i, j. constructor; auto. Qed.
Lemma S_count i j p : S i j -> S (i_count i p) (i_count j p).
Proof. intros []. destruct i, j. cbn in *. constructor; cbn; auto; congruence. Qed.
Lemma S_fill i j : S i j -> S (fillIfEmpty i) (fillIfEmpty j) \/ dead (fillIfEmpty j).
Proof.
  intros []. destruct i as [src buf err b l t s c], j as [src' buf' err' b' l' t' s' c']. cbn in *. subst. destruct s_src0 as [k [-> ->]].
  unfold fillIfEmpty. cbn [i_buf]. destruct buf' as [|x q]; [|left; constructor; cbn; eauto]. cbn [inputBufferFill]. destruct err' as [z|]; [left; constructor; cbn; eauto|].
  destruct k as [|[p z] k]; cbn [app]; [right; split; [reflexivity|discriminate]|left; constructor; cbn; eauto].
Qed.
Lemma dead_fill j : dead j -> fillIfEmpty j = j.
Proof. destruct j as [src [|? ?] [?|] b l t s c]; intros [H1 H2]; cbn in *; try discriminate; try reflexivity; congruence. Qed.
Lemma dead_ib j b l : dead j -> dead (set_ib j b l). Proof. destruct j; auto. Qed.
Lemma dead_count j p : dead j -> dead (i_count j p). Proof. destruct j; auto. Qed.

(** ** Reading *)
Definition PR {A} (bad : A) (x y : ist * A) : Prop := (S (fst x) (fst y) /\ snd x = snd y) \/ (dead (fst y) /\ snd y = bad).
Lemma c_byte i j : S i j -> PR None (inputByte i) (inputByte j).
Proof.
  intros H. unfold inputByte. destruct (S_fill H) as [H1|H1].
  - rewrite <- (s_buf H1). destruct (i_buf (fillIfEmpty i)) as [|x q]; left; split; auto. apply S_count, S_set_buf. exact H1.
  - right. rewrite (proj1 H1). split; auto.
Qed.
Lemma c_readLoop : forall f i j want acc, S i j -> want <= f -> 
  let '(i1, p) := bufReadLoop f i want acc in let '(j1, q) := bufReadLoop f j want acc in
  (S i1 j1 /\ p = q) \/ (dead j1 /\ length q < length acc + want).
Proof.
  induction f as [|f IH]; intros i j want acc H L.
  - assert (want = 0) by lia. subst. cbn. auto.
  - destruct want as [|w]; [cbn; auto|]. cbn [bufReadLoop]. destruct (S_fill H) as [H1|H1].
    + rewrite <- (s_buf H1). set (i1 := fillIfEmpty i) in *. set (j1 := fillIfEmpty j) in *. clearbody i1 j1. destruct (i_buf i1) as [|x q] eqn:E; [left; auto|].
      set (p := firstn (1 + w) (x :: q)). assert (LP : 1 <= length p <= 1 + w) by (unfold p; rewrite firstn_length; cbn [length]; lia).
      specialize (IH _ _ (1 + w - length p) (acc ++ p) (S_set_buf (skipn (1 + w) (x :: q)) H1) ltac:(lia)).
      change (Datatypes.S w) with (1 + w). fold p. destruct (bufReadLoop f (set_buf i1 _) _ _) as [i2 p2]. destruct (bufReadLoop f (set_buf j1 _) _ _) as [j2 q2].
      destruct IH as [IH|[IH1 IH2]]; [left; exact IH|right; split; auto]. rewrite app_length in IH2. lia.
    + rewrite (proj1 H1). destruct (i_buf (fillIfEmpty i)); [right; split; auto; lia|]. destruct (bufReadLoop f _ _ _). right. split; auto. lia.
Qed.
Lemma c_readN i j n : S i j -> PR None (inputBufferReadN i n) (inputBufferReadN j n).
Proof.
  intros H. unfold inputBufferReadN, inputBitsDiscard. pose proof (S_set_ib 0 0 H) as H1. destruct n as [|n]; [left; auto|].
  pose proof (@c_readLoop (1 + n) _ _ (1 + n) [] H1 (le_n _)) as H2. change (Datatypes.S n) with (1 + n).
  destruct (bufReadLoop (1 + n) (set_ib i 0 0) (1 + n) []) as [i1 p]. destruct (bufReadLoop (1 + n) (set_ib j 0 0) (1 + n) []) as [j1 q].
  destruct H2 as [[H2 <-]|[H2 H3]].
  - left. split; [apply S_count; exact H2|reflexivity].
  - right. cbn [length] in H3. replace (length q =? 1 + n) with false by (symmetry; apply Nat.eqb_neq; lia). split; [apply dead_count; exact H2|reflexivity].
Qed.
Lemma c_readU u n i j : S i j -> PR None (readU u n i) (readU u n j).
Proof.
  intros H. unfold readU. destruct (c_readN n H) as [[H1 H2]|[H1 H2]]; destruct (inputBufferReadN i n) as [i1 p], (inputBufferReadN j n) as [j1 q]; cbn [fst snd] in *; subst q.
  - left. destruct p; split; auto.
  - right. split; auto.
Qed.
Lemma c_stringZ : forall f g i j acc, S i j -> crel (PR None) (stringZLoop f i acc) (stringZLoop g j acc).
Proof.
  induction f as [|f IH]; intros g i j acc H; [exact I|]. destruct g as [|g]; [apply crel_r|]. cbn [stringZLoop].
  destruct (c_byte H) as [[H1 H2]|[H1 H2]]; destruct (inputByte i) as [i1 p], (inputByte j) as [j1 q]; cbn [fst snd] in *; subst q.
  - destruct p as [ch|]; [|left; auto]. destruct (ch =? 0)%N; [left; auto|]. apply IH. exact H1.
  - apply crel_any. intros a. right. auto.
Qed.
Variable env : renv.
Lemma c_fillLoop n : forall f i j, S i j -> PR false (bitsFillLoop env f i n) (bitsFillLoop env f j n).
Proof.
  induction f as [|f IH]; intros i j H; cbn [bitsFillLoop]; rewrite <- (s_ibl H); destruct (ibl i <? n); try (left; auto; fail).
  destruct (c_byte H) as [[H1 H2]|[H1 H2]]; destruct (inputByte i) as [i1 p], (inputByte j) as [j1 q]; cbn [fst snd] in *; subst q.
  - destruct p as [ch|]; [|left; auto]. rewrite <- (s_ibl H1), <- (s_ib H1). apply IH. apply S_set_ib. exact H1.
  - right. auto.
Qed.
Lemma c_bitsFill n i j : S i j -> crel (PR false) (inputBitsFill env i n) (inputBitsFill env j n).
Proof. intros H. unfold inputBitsFill, assertb. destruct (_ <=? _); [|exact I]. apply c_fillLoop. exact H. Qed.
Lemma c_peek n i j : S i j -> inputBitsPeek env i n = inputBitsPeek env j n.
Proof. intros H. unfold inputBitsPeek. now rewrite (s_ibl H), (s_ib H). Qed.
Lemma c_commit n i j : S i j -> crel S (inputBitsCommit i n) (inputBitsCommit j n).
Proof. intros H. unfold inputBitsCommit, assertb. rewrite (s_ibl H), (s_ib H). destruct (_ <=? _); [|exact I]. apply S_set_ib. exact H. Qed.
Lemma c_getBits n i j : S i j -> crel (PR None) (getBits env i n) (getBits env j n).
Proof.
  intros H. unfold getBits. eapply crel_bind; [apply c_bitsFill; exact H|]. intros [i1 ok] [j1 ok'] [[H1 H2]|[H1 H2]]; cbn [fst snd] in *; subst ok'.
  - destruct ok; [|left; auto]. rewrite (c_peek n H1). destruct (inputBitsPeek env j1 n); cbn [rbind]; auto. eapply crel_bind; [apply c_commit; exact H1|]. intros i2 j2 H2. left. auto.
  - apply crel_any. intros a. right. auto.
Qed.
Lemma c_symLoop h mx : forall f i j n, S i j -> crel (PR None) (readSymbolLoop env f i h mx n) (readSymbolLoop env f j h mx n).
Proof.
  induction f as [|f IH]; intros i j n H; cbn [readSymbolLoop]; destruct (n <=? mx); try exact I; try (left; auto; fail).
  eapply crel_bind; [apply c_bitsFill; exact H|]. intros [i1 ok] [j1 ok'] [[H1 H2]|[H1 H2]]; cbn [fst snd] in *; subst ok'.
  - destruct ok; [|left; auto]. rewrite (c_peek n H1). destruct (inputBitsPeek env j1 n); cbn [rbind]; auto. destruct (dec_decode h n a) as [[sy mn] mx']. destruct sy.
    + eapply crel_bind; [apply c_commit; exact H1|]. intros i2 j2 H2. left. auto.
    + destruct (Nat.eqb mx' 0); [left; auto|]. auto.
  - apply crel_any. intros a. right. auto.
Qed.
Lemma c_symbol h i j : S i j -> crel (PR None) (readSymbol env i h) (readSymbol env j h).
Proof. intros H. apply c_symLoop. exact H. Qed.
Lemma c_xsizes : forall o i j sX, S i j -> crel (PR None) (readXSizes env o i sX) (readXSizes env o j sX).
Proof.
  induction o as [|x o IH]; intros i j sX H; cbn [readXSizes]; [left; auto|]. eapply crel_bind; [apply c_getBits; exact H|].
  intros [i1 p] [j1 q] [[H1 H2]|[H1 H2]]; cbn [fst snd] in *; subst q.
  - destruct p; [apply IH; exact H1|left; auto].
  - apply crel_any. intros a. right. auto.
Qed.

(** ** Decoding *)
Definition Sd (d e : dst) : Prop := S (d_in d) (d_in e) /\ d_out d = d_out e.
(** the second one has come to its end; what it has decoded is [base] *)
Definition gone (base : list N) (e : dst) : Prop := dead (d_in e) /\ del (d_out e) = base.
Definition DR0 {A} (base : list N) (bad : A) (x y : dst * A) : Prop := (Sd (fst x) (fst y) /\ snd x = snd y) \/ (gone base (fst y) /\ snd y = bad).
Definition DR {A} (bad : A) (x y : dst * A) : Prop :=
  (Sd (fst x) (fst y) /\ snd x = snd y) \/ (dead (d_in (fst y)) /\ snd y = bad /\ pre (del (d_out (fst y))) (del (d_out (fst x)))).
Lemma Sd_propagate d e b : Sd d e -> Sd (propagateError d b) (propagateError e b).
Proof. intros [H1 H2]. unfold propagateError. rewrite (s_err H1). destruct (i_err (d_in e)); [|split; auto]. split; auto. cbn [d_out]. now rewrite H2. Qed.
Lemma Sd_corrupt d e c : Sd d e -> Sd (corruptf d c) (corruptf e c).
Proof. intros [H1 H2]. split; auto. cbn [d_out corruptf]. now rewrite H2, (s_total H1), (s_stream H1). Qed.
Lemma Sd_in d e i j : Sd d e -> S i j -> Sd (DST i (d_out d)) (DST j (d_out e)).
Proof. intros [_ H] K. split; auto. Qed.
Lemma Sd_out d e o u : Sd d e -> o = u -> Sd (DST (d_in d) o) (DST (d_in e) u).
Proof. intros [H _] K. split; auto. Qed.
Lemma gone_in base e j : del (d_out e) = base -> dead j -> gone base (DST j (d_out e)).
Proof. split; auto. Qed.
Lemma gone_propagate base e b : gone base e -> gone base (propagateError e b).
Proof. intros [H1 H2]. unfold propagateError. destruct (i_err (d_in e)); [|split; auto]. split; auto. cbn [d_out]. now rewrite del_close. Qed.
Lemma gone_corrupt base e c : gone base e -> gone base (corruptf e c).
Proof. intros [H1 H2]. split; auto. cbn [d_out corruptf]. now rewrite del_close. Qed.
Lemma del_sd d e : Sd d e -> del (d_out e) = del (d_out d). Proof. intros [_ ->]. reflexivity. Qed.
#[local] Hint Resolve Sd_propagate Sd_corrupt gone_propagate gone_corrupt Sd_in gone_in : caus.
Ltac okc := left; split; cbn [fst snd]; auto with caus.
Ltac badc := apply crel_any; intros; right; split; cbn [fst snd]; auto with caus.

Lemma c_bits n d e A (bad : A) base (f g : ist * option N -> res (dst * A)) : Sd d e -> del (d_out e) = base ->
  (forall i j x, S i j -> crel (DR0 base bad) (f (i, x)) (g (j, x))) ->
  (forall j, dead j -> exists e', g (j, None) = Ok (e', bad) /\ gone base e') ->
  crel (DR0 base bad) (rbind (getBits env (d_in d) n) f) (rbind (getBits env (d_in e) n) g).
Proof.
  intros H Eb F G. eapply crel_bind; [apply c_getBits; exact (proj1 H)|]. intros [i x] [j y] [[H1 H2]|[H1 H2]]; cbn [fst snd] in *; subst y.
  - apply F. exact H1.
  - destruct (G _ H1) as [e' [-> K]]. badc.
Qed.
Lemma c_decodeLL d e s : Sd d e -> crel (DR0 (del (d_out e)) None) (decodeLL env d s) (decodeLL env e s).
Proof.
  intros H. unfold decodeLL. destruct (s <? 256)%N; [okc|]. destruct (s =? 256)%N; [okc|].
  destruct (decodeLL_entry s) as [[len ab]|]; [|okc]. destruct (Nat.eqb ab 0).
  { destruct (makeCopyToken len 1); cbn [rbind]; auto. okc. }
  apply c_bits; auto; cbv zeta beta iota.
  - intros i j [x|] HS; [|okc]. destruct (makeCopyToken _ 1); cbn [rbind]; auto. okc.
  - intros j Hj. eexists. split; [reflexivity|]. auto with caus.
Qed.
Lemma c_decodeD d e s len : Sd d e -> crel (DR0 (del (d_out e)) None) (decodeD env d s len) (decodeD env e s len).
Proof.
  intros H. unfold decodeD. destruct (decodeD_entry s) as [[dist ab]|]; [|okc]. destruct (Nat.eqb ab 0).
  { destruct (makeCopyToken len _); cbn [rbind]; auto. okc. }
  apply c_bits; auto; cbv zeta beta iota.
  - intros i j [x|] HS; [|okc]. destruct (makeCopyToken _ _); cbn [rbind]; auto. okc.
  - intros j Hj. eexists. split; [reflexivity|]. auto with caus.
Qed.

Lemma keep_LL d s : rall (fun x => del (d_out (fst x)) = del (d_out d)) (decodeLL env d s).
Proof.
  unfold decodeLL. destruct (s <? 256)%N; [reflexivity|]. destruct (s =? 256)%N; [reflexivity|].
  destruct (decodeLL_entry s) as [[len ab]|]; [|apply del_close]. destruct (Nat.eqb ab 0).
  { destruct (makeCopyToken len 1); cbn [rbind rall]; auto. }
  destruct (getBits env (d_in d) ab) as [[i [x|]]|?|]; cbn [rbind]; try exact I.
  - destruct (makeCopyToken _ 1); cbn [rbind rall]; auto.
  - cbn [rall fst]. unfold propagateError. cbn [d_in]. destruct (i_err i); [apply del_close|reflexivity].
Qed.
Variables cap win : N.
Lemma c_div {A} (bad : A) o0 x e : rall (fstP (ofd (del o0))) x -> dead (d_in e) -> del (d_out e) = del o0 -> crel (DR bad) x (Ok (e, bad)).
Proof. intros G H1 H2. destruct x as [[d a]|c|]; cbn [crel]; auto. right. cbn [fst snd]. rewrite H2. destruct G as [_ G]. auto. Qed.
Lemma c_huff hLL hD : forall f g d e, Sd d e -> crel (DR false) (huffLoop env cap win f hLL hD d) (huffLoop env cap win g hLL hD e).
Proof.
  induction f as [|f IH]; intros g d e H; [exact I|]. destruct g as [|g]; [apply crel_r|].
  assert (G : rall (fstP (ofd (del (d_out d)))) (huffLoop env cap win (Datatypes.S f) hLL hD d)) by (apply of_huff; split; [constructor|apply pre_refl]).
  revert G. cbn [huffLoop]. destruct H as [HI HO].
  pose proof (c_symbol hLL HI) as K. destruct (readSymbol env (d_in d) hLL) as [[i1 s1]|?|]; cbn [rbind]; [|auto|auto].
  destruct (readSymbol env (d_in e) hLL) as [[j1 s2]|?|]; cbn [rbind]; [|auto|auto].
  cbn [crel] in K. destruct K as [[K1 K2]|[K1 K2]]; cbn [fst snd] in K1, K2; subst s2.
  2:{ intros G. eapply c_div; [exact G|exact K1|]. cbn [corruptf d_out]. rewrite del_close. now rewrite HO. }
  destruct s1 as [s|]. 2:{ intros _. left. split; auto. apply Sd_corrupt. split; auto. }
  assert (H1 : Sd (DST i1 (d_out d)) (DST j1 (d_out e))) by (split; auto).
  pose proof (c_decodeLL s H1) as K. pose proof (keep_LL (DST j1 (d_out e)) s) as KP. destruct (decodeLL env (DST i1 (d_out d)) s) as [[d1 t1]|?|]; cbn [rbind]; [|auto|auto].
  destruct (decodeLL env (DST j1 (d_out e)) s) as [[e1 t2]|?|]; cbn [rbind]; [|auto|auto].
  cbn [crel] in K. cbn [rall fst d_out] in KP. rewrite <- HO in KP. destruct K as [[K2 K3]|[[K2 K4] K3]]; cbn [fst snd] in *; subst t2.
  2:{ intros G. eapply c_div; [exact G|exact K2|exact KP]. }
  destruct t1 as [t|]. 2:{ intros _. left. auto. }
  destruct (tdist t =? 0)%N.
  { intros _. destruct (256 <=? lol t)%N; [left; auto|]. apply IH. apply Sd_out; auto. now rewrite (proj2 K2). }
  destruct K2 as [K2 K3].
  pose proof (c_symbol hD K2) as K. destruct (readSymbol env (d_in d1) hD) as [[i2 s1]|?|]; cbn [rbind]; [|auto|auto].
  destruct (readSymbol env (d_in e1) hD) as [[j2 s2]|?|]; cbn [rbind]; [|auto|auto].
  cbn [crel] in K. destruct K as [[K4 K5]|[K4 K5]]; cbn [fst snd] in K4, K5; subst s2.
  2:{ intros G. eapply c_div; [exact G|exact K4|]. cbn [corruptf d_out]. rewrite del_close. exact KP. }
  destruct s1 as [s1|]. 2:{ intros _. left. split; auto. apply Sd_corrupt. split; auto. }
  assert (H2 : Sd (DST i2 (d_out d1)) (DST j2 (d_out e1))) by (split; auto).
  pose proof (c_decodeD s1 (lol t) H2) as K. destruct (decodeD env (DST i2 (d_out d1)) s1 (lol t)) as [[d2 t1]|?|]; cbn [rbind]; [|auto|auto].
  destruct (decodeD env (DST j2 (d_out e1)) s1 (lol t)) as [[e2 t2]|?|]; cbn [rbind]; [|auto|auto].
  cbn [crel] in K. destruct K as [[K6 K7]|[[K6 K8] K7]]; cbn [fst snd] in *; subst t2.
  2:{ intros G. eapply c_div; [exact G|exact K6|]. rewrite K8. exact KP. }
  intros _. destruct t1 as [t1|]; [|left; auto]. destruct K6 as [K6 K7]. rewrite <- K7.
  destruct (window_lookupSlice env win (o_hist (d_out d2)) (tdist t1) (lol t1)) as [p|]; [|left; split; auto; apply Sd_corrupt; split; auto].
  destruct (decodeBufferWrite cap (d_out d2) p) as [o|?|]; cbn [rbind]; auto.
  destruct (copyLoop env cap win o (tdist t1) _) as [o1|o1].
  - apply IH. split; auto.
  - left. split; auto. apply Sd_corrupt. split; auto.
Qed.
Lemma keep_run d bits base (v total : nat) (done : list nat) : rall (fun x => del (d_out (fst x)) = del (d_out d))
  (let* (i, out) := getBits env (d_in d) bits in
      match out with
      | None => Ok (propagateError (DST i (d_out d)) true, None)
      | Some out =>
        if total - length done <? base + N.to_nat out then Ok (corruptf (DST i (d_out d)) CRepeatCount, None)
        else Ok (DST i (d_out d), Some (done ++ repeat v (base + N.to_nat out)))
      end).
Proof.
  destruct (getBits env (d_in d) bits) as [[i [x|]]|?|]; cbn [rbind]; try exact I.
  - destruct (_ <? _); [apply del_close|reflexivity].
  - cbn [rall fst]. unfold propagateError. cbn [d_in]. destruct (i_err i); [apply del_close|reflexivity].
Qed.
Lemma keep_X d s done total : rall (fun x => del (d_out (fst x)) = del (d_out d)) (decodeX env d s done total).
Proof.
  unfold decodeX. destruct (s <? 16)%N; [reflexivity|]. destruct (s =? 16)%N; [destruct (rev done); [apply del_close|apply keep_run]|].
  destruct (s =? 17)%N; [apply keep_run|]. destruct (s =? 18)%N; [apply keep_run|reflexivity].
Qed.
Lemma c_run d e bits base (v total : nat) (done : list nat) : Sd d e -> crel (DR0 (del (d_out e)) None)
  (let* (i, out) := getBits env (d_in d) bits in
      match out with
      | None => Ok (propagateError (DST i (d_out d)) true, None)
      | Some out =>
        if total - length done <? base + N.to_nat out then Ok (corruptf (DST i (d_out d)) CRepeatCount, None)
        else Ok (DST i (d_out d), Some (done ++ repeat v (base + N.to_nat out)))
      end)
  (let* (i, out) := getBits env (d_in e) bits in
      match out with
      | None => Ok (propagateError (DST i (d_out e)) true, None)
      | Some out =>
        if total - length done <? base + N.to_nat out then Ok (corruptf (DST i (d_out e)) CRepeatCount, None)
        else Ok (DST i (d_out e), Some (done ++ repeat v (base + N.to_nat out)))
      end).
Proof.
  intros H. apply c_bits; auto; cbv zeta beta iota.
  - intros i j [x|] HS; [|okc]. destruct (_ <? _); okc.
  - intros j Hj. eexists. split; [reflexivity|]. auto with caus.
Qed.
Lemma c_decodeX d e s done total : Sd d e -> crel (DR0 (del (d_out e)) None) (decodeX env d s done total) (decodeX env e s done total).
Proof.
  intros H. unfold decodeX. destruct (s <? 16)%N; [okc|]. destruct (s =? 16)%N; [destruct (rev done); [okc|apply c_run; auto]|].
  destruct (s =? 17)%N; [apply c_run; auto|]. destruct (s =? 18)%N; [apply c_run; auto|okc].
Qed.
Lemma c_lengths h total : forall f d e done base, Sd d e -> del (d_out e) = base -> crel (DR0 base None) (lengthsLoop env f h d done total) (lengthsLoop env f h e done total).
Proof.
  induction f as [|f IH]; intros d e done base H Eb; cbn [lengthsLoop]; destruct (length done <? total); try exact I; try (okc; fail).
  eapply crel_bind; [apply c_symbol; exact (proj1 H)|]. intros [i1 p] [j1 q] [[H1 H2]|[H1 H2]]; cbn [fst snd] in *; subst q.
  2:{ badc. }
  cbv zeta. pose proof (Sd_in H H1) as H3. destruct p as [s|]; [|okc].
  pose proof (c_decodeX s done total H3) as K. pose proof (keep_X (DST j1 (d_out e)) s done total) as KP. destruct (decodeX env (DST i1 (d_out d)) s done total) as [[d1 t1]|?|]; cbn [rbind]; auto.
  destruct (decodeX env (DST j1 (d_out e)) s done total) as [[e1 t2]|?|]; cbn [rbind]; auto.
  cbn [crel] in K. cbn [rall fst d_out] in KP. rewrite Eb in KP. destruct K as [[K2 K3]|[[K2 K4] K3]]; cbn [fst snd] in *; subst t2.
  - destruct t1 as [t|]; [|okc]. apply IH; auto.
  - badc. split; auto.
Qed.
Lemma c_trees d e : Sd d e -> crel (DR0 (del (d_out e)) None) (readDynamicTrees env d) (readDynamicTrees env e).
Proof.
  intros H. unfold readDynamicTrees. apply c_bits; auto.
  2:{ intros j Hj. eexists. split; [reflexivity|]. auto with caus. }
  intros i j [x|] HS; [|okc]. cbv zeta. pose proof (Sd_in H HS) as H1.
  set (n1 := 257 + _). set (n2 := 1 + _). set (n3 := 4 + _).
  set (d1 := if logicalNumLLCodes <? n1 then corruptf (DST i (d_out d)) CHlit else _). set (e1 := if logicalNumLLCodes <? n1 then corruptf (DST j (d_out e)) CHlit else _).
  assert (H2 : Sd d1 e1 /\ del (d_out e1) = del (d_out e)).
  { unfold d1, e1. destruct (_ <? n1); [split; [apply Sd_corrupt; auto|apply del_close]|split; auto]. }
  clearbody d1 e1. clear H1 HS. destruct H2 as [H1 E1].
  set (d2 := if logicalNumDCodes <? n2 then corruptf d1 CHdist else _). set (e2 := if logicalNumDCodes <? n2 then corruptf e1 CHdist else _).
  assert (H2 : Sd d2 e2 /\ del (d_out e2) = del (d_out e)).
  { unfold d2, e2. destruct (_ <? n2); [split; [apply Sd_corrupt; auto|cbn [corruptf d_out]; rewrite del_close; auto]|split; auto]. }
  clearbody d2 e2. clear H1 E1. destruct H2 as [H1 E1]. clearbody n1 n2 n3.
  eapply crel_bind; [apply c_xsizes; exact (proj1 H1)|]. intros [i1 p] [j1 q] [[H3 H4]|[H3 H4]]; cbn [fst snd] in *; subst q.
  2:{ badc. }
  pose proof (Sd_in H1 H3) as H4. destruct p as [sX|]; [|okc]. destruct (negb _); [okc|].
  eapply crel_bind; [apply c_lengths; [exact H4|exact E1]|]. intros [d3 p] [e3 q] [[H5 H6]|[H5 H6]]; cbn [fst snd] in *; subst q.
  2:{ badc. }
  destruct p as [comb|]; [|okc]. destruct (negb _); [okc|]. destruct (negb _); okc.
Qed.
Lemma c_stored d e : Sd d e -> crel (DR0 (del (d_out e)) false) (readFlateBlockStored cap d) (readFlateBlockStored cap e).
Proof.
  intros H. unfold readFlateBlockStored, readU16le.
  destruct (c_readU unle16 2 (proj1 H)) as [[H1 H2]|[H1 H2]]; destruct (readU unle16 2 (d_in d)) as [i1 p], (readU unle16 2 (d_in e)) as [j1 q]; cbn [fst snd] in *; subst q.
  2:{ badc. }
  destruct p as [l0|]; [|okc]. cbn [d_in d_out].
  destruct (c_readU unle16 2 H1) as [[H3 H4]|[H3 H4]]; destruct (readU unle16 2 i1) as [i2 p], (readU unle16 2 j1) as [j2 q]; cbn [fst snd] in *; subst q.
  2:{ badc. }
  destruct p as [l1|]; [|okc]. destruct (negb _); [okc|]. cbn [d_in d_out].
  destruct (c_readN (N.to_nat l0) H3) as [[H5 H6]|[H5 H6]]; destruct (inputBufferReadN i2 (N.to_nat l0)) as [i3 p], (inputBufferReadN j2 (N.to_nat l0)) as [j3 q]; cbn [fst snd] in *; subst q.
  2:{ badc. }
  destruct p as [l|]; [|okc]. cbn [d_in d_out]. rewrite <- (proj2 H). destruct (decodeBufferWrite cap (d_out d) l); cbn [rbind]; auto. okc. split; auto.
Qed.

Lemma DR_of {A} (bad : A) o0 x y : crel (DR0 (del o0) bad) x y -> rall (fstP (ofd (del o0))) x -> crel (DR bad) x y.
Proof.
  intros H G. destruct x as [[d a]|?|], y as [[e b]|?|]; cbn [crel] in *; auto. destruct H as [H|[[H1 H2] H3]]; [left; exact H|]. right. cbn [fst snd] in *.
  split; auto. split; auto. rewrite H2. exact (proj2 G).
Qed.
End Caus.

Section R.
Variable rest : list (list N * option goerr).
Variable stop : goerr.
Variable env : renv.
Notation S := (S rest stop).
Notation Sd := (Sd rest stop).
Definition Sr (r s : reader) : Prop :=
  r_opt r = r_opt s /\ Sd (r_d r) (r_d s) /\ r_num r = r_num s /\ r_hdr r = r_hdr s /\ r_fmt r = r_fmt s /\ r_events r = r_events s.
Definition rgone (base : list N) (s : reader) : Prop := gone base (r_d s).
Definition RR0 (base : list N) (x y : reader * bool) : Prop :=
  (Sr (fst x) (fst y) /\ snd x = snd y /\ del (r_out (fst y)) = base) \/ (rgone base (fst y) /\ snd y = false).
Definition RR (x y : reader * bool) : Prop :=
  (Sr (fst x) (fst y) /\ snd x = snd y) \/ (dead (r_in (fst y)) /\ snd y = false /\ pre (del (r_out (fst y))) (del (r_out (fst x)))).
Lemma Sr_in r s : Sr r s -> S (r_in r) (r_in s). Proof. intros [_ [[H _] _]]. exact H. Qed.
Lemma Sr_outeq r s : Sr r s -> r_out r = r_out s. Proof. intros [_ [[_ H] _]]. exact H. Qed.
Lemma Sr_set_d r s d e : Sr r s -> Sd d e -> Sr (set_d r d) (set_d s e).
Proof. intros [H1 [H2 [H3 [H4 [H5 H6]]]]] K. destruct r, s. cbn in *. repeat (split; auto); apply K. Qed.
Lemma Sr_set_in r s i j : Sr r s -> S i j -> Sr (set_rin r i) (set_rin s j).
Proof. intros H K. apply Sr_set_d; auto. split; [exact K|apply (Sr_outeq H)]. Qed.
Lemma Sr_set_out r s o u : Sr r s -> o = u -> Sr (set_rout r o) (set_rout s u).
Proof. intros H K. apply Sr_set_d; auto. split; [apply (Sr_in H)|exact K]. Qed.
Lemma Sr_hdr r s h k : Sr r s -> h = k -> Sr (set_rhdr r h) (set_rhdr s k).
Proof. intros [H1 [H2 [H3 [H4 [H5 H6]]]]] ->. destruct r, s. repeat split; auto; apply H2. Qed.
Lemma Sr_fmt r s f : Sr r s -> Sr (set_fmt r f) (set_fmt s f).
Proof. intros [H1 [H2 [H3 [H4 [H5 H6]]]]]. destruct r, s. repeat split; auto; apply H2. Qed.
Lemma Sr_num r s : Sr r s -> Sr (incr_num r) (incr_num s).
Proof. intros [H1 [H2 [H3 [H4 [H5 H6]]]]]. destruct r, s. cbn in *. subst. repeat split; auto; apply H2. Qed.
Lemma Sr_reset r s : Sr r s -> Sr (reset_num r) (reset_num s).
Proof. intros [H1 [H2 [H3 [H4 [H5 H6]]]]]. destruct r, s. cbn in *. repeat split; auto; apply H2. Qed.
Lemma Sr_ev r s p : Sr r s -> Sr (r_sendEvent r p) (r_sendEvent s p).
Proof.
  intros [H1 [H2 [H3 [H4 [H5 H6]]]]]. destruct r as [o [i u] n h f ev], s as [o' [i' u'] n' h' f' ev']. cbn in *. destruct H2 as [H2 H2']. cbn in *. subst.
  split; [reflexivity|]. split; [split; [exact H2|reflexivity]|]. repeat (split; [reflexivity|]). cbn. now rewrite (s_total H2), (s_stream H2).
Qed.
Lemma Sr_corrupt r s c : Sr r s -> Sr (r_corrupt r c) (r_corrupt s c).
Proof. intros H. apply Sr_set_d; auto. apply Sd_corrupt. apply H. Qed.
Lemma Sr_prop r s b : Sr r s -> Sr (r_propagate r b) (r_propagate s b).
Proof. intros H. apply Sr_set_d; auto. apply Sd_propagate. apply H. Qed.
(** what the pieces leave alone *)
Lemma ro_in s j : r_out (set_rin s j) = r_out s. Proof. destruct s; reflexivity. Qed.
Lemma ro_hdr s j : r_out (set_rhdr s j) = r_out s. Proof. destruct s; reflexivity. Qed.
Lemma ro_fmt s j : r_out (set_fmt s j) = r_out s. Proof. destruct s; reflexivity. Qed.
Lemma ro_ev s j : r_out (r_sendEvent s j) = r_out s. Proof. destruct s; reflexivity. Qed.
Lemma ro_num s : r_out (incr_num s) = r_out s. Proof. destruct s; reflexivity. Qed.
Lemma dl_corrupt s c : del (r_out (r_corrupt s c)) = del (r_out s).
Proof. destruct s as [? [? ?] ? ? ? ?]. apply del_close. Qed.
Lemma dl_prop s b : del (r_out (r_propagate s b)) = del (r_out s).
Proof. destruct s as [? [i ?] ? ? ? ?]. unfold r_propagate, propagateError. cbn. destruct (i_err i); [apply del_close|reflexivity]. Qed.
Lemma rg_in base s j : dead j -> del (r_out s) = base -> rgone base (set_rin s j). Proof. destruct s; split; auto. Qed.
Lemma rg_prop base s b : rgone base s -> rgone base (r_propagate s b).
Proof. intros H. destruct s. apply gone_propagate. exact H. Qed.
Lemma rg_corrupt base s c : rgone base s -> rgone base (r_corrupt s c).
Proof. intros H. destruct s. apply gone_corrupt. exact H. Qed.
Lemma rg_hdr base s h : rgone base s -> rgone base (set_rhdr s h). Proof. destruct s; auto. Qed.
Lemma rg_ev base s h : rgone base s -> rgone base (r_sendEvent s h). Proof. destruct s; auto. Qed.
#[local] Hint Resolve Sr_set_in Sr_ev Sr_corrupt Sr_prop Sr_fmt Sr_hdr rg_in rg_prop rg_corrupt rg_hdr rg_ev : caus.
Ltac ro := repeat first [rewrite dl_prop | rewrite dl_corrupt | rewrite ro_in | rewrite ro_fmt | rewrite ro_ev | rewrite ro_hdr | rewrite ro_num]; auto.
Ltac okr := left; split; [|split]; cbn [fst snd]; auto with caus; ro.
Ltac bad := right; split; cbn [fst snd]; auto with caus.
Ltac badr := apply crel_any; intros; bad.
(** read something and store the new input *)
Ltac rdc K n := let H1 := fresh "Q" in let H2 := fresh "Q" in
  match type of K with PR _ _ _ ?x ?y => destruct K as [[H1 H2]|[H1 H2]]; destruct x as [? n], y as [? ?]; cbn [fst snd] in H1, H2; match type of H2 with ?a = ?b => first [subst b | subst a | idtac] end end.

Lemma c_zlib r s base : Sr r s -> del (r_out s) = base -> RR0 base (readHeaderZlib env r) (readHeaderZlib env s).
Proof.
  intros H Eb. unfold readHeaderZlib. pose proof (c_readN 2 (Sr_in H)) as K. rdc K p.
  2:{ match goal with |- RR0 _ ?x _ => generalize x end. intros; bad. }
  assert (H1 := Sr_set_in H Q). assert (E1 : del (r_out (set_rin s i0)) = base) by ro. set (r1 := set_rin r i) in *. set (s1 := set_rin s i0) in *. clearbody r1 s1.
  destruct p as [p|]; [|okr]. destruct (negb _); [okr|]. destruct (negb _); [okr|].
  assert (EO : r_opt r1 = r_opt s1) by apply H1. assert (EH : r_hdr r1 = r_hdr s1) by apply H1. assert (ET : o_hist (r_out r1) = o_hist (r_out s1)) by (rewrite (Sr_outeq H1); reflexivity).
  set (wb := (8 + _)%N). cbv zeta.
  assert (HH : Sr (set_rhdr r1 (set_levels (r_hdr r1) wb (h_clevel (r_hdr r1)))) (set_rhdr s1 (set_levels (r_hdr s1) wb (h_clevel (r_hdr s1))))) by (apply Sr_hdr; auto; now rewrite EH).
  assert (E2 : del (r_out (set_rhdr s1 (set_levels (r_hdr s1) wb (h_clevel (r_hdr s1))))) = base) by ro.
  set (r2 := set_rhdr r1 _) in *. set (s2 := set_rhdr s1 _) in *. clearbody r2 s2. clear H1 E1 EO EH ET r1 s1.
  assert (EO : r_opt r2 = r_opt s2) by apply HH. assert (EH : r_hdr r2 = r_hdr s2) by apply HH. assert (ET : o_hist (r_out r2) = o_hist (r_out s2)) by (rewrite (Sr_outeq HH); reflexivity).
  rewrite <- EO. destruct (_ <? wb)%N; [okr|].
  assert (H3 : Sr (set_rhdr r2 (set_levels (r_hdr r2) wb (zlib_level (nthN p 1)))) (set_rhdr s2 (set_levels (r_hdr s2) wb (zlib_level (nthN p 1))))) by (apply Sr_hdr; auto; now rewrite EH).
  assert (E3 : del (r_out (set_rhdr s2 (set_levels (r_hdr s2) wb (zlib_level (nthN p 1))))) = base) by ro.
  set (r3 := set_rhdr r2 _) in *. set (s3 := set_rhdr s2 _) in *. clearbody r3 s3. clear HH E2 EO EH ET r2 s2.
  assert (EO : r_opt r3 = r_opt s3) by apply H3. assert (EH : r_hdr r3 = r_hdr s3) by apply H3. assert (ET : o_hist (r_out r3) = o_hist (r_out s3)) by (rewrite (Sr_outeq H3); reflexivity).
  rewrite <- EO, <- ET. set (isZ := e_iszero env _). clearbody isZ. destruct (negb (_ =? 0)%N).
  - unfold readU32be. pose proof (c_readU unbe32 4 (Sr_in H3)) as K. rdc K x.
    2:{ match goal with |- RR0 _ ?x _ => generalize x end. intros; bad. }
    assert (H4 := Sr_set_in H3 Q0). destruct x as [x|]; [|okr]. destruct isZ; [okr|].
    assert (EO4 : opt_dict (r_opt (set_rin r3 i1)) = opt_dict (r_opt (set_rin s3 i2))) by (f_equal; apply H4). rewrite EO4. destruct (negb _); okr.
  - destruct (negb isZ); okr.
Qed.

Lemma c_raw r s (base : list N) : Sr r s -> del (r_out s) = base -> RR0 base (readHeaderRaw r) (readHeaderRaw s).
Proof.
  intros H Eb. unfold readHeaderRaw. assert (EH : r_hdr r = r_hdr s) by apply H. rewrite EH. okr.
Qed.
Lemma c_zfoot r s a base : Sr r s -> del (r_out s) = base -> RR0 base (readFooterZlib r a) (readFooterZlib s a).
Proof.
  intros H Eb. unfold readFooterZlib, readU32be. pose proof (c_readU unbe32 4 (Sr_in H)) as K. rdc K x.
  - assert (H1 := Sr_set_in H Q). destruct x as [x|]; [|okr]. destruct (negb _); okr.
  - match goal with |- RR0 _ ?x _ => generalize x end. intros; bad.
Qed.
Lemma c_gfoot r s a base : Sr r s -> del (r_out s) = base -> RR0 base (readFooterGZIP r a) (readFooterGZIP s a).
Proof.
  intros H Eb. unfold readFooterGZIP, readU32le. pose proof (c_readU unle32 4 (Sr_in H)) as K. rdc K x.
  2:{ match goal with |- RR0 _ ?x _ => generalize x end. intros; bad. }
  assert (H1 := Sr_set_in H Q). assert (E1 : del (r_out (set_rin s i0)) = base) by ro. set (r1 := set_rin r i) in *. set (s1 := set_rin s i0) in *. clearbody r1 s1. destruct x as [x|]; [|okr].
  pose proof (c_readU unle32 4 (Sr_in H1)) as K. rdc K y.
  2:{ match goal with |- RR0 _ ?x _ => generalize x end. intros; bad. }
  assert (H2 := Sr_set_in H1 Q0). destruct y as [y|]; [|okr]. destruct (negb _); [okr|]. rewrite (Sr_outeq H2). destruct (negb _); okr.
Qed.
Lemma c_extra r s b base : Sr r s -> del (r_out s) = base -> crel (RR0 base) (readGZIPExtra r b) (readGZIPExtra s b).
Proof.
  intros H Eb. unfold readGZIPExtra, readU16le. destruct b; [|okr]. pose proof (c_readU unle16 2 (Sr_in H)) as K. rdc K x.
  2:{ badr. }
  assert (H1 := Sr_set_in H Q). assert (E1 : del (r_out (set_rin s i0)) = base) by ro. set (r1 := set_rin r i) in *. set (s1 := set_rin s i0) in *. clearbody r1 s1. destruct x as [x|]; [|okr].
  pose proof (c_readN (N.to_nat x) (Sr_in H1)) as K. rdc K y.
  2:{ badr. }
  assert (H2 := Sr_set_in H1 Q0). destruct y as [y|]; [|okr]. destruct (extra_parse y); cbn [rbind]; try (cbn; auto; fail). assert (EH : r_hdr (set_rin r1 i1) = r_hdr (set_rin s1 i2)) by apply H2. rewrite EH. okr.
Qed.
Lemma c_string upd r s b base : Sr r s -> del (r_out s) = base -> crel (RR0 base) (readGZIPString upd r b) (readGZIPString upd s b).
Proof.
  intros H Eb. unfold readGZIPString. destruct b; [|okr]. eapply crel_bind; [unfold inputBufferReadStringZ; apply c_stringZ; apply (Sr_in H)|].
  intros [i x] [j y] [[Q1 Q2]|[Q1 Q2]]; cbn [fst snd] in *; subst y.
  2:{ badr. }
  assert (H1 := Sr_set_in H Q1). destruct x as [x|]; [|okr]. assert (EH : r_hdr (set_rin r i) = r_hdr (set_rin s j)) by apply H1. rewrite EH. okr.
Qed.
Lemma c_crc16 r s b c base : Sr r s -> del (r_out s) = base -> crel (RR0 base) (readGZIPCRC16 r b c) (readGZIPCRC16 s b c).
Proof.
  intros H Eb. unfold readGZIPCRC16, readU16le. destruct b; [|okr]. pose proof (c_readU unle16 2 (Sr_in H)) as K. rdc K x.
  2:{ badr. }
  assert (H1 := Sr_set_in H Q). destruct x as [x|]; [|okr]. destruct (negb _); okr.
Qed.
Lemma c_opt base R' x y f g : crel (RR0 base) x y ->
  (forall r s, Sr r s -> del (r_out s) = base -> crel R' (f r) (g s)) -> (forall r s, Sr r s -> del (r_out s) = base -> R' (r, false) (s, false)) ->
  (forall a s, rgone base s -> R' a (s, false)) ->
  crel R' (rbind x (fun r => match r with (s, true) => f s | (s', false) => Ok (s', false) end)) (rbind y (fun r => match r with (s, true) => g s | (s', false) => Ok (s', false) end)).
Proof.
  intros H HK HF HG. eapply crel_bind; [exact H|]. intros [a b] [a' b'] [[Q1 [Q2 Q3]]|[Q1 Q2]]; cbn [fst snd] in *; subst b'.
  - destruct b; [auto|]. cbn. auto.
  - apply crel_any. auto.
Qed.
Lemma c_gzip r s base : Sr r s -> del (r_out s) = base -> crel (RR0 base) (readHeaderGZIP r) (readHeaderGZIP s).
Proof.
  intros H Eb. unfold readHeaderGZIP.
  assert (H1 : Sr (set_rin r (i_crcreset (r_in r))) (set_rin s (i_crcreset (r_in s)))).
  { apply Sr_set_in; auto. destruct (Sr_in H). destruct (r_in r), (r_in s). constructor; auto. }
  assert (E1 : del (r_out (set_rin s (i_crcreset (r_in s)))) = base) by ro. clear H Eb. set (r1 := set_rin r _) in *. set (s1 := set_rin s _) in *. clearbody r1 s1. cbn zeta.
  pose proof (c_readN 10 (Sr_in H1)) as K. rdc K p.
  2:{ badr. }
  assert (H2 := Sr_set_in H1 Q). assert (E2 : del (r_out (set_rin s1 i0)) = base) by ro. clear H1 E1. set (r2 := set_rin r1 i) in *. set (s2 := set_rin s1 i0) in *. clearbody r2 s2. destruct p as [p|]; [|okr].
  destruct (negb _); [okr|]. destruct (negb _); [okr|].
  assert (EH : r_hdr r2 = r_hdr s2) by apply H2. rewrite EH. set (h1 := set_os _ _). clearbody h1. clear EH.
  assert (H3 := Sr_hdr H2 (eq_refl h1)). assert (E3 : del (r_out (set_rhdr s2 h1)) = base) by ro. destruct (flag_bit _ 224); [okr|].
  set (r3 := set_rhdr r2 h1) in *. set (s3 := set_rhdr s2 h1) in *. clearbody r3 s3. assert (EH : r_hdr r3 = r_hdr s3) by apply H3. rewrite EH. set (h2 := set_datatype _ _). clearbody h2. clear EH.
  assert (H4 := Sr_hdr H3 (eq_refl h2)). assert (E4 : del (r_out (set_rhdr s3 h2)) = base) by ro.
  eapply c_opt; [apply c_extra; eassumption| |intros; okr|intros; bad]. intros r4 s4 K4 L4.
  eapply c_opt; [apply c_string; eassumption| |intros; okr|intros; bad]. intros r5 s5 K5 L5.
  eapply c_opt; [apply c_string; eassumption| |intros; okr|intros; bad]. intros r6 s6 K6 L6.
  rewrite (s_crc (Sr_in K6)).
  eapply c_opt; [apply c_crc16; eassumption| |intros; okr|intros; bad]. intros r7 s7 K7 L7. okr.
Qed.
Lemma c_auto r s base : Sr r s -> del (r_out s) = base -> crel (RR0 base) (readHeaderAuto env r) (readHeaderAuto env s).
Proof.
  intros H Eb. unfold readHeaderAuto. rewrite (s_buf (Sr_in H)), (s_total (Sr_in H)). cbv zeta.
  destruct (_ <? 2); [apply c_raw; auto|]. destruct (_ && _)%bool; [apply c_gzip; auto|]. destruct (_ && _)%bool; [apply c_zlib; auto|]. apply c_raw; auto.
Qed.
Lemma c_header r s base : Sr r s -> del (r_out s) = base -> crel (RR0 base) (readHeader env r) (readHeader env s).
Proof.
  intros H Eb. unfold readHeader. cbv zeta.
  set (r1 := set_d r _). set (s1 := set_d s _).
  assert (H1 : Sr r1 s1). { apply Sr_set_d; auto. split; [destruct (Sr_in H); unfold r_in in *; cbn [d_in]; destruct (d_in (r_d r)), (d_in (r_d s)); constructor; auto|]. cbn [d_out]. now rewrite (Sr_outeq H). }
  assert (E1 : del (r_out s1) = base). { rewrite <- Eb. unfold s1. destruct s as [? [? o] ? ? ? ?]. destruct o; reflexivity. }
  clearbody r1 s1. clear H Eb. destruct (S_fill (Sr_in H1)) as [K|K].
  2:{ assert (EB : i_buf (r_in (set_rin s1 (fillIfEmpty (r_in s1)))) = []) by (destruct s1; exact (proj1 K)). rewrite EB. apply crel_any. intros; bad. }
  assert (H2 := Sr_set_in H1 K). assert (E2 : del (r_out (set_rin s1 (fillIfEmpty (r_in s1)))) = base) by ro. set (r2 := set_rin r1 _) in *. set (s2 := set_rin s1 _) in *. clearbody r2 s2. clear K H1 E1 r1 s1.
  rewrite (s_buf (Sr_in H2)). destruct (i_buf (r_in s2)); [okr|].
  set (r3 := r_sendEvent _ (ev_simple StreamBeginEvent)) at 1. set (s3 := r_sendEvent (set_fmt (set_rout (incr_num s2) _) _) (ev_simple StreamBeginEvent)).
  assert (H3 : Sr r3 s3).
  { apply Sr_ev, Sr_fmt. apply Sr_set_out; [apply Sr_num; auto|]. rewrite !ro_num, (Sr_outeq H2). f_equal. f_equal. f_equal. destruct H2 as [H2 _]. destruct r2, s2. exact H2. }
  assert (E3 : del (r_out s3) = base).
  { unfold s3. rewrite ro_ev, ro_fmt. rewrite <- E2. clear. destruct s2 as [? [? o] ? ? ? ?]. destruct o. reflexivity. }
  match goal with |- crel _ (rbind _ (fun p => match p with (_,_) => _ end)) _ => idtac end.
  clearbody s3. revert H3. unfold r3. clear r3. intros H3. match type of H3 with Sr ?x _ => set (r3 := x) in * end. clearbody r3. clear H2 E2.
  assert (H4 := Sr_hdr H3 (eq_refl header0)). assert (E4 : del (r_out (set_rhdr s3 header0)) = base) by ro. set (r4 := set_rhdr r3 _) in *. set (s4 := set_rhdr s3 _) in *. clearbody r4 s4.
  eapply c_opt with (base := base).
  - assert (EO : r_opt r4 = r_opt s4) by apply H4. rewrite EO. destruct (o_format (r_opt s4)); [apply c_auto|apply c_raw|apply c_zlib|apply c_gzip]; auto.
  - intros r5 s5 K5 L5. assert (EH : r_hdr r5 = r_hdr s5) by apply K5. rewrite EH. okr.
  - intros; okr.
  - intros; bad.
Qed.
Lemma c_footer r s base : Sr r s -> del (r_out s) = base -> crel (RR0 base) (readFooter r) (readFooter s).
Proof.
  intros H Eb. unfold readFooter. cbv zeta.
  assert (H1 : Sr (set_rin r (inputBitsDiscard (r_in r))) (set_rin s (inputBitsDiscard (r_in s)))) by (apply Sr_set_in; auto; apply S_set_ib, (Sr_in H)).
  assert (E1 : del (r_out (set_rin s (inputBitsDiscard (r_in s)))) = base) by ro. set (r1 := set_rin r _) in *. set (s1 := set_rin s _) in *. clearbody r1 s1. clear H Eb.
  rewrite (Sr_outeq H1). assert (H2 := Sr_ev (ev_footer (o_adler (r_out s1)) (MReader.o_crc (r_out s1))) H1). assert (E2 : del (r_out (r_sendEvent s1 (ev_footer (o_adler (r_out s1)) (MReader.o_crc (r_out s1))))) = base) by ro.
  set (r2 := r_sendEvent r1 _) in *. set (s2 := r_sendEvent s1 _) in *. clearbody r2 s2.
  eapply c_opt with (base := base).
  - assert (EF : r_fmt r2 = r_fmt s2) by apply H2. rewrite EF. destruct (r_fmt s2); [exact I|okr|apply c_zfoot; auto|apply c_gfoot; auto].
  - intros; okr.
  - intros; okr.
  - intros; bad.
Qed.

Lemma on_d_rel r s x y : Sr r s -> crel (DR rest stop false) x y -> crel RR (on_d r x) (on_d s y).
Proof.
  intros H K. unfold on_d. eapply crel_bind; [exact K|]. intros [d a] [e b] [[K1 K2]|[K1 [K2 K3]]]; cbn [fst snd] in *; subst b.
  - left. split; auto. apply Sr_set_d; auto.
  - right. destruct r, s. cbn. auto.
Qed.
Lemma ofd_start d : ofd (del (d_out d)) d. Proof. split; [constructor|apply pre_refl]. Qed.
Lemma c_body r s bt fin : Sr r s -> crel RR (readBlockBody env r bt fin) (readBlockBody env s bt fin).
Proof.
  intros H. assert (EO : r_opt r = r_opt s) by apply H. unfold readBlockBody. rewrite EO. destruct bt.
  - left. split; auto. apply Sr_corrupt. exact H.
  - apply on_d_rel; auto. eapply DR_of; [apply c_stored; apply H|]. assert (E : del (d_out (r_d r)) = del (d_out (r_d s))) by (destruct H as [_ [[_ H] _]]; now rewrite H).
    rewrite <- E. apply of_stored. apply ofd_start.
  - cbv zeta. apply on_d_rel; [apply Sr_ev; exact H|]. apply c_huff. destruct (Sr_ev (ev_trees StaticBlock fin (Trees 0 0 0 [] fixedSizesLL fixedSizesD)) H) as [_ [K _]]. exact K.
  - assert (E : del (d_out (r_d r)) = del (d_out (r_d s))) by (destruct H as [_ [[_ K] _]]; now rewrite K).
    assert (G : rall (fstR (ofr (del (d_out (r_d r))))) (readBlockBody env r DynamicBlock fin)) by (apply ofr_body; apply ofd_start).
    unfold readBlockBody in G. rewrite EO in G. revert G. pose proof (@c_trees rest stop env _ _ (proj1 (proj2 H))) as K.
    destruct (readDynamicTrees env (r_d r)) as [[d t]|?|]; cbn [rbind]; auto. destruct (readDynamicTrees env (r_d s)) as [[e u]|?|]; cbn [rbind]; auto.
    cbn [crel] in K. destruct K as [[K1 K2]|[[K1 K2] K3]]; cbn [fst snd] in *; subst u.
    + intros _. pose proof (Sr_set_d H K1) as H1. destruct t as [t|]; [|left; auto]. apply on_d_rel; [apply Sr_ev; exact H1|]. apply c_huff.
      destruct (Sr_ev (ev_trees DynamicBlock fin t) H1) as [_ [K _]]. exact K.
    + intros G. match goal with |- crel _ ?x _ => destruct x as [[r1 a]|?|]; cbn [crel]; auto end. right. cbn [rall fstR fst snd] in *. unfold fstR in G. cbn [fst] in G.
      split; [destruct s; exact K1|]. split; auto. destruct G as [_ G]. unfold PGrow.oe in G. rewrite E, <- K2 in G. destruct s; exact G.
Qed.
Lemma c_block r s : Sr r s -> crel RR (readFlateBlock env r) (readFlateBlock env s).
Proof.
  intros H. assert (E : del (r_out r) = del (r_out s)) by (now rewrite (Sr_outeq H)).
  assert (G : rall (fstR (ofr (del (r_out r)))) (readFlateBlock env r)) by (apply ofr_block; apply ofd_start).
  revert G. unfold readFlateBlock. pose proof (@c_getBits rest stop env 3 _ _ (Sr_in H)) as K.
  destruct (getBits env (r_in r) 3) as [[i x]|?|]; cbn [rbind]; auto. destruct (getBits env (r_in s) 3) as [[j y]|?|]; cbn [rbind]; auto.
  cbn [crel] in K. destruct K as [[K1 K2]|[K1 K2]]; cbn [fst snd] in *; subst y.
  - intros _. pose proof (Sr_set_in H K1) as H1. destruct x as [x|]; [|left; split; auto; apply Sr_prop; exact H1].
    cbv zeta. eapply crel_bind; [apply c_body; apply Sr_ev; exact H1|]. intros [r2 ok] [s2 ok2] [[Q1 Q2]|[Q1 [Q2 Q3]]]; cbn [fst snd] in *; subst ok2.
    + left. cbn [fst snd]. split; auto. destruct ok; [apply Sr_ev|]; exact Q1.
    + right. cbn [fst snd]. split; auto. split; auto. eapply pre_trans; [exact Q3|]. destruct ok; [rewrite ro_ev|]; apply pre_refl.
  - intros G. match goal with |- crel _ ?x _ => destruct x as [[r1 a]|?|]; cbn [crel]; auto end. right. cbn [rall fst snd] in *. unfold fstR in G. cbn [fst] in G.
    pose proof (rg_prop true (@rg_in _ s j K1 (eq_sym E))) as [Q1 Q2].
    split; [exact Q1|]. split; auto. destruct G as [_ G]. unfold PGrow.oe in G. rewrite <- Q2 in G. exact G.
Qed.
Definition RB (r s : reader) : Prop := Sr r s \/ (dead (r_in s) /\ pre (del (r_out s)) (del (r_out r))).
Lemma c_blocks : forall f g r s, Sr r s -> crel RB (blocksLoop env f r) (blocksLoop env g s).
Proof.
  induction f as [|f IH]; intros g r s H; [exact I|]. destruct g as [|g]; [apply crel_r|]. cbn [blocksLoop].
  assert (G : rall (fstR (ofr (del (r_out r)))) (readFlateBlock env r)) by (apply ofr_block; apply ofd_start).
  pose proof (c_block H) as K. destruct (readFlateBlock env r) as [[r1 a]|?|]; cbn [rbind]; auto. destruct (readFlateBlock env s) as [[s1 b]|?|]; cbn [rbind]; auto.
  cbn [crel] in K. destruct K as [[K1 K2]|[K1 [K2 K3]]]; cbn [fst snd] in *; subst b.
  - destruct a; [apply IH; exact K1|left; exact K1].
  - destruct a; [|right; auto]. assert (G2 : rall (ofr (del (r_out s1))) (blocksLoop env f r1)) by (apply ofr_blocks; split; [constructor|exact K3]).
    destruct (blocksLoop env f r1) as [r2|?|]; cbn [crel]; auto. right. split; auto. exact (proj2 G2).
Qed.
(** the end of a Reader whose input has ended *)
Lemma dead_readN j n : dead j -> 0 < n -> dead (fst (inputBufferReadN j n)) /\ snd (inputBufferReadN j n) = None.
Proof.
  intros H L. unfold inputBufferReadN, inputBitsDiscard. destruct n as [|n]; [lia|]. cbn [bufReadLoop]. rewrite (dead_fill (dead_ib 0 0 H)). destruct (dead_ib 0 0 H) as [H1 H2]. rewrite H1. cbn [fst snd length].
  split; [apply dead_count; split; auto|reflexivity].
Qed.
Lemma dead_readU u n j : dead j -> 0 < n -> dead (fst (readU u n j)) /\ snd (readU u n j) = None.
Proof.
  intros H L. unfold readU. destruct (dead_readN H L) as [H1 H2]. destruct (inputBufferReadN j n) as [j1 q]; cbn [fst snd] in *. subst q. split; auto.
Qed.
Lemma dead_footer base s : rgone base s -> rall (fun x => rgone base (fst x)) (readFooter s).
Proof.
  intros [H1 H2]. unfold readFooter. cbv zeta.
  assert (G1 : rgone base (set_rin s (inputBitsDiscard (r_in s)))) by (apply rg_in; [apply dead_ib; exact H1|exact H2]). set (s1 := set_rin s _) in *. clearbody s1.
  assert (G2 := rg_ev (ev_footer (o_adler (r_out s1)) (MReader.o_crc (r_out s1))) G1). set (s2 := r_sendEvent s1 _) in *. clearbody s2.
  destruct (r_fmt s2); [exact I| | |].
  - cbn [rbind rall fst]. apply rg_ev. exact G2.
  - destruct G2 as [G2 G3]. unfold readFooterZlib, readU32be. destruct (@dead_readU unbe32 4 (r_in s2) G2 ltac:(lia)) as [Q1 Q2]. destruct (readU unbe32 4 (r_in s2)) as [i x]; cbn [fst snd] in *. subst x.
    cbn [rbind rall fst]. apply rg_prop. apply rg_in; auto.
  - destruct G2 as [G2 G3]. unfold readFooterGZIP, readU32le. destruct (@dead_readU unle32 4 (r_in s2) G2 ltac:(lia)) as [Q1 Q2]. destruct (readU unle32 4 (r_in s2)) as [i x]; cbn [fst snd] in *. subst x.
    cbn [rbind rall fst]. apply rg_prop. apply rg_in; auto.
Qed.
Definition RS (r s : reader) : Prop := pre (del (r_out s)) (del (r_out r)).
Lemma ro_out s o : r_out (set_rout s o) = o. Proof. destruct s; reflexivity. Qed.
Lemma ri_out s o : r_in (set_rout s o) = r_in s. Proof. destruct s; reflexivity. Qed.
Lemma dl_sum o : del (o_sumreset o) = del o. Proof. destruct o; reflexivity. Qed.
Lemma c_streams : forall f g r s, Sr r s -> crel RS (streamsLoop env f r) (streamsLoop env g s).
Proof.
  assert (E0 : forall r s, Sr r s -> RS r s) by (intros r s H; unfold RS; rewrite (Sr_outeq H); apply pre_refl).
  induction f as [|f IH]; intros g r s H.
  { cbn [streamsLoop]. rewrite (s_err (Sr_in H)). destruct (i_err (r_in s)) eqn:EE; [|exact I]. destruct g; cbn [streamsLoop]; rewrite EE; apply E0; exact H. }
  assert (G : rall (ofr (del (r_out r))) (streamsLoop env (Datatypes.S f) r)) by (apply ofr_streams; apply ofd_start). revert G.
  assert (E : del (r_out r) = del (r_out s)) by (now rewrite (Sr_outeq H)).
  cbn [streamsLoop]. rewrite (s_err (Sr_in H)). destruct g as [|g]; cbn [streamsLoop]; destruct (i_err (r_in s)); try (intros _; apply E0; exact H); [intros _; apply crel_r|].
  pose proof (c_header H eq_refl) as K. destruct (readHeader env r) as [[r1 a]|?|]; cbn [rbind]; auto. destruct (readHeader env s) as [[s1 b]|?|]; cbn [rbind]; auto.
  cbn [crel] in K. destruct K as [[K1 [K2 K3]]|[K1 K2]]; cbn [fst snd] in *; subst b.
  2:{ intros G. match goal with |- crel _ ?x _ => destruct x as [q|?|]; cbn [crel]; auto end. unfold RS. destruct K1 as [_ K1]. cbn [rall] in G. destruct G as [_ G]. unfold PGrow.oe in G. rewrite E, <- K1 in G. exact G. }
  destruct a. 2:{ intros _. apply E0. exact K1. }
  intros _. cbv zeta. pose proof (Sr_set_out K1 (f_equal o_sumreset (Sr_outeq K1))) as H1.
  match goal with |- crel _ (rbind (blocksLoop env ?f1 ?x) _) (rbind (blocksLoop env ?f2 ?y) _) => pose proof (@c_blocks f1 f2 _ _ H1) as K; destruct (blocksLoop env f1 x) as [r2|?|]; cbn [rbind]; [|auto|auto]; destruct (blocksLoop env f2 y) as [s2|?|]; cbn [rbind]; [|auto|auto] end.
  cbn [crel] in K. destruct K as [K|[Q1 Q2]].
  - (* still together *)
    pose proof (Sr_set_out K (f_equal mustFlush (Sr_outeq K))) as H2.
    assert (GT : rall (ofr (del (r_out s2))) (let* (r, ok) := readFooter (set_rout r2 (mustFlush (r_out r2))) in if ok then streamsLoop env f r else Ok r)).
    { eapply rall_bind; [apply ofr_footer with (base := del (r_out s2)); apply ofr_out with (r := r2)|].
      - split; [constructor|]. rewrite <- (Sr_outeq K). apply pre_refl.
      - apply oe_mustFlush. unfold oe. rewrite <- (Sr_outeq K). apply pre_refl.
      - intros [r3 [|]] H3; [apply ofr_streams; exact H3|exact H3]. }
    revert GT. pose proof (c_footer H2 eq_refl) as KF. destruct (readFooter (set_rout r2 (mustFlush (r_out r2)))) as [[r3 a]|?|]; cbn [rbind]; auto.
    destruct (readFooter (set_rout s2 (mustFlush (r_out s2)))) as [[s3 b]|?|]; cbn [rbind]; auto.
    cbn [crel] in KF. destruct KF as [[Q1 [Q2 Q3]]|[Q1 Q2]]; cbn [fst snd] in *; subst b.
    + intros _. destruct a; [apply IH; exact Q1|apply E0; exact Q1].
    + intros GT. match goal with |- crel _ ?x _ => destruct x as [q|?|]; cbn [crel]; auto end. unfold RS. destruct Q1 as [_ Q1]. cbn [rall] in GT. destruct GT as [_ GT]. unfold PGrow.oe in GT.
      change (d_out (r_d s3)) with (r_out s3) in Q1. rewrite Q1, ro_out, del_mustFlush. exact GT.
  - (* one of them is at the end of its input *)
    assert (GT : rall (ofr (del (r_out s2))) (let* (r, ok) := readFooter (set_rout r2 (mustFlush (r_out r2))) in if ok then streamsLoop env f r else Ok r)).
    { eapply rall_bind; [apply ofr_footer with (base := del (r_out s2)); apply ofr_out with (r := r2)|].
      - split; [constructor|exact Q2].
      - apply oe_mustFlush. exact Q2.
      - intros [r3 [|]] H3; [apply ofr_streams; exact H3|exact H3]. }
    revert GT. match goal with |- rall _ ?x -> _ => destruct x as [q|?|]; cbn [crel]; auto end. intros GT.
    assert (G2 : rgone (del (r_out s2)) (set_rout s2 (mustFlush (r_out s2)))).
    { destruct s2 as [? [? o] ? ? ? ?]. split; [exact Q1|apply del_mustFlush]. }
    pose proof (dead_footer G2) as GF. destruct (readFooter (set_rout s2 (mustFlush (r_out s2)))) as [[s3 b]|?|]; cbn [rbind crel]; auto. cbn [rall fst] in GF. destruct GF as [GF1 GF2].
    assert (EE : (if b then streamsLoop env g s3 else Ok s3) = Ok s3).
    { destruct b; auto. destruct g; cbn [streamsLoop]; change (r_in s3) with (d_in (r_d s3)); destruct GF1 as [_ GF1]; destruct (i_err (d_in (r_d s3))); auto; congruence. }
    rewrite EE. cbn [crel]. unfold RS. change (d_out (r_d s3)) with (r_out s3) in GF2. rewrite GF2. exact (proj2 GT).
Qed.
Lemma c_thread r s : Sr r s -> crel RS (readThread env r) (readThread env s).
Proof.
  intros H. unfold readThread. eapply crel_bind; [apply c_streams; apply Sr_reset; exact H|]. intros r1 s1 K. cbn [crel]. unfold RS in *.
  assert (E : forall q, del (r_out (r_propagate (match i_err (r_in q) with None => set_rin q (set_ierr (r_in q) (Some EOF)) | Some _ => q end) false)) = del (r_out q)).
  { intros q. rewrite dl_prop. destruct (i_err (r_in q)); [|rewrite ro_in]; reflexivity. }
  rewrite !E. exact K.
Qed.
End R.
