(** Two Readers whose sources deliver the same bytes and the same final error
    behave alike, however the bytes are cut into pieces, whatever earlier
    streams left behind in counters and checksums, and however large their
    output buffers are. *)
From Verif Require Import Base SpecChecksum SpecHuffman SpecDeflate MChecksum PChecksum MToken MCommon MWriter MReader SpecReader SpecLib PInput.

(** Results alike; running out of fuel is treated separately. *)
Definition rsim {A B} (R : A -> B -> Prop) (x : res A) (y : res B) : Prop :=
  match x, y with
  | NoFuel, _ | _, NoFuel => True
  | Ok a, Ok b => R a b
  | Panic c, Panic c' => c = c'
  | _, _ => False
  end.
Lemma rsim_bind {A B A' B'} (R : A -> B -> Prop) (R' : A' -> B' -> Prop) x y f g :
  rsim R x y -> (forall a b, R a b -> rsim R' (f a) (g b)) -> rsim R' (rbind x f) (rbind y g).
Proof. destruct x, y; cbn; intros H K; auto; try tauto; try (destruct (f _); auto; fail); try (destruct (g _); auto; fail). Qed.
Lemma rsim_nofuel {A B} (R : A -> B -> Prop) x : rsim R x NoFuel.
Proof. destruct x; cbn; auto. Qed.
#[local] Hint Resolve rsim_nofuel : core.

(** ** Taking bytes, for sources that report their final error separately *)
Definition regular (i : ist) : Prop := polite i /\ detached i.
(** everything but the source, the buffer and the error *)
Definition same_rest (i j : ist) : Prop :=
  ib i = ib j /\ ibl i = ibl j /\ i_total i = i_total j /\ i_stream i = i_stream j /\ i_crc i = i_crc j.
Lemma same_rest_refl i : same_rest i i. Proof. repeat split. Qed.
Lemma same_rest_trans i j k : same_rest i j -> same_rest j k -> same_rest i k.
Proof. unfold same_rest. intuition congruence. Qed.
Lemma regular_err i : regular i -> i_all i <> [] -> i_err i = None.
Proof. intros [_ D] H. unfold detached, i_all in *. destruct (i_err i); auto. rewrite D in H. cbn in H. congruence. Qed.
Lemma fill_one i : regular i -> let i' := fillIfEmpty i in
  regular i' /\ i_all i' = i_all i /\ i_end i' = i_end i /\ same_rest i' i /\
  (i_all i = [] -> i_buf i' = [] /\ i_err i' = Some (i_end i)) /\ (i_all i <> [] -> i_buf i' <> [] /\ i_err i' = None).
Proof.
  intros HR. pose proof (regular_err HR) as HE. destruct HR as [HP HD]. unfold fillIfEmpty. destruct (i_buf i) as [|x b] eqn:EB.
  2:{ cbn. split; [split; auto|]. split; auto. split; auto. split; [apply same_rest_refl|]. split; [unfold i_all; rewrite EB; discriminate|]. intros H. split; [congruence|auto]. }
  destruct i as [src buf err b l t s c]. cbn in EB. subst buf. unfold inputBufferFill, regular, polite, detached, i_all, i_end, same_rest in *. cbn in *. clear HE.
  destruct err as [e|]; cbn; [repeat split; auto; congruence|].
  destruct src as [|[p [e|]] r]; cbn in *; rewrite ?app_nil_r.
  - repeat split; auto; congruence.
  - subst p. repeat split; auto; congruence.
  - destruct HP as [HP1 HP2]. split; auto. split; auto. split; auto. split; auto. split; [intros K; apply app_eq_nil in K; tauto|]. auto.
Qed.
Lemma take_one i p r : regular i -> i_buf i = p ++ r -> regular (set_buf i r) /\ i_all i = p ++ i_all (set_buf i r) /\ i_end (set_buf i r) = i_end i /\ i_err (set_buf i r) = i_err i /\ same_rest (set_buf i r) i.
Proof.
  intros [HP HD] E. destruct i as [src buf err b l t s c]. cbn in E. subst buf. unfold regular, polite, detached, i_all, i_end, same_rest in *. cbn in *.
  split; [split; auto; destruct err; auto; apply app_eq_nil in HD; tauto|]. rewrite <- app_assoc. repeat split; auto.
Qed.
Lemma readLoop_one : forall f i want acc, regular i -> want <= f ->
  let '(i', p) := bufReadLoop f i want acc in
  p = acc ++ firstn want (i_all i) /\ regular i' /\ i_all i' = skipn want (i_all i) /\ i_end i' = i_end i /\ same_rest i' i /\
  i_err i' = if want <=? length (i_all i) then i_err i else Some (i_end i).
Proof.
  induction f as [|f IH]; intros i want acc HR Hf.
  - assert (want = 0) by lia. subst. cbn. rewrite app_nil_r. repeat split; auto; apply HR.
  - destruct want as [|w]; [cbn; rewrite app_nil_r; repeat split; auto; apply HR|]. cbn [bufReadLoop]. destruct (fill_one HR) as [R1 [A1 [E1 [S1 [N1 N2]]]]].
    set (i1 := fillIfEmpty i) in *. clearbody i1. destruct (i_buf i1) as [|x b] eqn:EB.
    + assert (EA : i_all i = []). { destruct (i_all i) eqn:E; auto. destruct N2 as [N2 _]; [discriminate|congruence]. }
      destruct (N1 EA) as [_ N3]. rewrite EA in *. cbn [firstn skipn length]. rewrite app_nil_r. auto 10.
    + assert (NE : i_all i <> []) by (rewrite <- A1; unfold i_all; rewrite EB; discriminate). destruct (N2 NE) as [_ N3]. pose proof (regular_err HR NE) as N4.
      set (k := S w) in *. set (p := firstn k (x :: b)). set (q := skipn k (x :: b)).
      assert (EPQ : i_buf i1 = p ++ q) by (rewrite EB; symmetry; apply firstn_skipn). destruct (take_one R1 EPQ) as [R2 [A2 [E2 [E3 S2]]]].
      assert (LP : 1 <= length p <= k) by (unfold p, k; cbn [firstn length]; rewrite firstn_length; lia).
      assert (LQ : q = [] \/ length p = k). { unfold p, q. destruct (Nat.le_gt_cases (length (x :: b)) k) as [L|L]; [left; apply skipn_all2; auto|right; rewrite firstn_length; lia]. }
      specialize (IH (set_buf i1 q) (k - length p) (acc ++ p) R2). assert (FU : k - length p <= f) by lia. specialize (IH FU). rewrite <- A1.
      destruct (bufReadLoop f (set_buf i1 q) (k - length p) (acc ++ p)) as [i' p'] eqn:EL. destruct IH as [I1 [I2 [I3 [I4 [I5 I6]]]]]. rewrite A2.
      assert (F1 : firstn k (p ++ i_all (set_buf i1 q)) = p ++ firstn (k - length p) (i_all (set_buf i1 q))).
      { rewrite firstn_app. f_equal. apply firstn_all2. lia. }
      assert (F2 : skipn k (p ++ i_all (set_buf i1 q)) = skipn (k - length p) (i_all (set_buf i1 q))).
      { rewrite skipn_app, (skipn_all2 p) by lia. reflexivity. }
      rewrite F1, F2. split; [rewrite I1, app_assoc; auto|]. split; auto. split; auto. split; [congruence|]. split; [eapply same_rest_trans; [exact I5|eapply same_rest_trans; eauto]|].
      rewrite I6, app_length, E3, E2, N3, E1, N4. destruct (Nat.leb_spec (k - length p) (length (i_all (set_buf i1 q)))), (Nat.leb_spec k (length p + length (i_all (set_buf i1 q)))); auto; lia.
Qed.

(** ** The same for any source, without counting what was delivered *)
Lemma fill_any i : i_all (fillIfEmpty i) = i_all i /\ same_rest (fillIfEmpty i) i.
Proof.
  unfold fillIfEmpty. destruct (i_buf i) as [|x b] eqn:EB; [|split; auto; apply same_rest_refl]. destruct i as [src buf err b l t s c]. cbn in EB. subst buf. unfold inputBufferFill, i_all, same_rest. cbn.
  destruct err as [e|]; cbn; [repeat split; auto|]. destruct src as [|[p [e|]] r]; cbn; rewrite ?app_nil_r; repeat split; auto.
Qed.
Lemma bytes_skipn n l : bytes_ok l -> bytes_ok (skipn n l).
Proof. intros H. rewrite <- (firstn_skipn n l) in H. apply bytes_ok_app in H. tauto. Qed.
Lemma bytes_firstn n l : bytes_ok l -> bytes_ok (firstn n l).
Proof. intros H. rewrite <- (firstn_skipn n l) in H. apply bytes_ok_app in H. tauto. Qed.
Lemma take_any i p r : i_buf i = p ++ r -> bytes_ok (i_all i) -> bytes_ok p /\ bytes_ok (i_all (set_buf i r)) /\ same_rest (set_buf i r) i.
Proof.
  intros E H. destruct i as [src buf err b l t s c]. cbn in E. subst buf. unfold i_all, same_rest in *. cbn in *. rewrite <- app_assoc in H. apply bytes_ok_app in H. destruct H. repeat split; auto.
Qed.
Lemma readLoop_any : forall f i want acc, bytes_ok (i_all i) -> bytes_ok acc ->
  let '(i', p) := bufReadLoop f i want acc in bytes_ok p /\ bytes_ok (i_all i') /\ same_rest i' i.
Proof.
  induction f as [|f IH]; intros i want acc HB HA; (destruct want as [|w]; [cbn; repeat split; auto|]); [cbn; repeat split; auto|]. cbn [bufReadLoop].
  destruct (fill_any i) as [A1 S1]. rewrite <- A1 in HB. set (i1 := fillIfEmpty i) in *. clearbody i1. destruct (i_buf i1) as [|x b] eqn:EB; [split; auto|].
  set (k := S w) in *. rewrite <- EB. destruct (@take_any i1 (firstn k (i_buf i1)) (skipn k (i_buf i1)) (eq_sym (firstn_skipn _ _)) HB) as [P1 [P2 P3]].
  specialize (IH (set_buf i1 (skipn k (i_buf i1))) (k - length (firstn k (i_buf i1))) (acc ++ firstn k (i_buf i1)) P2 (proj2 (bytes_ok_app _ _) (conj HA P1))).
  destruct (bufReadLoop f _ _ _) as [i' p']. destruct IH as [I1 [I2 I3]]. split; auto. split; auto. eapply same_rest_trans; [exact I3|]. eapply same_rest_trans; eauto.
Qed.

Section Sim.
(** How the running totals of the two Readers are related. *)
Variable T : N -> N -> Prop.
Hypothesis Tadd : forall a b p, T a b -> T (add64 a p) (add64 b p).
(** [strict]: the sources cut the data in the same way. *)
Variable strict : bool.

(** [cs]: the stream counters agree; [cc]: so do the checksums. *)
Record isim (cs cc : bool) (i j : ist) : Prop := ISim {
  is_reg : strict = false -> regular i /\ regular j;
  is_all : i_all i = i_all j; is_bytes : bytes_ok (i_all i); is_end : i_end i = i_end j; is_err : i_err i = i_err j;
  is_ib : ib i = ib j; is_ibl : ibl i = ibl j; is_total : T (i_total i) (i_total j);
  is_stream : cs = true -> i_stream i = i_stream j; is_crc : cc = true -> i_crc i = i_crc j;
  is_same : strict = true -> i = j }.
Definition esim (e f : goerr) : Prop :=
  e = f \/ exists a a' b c, e = CorruptInputError a b c /\ f = CorruptInputError a' b c /\ T a a'.
(** Where the thread is: in a header ([MH]: nothing buffered, checksums not in
    use), in the blocks ([MB]: data may be buffered) or in a footer ([MF]). *)
Inductive mode := MH | MB | MF.
(** What has been decoded agrees, although one Reader may have handed over more
    of it than the other. *)
Record osim (cs : bool) (m : mode) (o u : ost) : Prop := OSim {
  os_flushed : m <> MB -> o_dbuf o = [] /\ o_dbuf u = [];
  os_hist : o_hist o = o_hist u; os_bytes : bytes_ok (o_hist o);
  os_data : log_data (o_log o) ++ o_dbuf o = log_data (o_log u) ++ o_dbuf u;
  os_err : match o_err o, o_err u with Some e, Some f => esim e f | None, None => True | _, _ => False end;
  os_stream : cs = true -> add64 (o_stream o) (lenN (o_dbuf o)) = add64 (o_stream u) (lenN (o_dbuf u));
  os_bound : cs = true -> (o_stream o < two64)%N /\ (o_stream u < two64)%N;
  os_sums : m <> MH -> exists p q, p ++ o_dbuf o = q ++ o_dbuf u /\ bytes_ok (p ++ o_dbuf o) /\
     o_adler o = adler_update adler_reset p /\ o_crc o = crc_update crc_reset p /\
     o_adler u = adler_update adler_reset q /\ o_crc u = crc_update crc_reset q }.

Lemma isim_of cs cc i j i' j' : isim cs cc i j -> (regular i' /\ regular j') -> i_all i' = i_all j' -> bytes_ok (i_all i') -> i_end i' = i_end j' -> i_err i' = i_err j' -> same_rest i' i -> same_rest j' j -> (strict = true -> i' = j') -> isim cs cc i' j'.
Proof.
  intros [] R1 A B E X [S1 [S2 [S3 [S4 S5]]]] [U1 [U2 [U3 [U4 U5]]]] SM. constructor; auto; try congruence; try (rewrite S3, U3; auto; fail); intros K; rewrite ?S4, ?U4, ?S5, ?U5; auto.
Qed.
Lemma isim_strict cs cc i j i' j' : strict = true -> isim cs cc i j -> i' = j' -> bytes_ok (i_all i') -> same_rest i' i -> isim cs cc i' j'.
Proof.
  intros K [] -> B [S1 [S2 [S3 [S4 S5]]]]. pose proof (is_same0 K). subst j. constructor; auto; try congruence; try (rewrite S3; auto).
Qed.
Lemma strict_dec : {strict = true} + {strict = false}. Proof. destruct strict; auto. Qed.
Lemma sim_fill cs cc i j : isim cs cc i j -> isim cs cc (fillIfEmpty i) (fillIfEmpty j) /\ (i_buf (fillIfEmpty i) = [] <-> i_buf (fillIfEmpty j) = []).
Proof.
  intros H. pose proof (is_bytes H) as HB. destruct strict_dec as [K|K].
  { destruct (fill_any i) as [A1 S1]. pose proof (is_same H K) as E. rewrite <- E. split; [|tauto]. eapply isim_strict; eauto. rewrite A1. auto. }
  destruct (is_reg H K) as [G1 G2]. destruct (fill_one G1) as [R1 [A1 [E1 [S1 [N1 N2]]]]]. destruct (fill_one G2) as [R2 [A2 [E2 [S2 [M1 M2]]]]].
  rewrite <- (is_all H) in *. rewrite <- (is_end H) in *.
  destruct (i_all i) eqn:EA.
  - destruct N1, M1; auto. split; [|tauto]. eapply isim_of; eauto; try congruence; try (rewrite A1; auto).
  - destruct N2, M2; try discriminate. split; [|tauto]. eapply isim_of; eauto; try congruence; try (rewrite A1; auto).
Qed.
Lemma isim_count cs cc i j p : isim cs cc i j -> isim cs cc (i_count i p) (i_count j p).
Proof.
  intros []. destruct i as [src buf err b l t s c], j as [src' buf' err' b' l' t' s' c']. constructor; auto; cbn in *; intros; auto; try (rewrite is_stream0; auto; fail); try (rewrite is_crc0; auto; fail). specialize (is_same0 H). congruence.
Qed.
Lemma sim_byte cs cc i j : isim cs cc i j -> isim cs cc (fst (inputByte i)) (fst (inputByte j)) /\ snd (inputByte i) = snd (inputByte j).
Proof.
  intros H. unfold inputByte. destruct (sim_fill H) as [H1 H2]. set (i1 := fillIfEmpty i) in *. set (j1 := fillIfEmpty j) in *. clearbody i1 j1.
  destruct (i_buf i1) as [|x b] eqn:E1, (i_buf j1) as [|y c] eqn:E2; cbn [fst snd].
  - auto.
  - exfalso. destruct H2 as [H2 _]. specialize (H2 eq_refl). discriminate.
  - exfalso. destruct H2 as [_ H2]. specialize (H2 eq_refl). discriminate.
  - pose proof (is_all H1) as EA. destruct strict_dec as [K|K].
    { pose proof (is_same H1 K) as EI. subst j1. rewrite E1 in E2. inversion E2; subst y c. split; auto. apply isim_count. destruct (@take_any i1 [x] b E1 (is_bytes H1)) as [_ [B1 B2]]. eapply isim_strict; eauto. }
    destruct (is_reg H1 K) as [G1 G2]. destruct (@take_one i1 [x] b G1 E1) as [R1 [A1 [D1 [X1 S1]]]]. destruct (@take_one j1 [y] c G2 E2) as [R2 [A2 [D2 [X2 S2]]]].
    pose proof (is_bytes H1) as HB. rewrite A1 in HB. inversion HB. rewrite A1, A2 in EA. cbn in EA. inversion EA; subst. split; auto. apply isim_count. eapply isim_of; eauto; [rewrite D1, D2; apply (is_end H1)|rewrite X1, X2; apply (is_err H1)|congruence].
Qed.
Lemma isim_set_ib cs cc i j b l : isim cs cc i j -> isim cs cc (set_ib i b l) (set_ib j b l).
Proof. intros []. constructor; destruct i, j; auto. intros K. specialize (is_same0 K). cbn. congruence. Qed.
Lemma sim_readN cs cc i j n : isim cs cc i j -> isim cs cc (fst (inputBufferReadN i n)) (fst (inputBufferReadN j n)) /\ snd (inputBufferReadN i n) = snd (inputBufferReadN j n).
Proof.
  intros H. pose proof (is_bytes H) as HB. unfold inputBufferReadN, inputBitsDiscard. assert (H1 := @isim_set_ib _ _ _ _ 0%N 0 H). set (i1 := set_ib i _ _) in *. set (j1 := set_ib j _ _) in *. clearbody i1 j1.
  destruct n as [|m]; [cbn; auto|]. set (n := S m) in *. destruct strict_dec as [K|K].
  { pose proof (is_same H1 K) as EI. subst j1. pose proof (@readLoop_any n i1 n [] (is_bytes H1) (Forall_nil _)) as L1. destruct (bufReadLoop n i1 n []) as [i2 p]. destruct L1 as [L1 [L2 L3]]. cbn [fst snd]. split; auto. apply isim_count. eapply isim_strict; eauto. }
  destruct (is_reg H1 K) as [G1 G2]. pose proof (@readLoop_one n i1 n [] G1 (le_n _)) as L1. pose proof (@readLoop_one n j1 n [] G2 (le_n _)) as L2.
  destruct (bufReadLoop n i1 n []) as [i2 p] eqn:EL1. destruct (bufReadLoop n j1 n []) as [j2 q] eqn:EL2. destruct L1 as [P1 [R1 [A1 [D1 [S1 X1]]]]]. destruct L2 as [P2 [R2 [A2 [D2 [S2 X2]]]]].
  rewrite <- (is_all H1) in *. rewrite <- (is_end H1) in *. rewrite <- (is_err H1) in *. subst p q. cbn [fst snd]. split; auto. apply isim_count. eapply isim_of; eauto; try congruence; [rewrite A1; apply bytes_skipn; apply (is_bytes H1)].
Qed.
Lemma readN_bytes cs cc i j n p : isim cs cc i j -> snd (inputBufferReadN i n) = Some p -> bytes_ok p.
Proof.
  intros H. unfold inputBufferReadN, inputBitsDiscard. assert (H1 := @isim_set_ib _ _ _ _ 0%N 0 H). set (i1 := set_ib i _ _) in *. set (j1 := set_ib j _ _) in *. clearbody i1 j1.
  destruct n as [|m]; [cbn; intros [= <-]; constructor|]. set (n := S m) in *. pose proof (@readLoop_any n i1 n [] (is_bytes H1) (Forall_nil _)) as L1.
  destruct (bufReadLoop n i1 n []) as [i2 q]. destruct L1 as [BQ _]. cbn [snd]. intros K.
  destruct (Nat.eqb (length q) n); inversion K; subst; auto.
Qed.
Definition psim {A} (cs cc : bool) (x y : ist * A) : Prop := isim cs cc (fst x) (fst y) /\ snd x = snd y.
Lemma sim_readU cs cc un n i j : isim cs cc i j -> psim cs cc (readU un n i) (readU un n j).
Proof.
  intros H. unfold readU. destruct (@sim_readN cs cc i j n H) as [H1 H2]. destruct (inputBufferReadN i n) as [i1 p], (inputBufferReadN j n) as [j1 q]. cbn in *. subst q. destruct p; split; auto.
Qed.
Lemma sim_stringZ cs cc : forall f g i j acc, isim cs cc i j -> rsim (psim cs cc) (stringZLoop f i acc) (stringZLoop g j acc).
Proof.
  induction f as [|f IH]; intros g i j acc H; [exact I|]. destruct g as [|g]; [apply rsim_nofuel|]. cbn [stringZLoop].
  destruct (sim_byte H) as [H1 H2]. destruct (inputByte i) as [i1 p], (inputByte j) as [j1 q]. cbn in H1, H2. subst q. destruct p as [ch|]; [|split; auto].
  destruct (ch =? 0)%N; [split; auto|]. apply IH. auto.
Qed.
Lemma sim_readStringZ cs cc i j : isim cs cc i j -> rsim (psim cs cc) (inputBufferReadStringZ i) (inputBufferReadStringZ j).
Proof. intros. apply sim_stringZ. auto. Qed.

Variable env : renv.
Hypothesis Hfar : match e_far env with Some f => forall p, is_byte (f p) | None => True end.
Lemma sim_bitsFill cs cc n : forall f i j, isim cs cc i j -> psim cs cc (bitsFillLoop env f i n) (bitsFillLoop env f j n).
Proof.
  induction f as [|f IH]; intros i j H; cbn [bitsFillLoop]; rewrite <- (is_ibl H); destruct (ibl i <? n); try (split; auto; fail).
  destruct (sim_byte H) as [H1 H2]. destruct (inputByte i) as [i1 p], (inputByte j) as [j1 q]. cbn in H1, H2. subst q. destruct p as [ch|]; [|split; auto].
  rewrite <- (is_ibl H1), <- (is_ib H1). apply IH. apply isim_set_ib. auto.
Qed.
Lemma sim_inputBitsFill cs cc n i j : isim cs cc i j -> rsim (psim cs cc) (inputBitsFill env i n) (inputBitsFill env j n).
Proof. intros H. unfold inputBitsFill, assertb. destruct (_ <=? _); [|reflexivity]. apply sim_bitsFill. auto. Qed.
Lemma sim_peek cs cc n i j : isim cs cc i j -> inputBitsPeek env i n = inputBitsPeek env j n.
Proof. intros H. unfold inputBitsPeek. now rewrite (is_ibl H), (is_ib H). Qed.
Lemma sim_commit cs cc n i j : isim cs cc i j -> rsim (isim cs cc) (inputBitsCommit i n) (inputBitsCommit j n).
Proof. intros H. unfold inputBitsCommit, assertb. rewrite (is_ibl H), (is_ib H). destruct (_ <=? _); [|reflexivity]. apply isim_set_ib. auto. Qed.
Lemma sim_getBits cs cc n i j : isim cs cc i j -> rsim (psim cs cc) (getBits env i n) (getBits env j n).
Proof.
  intros H. unfold getBits. eapply rsim_bind; [apply sim_inputBitsFill; eauto|]. intros [i1 ok] [j1 ok'] [H1 H2]. cbn in H1, H2. subst ok'. destruct ok; [|split; auto].
  rewrite (sim_peek n H1). destruct (inputBitsPeek env j1 n); cbn; auto. eapply rsim_bind; [apply sim_commit; eauto|]. intros i2 j2 H2. split; auto.
Qed.
Lemma sim_readSymbolLoop cs cc h mx : forall f i j n, isim cs cc i j -> rsim (psim cs cc) (readSymbolLoop env f i h mx n) (readSymbolLoop env f j h mx n).
Proof.
  induction f as [|f IH]; intros i j n H; cbn [readSymbolLoop]; destruct (n <=? mx); try exact I; try (split; auto; fail).
  eapply rsim_bind; [apply sim_inputBitsFill; eauto|]. intros [i1 ok] [j1 ok'] [H1 H2]. cbn in H1, H2. subst ok'. destruct ok; [|split; auto].
  rewrite (sim_peek n H1). destruct (inputBitsPeek env j1 n); cbn [rbind]; auto; [|reflexivity]. destruct (dec_decode h n a) as [[sy mn] mx']. destruct sy.
  - eapply rsim_bind; [apply sim_commit; eauto|]. intros i2 j2 H2. split; auto.
  - destruct (Nat.eqb mx' 0); [split; auto|]. auto.
Qed.
Lemma sim_readSymbol cs cc h i j : isim cs cc i j -> rsim (psim cs cc) (readSymbol env i h) (readSymbol env j h).
Proof. intros. apply sim_readSymbolLoop. auto. Qed.

(** ** Output and errors *)
Definition dsim (cs cc : bool) (m : mode) (d e : dst) : Prop := isim cs cc (d_in d) (d_in e) /\ osim cs m (d_out d) (d_out e).
Lemma log_data_err l e : log_data (l ++ [OErr e]) = log_data l.
Proof. unfold log_data. rewrite flat_map_app. cbn. apply app_nil_r. Qed.
Lemma log_data_data l p : log_data (l ++ [OData p]) = log_data l ++ p.
Proof. unfold log_data. rewrite flat_map_app. cbn. now rewrite app_nil_r. Qed.
Lemma sim_close cs m o u e f : osim cs m o u -> esim e f -> osim cs m (closeWithError o e) (closeWithError u f).
Proof.
  intros [] HE. destruct o as [a b c d t s x y], u as [a' b' c' d' t' s' x' y']. cbn in *. destruct d, d'; try contradiction; constructor; cbn; rewrite ?log_data_err; auto.
Qed.
Lemma sim_propagate cs cc m d e b : dsim cs cc m d e -> dsim cs cc m (propagateError d b) (propagateError e b).
Proof.
  intros [H1 H2]. unfold propagateError. rewrite <- (is_err H1). destruct (i_err (d_in d)) as [x|] eqn:EX; [|split; auto]. split; cbn; auto. apply sim_close; auto. left; auto.
Qed.
Lemma sim_corrupt cc m d e c : dsim true cc m d e -> dsim true cc m (corruptf d c) (corruptf e c).
Proof.
  intros [H1 H2]. split; auto. cbn. apply sim_close; auto. right. rewrite (is_stream H1) by auto. do 4 eexists. split; [reflexivity|]. split; [reflexivity|]. apply (is_total H1).
Qed.

Lemma lenN_app' (a b : list N) : lenN (a ++ b) = (lenN a + lenN b)%N.
Proof. unfold lenN. rewrite app_length. lia. Qed.
Lemma add64_add a b c : add64 (add64 a b) c = add64 a (b + c).
Proof. unfold add64. rewrite N.add_mod_idemp_l by discriminate. f_equal. lia. Qed.
Lemma add64_lt a b : (add64 a b < two64)%N.
Proof. unfold add64. apply N.mod_lt. discriminate. Qed.
Lemma bytes_rev l : bytes_ok l -> bytes_ok (rev l).
Proof. unfold bytes_ok. rewrite !Forall_forall. intros H x Hx. apply H. apply in_rev. auto. Qed.
Lemma sim_append cs o u p : osim cs MB o u -> bytes_ok p -> osim cs MB (o_append o p) (o_append u p).
Proof.
  intros [H0 H1 H2 H3 H4 H5 H6 H7] Hp. destruct o as [a b c d t s x y], u as [a' b' c' d' t' s' x' y']. cbn in *. constructor; cbn; auto.
  - congruence.
  - congruence.
  - apply bytes_ok_app. split; auto. apply bytes_rev; auto.
  - rewrite !app_assoc. congruence.
  - intros K. rewrite !lenN_app', <- !add64_add. f_equal. auto.
  - intros K. destruct (H7 K) as [v [w [E [B R]]]]. exists v, w. rewrite !app_assoc. split; [congruence|]. split; [apply bytes_ok_app; auto|exact R].
Qed.
Lemma adler_reset_ok : adler_ok adler_reset. Proof. repeat split; vm_compute; reflexivity. Qed.
Lemma flush_l cs o u : osim cs MB o u -> osim cs MB (mustFlush o) u.
Proof.
  intros H. destruct o as [[|z db] h log err t s a c]; auto. destruct H as [H0 H1 H2 H3 H4 H5 H6 H7]. destruct u as [db' h' log' err' t' s' a' c']. cbn [o_dbuf o_hist o_log o_err o_stream o_adler o_crc mustFlush] in *. constructor; cbn [o_dbuf o_hist o_log o_err o_stream o_adler o_crc]; auto.
  - congruence.
  - rewrite log_data_data, app_nil_r. auto.
  - intros K. rewrite add64_add, N.add_0_r. auto.
  - intros K. split; [apply add64_lt|apply H6; auto].
  - intros K. destruct (H7 K) as [v [w [E [B [R1 [R2 R3]]]]]]. exists (v ++ z :: db), w. rewrite app_nil_r. split; auto. split; auto. apply bytes_ok_app in B. destruct B as [B1 B2].
    rewrite R1, R2, adler_update_app, crc_update_app; auto; try apply adler_reset_ok; try (vm_compute; reflexivity).
Qed.
Lemma flush_r cs o u : osim cs MB o u -> osim cs MB o (mustFlush u).
Proof.
  intros H. destruct u as [[|z db] h log err t s a c]; auto. destruct H as [H0 H1 H2 H3 H4 H5 H6 H7]. destruct o as [db' h' log' err' t' s' a' c']. cbn [o_dbuf o_hist o_log o_err o_stream o_adler o_crc mustFlush] in *. constructor; cbn [o_dbuf o_hist o_log o_err o_stream o_adler o_crc]; auto.
  - congruence.
  - rewrite log_data_data, app_nil_r. auto.
  - intros K. rewrite add64_add, N.add_0_r. auto.
  - intros K. split; [apply H6; auto|apply add64_lt].
  - intros K. destruct (H7 K) as [v [w [E [B [R1 [R2 [R3 R4]]]]]]]. exists v, (w ++ z :: db). rewrite app_nil_r. split; auto. split; auto. split; auto. split; auto.
    rewrite E in B. apply bytes_ok_app in B. destruct B as [B1 B2].
    rewrite R3, R4, adler_update_app, crc_update_app; auto; try apply adler_reset_ok; try (vm_compute; reflexivity).
Qed.
Lemma flush_empty o : o_dbuf (mustFlush o) = [].
Proof. destruct o as [[|z db] h log err t s a c]; reflexivity. Qed.
Lemma sim_flush cs o u : osim cs MB o u -> osim cs MF (mustFlush o) (mustFlush u).
Proof.
  intros H. apply flush_l, flush_r in H. destruct H. constructor; auto; [intros _; rewrite !flush_empty; auto|]. intros _. apply os_sums0. discriminate.
Qed.
Variable cap cap' win : N.
Hypothesis Hcap : (0 < cap)%N.
Hypothesis Hcap' : (0 < cap')%N.
Lemma try_l k cs o u : osim cs MB o u -> osim cs MB (tryFlush k o) u.
Proof. intros H. unfold tryFlush. destruct (_ <=? _)%N; auto. apply flush_l; auto. Qed.
Lemma try_r k cs o u : osim cs MB o u -> osim cs MB o (tryFlush k u).
Proof. intros H. unfold tryFlush. destruct (_ <=? _)%N; auto. apply flush_r; auto. Qed.
Lemma try_room k o : (0 < k)%N -> (lenN (o_dbuf (tryFlush k o)) < k)%N.
Proof. intros H. unfold tryFlush. destruct (N.leb_spec k (lenN (o_dbuf o))); auto. rewrite flush_empty. exact H. Qed.
(** Handing over what is buffered before more is decoded changes nothing. *)
Lemma o_append_app o p q : o_append (o_append o p) q = o_append o (p ++ q).
Proof. destruct o. cbn. rewrite rev_app_distr, <- !app_assoc. reflexivity. Qed.
Lemma flush_append_r cs o u p : osim cs MB o (o_append u p) -> osim cs MB o (o_append (mustFlush u) p).
Proof.
  intros H. destruct u as [[|z db] h log err t s a c]; auto. destruct H as [H0 H1 H2 H3 H4 H5 H6 H7]. destruct o as [db' h' log' err' t' s' a' c']. cbn [o_dbuf o_hist o_log o_err o_stream o_adler o_crc mustFlush o_append] in *. constructor; cbn [o_dbuf o_hist o_log o_err o_stream o_adler o_crc app]; auto.
  - congruence.
  - rewrite log_data_data, <- app_assoc. auto.
  - intros K. rewrite add64_add, <- lenN_app'. auto.
  - intros K. split; [apply H6; auto|apply add64_lt].
  - intros K. destruct (H7 K) as [v [w [E [B [R1 [R2 [R3 R4]]]]]]]. exists v, (w ++ z :: db). rewrite <- app_assoc. split; auto. split; auto. split; auto. split; auto.
    rewrite E in B. apply bytes_ok_app in B. destruct B as [B1 B2]. apply bytes_ok_app in B2. destruct B2 as [B2 B3].
    rewrite R3, R4, adler_update_app, crc_update_app; auto; try apply adler_reset_ok; try (vm_compute; reflexivity).
Qed.
Lemma try_append_r k cs o u p : osim cs MB o (o_append u p) -> osim cs MB o (o_append (tryFlush k u) p).
Proof. intros H. unfold tryFlush. destruct (_ <=? _)%N; auto. apply flush_append_r; auto. Qed.
Lemma o_append_nil o : o_append o [] = o.
Proof. destruct o. cbn. now rewrite app_nil_r. Qed.
Lemma write_l k cs : forall f p o u o', dbWriteLoop k f o p = Ok o' -> bytes_ok p -> osim cs MB o u -> osim cs MB o' (o_append u p).
Proof.
  induction f as [|f IH]; intros p o u o' E Hp H; destruct p as [|x p]; cbn [dbWriteLoop] in E; try discriminate; try (inversion E; subst; rewrite o_append_nil; auto; fail).
  apply (try_l k) in H. set (o1 := tryFlush k o) in *. clearbody o1. set (n := N.to_nat _) in *. clearbody n. set (l := x :: p) in *. clearbody l.
  rewrite <- (firstn_skipn n l), <- o_append_app. eapply IH; [exact E|apply bytes_skipn; auto|]. apply sim_append; auto. apply bytes_firstn; auto.
Qed.
Lemma write_r k cs : forall f p o u u', dbWriteLoop k f u p = Ok u' -> osim cs MB o (o_append u p) -> osim cs MB o u'.
Proof.
  induction f as [|f IH]; intros p o u u' E H; destruct p as [|x p]; cbn [dbWriteLoop] in E; try discriminate; try (inversion E; subst; rewrite o_append_nil in H; auto; fail).
  apply (try_append_r k) in H. set (u1 := tryFlush k u) in *. clearbody u1. set (n := N.to_nat _) in *. clearbody n. set (l := x :: p) in *. clearbody l.
  rewrite <- (firstn_skipn n l), <- o_append_app in H. eapply IH; eauto.
Qed.
Lemma write_nopanic k : forall f p o c, dbWriteLoop k f o p <> Panic c.
Proof. induction f as [|f IH]; intros p o c; destruct p; cbn [dbWriteLoop]; try discriminate. apply IH. Qed.
Lemma sim_write cs p o u : osim cs MB o u -> bytes_ok p -> rsim (osim cs MB) (decodeBufferWrite cap o p) (decodeBufferWrite cap' u p).
Proof.
  intros H Hp. unfold decodeBufferWrite. set (f := S (length p)). clearbody f. destruct (dbWriteLoop cap f o p) as [o'|c|] eqn:E1; [|exfalso; eapply write_nopanic; eauto|exact I].
  destruct (dbWriteLoop cap' f u p) as [u'|c|] eqn:E2; [|exfalso; eapply write_nopanic; eauto|exact I]. cbn [rsim]. eapply write_r; eauto. eapply write_l; eauto.
Qed.
Lemma sim_writeByte cs ch o u : osim cs MB o u -> is_byte ch -> osim cs MB (decodeBufferWriteByte cap o ch) (decodeBufferWriteByte cap' u ch).
Proof.
  intros H Hc. unfold decodeBufferWriteByte. pose proof (@try_room cap o Hcap) as R1. pose proof (@try_room cap' u Hcap') as R2. apply (try_l cap) in H. apply (try_r cap') in H.
  set (o1 := tryFlush cap o) in *. set (u1 := tryFlush cap' u) in *. clearbody o1 u1. apply N.ltb_lt in R1, R2. rewrite R1, R2. apply sim_append; auto. repeat constructor; auto.
Qed.
Lemma lk_byte h d c : bytes_ok h -> window_lk env win h d = Some c -> is_byte c.
Proof.
  intros Hh. unfold window_lk. destruct ((1 <=? d) && (d <=? win))%N; [|discriminate]. destruct (d <=? lenN h)%N.
  - intros E. apply nth_error_In in E. eapply Forall_forall in Hh; eauto.
  - destruct (e_far env) as [g|]; [|discriminate]. intros E. inversion E; subst. apply Hfar.
Qed.
Lemma slice_bytes h : bytes_ok h -> forall k d p, window_slice env win h d k = Some p -> bytes_ok p.
Proof.
  intros Hh. induction k as [|k IH]; intros d p; cbn [window_slice]; [intros [= <-]; constructor|]. destruct (window_lk env win h d) as [c|] eqn:E; [|discriminate].
  destruct (window_slice env win h (d - 1) k) eqn:E2; [|discriminate]. intros [= <-]. constructor; [eapply lk_byte; eauto|eapply IH; eauto].
Qed.
Lemma lookup_bytes h d len p : bytes_ok h -> window_lookupSlice env win h d len = Some p -> bytes_ok p.
Proof. intros Hh. unfold window_lookupSlice. destruct (window_lk env win h d); [|discriminate]. apply slice_bytes; auto. Qed.
Lemma sim_copyLoop cs dist : forall n o u, osim cs MB o u ->
  match copyLoop env cap win o dist n, copyLoop env cap' win u dist n with inl a, inl b | inr a, inr b => osim cs MB a b | _, _ => False end.
Proof.
  induction n as [|n IH]; intros o u H; cbn [copyLoop]; auto. rewrite <- (os_hist H). destruct (window_lk env win (o_hist o) dist) eqn:E; auto. apply IH. apply sim_writeByte; auto. eapply lk_byte; eauto. apply (os_bytes H).
Qed.

(** ** Blocks *)
Definition dpsim {A} (cs cc : bool) (ca : mode) (x y : dst * A) : Prop := dsim cs cc ca (fst x) (fst y) /\ snd x = snd y.
Notation ds := (dsim true).
Lemma sim_set_in cs cc ca d e i j : dsim cs cc ca d e -> isim cs cc i j -> dsim cs cc ca (DST i (d_out d)) (DST j (d_out e)).
Proof. intros [_ H] H1. split; auto. Qed.
Lemma sim_set_out cs cc ca d e o u : dsim cs cc ca d e -> osim cs ca o u -> dsim cs cc ca (DST (d_in d) o) (DST (d_in e) u).
Proof. intros [H _] H1. split; auto. Qed.
Ltac bits n := eapply rsim_bind; [eapply sim_getBits; match goal with H : dsim _ _ _ _ _ |- _ => apply (proj1 H) end|];
   let i1 := fresh "i1" in let j1 := fresh "j1" in let q := fresh "q" in let Q1 := fresh "Q1" in let Q2 := fresh "Q2" in
   intros [i1 n] [j1 q] [Q1 Q2]; cbn [fst snd] in Q1, Q2; subst q; match goal with H : dsim _ _ _ ?d ?e |- _ => let H' := fresh "H" in assert (H' := sim_set_in H Q1); clear H end.
Lemma sim_decodeLL cc ca d e s : ds cc ca d e -> rsim (dpsim true cc ca) (decodeLL env d s) (decodeLL env e s).
Proof.
  intros H. unfold decodeLL. destruct (s <? 256)%N; [split; auto|]. destruct (s =? 256)%N; [split; auto|].
  destruct (decodeLL_entry s) as [[len ab]|]; [|split; auto; apply sim_corrupt; auto]. destruct (Nat.eqb ab 0).
  - destruct (makeCopyToken len 1); cbn; auto. split; auto.
  - bits out. destruct out as [x|]; [|split; auto; apply sim_propagate; auto]. destruct (makeCopyToken _ 1); cbn; auto. split; auto.
Qed.
Lemma sim_decodeD cc ca d e s len : ds cc ca d e -> rsim (dpsim true cc ca) (decodeD env d s len) (decodeD env e s len).
Proof.
  intros H. unfold decodeD. destruct (decodeD_entry s) as [[dist ab]|]; [|split; auto; apply sim_corrupt; auto]. destruct (Nat.eqb ab 0).
  - destruct (makeCopyToken _ _); cbn; auto. split; auto.
  - bits out. destruct out as [x|]; [|split; auto; apply sim_propagate; auto]. destruct (makeCopyToken _ _); cbn; auto. split; auto.
Qed.
Ltac sym n := eapply rsim_bind; [eapply sim_readSymbol; match goal with H : dsim _ _ _ _ _ |- _ => apply (proj1 H) end|];
   let i1 := fresh "i1" in let j1 := fresh "j1" in let q := fresh "q" in let Q1 := fresh "Q1" in let Q2 := fresh "Q2" in
   intros [i1 n] [j1 q] [Q1 Q2]; cbn [fst snd] in Q1, Q2; subst q; match goal with H : dsim _ _ _ ?d ?e |- _ => let H' := fresh "H" in assert (H' := sim_set_in H Q1); clear H end.
Ltac step L n := eapply rsim_bind; [eapply L; eassumption|];
   let d1 := fresh "d1" in let e1 := fresh "e1" in let q := fresh "q" in let Q1 := fresh "Q1" in let Q2 := fresh "Q2" in
   intros [d1 n] [e1 q] [Q1 Q2]; cbn [fst snd] in Q1, Q2; subst q; match goal with H : dsim _ _ _ ?d ?e |- _ => clear H; assert (H := Q1); clear Q1 end.
Lemma sim_huffLoop cc hLL hD : forall f g d e, ds cc MB d e -> rsim (dpsim true cc MB) (huffLoop env cap win f hLL hD d) (huffLoop env cap' win g hLL hD e).
Proof.
  induction f as [|f IH]; intros g d e H; [exact I|]. destruct g as [|g]; [apply rsim_nofuel|]. cbn [huffLoop].
  sym sy. destruct sy as [s|]; [|split; auto; apply sim_corrupt; auto].
  eapply rsim_bind; [eapply sim_decodeLL; eassumption|]. intros [d1 t] [e1 t'] [K1 K2]. cbn [fst snd] in K1, K2. subst t'. destruct t as [t|]; [|split; auto].
  clear H0. destruct (tdist t =? 0)%N.
  - destruct (N.leb_spec 256 (lol t)) as [L|L]; [split; auto|]. apply IH. apply sim_set_out; auto. apply sim_writeByte; [apply K1|exact L].
  - sym sy. destruct sy as [s2|]; [|split; auto; apply sim_corrupt; auto].
    eapply rsim_bind; [eapply sim_decodeD; eassumption|]. intros [d2 t2] [e2 t'] [K3 K4]. cbn [fst snd] in K3, K4. subst t'. destruct t2 as [t2|]; [|split; auto].
    rewrite <- (os_hist (proj2 K3)). destruct (window_lookupSlice _ _ _ _ _) as [p|] eqn:EW; [|split; auto; apply sim_corrupt; auto].
    eapply rsim_bind; [eapply sim_write; [apply (proj2 K3)|eapply lookup_bytes; [apply (os_bytes (proj2 K3))|exact EW]]|]. intros o u HO. pose proof (@sim_copyLoop _ (tdist t2) (N.to_nat (lol t2) - length p) _ _ HO) as CL.
    destruct (copyLoop env cap win o _ _) as [o1|o1], (copyLoop env cap' win u _ _) as [u1|u1]; try contradiction.
    + apply IH. apply sim_set_out; auto.
    + split; auto. cbn [fst]. apply sim_corrupt. apply sim_set_out; auto.
Qed.
Lemma sim_readXSizes cs cc : forall order i j sX, isim cs cc i j -> rsim (psim cs cc) (readXSizes env order i sX) (readXSizes env order j sX).
Proof.
  induction order as [|s r IH]; intros i j sX H; cbn [readXSizes]; [split; auto|]. eapply rsim_bind; [apply sim_getBits; eauto|]. intros [i1 o] [j1 o'] [Q1 Q2]. cbn in Q1, Q2. subst o'. destruct o; [|split; auto]. auto.
Qed.
Lemma sim_decodeX cc ca d e sy done total : ds cc ca d e -> rsim (dpsim true cc ca) (decodeX env d sy done total) (decodeX env e sy done total).
Proof.
  intros H. unfold decodeX. destruct (sy <? 16)%N; [split; auto|].
  assert (RUN : forall bits base v, rsim (dpsim true cc ca)
    (let* (i, out) := getBits env (d_in d) bits in let d := DST i (d_out d) in match out with None => Ok (propagateError d true, None) | Some out => let count := base + N.to_nat out in if total - length done <? count then Ok (corruptf d CRepeatCount, None) else Ok (d, Some (done ++ repeat v count)) end)
    (let* (i, out) := getBits env (d_in e) bits in let d := DST i (d_out e) in match out with None => Ok (propagateError d true, None) | Some out => let count := base + N.to_nat out in if total - length done <? count then Ok (corruptf d CRepeatCount, None) else Ok (d, Some (done ++ repeat v count)) end)).
  { intros b base v. bits out. destruct out as [x|]; [|split; auto; apply sim_propagate; auto]. cbn zeta. destruct (_ <? _); split; auto. apply sim_corrupt; auto. }
  destruct (sy =? 16)%N; [destruct (rev done); [split; auto; apply sim_corrupt; auto|apply RUN]|].
  destruct (sy =? 17)%N; [apply RUN|]. destruct (sy =? 18)%N; [apply RUN|]. split; auto.
Qed.
Lemma sim_lengthsLoop cc ca h : forall f d e done total, ds cc ca d e -> rsim (dpsim true cc ca) (lengthsLoop env f h d done total) (lengthsLoop env f h e done total).
Proof.
  induction f as [|f IH]; intros d e done total H; cbn [lengthsLoop]; destruct (length done <? total); try exact I; try (split; auto; fail).
  sym sy. destruct sy as [s|]; [|split; auto; apply sim_corrupt; auto].
  eapply rsim_bind; [eapply sim_decodeX; eassumption|]. intros [d1 t] [e1 t'] [K1 K2]. cbn [fst snd] in K1, K2. subst t'. destruct t as [t|]; [|split; auto]. auto.
Qed.
Lemma sim_readDynamicTrees cc ca d e : ds cc ca d e -> rsim (dpsim true cc ca) (readDynamicTrees env d) (readDynamicTrees env e).
Proof.
  intros H. unfold readDynamicTrees. bits out. destruct out as [x|]; [|split; auto; apply sim_propagate; auto]. cbn zeta.
  set (numLL := 257 + _). set (numD := 1 + _). set (numX := 4 + _).
  set (d1 := if logicalNumDCodes <? numD then _ else _). set (e1 := if logicalNumDCodes <? numD then corruptf (if logicalNumLLCodes <? numLL then corruptf (DST j1 (d_out e)) CHlit else DST j1 (d_out e)) CHdist else _).
  assert (H1 : ds cc ca d1 e1). { unfold d1, e1. destruct (logicalNumDCodes <? numD), (logicalNumLLCodes <? numLL); auto using sim_corrupt. }
  clearbody d1 e1. eapply rsim_bind; [apply sim_readXSizes; apply (proj1 H1)|]. intros [i2 sx] [j2 q] [Q1' Q2]. cbn [fst snd] in Q1', Q2. subst q. pose proof (sim_set_in H1 Q1') as H2. destruct sx as [sX|]; [|split; auto; apply sim_propagate; auto].
  destruct (negb (e_acc env sX)); [split; auto; apply sim_corrupt; auto|].
  eapply rsim_bind; [eapply sim_lengthsLoop; eassumption|]. intros [d3 t] [e3 t'] [K1 K2]. cbn [fst snd] in K1, K2. subst t'. destruct t as [comb|]; [|split; auto].
  destruct (negb _); [split; auto; apply sim_corrupt; auto|]. destruct (negb _); [split; auto; apply sim_corrupt; auto|]. split; auto.
Qed.
Lemma sim_stored cc d e : ds cc MB d e -> rsim (dpsim true cc MB) (readFlateBlockStored cap d) (readFlateBlockStored cap' e).
Proof.
  intros H. unfold readFlateBlockStored, readU16le. pose proof (@sim_readU true cc unle16 2 _ _ (proj1 H)) as Q. destruct (readU unle16 2 (d_in d)) as [i1 a], (readU unle16 2 (d_in e)) as [j1 b]. destruct Q as [Q1 Q2]. cbn [fst snd] in Q1, Q2. subst b.
  pose proof (sim_set_in H Q1) as H1. destruct a as [l0|]; [|split; auto; apply sim_propagate; auto]. cbn [d_in d_out] in *.
  pose proof (@sim_readU true cc unle16 2 _ _ Q1) as Q. destruct (readU unle16 2 i1) as [i2 a], (readU unle16 2 j1) as [j2 b]. destruct Q as [Q2 Q3]. cbn [fst snd] in Q2, Q3. subst b.
  pose proof (sim_set_in H Q2) as H2. destruct a as [l1|]; [|split; auto; apply sim_propagate; auto]. destruct (negb _); [split; auto; apply sim_corrupt; auto|].
  pose proof (@sim_readN true cc _ _ (N.to_nat l0) Q2) as Q. pose proof (fun p => @readN_bytes true cc _ _ (N.to_nat l0) p Q2) as QB. cbn [d_in d_out]. destruct (inputBufferReadN i2 _) as [i3 a], (inputBufferReadN j2 _) as [j3 b]. destruct Q as [Q3 Q4]. cbn [fst snd] in Q3, Q4, QB. subst b.
  pose proof (sim_set_in H Q3) as H3. destruct a as [p|]; [|split; auto; apply sim_propagate; auto]. eapply rsim_bind; [eapply sim_write; [apply (proj2 H)|apply QB; reflexivity]|]. intros o u HO. split; auto. split; auto.
Qed.
End Sim.

(** ** Streams *)
Section Thread.
Variable T : N -> N -> Prop.
Hypothesis Tadd : forall a b p, T a b -> T (add64 a p) (add64 b p).
Variable strict : bool.
Variable env : renv.
Hypothesis Hfar : match e_far env with Some f => forall p, is_byte (f p) | None => True end.
(** The options of the two Readers agree in what matters. *)
Variable O O' : options.
Hypothesis Ofmt : o_format O = o_format O'.
Hypothesis Owb : o_wbits O = o_wbits O'.
Hypothesis Odict : o_dict O = o_dict O'.
Hypothesis Odok : bytes_ok (opt_dict O).
Record Rsim (cs cc : bool) (ca : mode) (r s : reader) : Prop := RSim {
  rs_opt0 : r_opt r = O /\ r_opt s = O'; rs_hdr : r_hdr r = r_hdr s; rs_fmt : r_fmt r = r_fmt s; rs_d : dsim T strict cs cc ca (r_d r) (r_d s) }.
Lemma rs_wb cs cc ca r s : Rsim cs cc ca r s -> o_wbits (r_opt r) = o_wbits (r_opt s).
Proof. intros H. destruct (rs_opt0 H) as [-> ->]. exact Owb. Qed.
Lemma rs_dict cs cc ca r s : Rsim cs cc ca r s -> opt_dict (r_opt r) = opt_dict (r_opt s).
Proof. intros H. destruct (rs_opt0 H) as [-> ->]. unfold opt_dict. now rewrite Odict. Qed.
Lemma rs_win cs cc ca r s : Rsim cs cc ca r s -> win_size (r_opt r) = win_size (r_opt s).
Proof. intros H. unfold win_size. now rewrite (rs_wb H). Qed.
Definition Rsim0 (r s : reader) : Prop := (r_opt r = O /\ r_opt s = O') /\ dsim T strict false false MH (r_d r) (r_d s).
Lemma isim_weak cs cc cs' cc' i j : isim T strict cs cc i j -> (cs' = true -> cs = true) -> (cc' = true -> cc = true) -> isim T strict cs' cc' i j.
Proof. intros [] H1 H2. constructor; auto. Qed.
Definition mle (m' m : mode) : Prop := (m' <> MB -> m <> MB) /\ (m' <> MH -> m <> MH).
Lemma mle_refl m : mle m m. Proof. split; auto. Qed.
Lemma mle_MH m : m <> MB -> mle MH m. Proof. split; congruence. Qed.
Lemma osim_weak cs m cs' m' i j : osim T cs m i j -> (cs' = true -> cs = true) -> mle m' m -> osim T cs' m' i j.
Proof. intros [] H1 [H2 H3]. constructor; auto. Qed.
Lemma Rsim_weak cs cc ca cs' cc' ca' r s : Rsim cs cc ca r s -> (cs' = true -> cs = true) -> (cc' = true -> cc = true) -> mle ca' ca -> Rsim cs' cc' ca' r s.
Proof. intros [H1 H2 H3 [H4 H5]] K1 K2 K3. constructor; auto. split; [eapply isim_weak; eauto|eapply osim_weak; eauto]. Qed.
Lemma Rsim_0 cs cc ca r s : ca <> MB -> Rsim cs cc ca r s -> Rsim0 r s.
Proof. intros HM [H1 H2 H3 [H4 H5]]. split; auto. split; [eapply isim_weak; eauto; discriminate|eapply osim_weak; eauto; [discriminate|apply mle_MH; auto]]. Qed.
Lemma Rsim_set_d cs cc ca cs' cc' ca' r s d e : Rsim cs cc ca r s -> dsim T strict cs' cc' ca' d e -> Rsim cs' cc' ca' (set_d r d) (set_d s e).
Proof. intros [H1 H2 H3 H4] H. destruct r, s. constructor; auto. Qed.
Lemma Rsim_set_in cs cc ca r s i j : Rsim cs cc ca r s -> isim T strict cs cc i j -> Rsim cs cc ca (set_rin r i) (set_rin s j).
Proof. intros H H1. eapply Rsim_set_d; eauto. split; auto. apply (proj2 (rs_d H)). Qed.
Lemma Rsim_set_out cs cc ca ca' r s o u : Rsim cs cc ca r s -> osim T cs ca' o u -> Rsim cs cc ca' (set_rout r o) (set_rout s u).
Proof. intros H H1. eapply Rsim_set_d; eauto. split; auto. apply (proj1 (rs_d H)). Qed.
Lemma Rsim_event cs cc ca r s p q : Rsim cs cc ca r s -> Rsim cs cc ca (r_sendEvent r p) (r_sendEvent s q).
Proof. intros []. destruct r, s. constructor; auto. Qed.
Lemma Rsim_corrupt cc ca r s c : Rsim true cc ca r s -> Rsim true cc ca (r_corrupt r c) (r_corrupt s c).
Proof. intros H. eapply Rsim_set_d; eauto. apply sim_corrupt. apply (rs_d H). Qed.
Lemma Rsim_propagate cs cc ca r s b : Rsim cs cc ca r s -> Rsim cs cc ca (r_propagate r b) (r_propagate s b).
Proof. intros H. eapply Rsim_set_d; eauto. apply sim_propagate. apply (rs_d H). Qed.
Lemma Rsim_hdr cs cc ca r s f : Rsim cs cc ca r s -> Rsim cs cc ca (set_rhdr r (f (r_hdr r))) (set_rhdr s (f (r_hdr s))).
Proof. intros []. destruct r, s. cbn in *. subst. constructor; auto. Qed.
Lemma Rsim_hdr_const cs cc ca r s h : Rsim cs cc ca r s -> Rsim cs cc ca (set_rhdr r h) (set_rhdr s h).
Proof. apply (@Rsim_hdr cs cc ca r s (fun _ => h)). Qed.
Lemma Rsim_fmt cs cc ca r s f : Rsim cs cc ca r s -> Rsim cs cc ca (set_fmt r f) (set_fmt s f).
Proof. intros []. destruct r, s. constructor; auto. Qed.
Definition bsim cs cc ca (x y : reader * bool) : Prop := snd x = snd y /\ Rsim cs cc ca (fst x) (fst y).

(** read [n] of something and store the new input *)
Ltac rdN E n := match goal with H : Rsim ?cs ?cc ?ca ?r ?s |- _ =>
  let Q := fresh "Q" in let Q1 := fresh "Q1" in let Q2 := fresh "Q2" in let q := fresh "q" in let i := fresh "i" in let j := fresh "j" in
  pose proof (E (proj1 (rs_d H))) as Q; change (d_in (r_d r)) with (r_in r) in Q; change (d_in (r_d s)) with (r_in s) in Q;
  match type of Q with psim _ _ _ _ ?x ?y => destruct x as [i n]; destruct y as [j q] | isim _ _ _ _ (fst ?x) (fst ?y) /\ _ => destruct x as [i n]; destruct y as [j q] end; destruct Q as [Q1 Q2];
  cbn [fst snd] in Q1, Q2; subst q; apply (Rsim_set_in H) in Q1; clear H; rename Q1 into H end.
Ltac fin := split; cbn [fst snd]; auto using Rsim_propagate, Rsim_corrupt, Rsim_fmt.

Lemma sim_headerZlib cc ca r s : Rsim true cc ca r s -> bsim true cc ca (readHeaderZlib env r) (readHeaderZlib env s).
Proof.
  intros H. unfold readHeaderZlib. rdN (@sim_readN T Tadd strict true cc (r_in r) (r_in s) 2) p. destruct p as [p|]; [|fin].
  destruct (negb _); [fin|]. destruct (negb _); [fin|].
  set (wb := (8 + N.shiftr (nthN p 0) 4)%N). set (r1 := set_rin r i) in *. set (s1 := set_rin s j) in *. clearbody r1 s1.
  apply (fun H => @Rsim_hdr true cc ca r1 s1 (fun h => set_levels h wb (h_clevel h)) H) in H. cbn beta in H. set (r2 := set_rhdr r1 _) in *. set (s2 := set_rhdr s1 _) in *. clearbody r2 s2.
  rewrite <- (rs_wb H). destruct (_ <? wb)%N; [fin|].
  apply (fun H => @Rsim_hdr true cc ca r2 s2 (fun h => set_levels h wb (zlib_level (nthN p 1))) H) in H. cbn beta in H. set (r3 := set_rhdr r2 _) in *. set (s3 := set_rhdr s2 _) in *. clearbody r3 s3.
  assert (EO : win_size (r_opt r3) = win_size (r_opt s3)) by apply (rs_win H). assert (EH : o_hist (r_out r3) = o_hist (r_out s3)) by apply (os_hist (proj2 (rs_d H))). rewrite <- EO, <- EH.
  set (isZ := e_iszero env _). clearbody isZ. destruct (negb (_ =? 0)%N).
  - unfold readU32be. rdN (@sim_readU T Tadd strict true cc unbe32 4 (r_in r3) (r_in s3)) x. destruct x as [x|]; [|fin]. destruct isZ; [fin|].
    assert (EO' : opt_dict (r_opt (set_rin r3 i0)) = opt_dict (r_opt (set_rin s3 j0))) by apply (rs_dict H). rewrite EO'. destruct (negb _); fin.
  - destruct (negb isZ); fin.
Qed.
Lemma sim_headerRaw cs cc ca r s : Rsim cs cc ca r s -> bsim cs cc ca (readHeaderRaw r) (readHeaderRaw s).
Proof.
  intros H. unfold readHeaderRaw. split; auto. cbn [fst]. rewrite (rs_hdr H). apply Rsim_hdr_const. apply Rsim_fmt. auto.
Qed.
Lemma sim_extra cc ca r s b : Rsim true cc ca r s -> rsim (bsim true cc ca) (readGZIPExtra r b) (readGZIPExtra s b).
Proof.
  intros H. unfold readGZIPExtra. destruct b; [|split; auto]. unfold readU16le. rdN (@sim_readU T Tadd strict true cc unle16 2 (r_in r) (r_in s)) n. destruct n as [n|]; [|fin].
  set (r1 := set_rin r i) in *. set (s1 := set_rin s j) in *. clearbody r1 s1. rdN (@sim_readN T Tadd strict true cc (r_in r1) (r_in s1) (N.to_nat n)) p. destruct p as [p|]; [|fin].
  destruct (extra_parse p); cbn; auto. split; auto. cbn [fst]. apply (@Rsim_hdr true cc ca _ _ (fun h => set_extra h a)). auto.
Qed.
Lemma sim_string cc ca upd r s b : Rsim true cc ca r s -> rsim (bsim true cc ca) (readGZIPString upd r b) (readGZIPString upd s b).
Proof.
  intros H. unfold readGZIPString. destruct b; [|split; auto]. eapply rsim_bind; [apply (sim_readStringZ Tadd (proj1 (rs_d H)))|]. intros [i x] [j y] [Q1 Q2]. cbn [fst snd] in Q1, Q2. subst y.
  apply (Rsim_set_in H) in Q1. destruct x as [x|]; [|fin]. split; auto. cbn [fst]. apply (@Rsim_hdr true cc ca _ _ (fun h => upd h x)). auto.
Qed.
Lemma sim_crc16 cc ca r s b c : Rsim true cc ca r s -> rsim (bsim true cc ca) (readGZIPCRC16 r b c) (readGZIPCRC16 s b c).
Proof.
  intros H. unfold readGZIPCRC16. destruct b; [|split; auto]. unfold readU16le. rdN (@sim_readU T Tadd strict true cc unle16 2 (r_in r) (r_in s)) n. destruct n as [n|]; [|fin]. destruct (negb _); fin.
Qed.
Lemma bsim_weak cs cc ca cs' cc' ca' x y : bsim cs cc ca x y -> (cs' = true -> cs = true) -> (cc' = true -> cc = true) -> mle ca' ca -> bsim cs' cc' ca' x y.
Proof. intros [H1 H2] K1 K2 K3. split; auto. eapply Rsim_weak; eauto. Qed.
Lemma rsim_weak {A B} (R R' : A -> B -> Prop) x y : (forall a b, R a b -> R' a b) -> rsim R x y -> rsim R' x y.
Proof. intros H. destruct x, y; cbn; auto. Qed.
Lemma opt_bind cs cc ca R' x y f g : rsim (bsim cs cc ca) x y ->
  (forall r s, Rsim cs cc ca r s -> rsim R' (f r) (g s)) -> (forall r s, Rsim cs cc ca r s -> R' (r, false) (s, false)) ->
  rsim R' (rbind x (fun r => match r with (s, true) => f s | (s', false) => Ok (s', false) end)) (rbind y (fun r => match r with (s, true) => g s | (s', false) => Ok (s', false) end)).
Proof. intros H HK HF. eapply rsim_bind; [exact H|]. intros [a b] [a' b'] [Q1 Q2]. cbn in Q1, Q2. subst b'. destruct b; [auto|]. cbn. auto. Qed.
Lemma sim_headerGZIP cc ca r s : Rsim true cc ca r s -> rsim (bsim true false ca) (readHeaderGZIP r) (readHeaderGZIP s).
Proof.
  intros H. apply rsim_weak with (R := bsim true true ca); [intros; eapply bsim_weak; eauto; apply mle_refl|]. unfold readHeaderGZIP.
  assert (H1 : Rsim true true ca (set_rin r (i_crcreset (r_in r))) (set_rin s (i_crcreset (r_in s)))).
  { eapply Rsim_set_d; [exact H|]. destruct (rs_d H) as [[] HO]. split; [|exact HO]. cbn [d_in]. unfold r_in. destruct (d_in (r_d r)), (d_in (r_d s)). constructor; auto. intros K. specialize (is_same0 K). cbn. congruence. }
  clear H. set (r1 := set_rin r _) in *. set (s1 := set_rin s _) in *. clearbody r1 s1. rename H1 into H. cbn zeta.
  rdN (@sim_readN T Tadd strict true true (r_in r1) (r_in s1) 10) p. destruct p as [p|]; [|fin].
  destruct (negb _); [fin|]. destruct (negb _); [fin|]. set (r2 := set_rin r1 i) in *. set (s2 := set_rin s1 j) in *. clearbody r2 s2.
  rewrite <- (rs_hdr H). set (h1 := set_os _ _). clearbody h1. apply (Rsim_hdr_const h1) in H. destruct (flag_bit _ 224); [fin|].
  set (r3 := set_rhdr r2 h1) in *. set (s3 := set_rhdr s2 h1) in *. clearbody r3 s3. rewrite <- (rs_hdr H). set (h2 := set_datatype _ _). clearbody h2. apply (Rsim_hdr_const h2) in H.
  eapply opt_bind; [apply sim_extra; eassumption| |fin]. clear H. intros r4 s4 H. eapply opt_bind; [apply sim_string; eassumption| |fin]. clear H. intros r5 s5 H.
  eapply opt_bind; [apply sim_string; eassumption| |fin]. clear H. intros r6 s6 H. assert (EC : i_crc (r_in r6) = i_crc (r_in s6)) by (apply (is_crc (proj1 (rs_d H))); auto). rewrite <- EC.
  eapply opt_bind; [apply sim_crc16; eassumption| |fin]. clear H EC. intros r7 s7 H. fin.
Qed.

Lemma sim_headerAuto cc r s : strict = true -> Rsim true cc MH r s -> rsim (bsim true false MH) (readHeaderAuto env r) (readHeaderAuto env s).
Proof.
  intros K H. unfold readHeaderAuto. assert (EI : r_in r = r_in s) by (apply (is_same (proj1 (rs_d H))); auto). rewrite <- EI. clear EI.
  assert (W : forall x y, bsim true cc MH x y -> bsim true false MH x y) by (intros; eapply bsim_weak; eauto; [discriminate|apply mle_refl]).
  destruct (_ <? 2); [apply W; apply sim_headerRaw; auto|]. destruct (_ && _)%bool; [eapply sim_headerGZIP; eauto|]. destruct (_ && _)%bool; [apply W; apply sim_headerZlib; auto|]. apply W. apply sim_headerRaw. auto.
Qed.
Definition hsim (x y : reader * bool) : Prop := snd x = snd y /\ if snd x then Rsim true false MH (fst x) (fst y) else Rsim0 (fst x) (fst y).
Lemma sim_readHeader r s : (o_format O = DefaultFormat -> strict = true) -> Rsim0 r s -> rsim hsim (readHeader env r) (readHeader env s).
Proof.
  intros NF [[HO HO'] HD]. unfold readHeader.
  set (r1 := set_d r _). set (s1 := set_d s _).
  assert (H1 : dsim T strict true false MH (r_d r1) (r_d s1) /\ r_opt r1 = O /\ r_opt s1 = O').
  { unfold r1, s1, r_in, r_out. destruct r as [a [i u] c d e f], s as [a' [i' u'] c' d' e' f']. destruct HD as [HI HU]. cbn in *. split; [|split; auto]. split; cbn.
    - destruct HI, i, i'. constructor; auto. intros K. specialize (is_same0 K). cbn. congruence.
    - destruct HU as [U0 U1 U2 U3 U4 U5 U6 U7], u, u'. cbn in U0. destruct U0 as [-> ->]; [discriminate|]. constructor; auto; try congruence. intros _. split; reflexivity. }
  clearbody r1 s1. destruct H1 as [H1 [EO EO']]. clear HO HO' HD. destruct (sim_fill (proj1 H1)) as [F1 F2]. change (d_in (r_d r1)) with (r_in r1) in *. change (d_in (r_d s1)) with (r_in s1) in *.
  set (r2 := set_rin r1 (fillIfEmpty (r_in r1))). set (s2 := set_rin s1 (fillIfEmpty (r_in s1))).
  assert (H2 : dsim T strict true false MH (r_d r2) (r_d s2) /\ r_opt r2 = O /\ r_opt s2 = O' /\ r_in r2 = fillIfEmpty (r_in r1) /\ r_in s2 = fillIfEmpty (r_in s1)).
  { split; [|destruct r1, s1; auto]. destruct H1 as [_ H1]. split; [destruct r1, s1; exact F1|destruct r1, s1; exact H1]. }
  clearbody r2 s2. destruct H2 as [H2 [EO2 [EO3 [I1 I2]]]]. rewrite I1, I2. clear H1.
  assert (FAIL : Rsim0 (r_propagate r2 false) (r_propagate s2 false)).
  { split; [destruct r2, s2; auto|]. pose proof (sim_propagate false H2) as P. unfold r_propagate. destruct r2, s2. cbn in *. destruct P as [P1 P2]. split; [eapply isim_weak; eauto; discriminate|eapply osim_weak; [exact P2|discriminate|apply mle_refl]]. }
  destruct (i_buf (fillIfEmpty (r_in r1))) as [|x l] eqn:E1, (i_buf (fillIfEmpty (r_in s1))) as [|y l'] eqn:E2.
  - split; auto.
  - exfalso. destruct F2 as [F2 _]. specialize (F2 eq_refl). discriminate.
  - exfalso. destruct F2 as [_ F2]. specialize (F2 eq_refl). discriminate.
  - set (r3 := set_rhdr _ header0). set (s3 := set_rhdr (r_sendEvent (set_fmt (set_rout (incr_num s2) _) _) _) header0).
    assert (H3 : Rsim true false MH r3 s3).
    { unfold r3, s3. destruct r2 as [a [i u] c d e f], s2 as [a' [i' u'] c' d' e' f']. unfold r_out. cbn in *. constructor; auto. cbn. destruct H2 as [HI HU]. cbn in *. split; auto. cbn. subst a a'. assert (ED : opt_dict O = opt_dict O') by (unfold opt_dict; now rewrite Odict). rewrite <- ED. destruct u, u', HU. constructor; cbn in *; auto. apply bytes_rev; auto. }
    clearbody r3 s3. destruct (rs_opt0 H3) as [-> ->].
    eapply opt_bind with (cs := true) (cc := false) (ca := MH).
    + rewrite <- Ofmt. destruct (o_format O); [eapply sim_headerAuto; eauto|apply sim_headerRaw; auto|apply sim_headerZlib; auto|eapply sim_headerGZIP; eauto].
    + intros r4 s4 H4. split; auto. cbn [fst snd]. apply Rsim_event. auto.
    + intros r4 s4 H4. split; auto. cbn [fst snd]. eapply Rsim_0; eauto; discriminate.
Qed.

Lemma dcap_pos o : (0 < dec_cap o)%N.
Proof. unfold dec_cap. apply N.neq_0_lt_0. apply N.pow_nonzero. discriminate. Qed.
Lemma sim_body cc r s bt fin : Rsim true cc MB r s -> rsim (bsim true cc MB) (readBlockBody env r bt fin) (readBlockBody env s bt fin).
Proof.
  intros H. unfold readBlockBody. rewrite <- (rs_win H).
  assert (OND : forall r0 s0 x y, Rsim true cc MB r0 s0 -> rsim (dpsim T strict true cc MB) x y -> rsim (bsim true cc MB) (on_d r0 x) (on_d s0 y)).
  { intros r0 s0 x y H0 HX. unfold on_d. eapply rsim_bind; [exact HX|]. intros [d b] [d' b'] [Q1 Q2]. split; auto. cbn [fst]. eapply Rsim_set_d; eauto. }
  destruct bt.
  - split; auto. apply Rsim_corrupt. auto.
  - apply OND; auto. apply sim_stored; auto using dcap_pos. apply (rs_d H).
  - apply OND; [apply Rsim_event; auto|]. apply sim_huffLoop; auto using dcap_pos. apply (rs_d (@Rsim_event true cc MB r s _ _ H)).
  - eapply rsim_bind; [apply (sim_readDynamicTrees Tadd env (rs_d H))|]. intros [d t] [d' t'] [Q1 Q2]. cbn [fst snd] in Q1, Q2. subst t'. apply (Rsim_set_d H) in Q1. destruct t as [t|]; [|split; auto].
    apply OND; [apply Rsim_event; auto|]. apply sim_huffLoop; auto using dcap_pos. apply (rs_d (@Rsim_event true cc MB _ _ _ _ Q1)).
Qed.
Lemma sim_block cc r s : Rsim true cc MB r s -> rsim (bsim true cc MB) (readFlateBlock env r) (readFlateBlock env s).
Proof.
  intros H. unfold readFlateBlock. eapply rsim_bind; [apply (sim_getBits Tadd env 3 (proj1 (rs_d H)))|]. intros [i o] [j o'] [Q1 Q2]. cbn [fst snd] in Q1, Q2. subst o'. apply (Rsim_set_in H) in Q1.
  destruct o as [out|]; [|fin]. eapply rsim_bind; [apply sim_body; apply Rsim_event; eauto|]. intros [r1 b] [s1 b'] [Q2 Q3]. cbn [fst snd] in Q2, Q3. subst b'. split; cbn [fst snd]; auto. destruct b; auto. apply Rsim_event. auto.
Qed.
Lemma sim_blocks cc : forall f g r s, Rsim true cc MB r s -> rsim (Rsim true cc MB) (blocksLoop env f r) (blocksLoop env g s).
Proof.
  induction f as [|f IH]; intros g r s H; [exact I|]. destruct g as [|g]; [apply rsim_nofuel|]. cbn [blocksLoop].
  eapply rsim_bind; [apply sim_block; eauto|]. intros [r1 b] [s1 b'] [Q2 Q3]. cbn [fst snd] in Q2, Q3. subst b'. destruct b; auto.
Qed.
Lemma flushed_sums cs o u : osim T cs MF o u -> o_adler o = o_adler u /\ o_crc o = o_crc u.
Proof.
  intros []. destruct os_flushed0 as [E1 E2]; [discriminate|]. destruct os_sums0 as [p [q [E [_ [-> [-> [-> ->]]]]]]]; [discriminate|]. rewrite E1, E2, !app_nil_r in E. subst. auto.
Qed.
Lemma flushed_stream o u : osim T true MF o u -> o_stream o = o_stream u.
Proof.
  intros []. destruct os_flushed0 as [E1 E2]; [discriminate|]. destruct (os_bound0 eq_refl) as [B1 B2]. specialize (os_stream0 eq_refl). rewrite E1, E2 in os_stream0. unfold add64 in os_stream0. change (lenN []) with 0%N in os_stream0. rewrite !N.add_0_r, !N.mod_small in os_stream0 by auto. auto.
Qed.
Lemma sim_footer cc r s : Rsim true cc MF r s -> rsim (bsim true cc MF) (readFooter r) (readFooter s).
Proof.
  intros H. unfold readFooter. assert (H1 : Rsim true cc MF (set_rin r (inputBitsDiscard (r_in r))) (set_rin s (inputBitsDiscard (r_in s)))).
  { apply Rsim_set_in; auto. apply isim_set_ib. apply (rs_d H). }
  clear H. set (r1 := set_rin r _) in *. set (s1 := set_rin s _) in *. clearbody r1 s1. rename H1 into H.
  assert (SU : o_adler (r_out r1) = o_adler (r_out s1) /\ o_crc (r_out r1) = o_crc (r_out s1)) by apply (flushed_sums (proj2 (rs_d H))). destruct SU as [<- <-].
  set (a32 := o_adler _). set (c32 := o_crc _). clearbody a32 c32. apply (@Rsim_event _ _ _ _ _ (ev_footer a32 c32) (ev_footer a32 c32)) in H. set (r2 := r_sendEvent r1 _) in *. set (s2 := r_sendEvent s1 _) in *. clearbody r2 s2.
  rewrite <- (rs_fmt H). eapply opt_bind with (cs := true) (cc := cc) (ca := MF).
  - destruct (r_fmt r2).
    + reflexivity.
    + split; auto.
    + unfold readFooterZlib, readU32be. rdN (@sim_readU T Tadd strict true cc unbe32 4 (r_in r2) (r_in s2)) x. destruct x as [x|]; [|fin]. destruct (negb _); fin.
    + unfold readFooterGZIP, readU32le. rdN (@sim_readU T Tadd strict true cc unle32 4 (r_in r2) (r_in s2)) x. destruct x as [x|]; [|fin].
      set (r3 := set_rin r2 i) in *. set (s3 := set_rin s2 j) in *. clearbody r3 s3. rdN (@sim_readU T Tadd strict true cc unle32 4 (r_in r3) (r_in s3)) n. destruct n as [n|]; [|fin]. destruct (negb _); [fin|].
      assert (ES : o_stream (r_out (set_rin r3 i0)) = o_stream (r_out (set_rin s3 j0))) by apply (flushed_stream (proj2 (rs_d H))). rewrite ES. destruct (negb _); fin.
  - intros r3 s3 H3. split; auto. apply Rsim_event. auto.
  - intros r3 s3 H3. split; auto.
Qed.
Lemma sim_streams : (o_format O = DefaultFormat -> strict = true) -> forall f g r s, Rsim0 r s -> rsim Rsim0 (streamsLoop env f r) (streamsLoop env g s).
Proof.
  intros NF. induction f as [|f IH]; intros g r s H; destruct g as [|g]; cbn [streamsLoop]; assert (EE : i_err (r_in r) = i_err (r_in s)) by apply (is_err (proj1 (proj2 H))); rewrite EE; destruct (i_err (r_in s)); auto; try exact I; try apply rsim_nofuel.
  eapply rsim_bind; [apply sim_readHeader; eauto|]. intros [r1 b] [s1 b'] [Q1 Q2]. cbn [fst snd] in Q1, Q2. subst b'. destruct b; [|auto].
  assert (H1 : Rsim true false MB (set_rout r1 (o_sumreset (r_out r1))) (set_rout s1 (o_sumreset (r_out s1)))).
  { eapply Rsim_set_out; eauto. destruct (proj2 (rs_d Q2)) as [U0 U1 U2 U3 U4 U5 U6 U7]. unfold r_out. destruct (d_out (r_d r1)), (d_out (r_d s1)). cbn in U0. destruct U0 as [-> ->]; [discriminate|]. constructor; auto. intros _. exists [], []. repeat split; constructor. }
  eapply rsim_bind; [apply sim_blocks; eauto|]. intros r2 s2 H2.
  assert (H3 : Rsim true false MF (set_rout r2 (mustFlush (r_out r2))) (set_rout s2 (mustFlush (r_out s2)))) by (eapply Rsim_set_out; eauto; exact (sim_flush Tadd (proj2 (rs_d H2)))).
  eapply rsim_bind; [apply sim_footer; eauto|]. intros [r3 b] [s3 b'] [Q3 Q4]. cbn [fst snd] in Q3, Q4. subst b'. apply Rsim_0 in Q4; [|discriminate]. destruct b; auto.
Qed.
Lemma sim_thread r s : (o_format O = DefaultFormat -> strict = true) -> Rsim0 r s -> rsim (fun r' s' => osim T false MH (r_out r') (r_out s')) (readThread env r) (readThread env s).
Proof.
  intros NF [HO HD]. unfold readThread. eapply rsim_bind; [apply sim_streams; auto; split; [destruct r, s; auto|destruct r, s; auto]|]. intros r1 s1 [HO1 [HI HU]]. cbn [rsim].
  assert (EE : i_err (r_in r1) = i_err (r_in s1)) by apply (is_err HI).
  assert (PR : forall x i, i_err i = Some x -> forall r, r_out (r_propagate (set_rin r i) false) = closeWithError (r_out r) x).
  { intros x i Ex r0. destruct r0 as [a [i0 u] c d e f]. unfold r_propagate, propagateError, set_rin, r_out. cbn. rewrite Ex. destruct x; reflexivity. }
  assert (PS : forall x r, i_err (r_in r) = Some x -> r_out (r_propagate r false) = closeWithError (r_out r) x).
  { intros x r0 Ex. destruct r0 as [a [i0 u] c d e f]. unfold r_propagate, propagateError, set_rin, r_out, r_in in *. cbn in *. rewrite Ex. destruct x; reflexivity. }
  rewrite <- EE. destruct (i_err (r_in r1)) as [x|] eqn:E.
  - rewrite !PS with (x := x); auto. apply sim_close; auto. left; auto.
  - rewrite !PR with (x := EOF); [|destruct (r_in s1); reflexivity|destruct (r_in r1); reflexivity]. apply sim_close; auto. left; auto.
Qed.
End Thread.

Lemma sim_result T o u r s : o = r_out r -> u = r_out s -> osim T false MH o u -> log_data (o_log o) = log_data (o_log u) /\ match snd (r_result r), snd (r_result s) with Some e, Some f => esim T e f | None, None => True | _, _ => False end.
Proof.
  intros -> -> [H0 H1 H2 H3 H4 H5 H6 H7]. destruct H0 as [E1 E2]; [discriminate|]. rewrite E1, E2, !app_nil_r in H3. split; auto.
Qed.
